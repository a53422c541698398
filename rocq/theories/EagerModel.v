(** Model of the comparison of two trees node by node: src/hstd/ext/astdiff/astdiff_eager.{hpp,cpp}. Line numbers are
    those of astdiff_eager.cpp.

    A NodeStore is the tree it gives access to, the id of a node is the path to it from the root (ids are assumed to be
    unique in a store). Within the children of a node an id is the place of the child. [kind] is getNodeKind, [equal] is
    the callback areValuesEqual. Tracing is left out. *)
From Coq Require Import List Bool Arith ZArith Lia.
Import ListNotations.

Section Eager.
Context {A : Type}.
Variable kind : A -> Z.
Variable equal : A -> A -> bool.

Inductive tree := T (v : A) (sub : list tree).
Definition val (t : tree) : A := let 'T v _ := t in v.
Definition sub (t : tree) : list tree := let 'T _ l := t in l.
Definition path := list nat.

(** DiaEdit, astdiff_eager.hpp:15-70 *)
Inductive edit :=
| Insert (dst : path) (di : nat)
| Delete (src : path) (si : nat)
| Move (src dst : path) (si di : nat)
| Update (src dst : path) (si di : nat).

Definition mem (i : nat) (l : list nat) : bool := existsb (Nat.eqb i) l.
Definition same_kind (s d : tree) : bool := Z.eqb (kind (val s)) (kind (val d)).
Definition indexed (l : list tree) : list (nat * tree) := combine (seq 0 (length l)) l.
(** countUnprocessedMatching, 49-58 *)
Definition count_unprocessed (needle : tree) (haystack : list tree) (processed : list nat) : nat :=
  length (filter (fun p => negb (mem (fst p) processed) && equal (val (snd p)) (val needle)) (indexed haystack)).
(** findMatchingByKind, 60-72 *)
Definition find_by_kind (d : tree) (ss : list tree) (processed : list nat) : option nat :=
  option_map fst (find (fun p => negb (mem (fst p) processed) && same_kind (snd p) d) (indexed ss)).
(** shouldPreferInsert, 74-82 *)
Definition prefer_insert (d : tree) (ds : list tree) (processed : list nat) (count : nat) : bool :=
  count <? count_unprocessed d ds processed.
(** MatchCandidate, 26-31: the place and isExactMatch; isMove is only traced *)
Definition candidate := (nat * bool)%type.
(** The loop of findBestMatch, 98-133, with its three variables: exactMatch, diaIdMatch, moveCandidate *)
Definition look (d : tree) (di : nat) (processed : list nat) (st : option candidate * option candidate * option candidate)
  (p : nat * tree) : option candidate * option candidate * option candidate :=
  let '(exact, dia, mv) := st in
  let '(si, s) := p in
  if mem si processed || negb (same_kind s d) then st
  else if equal (val s) (val d) then
    if negb (si =? di) then
      match mv with Some (_, true) => st | _ => (exact, dia, Some (si, true)) end
    else (Some (si, true), dia, mv)
  else match exact, dia with None, None => (exact, Some (si, false), mv) | _, _ => st end.
(** findBestMatch, 84-159 *)
Definition best_match (d : tree) (di : nat) (ss : list tree) (processed : list nat) : option candidate :=
  let '(exact, dia, mv) := fold_left (look d di processed) (indexed ss) (None, None, None) in
  match mv with
  | Some (si, true) => Some (si, true)
  | _ =>
      match exact, dia with
      | Some c, _ => Some c
      | None, Some c => Some c
      | None, None => match find_by_kind d ss processed with Some si => Some (si, false) | None => None end
      end
  end.
(** The edit for two matched nodes, processMatchedSubnodes, 161-211 *)
Definition matched_edit (s d : tree) (sp dp : path) (si di : nat) : list edit :=
  if equal (val s) (val d) then if si =? di then [] else [Move (sp ++ [si]) (dp ++ [di]) si di]
  else [Update (sp ++ [si]) (dp ++ [di]) si di].
(** The loop of diffSubnodes over the children [l] of the second node, 280-317, with recurseMatchCandidate, 213-254.
    [ps] and [pd] are the processed places, [rec] compares two matched children. The deletions follow, 319-329. *)
Definition children_loop (rec : tree -> tree -> path -> path -> list edit) (ss ds : list tree) (sp dp : path) :
  nat -> list tree -> list nat -> list nat -> list edit :=
  fix go (i : nat) (l : list tree) (ps pd : list nat) : list edit :=
    match l with
    | [] => map (fun j => Delete (sp ++ [j]) j) (filter (fun j => negb (mem j ps)) (seq 0 (length ss)))
    | x :: r =>
        if mem i pd then go (S i) r ps pd
        else
          let insert := Insert (dp ++ [i]) i :: go (S i) r ps (i :: pd) in
          match best_match x i ss ps with
          | None => insert
          | Some (j, _) =>
              if prefer_insert x ds pd (count_unprocessed x ss ps) then insert
              else
                match nth_error ss j with
                | None => insert
                | Some y =>
                    rec y x (sp ++ [j]) (dp ++ [i]) ++ matched_edit y x sp dp j i ++ go (S i) r (j :: ps) (i :: pd)
                end
          end
    end.
(** diffSubnodes, 256-330 *)
Fixpoint diff_subnodes (s d : tree) (sp dp : path) {struct d} : list edit :=
  match s, d with
  | T sv ss, T dv ds =>
      if (length ss =? 0) && (length ds =? 0) then []
      else if negb (Z.eqb (kind sv) (kind dv)) then []
      else children_loop diff_subnodes ss ds sp dp 0 ds [] []
  end.
(** run and getEdits, 332-367; the place of a root is 0. *)
Definition get_edits (s d : tree) : list edit :=
  diff_subnodes s d [] [] ++ if equal (val s) (val d) then [] else [Update [] [] 0 0].
End Eager.
Arguments tree : clear implicits.
