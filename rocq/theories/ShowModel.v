(** Printing a comparison side by side: FormattedDiff, src/hstd/stdlib/diffs.hpp
    lines 457-572 and diffs.cpp lines 396-644.

    Simplified: text is a list of runes without colours; the user's formatLine
    is a function of the side, kind and index of a line ([lineIndex] is never
    set); sizes are integers without wrap-around; an assert that fails, and
    std::ranges::max of an empty range, are [UB]. *)
From Coq Require Import ZArith List Bool Lia.
From Verif Require Import Base DiffModel.
Import ListNotations.
Local Open Scope Z_scope.

Definition kind_eqb (a b : kind) : bool :=
  match a, b with
  | KNone, KNone | Keep, Keep | Insert, Insert | Replace, Replace | Delete, Delete | Transpose, Transpose => true
  | _, _ => false
  end.

(** diffs.hpp:491-505 Conf *)
Record conf := mkC {
  min_l : option Z; min_r : option Z; max_l : option Z; max_r : option Z;
  drop_lead : bool; drop_trail : bool; group_line : bool; side_by_side : bool; max_unchanged : Z }.

(** diffs.hpp:252-266 zipToMax; the filler has the first kind and 0. *)
Definition filler : item := (KNone, 0).
Fixpoint zip_max (l r : list item) : list (item * item) :=
  match l, r with
  | [], _ => map (fun y => (filler, y)) r
  | _, [] => map (fun x => (x, filler)) l
  | x :: l', y :: r' => (x, y) :: zip_max l' r'
  end.

Definition both_kept (x : item * item) : bool := kind_eqb (fst (fst x)) Keep && kind_eqb (fst (snd x)) Keep.

(** diffs.cpp:402-432: runs of unchanged lines are cut. *)
Fixpoint cut (mx : Z) (unchanged : Z) (l : list (item * item)) : list (item * item) :=
  match l with
  | [] => []
  | x :: l' =>
      if both_kept x then
        if unchanged <? mx then x :: cut mx (unchanged + 1) l' else cut mx unchanged l'
      else x :: cut mx 0 l'
  end.

(** What is printed: side (true is the left one), kind, index. *)
Notation diff_line := (bool * item)%type (only parsing).
Inductive content := Stacked (l : list diff_line) | Unified (l r : list item).

(** BufItem::changed, lines 417-430 *)
Definition changed_l (c : conf) (x : item) : bool := negb (side_by_side c) && negb (kind_eqb (fst x) KNone).
Definition changed_r (c : conf) (x : item) : bool := negb (side_by_side c) && kind_eqb (fst x) Insert.

(** diffs.cpp:451-471 addBuffers *)
Definition add_buffers (c : conf) (lb rb : list item) : list diff_line :=
  map (fun x => (true, x)) (filter (changed_l c) lb) ++ map (fun x => (false, x)) (filter (changed_r c) rb).
(** diffs.cpp:473-498: the buffers are never empty; their last items decide. *)
Fixpoint group_loop (c : conf) (l : list (item * item)) (lb rb : list item) (ll lr : item) (out : list diff_line) : list diff_line :=
  match l with
  | [] => out ++ add_buffers c lb rb
  | (x, y) :: l' =>
      if negb (kind_eqb (fst x) (fst ll)) || negb (kind_eqb (fst y) (fst lr))
      then group_loop c l' [x] [y] x y (out ++ add_buffers c lb rb)
      else group_loop c l' (lb ++ [x]) (rb ++ [y]) x y out
  end.

(** diffs.cpp:437-540, the second constructor.  The loop over grouped lines
    stops before the last one, and runs past the end if there is only one. *)
Definition make (c : conf) (l : list (item * item)) : outcome content :=
  if group_line c then
    if side_by_side c then UB
    else match l with
         | [] | [_] => UB
         | (x, y) :: l' => Ok (Stacked (group_loop c (removelast l') [x] [y] x y []))
         end
  else if side_by_side c then Ok (Unified (map fst l) (map snd l))
  else Ok (Unified (map fst l) (filter (changed_r c) (map snd l))).

Definition formatted (c : conf) (o n : list item) : outcome content := make c (cut (max_unchanged c) 0 (zip_max o n)).

(** ** format(), diffs.cpp:542-644 *)
Definition left_aligned (t : list Z) (n : Z) : list Z := t ++ repeat 32 (Z.to_nat n - length t).
(** Lines 551-559: at(slice(0, min(size, max))), a slice that includes its end
    (Slice.hpp:202-236, Vec.hpp:350-353). *)
Definition limited (o : option Z) (t : list Z) : outcome (list Z) :=
  match o with
  | None => Ok t
  | Some mx =>
      let e := Z.min (Z.of_nat (length t)) mx in
      if (0 <? Z.of_nat (length t)) && (0 <=? e) && (e <? Z.of_nat (length t)) then Ok (firstn (Z.to_nat (e + 1)) t) else Throw
  end.
(** diffs.hpp:62-71 toPrefix *)
Definition prefix_of (k : kind) : list Z :=
  match k with
  | KNone => [63] | Keep => [126] | Insert => [43] | Replace => [45; 43] | Delete => [45] | Transpose => [94; 118]
  end.
Fixpoint widest (l : list (list Z)) : Z := match l with [] => 0 | t :: l' => Z.max (Z.of_nat (length t)) (widest l') end.
Definition or0 (o : option Z) : Z := match o with Some z => z | None => 0 end.

Section Format.
  Variable fl : bool -> kind -> Z -> list Z.
  Definition text_of (side : bool) (x : item) : list Z := fl side (fst x) (snd x).

  Fixpoint texts (c : conf) (l : list (item * item)) : outcome (list (list Z * list Z)) :=
    match l with
    | [] => Ok []
    | (x, y) :: l' =>
        obind (limited (max_l c) (text_of true x)) (fun a =>
        obind (limited (max_r c) (text_of false y)) (fun b => omap (cons (a, b)) (texts c l')))
    end.

  (** Lines 591-602 *)
  Fixpoint lead (l : list (item * item)) (i first : Z) : Z :=
    match l with
    | [] => first
    | x :: l' => if both_kept x then lead l' (i + 1) i else Z.max 0 (i - 1)
    end.
  (** Lines 604-613: [l] are the lines from [i] down. *)
  Fixpoint trail (l : list (item * item)) (i first high last : Z) : Z :=
    match l with
    | [] => last
    | x :: l' =>
        if first <? i then if both_kept x then trail l' (i - 1) first high i else Z.min high (i + 1)
        else last
    end.
  Definition range (c : conf) (l : list (item * item)) : Z * Z :=
    let high := Z.of_nat (length l) - 1 in
    let first := if drop_lead c then lead l 0 0 else 0 in
    (first, if drop_trail c then trail (rev l) high first high high else high).

  (** Lines 629, 635: the text is taken from the list of formatted lines at
      the index the element has in its own sequence. *)
  Definition cell (sel : list Z * list Z -> list Z) (ts : list (list Z * list Z)) (x : item) : outcome (list Z) :=
    if kind_eqb (fst x) KNone then Ok []
    else if (0 <=? snd x) && (snd x <? Z.of_nat (length ts))
         then match nth_error ts (Z.to_nat (snd x)) with Some t => Ok (sel t) | None => Throw end
         else Throw.
  Definition row (pl : list Z) (l : list Z) (pr : list Z) (r : list Z) (lw rw : Z) : list Z :=
    left_aligned pl 2 ++ left_aligned l lw ++ [32] ++ left_aligned pr 2 ++ left_aligned r rw.
  Fixpoint rows (ts : list (list Z * list Z)) (lw rw : Z) (l : list (item * item)) : outcome (list (list Z)) :=
    match l with
    | [] => Ok []
    | (x, y) :: l' =>
        obind (cell fst ts x) (fun a => obind (cell snd ts y) (fun b =>
          omap (cons (row (prefix_of (fst x)) a (prefix_of (fst y)) b lw rw)) (rows ts lw rw l')))
    end.

  Definition given : list Z := [71; 105; 118; 101; 110].
  Definition expected : list Z := [69; 120; 112; 101; 99; 116; 101; 100].

  (** The printed lines.  Printing a stacked one is not implemented. *)
  Definition format (c : conf) (d : content) : outcome (list (list Z)) :=
    match d with
    | Stacked _ => Throw
    | Unified l r =>
        if negb (Nat.eqb (length l) (length r)) then UB
        else
          let lines := combine l r in
          obind (texts c lines) (fun ts =>
            match ts with
            | [] => UB
            | _ =>
                let lw := Z.max (or0 (min_l c)) (widest (map fst ts)) in
                let rw := Z.max (or0 (min_r c)) (widest (map snd ts)) in
                let '(a, b) := range c lines in
                omap (cons (left_aligned [] 2 ++ left_aligned given lw ++ [32] ++ left_aligned [] 2 ++ expected))
                     (rows ts lw rw (firstn (Z.to_nat (b - a + 1)) (skipn (Z.to_nat a) lines)))
            end)
    end.
End Format.
