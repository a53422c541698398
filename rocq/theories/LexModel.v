(** Model of the token cursors: src/haxorg/lexbase/Lexer.hpp.

    Simplifications: a token is its kind (values are never inspected by these functions); token ids are
    0-based indices, nil is [None] (packing: DodModel.v, fewer than 2^48-1 tokens); [int] offsets are
    unbounded [Z]; [hstd::IntSet<K>] is a boolean predicate (IntSetModel.v models the set itself);
    [lastToken] (diagnostics only) is dropped. *)
From Verif Require Import Base.
Local Open Scope Z_scope.

Section Lex.
Context {K : Type}.

(** Base token group, current id, and for a [SubLexer] its position and selected ids
    (Lexer.hpp:11-15, 358-359). [None] in [sub] is the plain [Lexer]. *)
Record cursor := mkCursor { toks : list K; pos : option nat; sub : option (Z * list nat) }.

(** [Lexer(in)], Lexer.hpp:427 with the default start of Lexer.hpp:14. *)
Definition lexer (ts : list K) : cursor := {| toks := ts; pos := Some 0%nat; sub := None |}.

(** [SubLexer(in, tokens)], Lexer.hpp:396-398. *)
Definition sublexer (ts : list K) (ids : list nat) : cursor :=
  {| toks := ts; pos := hd_error ids; sub := Some (0, ids) |}.

(** [pos + offset] on ids (dod_base.hpp operator+): saturates at nil; from nil it counts from the nil
    value, so [nil + 1] is index 0. *)
Definition id_add (p : option nat) (off : Z) : option nat :=
  let v := match p with None => 0 | Some i => Z.of_nat i + 1 end + off in
  if v <=? 0 then None else Some (Z.to_nat (v - 1)).

(** Element access with a signed index, as used after a range check. *)
Definition znth {A} (l : list A) (i : Z) : option A := if i <? 0 then None else nth_error l (Z.to_nat i).

(** [tok(offset)], Lexer.hpp:20-21: [in->at(pos + offset)]; throws for nil and for an index past the end.
    Not overridden by [SubLexer]. *)
Definition tok (c : cursor) (off : Z) : outcome K :=
  match id_add (pos c) off with
  | None => Throw
  | Some i => match nth_error (toks c) i with Some k => Ok k | None => Throw end
  end.

(** [hasNext(offset)]: Lexer.hpp:418-425 and Lexer.hpp:363-366. *)
Definition has_next (c : cursor) (off : Z) : bool :=
  match sub c with
  | None =>
    match pos c with
    | None => false
    | Some _ => match id_add (pos c) off with None => false | Some i => (i <? length (toks c))%nat end
    end
  | Some (sp, ids) =>
    match pos c with
    | None => false
    | Some _ => (0 <=? sp + off) && (sp + off <? Z.of_nat (length ids))
    end
  end.

(** [finished()], Lexer.hpp:292. *)
Definition finished (c : cursor) : bool := negb (has_next c 0).

(** [next(offset)]: Lexer.hpp:409-416 and Lexer.hpp:382-392.  [lastToken = tok()] dereferences the
    current position, so it throws when the current id is not in the group. *)
Definition next (c : cursor) (off : Z) : outcome cursor :=
  match sub c with
  | None =>
    if has_next c off
    then obind (tok c 0) (fun _ => Ok {| toks := toks c; pos := id_add (pos c) off; sub := None |})
    else Ok {| toks := toks c; pos := None; sub := None |}
  | Some (sp, ids) =>
    if has_next c off
    then obind (tok c 0) (fun _ =>
           Ok {| toks := toks c; pos := znth ids (sp + off); sub := Some (sp + off, ids) |})
    else Ok {| toks := toks c; pos := None; sub := Some (sp + off, ids) |}
  end.

(** [pop()], Lexer.hpp:174-178. *)
Definition pop (c : cursor) : outcome (option nat * cursor) := omap (pair (pos c)) (next c 1).

(** [at(kind, offset)] for one kind and for a set, Lexer.hpp:200-202, 222-224: the kind(s) are a
    predicate. *)
Definition at_kind (c : cursor) (f : K -> bool) (off : Z) : outcome bool :=
  if has_next c off then omap f (tok c off) else Ok false.

(** [at(vec, offset)], Lexer.hpp:205-216. *)
Fixpoint at_seq_loop (c : cursor) (fs : list (K -> bool)) (off : Z) : outcome bool :=
  match fs with
  | [] => Ok true
  | f :: r =>
    if has_next c off
    then obind (tok c off) (fun k => if f k then at_seq_loop c r (off + 1) else Ok false)
    else Ok false
  end.

Definition at_seq (c : cursor) (fs : list (K -> bool)) (off : Z) : outcome bool :=
  if has_next c off then at_seq_loop c fs off else Ok false.

(** [find(skip, target, offset)], Lexer.hpp:227-235. Each step needs one more token ahead, so the number
    of tokens plus one bounds the loop when the starting offset is not negative; fuel otherwise. *)
Fixpoint find_set (fuel : nat) (c : cursor) (skip target : K -> bool) (off : Z) : outcome Z :=
  match fuel with
  | O => Fuel
  | S fuel =>
    obind (at_kind c skip off) (fun s =>
    if s then find_set fuel c skip target (off + 1)
    else omap (fun b : bool => if b then off else -1) (at_kind c target off))
  end.

(** [find(kind, offset)], Lexer.hpp:301-310. *)
Fixpoint find_kind (fuel : nat) (c : cursor) (f : K -> bool) (off : Z) : outcome Z :=
  match fuel with
  | O => Fuel
  | S fuel =>
    if has_next c off
    then obind (at_kind c f off) (fun b : bool => if b then Ok off else find_kind fuel c f (off + 1))
    else Ok (-1)
  end.

(** [expect]/[skip(kind)], Lexer.hpp:255-286: throws when the current token does not match or the cursor
    is finished. *)
Definition skip (c : cursor) (f : K -> bool) : outcome cursor :=
  obind (at_kind c f 0) (fun b : bool => if b then next c 1 else Throw).

(** [trySkip], Lexer.hpp:288-290. *)
Definition try_skip (c : cursor) (f : K -> bool) : outcome cursor :=
  obind (at_kind c f 0) (fun b : bool => if b then next c 1 else Ok c).

(** [setPos(id)]: Lexer.hpp:299 and Lexer.hpp:371-380 ([indexOf] is the first occurrence). *)
Fixpoint index_of (l : list nat) (x : nat) : option nat :=
  match l with
  | [] => None
  | y :: r => if (y =? x)%nat then Some 0%nat else option_map S (index_of r x)
  end.

Definition set_pos (c : cursor) (id : option nat) : outcome cursor :=
  match sub c with
  | None => Ok {| toks := toks c; pos := id; sub := None |}
  | Some (_, ids) =>
    match id with
    | None => Throw
    | Some x =>
      match index_of ids x with
      | None => Throw
      | Some n => Ok {| toks := toks c; pos := nth_error ids n; sub := Some (Z.of_nat n, ids) |}
      end
    end
  end.

(** The collecting loop used throughout the parser: [while (lex.can_search(stop)) sub.add(lex.pop())]
    (OrgParser.cpp:147-154; [can_search], Lexer.hpp:218-220). *)
Fixpoint pop_until (fuel : nat) (c : cursor) (stop : K -> bool) : outcome (list (option nat) * cursor) :=
  match fuel with
  | O => Fuel
  | S fuel =>
    if finished c then Ok ([], c)
    else obind (at_kind c stop 0) (fun b : bool =>
      if b then Ok ([], c)
      else obind (pop c) (fun '(i, c') => omap (fun '(l, c'') => (i :: l, c'')) (pop_until fuel c' stop)))
  end.

(** [getInside(start, finish)], Lexer.hpp:312-346. *)
(** first loop, line 317: [while (start.contains(kind())) next();] *)
Fixpoint skip_while (fuel : nat) (c : cursor) (f : K -> bool) : outcome cursor :=
  match fuel with
  | O => Fuel
  | S fuel =>
    obind (tok c 0) (fun k => if f k then obind (next c 1) (fun c' => skip_while fuel c' f) else Ok c)
  end.

(** inner loop over starts, lines 321-330; [count] is positive there, so every token is kept *)
Fixpoint keep_while_start (fuel : nat) (c : cursor) (f : K -> bool) (res : list (option nat))
  : outcome (cursor * list (option nat)) :=
  match fuel with
  | O => Fuel
  | S fuel =>
    obind (tok c 0) (fun k =>
    if f k then obind (pop c) (fun '(i, c') => keep_while_start fuel c' f (res ++ [i]))
    else Ok (c, res))
  end.

(** inner loop over finishes, lines 333-339 *)
Fixpoint while_finish (fuel : nat) (c : cursor) (f : K -> bool) (count : Z) (res : list (option nat))
  : outcome (cursor * list (option nat)) :=
  match fuel with
  | O => Fuel
  | S fuel =>
    if finished c then Ok (c, res)
    else obind (tok c 0) (fun k =>
      if f k then
        if 1 <? count then obind (pop c) (fun '(i, c') => while_finish fuel c' f count (res ++ [i]))
        else obind (next c 1) (fun c' => while_finish fuel c' f count res)
      else Ok (c, res))
  end.

Fixpoint inside_loop (fuel : nat) (c : cursor) (st fi : K -> bool) (count : Z) (res : list (option nat))
  : outcome (list (option nat) * cursor) :=
  match fuel with
  | O => Fuel
  | S fuel' =>
    if (0 <? count) && negb (finished c) then
      obind (tok c 0) (fun k =>
      if st k then
        obind (keep_while_start fuel c st res) (fun '(c', res') => inside_loop fuel' c' st fi (count + 1) res')
      else if fi k then
        obind (while_finish fuel c fi count res) (fun '(c', res') => inside_loop fuel' c' st fi (count - 1) res')
      else obind (pop c) (fun '(i, c') => inside_loop fuel' c' st fi count (res ++ [i])))
    else Ok (res, c)
  end.

Definition get_inside (c : cursor) (st fi : K -> bool) : outcome (list (option nat) * cursor) :=
  let fuel := S (S (length (toks c))) in
  obind (skip_while fuel c st) (fun c' => inside_loop fuel c' st fi 1 []).

(** Cursor operations for histories. *)
Inductive op := ONext (off : Z) | OPop | OSkip (f : K -> bool) | OTrySkip (f : K -> bool) | OSetPos (id : nat).

(** One operation; a thrown error leaves the cursor as it was ([expect] throws before moving,
    [setPos] of a sub-lexer throws before assigning). *)
Definition keep (c : cursor) (o : outcome cursor) : cursor := match o with Ok c' => c' | _ => c end.

Definition step (c : cursor) (o : op) : cursor :=
  match o with
  | ONext off => keep c (next c off)
  | OPop => keep c (omap snd (pop c))
  | OSkip f => keep c (skip c f)
  | OTrySkip f => keep c (try_skip c f)
  | OSetPos id => keep c (set_pos c (Some id))
  end.

Definition run (ops : list op) (c : cursor) : cursor := fold_left step ops c.

End Lex.
Arguments cursor : clear implicits.
Arguments op : clear implicits.
