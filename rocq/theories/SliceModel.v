(** Model of inclusive ranges, src/hstd/stdlib/Slice.hpp.

    Values are integers. [int] conversions inside [overlap] (Slice.hpp:77-79) are exact for the ranges used
    with it (element type int). The element type matters only for iteration, where [lo] and [hi] are its
    smallest and largest value and stepping wraps around. *)
From Verif Require Import Base.
Local Open Scope Z_scope.

(** Slice.hpp:11-32. *)
Record slice := Slice { first : Z; last : Z }.

(** The checking constructor function slice(first, last), Slice.hpp:135-157. *)
Definition mk_slice (a b : Z) : outcome slice := if a <=? b then Ok (Slice a b) else Throw.

(** contains(value), isValid, isPoint, Slice.hpp:34-36. *)
Definition sl_contains (s : slice) (v : Z) : bool := (first s <=? v) && (v <=? last s).
Definition sl_valid (s : slice) : bool := first s <=? last s.
Definition sl_point (s : slice) : bool := first s =? last s.

(** narrow, Slice.hpp:37-46. *)
Definition sl_narrow (s o : slice) : outcome slice :=
  mk_slice (if sl_contains s (first o) then Z.max (first o) (first s) else first s)
           (if sl_contains s (last o) then Z.min (last o) (last s) else last s).

(** isBefore, isAfter, Slice.hpp:48-50. *)
Definition sl_before (s : slice) (v : Z) : bool := v <? first s.
Definition sl_after (s : slice) (v : Z) : bool := last s <? v.

(** expand, Slice.hpp:52-58. *)
Definition sl_expand (s : slice) (v : Z) : slice :=
  if sl_before s v then Slice v (last s)
  else if sl_after s v then Slice (first s) v else s.

(** expanded, Slice.hpp:60-67. *)
Definition sl_expanded (s o : slice) : outcome slice :=
  mk_slice (Z.min (first o) (first s)) (Z.max (last o) (last s)).

(** contains(slice), Slice.hpp:71-73. *)
Definition sl_contains_slice (s o : slice) : bool := sl_contains s (first o) && sl_contains s (last o).

(** overlap, Slice.hpp:75-83. *)
Definition sl_overlap (s o : slice) : option slice :=
  if (first s <? last o) && (first o <? last s)
  then Some (Slice (Z.max (first s) (first o)) (Z.min (last s) (last o)))
  else None.

(** succ of the element type, basic_templates.hpp:70 and 174. *)
Definition succ_in (lo hi v : Z) : Z := if v =? hi then lo else v + 1.

(** The iterator, Slice.hpp:86-127. *)
Record sl_iter := SlIter { now : Z; it_last : Z; past : bool }.

Definition sl_next (lo hi : Z) (i : sl_iter) : sl_iter :=
  if (now i =? it_last i) || past i then SlIter (now i) (it_last i) true
  else SlIter (succ_in lo hi (now i)) (it_last i) (past i).

Definition sl_neq (i j : sl_iter) : bool :=
  if past i || past j then negb (eqb (past i) (past j)) else negb (now i =? now j).

(** A range-for over the slice, begin/end Slice.hpp:130-131. *)
Fixpoint sl_loop (fuel : nat) (lo hi : Z) (i e : sl_iter) : outcome (list Z) :=
  match fuel with
  | O => Fuel
  | S fuel' =>
      if sl_neq i e then omap (cons (now i)) (sl_loop fuel' lo hi (sl_next lo hi i) e) else Ok []
  end.

Definition sl_iterate (fuel : nat) (lo hi : Z) (s : slice) : outcome (list Z) :=
  sl_loop fuel lo hi (SlIter (first s) (last s) false) (SlIter (first s) (last s) true).

(** sliceSize, Slice.hpp:167-170: the index range of a container with [n] elements. *)
Definition slice_size (n : nat) : outcome slice := mk_slice 0 (Z.of_nat n - 1).

(** Ends of a span request: an index or an index counted from the end (BackwardsIndex.hpp). *)
Inductive endpoint := EFwd (v : Z) | EBack (v : Z).

Definition end_pos (size : Z) (e : endpoint) : Z :=
  match e with EFwd v => v | EBack v => size - v end.

(** getSpan, Slice.hpp:202-239. *)
Definition get_span (size : Z) (a b : endpoint) (check : bool) : outcome (Z * Z) :=
  let s := end_pos size a in
  let e := end_pos size b in
  if check && negb ((0 <=? s) && (s <? size) && ((0 <=? e) && (e <? size))) then Throw else Ok (s, e).
