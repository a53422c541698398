(** Windows into vectors, and partitions: src/hstd/stdlib/Span.hpp:31-109 and algorithms.hpp:73-94.

    Simplified: a pointer is the index of an element of the one vector looked at; the limit of a move is the index of an
    element. Indices are integers without a limit. A failed assert is [Throw]. *)
From Verif Require Import Base.
Local Open Scope Z_scope.

(** std::span: the null pointer with no elements, or a pointer with a size *)
Inductive span := Null | View (start size : Z).
Definition ssize (s : span) : Z := match s with Null => 0 | View _ n => n end.
(** Span::empty, Span.hpp:51 *)
Definition sempty (s : span) : bool := negb (0 <? ssize s).
(** dataAtOffset, Span.hpp:42-48 *)
Definition data_at_offset (s : span) (offset : Z) : option Z :=
  match s with View d n => if offset <? n then Some (d + offset) else None | Null => None end.
(** clampSize, Span.hpp:54-64; [max] is not null *)
Definition clamp_size (size : Z) (data : option Z) (max : Z) : outcome Z :=
  match data with
  | None => Throw
  | Some d => if max <? d then Throw else Ok (Z.max 0 (Z.min size (max - d + 1)))
  end.
(** moveStart, Span.hpp:68-89 *)
Definition move_start (s : span) (steps max : Z) (fix_size : bool) : outcome span :=
  match data_at_offset s steps with
  | Some d =>
      obind (clamp_size (if fix_size then ssize s else ssize s - steps) (Some d) max) (fun n =>
      if (0 <=? n) && (n <=? ssize s) then Ok (View d n) else Throw)
  | None => Ok Null
  end.
(** moveEnd, Span.hpp:93-109 *)
Definition move_end (s : span) (steps max : Z) (fix_size : bool) : outcome span :=
  let data := if fix_size then data_at_offset s steps else match s with View d _ => Some d | Null => None end in
  obind (clamp_size (ssize s + steps) data max) (fun n => match data with Some d => Ok (View d n) | None => Throw end).

Section Partition.
  Variables (A F : Type) (eqb : F -> F -> bool) (callback : A -> F).

  (** The loop of partition, algorithms.hpp:81-91; currentValue is looked at only if there is a current span *)
  Fixpoint part_loop (max i : Z) (l : list A) (cur : span) (val : option F) (acc : list span) : outcome (list span) :=
    match l with
    | [] => Ok (if sempty cur then acc else acc ++ [cur])
    | x :: r =>
        let new := callback x in
        if sempty cur || match val with Some v => negb (eqb v new) | None => true end
        then part_loop max (i + 1) r (View i 1) (Some new) (if sempty cur then acc else acc ++ [cur])
        else obind (move_end cur 1 max false) (fun cur => part_loop max (i + 1) r cur val acc)
    end.
  (** partition, algorithms.hpp:73-94 *)
  Definition partition (l : list A) : outcome (list span) :=
    match l with [] => Ok [] | _ => part_loop (Z.of_nat (length l) - 1) 0 l Null None [] end.
End Partition.
