(** Model of the persistent path tracker, src/hstd/stdlib/RecursivePathTracker.hpp. The shared, immutable
    chain of nodes from [current] to the root is a list (innermost first); the cached length is separate. *)
From Verif Require Import Base.

Section Track.
  Context {A : Type}.

  (** Members of RecursivePathTracker, lines 13-22. *)
  Record tracker := Tracker { current : list A; len : Z }.

  (** The default constructor, line 110. *)
  Definition tr_empty : tracker := Tracker [] 0.
  (** push, lines 121-126. *)
  Definition tr_push (t : tracker) (x : A) : tracker := Tracker (x :: current t) (len t + 1).
  (** pop, lines 128-134. *)
  Definition tr_pop (t : tracker) : tracker :=
    match current t with [] => tr_empty | _ :: p => Tracker p (len t - 1) end.

  (** The parent steps of getNodeAt, line 34: following a null pointer is undefined. *)
  Fixpoint steps_up (n : nat) (c : list A) : outcome (list A) :=
    match n with
    | O => Ok c
    | S n' => match c with [] => UB | _ :: p => steps_up n' p end
    end.

  (** operator[] through getNodeAt, lines 25-37 and 139; also what dereferencing an iterator does, line 54. *)
  Definition tr_at (t : tracker) (i : Z) : outcome A :=
    if ((i <? 0) || (len t <=? i))%Z then Throw
    else obind (steps_up (Z.to_nat (len t - 1 - i)) (current t)) (fun c =>
           match c with [] => UB | x :: _ => Ok x end).

  (** back, lines 141-144. *)
  Definition tr_back (t : tracker) : outcome A :=
    match current t with [] => Throw | x :: _ => Ok x end.

  (** size, empty, lines 136-137. *)
  Definition tr_size (t : tracker) : Z := len t.
  Definition tr_is_empty (t : tracker) : bool := (len t =? 0)%Z.

  (** toVector, lines 146-164: collect towards the root, then emit in reverse. *)
  Fixpoint tr_nodes (c : list A) (acc : list A) : list A :=
    match c with [] => acc | x :: p => tr_nodes p (acc ++ [x]) end.
  Definition tr_vector (t : tracker) : list A := rev (tr_nodes (current t) []).

  (** A loop from begin() to end(), lines 52-70, 168-170. *)
  Fixpoint tr_iter_from (n : nat) (t : tracker) (i : Z) : outcome (list A) :=
    match n with
    | O => Fuel
    | S n' =>
        if (i =? len t)%Z then Ok []
        else obind (tr_at t i) (fun x => omap (cons x) (tr_iter_from n' t (i + 1)))
    end.
  Definition tr_iterate (fuel : nat) (t : tracker) : outcome (list A) := tr_iter_from fuel t 0.
End Track.
Arguments tracker : clear implicits.
