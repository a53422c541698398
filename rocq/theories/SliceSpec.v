(** The set of points of a range. *)
From Verif Require Import Base SliceModel.
Local Open Scope Z_scope.

Definition covers (s : slice) (x : Z) : Prop := first s <= x <= last s.
Definition nonempty (s : slice) : Prop := exists x, covers s x.
Definition share_point (s o : slice) : Prop := exists x, covers s x /\ covers o x.

(** One range ends exactly where the other begins. *)
Definition touch (s o : slice) : Prop := last s = first o \/ last o = first s.

(** The points from [a] on, [n] of them. *)
Fixpoint upto (a : Z) (n : nat) : list Z :=
  match n with O => [] | S n' => a :: upto (a + 1) n' end.

(** Position [p] is meant by an end of a span request in a container of [size] elements. *)
Definition means (size : Z) (e : endpoint) (p : Z) : Prop :=
  match e with EFwd v => p = v | EBack v => p + v = size end.
