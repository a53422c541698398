(** What ordered containers and std::sort require of a comparison. *)
From Verif Require Import Base.

Definition irreflexive {A} (lt : A -> A -> bool) : Prop := forall x, lt x x = false.
Definition asymmetric {A} (lt : A -> A -> bool) : Prop := forall x y, lt x y = true -> lt y x = false.
Definition transitive {A} (lt : A -> A -> bool) : Prop :=
  forall x y z, lt x y = true -> lt y z = true -> lt x z = true.
Definition incomparable {A} (lt : A -> A -> bool) (x y : A) : Prop := lt x y = false /\ lt y x = false.
Definition strict_weak_order {A} (lt : A -> A -> bool) : Prop :=
  irreflexive lt /\ asymmetric lt /\ transitive lt
  /\ forall x y z, incomparable lt x y -> incomparable lt y z -> incomparable lt x z.

(** Dictionary order. *)
Inductive lex : list Z -> list Z -> Prop :=
| lex_nil : forall y b, lex [] (y :: b)
| lex_head : forall x y a b, (x < y)%Z -> lex (x :: a) (y :: b)
| lex_tail : forall x a b, lex a b -> lex (x :: a) (x :: b).
