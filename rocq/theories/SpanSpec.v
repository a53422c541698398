(** What C126 speaks about. *)
From Verif Require Import Base SpanModel.

(** The span shows the part [c] of the vector [p ++ c ++ q]. *)
Definition shows {A} (l : list A) (s : span) (c : list A) : Prop :=
  exists p q, l = p ++ c ++ q /\ s = View (Z.of_nat (length p)) (Z.of_nat (length c)).
Definition last_index {A} (l : list A) : Z := (Z.of_nat (length l) - 1)%Z.

(** Groups of neighbours with the same value, those side by side with different values. *)
Definition valued {A F} (f : A -> F) (v : F) (g : list A) : Prop := Forall (fun x => f x = v) g.
Inductive groups {A F} (f : A -> F) : list (list A) -> Prop :=
| groups_nil : groups f []
| groups_one g v : g <> [] -> valued f v g -> groups f [g]
| groups_more g v h w r : g <> [] -> valued f v g -> valued f w h -> v <> w -> groups f (h :: r) -> groups f (g :: h :: r).
