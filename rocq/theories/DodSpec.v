(** Vocabulary of the statements about ids and stores: histories and the capacity guard. *)
From Verif Require Import Base DodModel.
Open Scope N_scope.

(** A mask argument that fits the mask bits. *)
Definition mask_ok (m : N) (mask : option N) : Prop :=
  match mask with Some k => k < 2 ^ m | None => True end.

(** Capacity of a store: indices are 32 bit signed and must fit below the mask bits. *)
Definition fits (w m : N) (n : nat) : Prop :=
  (Z.of_nat n <= 2 ^ 31)%Z /\ N.of_nat n <= 2 ^ (w - m) - 1.

(** A history of adds, collecting the returned ids. *)
Fixpoint run_adds {V} (w m : N) (c : list V) (ops : list (V * option N)) : option (list V * list N) :=
  match ops with
  | [] => Some (c, [])
  | (v, k) :: ops' =>
      match store_add w m c v k with
      | None => None
      | Some (c', id) =>
          match run_adds w m c' ops' with
          | None => None
          | Some (c'', ids) => Some (c'', id :: ids)
          end
      end
  end.

(** The same for an interning store. *)
Fixpoint run_interns {V} (eqb : V -> V -> bool) (w m : N) (s : intern V) (ops : list (V * option N)) : option (intern V * list N) :=
  match ops with
  | [] => Some (s, [])
  | (v, k) :: ops' =>
      match intern_add eqb w m s v k with
      | None => None
      | Some (s', id) =>
          match run_interns eqb w m s' ops' with
          | None => None
          | Some (s'', ids) => Some (s'', id :: ids)
          end
      end
  end.
