(** Model of the comparison of vectors and of document paths: src/hstd/stdlib/Vec.hpp:25-38, 180-188,
    src/haxorg/imm/ImmOrg.hpp:122-125, 204-207, 244. Elements of vectors, field ids inside a path step and
    node ids are integers. *)
From Verif Require Import Base.
Local Open Scope Z_scope.

Section Itemwise.
  Context {A : Type} (cmp : A -> A -> bool).
  (** itemwise_less_than, Vec.hpp:25-38. The loop over the common length, then the sizes. *)
  Fixpoint some_less (a b : list A) : bool :=
    match a, b with
    | x :: a', y :: b' => if cmp x y then true else some_less a' b'
    | _, _ => false
    end.
  Definition itemwise_less (a b : list A) : bool := some_less a b || (length a <? length b)%nat.
End Itemwise.

(** Vec::operator<, Vec.hpp:180-184. *)
Definition vec_less : list Z -> list Z -> bool := itemwise_less Z.ltb.

(** ImmPathStep::operator<, ImmOrg.hpp:122-125: a step is a list of field or index accesses. *)
Definition step_less : list Z -> list Z -> bool := itemwise_less Z.ltb.

(** ImmPath and operator<, ImmOrg.hpp:142-207. *)
Record ipath := IPath { ip_root : Z; ip_steps : list (list Z) }.
Definition ipath_less (a b : ipath) : bool :=
  (ip_root a <? ip_root b) && itemwise_less step_less (ip_steps a) (ip_steps b).

(** ImmUniqId and operator<, ImmOrg.hpp:232-244. *)
Record uniq := Uniq { u_id : Z; u_path : ipath }.
Definition uniq_less (a b : uniq) : bool := (u_id a <? u_id b) && ipath_less (u_path a) (u_path b).
