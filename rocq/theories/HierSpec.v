(** Vocabulary for the hierarchy theorems: what a caller sees of a hierarchy. *)
From Coq Require Import List Bool Arith Permutation.
From Verif Require Import Base HierModel.
Import ListNotations.

(** [a] is a proper ancestor of [v], following the parent query. *)
Inductive above (h : hier) : nat -> nat -> Prop :=
| above_parent a v : parent_vertex h v = Some a -> above h a v
| above_step a p v : parent_vertex h v = Some p -> above h a p -> above h a v.

(** The parent and child queries describe one relation on tracked vertices,
    and the roots are the tracked vertices without a parent. *)
Definition views_agree (h : hier) : Prop :=
  (forall p s, In s (sub_vertices h p) <-> parent_vertex h s = Some p) /\
  (forall v, In v (root_vertices h) <-> In v (ids h) /\ parent_vertex h v = None) /\
  (forall p s, parent_vertex h s = Some p -> In p (ids h) /\ In s (ids h)) /\
  NoDup (ids h) /\ NoDup (root_vertices h) /\ (forall p, NoDup (sub_vertices h p)).

(** An iteration order of a hash set. *)
Definition some_order (ord : list nat -> list nat) : Prop := forall l, Permutation l (ord l).

(** No relation request of the history puts a vertex under itself or under
    one of its descendants (judged at the time of the request). *)
Fixpoint no_loop_requests (fuel : nat) (ord : list nat -> list nat) (h : hier) (os : list hop) : Prop :=
  match os with
  | [] => True
  | o :: os' =>
      match o with HRelate _ p s => p <> s /\ ~ above h s p | _ => True end /\
      no_loop_requests fuel ord (fst (hstep fuel ord h o)) os'
  end.

(** [c] lists the ancestors of [v], nearest first, up to a root. *)
Fixpoint ancestors_upward (h : hier) (v : nat) (c : list nat) : Prop :=
  match c with
  | [] => parent_vertex h v = None
  | p :: c' => parent_vertex h v = Some p /\ ancestors_upward h p c'
  end.

(** [w] is the lowest vertex that is, or is above, each vertex of [vs]. *)
Definition at_or_above (h : hier) (a v : nat) : Prop := a = v \/ above h a v.
Definition lowest_common (h : hier) (vs : list nat) (w : nat) : Prop :=
  (forall v, In v vs -> at_or_above h w v) /\
  (forall a, (forall v, In v vs -> at_or_above h a v) -> at_or_above h a w).

(** [path] runs upwards from the parent of [v] to the child of [top] above
    [v]; empty when [top] is the parent of [v]. *)
Fixpoint strictly_between (h : hier) (v top : nat) (path : list nat) : Prop :=
  match path with
  | [] => parent_vertex h v = Some top
  | p :: path' => parent_vertex h v = Some p /\ strictly_between h p top path'
  end.

(** Number of steps from [v] to its root. *)
Definition depth (h : hier) (v n : nat) : Prop := exists c, ancestors_upward h v c /\ length c = n.

(** The same hierarchy up to the order in which sets are listed. *)
Definition same_hierarchy (a b : hier) : Prop :=
  Permutation (ids a) (ids b) /\ Permutation (root_vertices a) (root_vertices b) /\
  (forall v, parent_vertex a v = parent_vertex b v) /\
  (forall v, Permutation (sub_vertices a v) (sub_vertices b v)) /\
  tracker a = tracker b /\ objects a = objects b.
