(** C18: the comparison of vectors, document paths and unique node ids is not an ordering. *)
From Verif Require Import Base OrderModel OrderSpec OrderProofs.
Local Open Scope Z_scope.

(** What holds: the comparison is irreflexive, relates any two different vectors, never contradicts the
    dictionary order in the direction "smaller implies less", and is the dictionary order for vectors with at
    most one element. Missing from the full claim: asymmetry and transitivity, which are false. *)
Theorem vector_order_partial :
  irreflexive vec_less
  /\ (forall a b, a <> b -> vec_less a b = true \/ vec_less b a = true)
  /\ (forall a b, lex a b -> vec_less a b = true)
  /\ (forall a b, (length a <= 1)%nat -> (length b <= 1)%nat -> (vec_less a b = true <-> lex a b)).
Proof.
  exact (conj (itemwise_irrefl Z.ltb Z.ltb_irrefl) (conj vec_connected (conj lex_less lex_one))).
Qed.
Print Assumptions vector_order_partial.

Example vector_order_ex : lex [1;5] [2;0] /\ vec_less [1;5] [2;0] = true /\ [1;5] <> [2;0].
Proof. split; [now constructor|]. split; [reflexivity|congruence]. Qed.

(** Exact meaning of the comparison. *)
Theorem vector_order_exact : forall a b, vec_less a b = true <->
  (exists i x y, nth_error a i = Some x /\ nth_error b i = Some y /\ x < y) \/ (length a < length b)%nat.
Proof. exact vec_less_spec. Qed.
Print Assumptions vector_order_exact.

Theorem vector_order_refuted :
  ~ asymmetric vec_less /\ ~ transitive vec_less /\ ~ strict_weak_order vec_less.
Proof.
  assert (Ha : ~ asymmetric vec_less).
  { intros H. specialize (H [1;2] [2;1] eq_refl). vm_compute in H. discriminate. }
  assert (Ht : ~ transitive vec_less).
  { intros H. specialize (H [2;2] [1;3] [2;1] eq_refl eq_refl). vm_compute in H. discriminate. }
  split; [exact Ha|]. split; [exact Ht|]. intros (_ & H & _). contradiction.
Qed.
Print Assumptions vector_order_refuted.

(** Document paths: irreflexive, but two paths with the same root are never ordered, so an ordered container
    keyed by paths keeps only one path per document; and ids are not ordered weakly. *)
Theorem path_order_same_root_incomparable :
  irreflexive ipath_less /\ irreflexive uniq_less
  /\ (forall p q, ip_root p = ip_root q -> incomparable ipath_less p q)
  /\ (forall a b, ip_root (u_path a) = ip_root (u_path b) -> incomparable uniq_less a b).
Proof.
  assert (Hp : forall p q, ip_root p = ip_root q -> incomparable ipath_less p q).
  { intros p q E. unfold incomparable, ipath_less. rewrite E, !Z.ltb_irrefl. auto. }
  split; [intros p; apply (Hp p p eq_refl)|].
  split; [intros a; unfold uniq_less; now rewrite Z.ltb_irrefl|].
  split; [exact Hp|]. intros a b E. destruct (Hp _ _ E) as [H1 H2].
  unfold incomparable, uniq_less. now rewrite H1, H2, !andb_false_r.
Qed.
Print Assumptions path_order_same_root_incomparable.

Example path_order_ex :
  incomparable ipath_less (IPath 7 [[0]; [1]]) (IPath 7 [[0]; [2]])
  /\ ipath_less (IPath 6 [[0]]) (IPath 7 [[1]]) = true.
Proof. split; [split|]; reflexivity. Qed.

Theorem path_order_refuted : ~ strict_weak_order ipath_less /\ ~ strict_weak_order uniq_less.
Proof.
  split.
  - intros (_ & _ & _ & H).
    (* paths 1:[0] and 2:[1] are ordered, 2:[0] is incomparable with both *)
    destruct (H (IPath 1 [[0]]) (IPath 2 [[0]]) (IPath 2 [[1]])) as [E _]; try (split; reflexivity).
    vm_compute in E. discriminate.
  - intros (_ & _ & _ & H).
    destruct (H (Uniq 1 (IPath 1 [[0]])) (Uniq 0 (IPath 2 [[0]])) (Uniq 2 (IPath 2 [[1]]))) as [E _];
      try (split; reflexivity).
    vm_compute in E. discriminate.
Qed.
Print Assumptions path_order_refuted.
