(** C14: inclusive ranges against their sets of points. *)
From Verif Require Import Base SliceModel SliceSpec SliceProofs.
Local Open Scope Z_scope.

Theorem slice_construction : forall a b,
  (a <= b -> mk_slice a b = Ok (Slice a b)) /\ (b < a -> mk_slice a b = Throw).
Proof. exact mk_slice_spec. Qed.
Print Assumptions slice_construction.

Theorem slice_membership : forall s x, sl_contains s x = true <-> covers s x.
Proof. exact contains_covers. Qed.
Print Assumptions slice_membership.

Theorem slice_containment_is_inclusion : forall s o, nonempty o ->
  (sl_contains_slice s o = true <-> forall x, covers o x -> covers s x).
Proof. exact contains_slice_covers. Qed.
Print Assumptions slice_containment_is_inclusion.

Example slice_containment_ex :
  nonempty (Slice 3 3) /\ sl_contains_slice (Slice 1 3) (Slice 3 3) = true
  /\ sl_contains_slice (Slice 1 3) (Slice 3 4) = false.
Proof. split; [exists 3; unfold covers; cbn; lia|]. split; reflexivity. Qed.

(** Narrowing never fails; it gives the common points when there are any and leaves the range alone
    otherwise. *)
Theorem slice_narrow_is_intersection : forall s o, nonempty s -> nonempty o ->
  exists r, sl_narrow s o = Ok r /\ nonempty r
    /\ (share_point s o -> forall x, covers r x <-> covers s x /\ covers o x)
    /\ (~ share_point s o -> r = s).
Proof. exact narrow_spec. Qed.
Print Assumptions slice_narrow_is_intersection.

Example slice_narrow_ex :
  sl_narrow (Slice 0 10) (Slice 4 20) = Ok (Slice 4 10)
  /\ sl_narrow (Slice 0 10) (Slice (-5) 20) = Ok (Slice 0 10)
  /\ sl_narrow (Slice 0 10) (Slice 20 30) = Ok (Slice 0 10).
Proof. repeat split. Qed.

Theorem slice_expand_reaches_value : forall s v, nonempty s ->
  nonempty (sl_expand s v)
  /\ (forall x, covers (sl_expand s v) x <->
        covers s x \/ (v <= x < first s) \/ (last s < x <= v)).
Proof. exact expand_spec. Qed.
Print Assumptions slice_expand_reaches_value.

(** The widened range is the smallest range that covers both. *)
Theorem slice_expanded_is_hull : forall s o, nonempty s -> nonempty o ->
  exists r, sl_expanded s o = Ok r
    /\ (forall x, covers s x \/ covers o x -> covers r x)
    /\ (forall r', (forall x, covers s x \/ covers o x -> covers r' x) -> forall x, covers r x -> covers r' x).
Proof. exact expanded_spec. Qed.
Print Assumptions slice_expanded_is_hull.

Example slice_expand_ex :
  sl_expand (Slice 3 5) 9 = Slice 3 9 /\ sl_expand (Slice 3 5) 4 = Slice 3 5
  /\ sl_expanded (Slice 3 5) (Slice 8 9) = Ok (Slice 3 9).
Proof. repeat split. Qed.

(** overlap: exact behaviour. Missing from the full claim (see the refutation): ranges that meet in exactly
    one boundary point are reported as not overlapping. *)
Theorem slice_overlap_partial : forall s o, nonempty s -> nonempty o ->
  (share_point s o -> ~ touch s o ->
     exists r, sl_overlap s o = Some r /\ forall x, covers r x <-> covers s x /\ covers o x)
  /\ (touch s o -> sl_overlap s o = None)
  /\ (~ share_point s o -> sl_overlap s o = None).
Proof. exact overlap_spec. Qed.
Print Assumptions slice_overlap_partial.

Example slice_overlap_ex :
  share_point (Slice 0 5) (Slice 3 9) /\ ~ touch (Slice 0 5) (Slice 3 9)
  /\ sl_overlap (Slice 0 5) (Slice 3 9) = Some (Slice 3 5)
  /\ sl_overlap (Slice 0 5) (Slice 3 3) = Some (Slice 3 3).
Proof.
  split; [exists 4; unfold covers; cbn; lia|]. split; [unfold touch; cbn; lia|]. split; reflexivity.
Qed.

Theorem slice_overlap_refuted :
  ~ (forall s o, nonempty s -> nonempty o -> share_point s o -> exists r, sl_overlap s o = Some r).
Proof.
  intros H. destruct (H (Slice 3 3) (Slice 3 3)) as [r E]; try (exists 3; unfold covers; cbn; lia).
  vm_compute in E. discriminate.
Qed.
Print Assumptions slice_overlap_refuted.

(** Iterating a range of any bounded element type visits every value of the range once, in ascending order,
    and ends - also when the range reaches the largest value of the type. *)
Theorem slice_iteration_visits_points : forall lo hi s fuel,
  lo <= first s -> first s <= last s -> last s <= hi ->
  (Z.to_nat (last s - first s) + 2 <= fuel)%nat ->
  sl_iterate fuel lo hi s = Ok (upto (first s) (Z.to_nat (last s - first s + 1)))
  /\ (forall x, In x (upto (first s) (Z.to_nat (last s - first s + 1))) <-> covers s x).
Proof.
  intros lo hi s fuel H1 H2 H3 Hf. split; [exact (iterate_spec lo hi s fuel H1 H2 H3 Hf)|].
  intros x. rewrite upto_spec. unfold covers. lia.
Qed.
Print Assumptions slice_iteration_visits_points.

Example slice_iteration_ex :
  sl_iterate 10 0 255 (Slice 253 255) = Ok [253; 254; 255]
  /\ sl_iterate 10 (-128) 127 (Slice (-2) 1) = Ok [-2; -1; 0; 1].
Proof. split; reflexivity. Qed.

(** The comment on the iterator names [slice(char(0), char(255))] as supported: with signed char that range
    cannot be constructed, and neither can the range of all characters (sliceT<char>, low 0, high '\xFF'). *)
Theorem slice_all_chars_refuted : ~ exists s, mk_slice 0 (255 - 256) = Ok s.
Proof. intros [s E]. vm_compute in E. discriminate. Qed.
Print Assumptions slice_all_chars_refuted.

(** Span requests with ends counted from the front or the back: with checking on they give the positions
    inside the container or throw. *)
Theorem slice_span_positions : forall size a b p q, means size a p -> means size b q ->
  (0 <= p < size -> 0 <= q < size -> forall check, get_span size a b check = Ok (p, q))
  /\ (~ (0 <= p < size /\ 0 <= q < size) -> get_span size a b true = Throw).
Proof.
  intros size a b p q Ha Hb. apply end_pos_means in Ha. apply end_pos_means in Hb. subst p q.
  exact (conj (fun Ha Hb check => get_span_ok size a b check Ha Hb) (get_span_out size a b)).
Qed.
Print Assumptions slice_span_positions.

Example slice_span_ex :
  get_span 5 (EFwd 1) (EBack 1) true = Ok (1, 4) /\ get_span 5 (EFwd 1) (EBack 0) true = Throw.
Proof. split; reflexivity. Qed.
