From Verif Require Import Base SliceModel SliceSpec.
Local Open Scope Z_scope.

Lemma nonempty_iff : forall s, nonempty s <-> first s <= last s.
Proof. intros s. unfold nonempty, covers. split; [intros [x H]; lia|intros; exists (first s); lia]. Qed.

Lemma share_iff : forall s o, share_point s o <->
  Z.max (first s) (first o) <= Z.min (last s) (last o).
Proof.
  intros s o. unfold share_point, covers. split; [intros [x H]; lia|].
  intros H. exists (Z.max (first s) (first o)). lia.
Qed.

Lemma mk_slice_spec : forall a b,
  (a <= b -> mk_slice a b = Ok (Slice a b)) /\ (b < a -> mk_slice a b = Throw).
Proof. intros a b. unfold mk_slice. destruct (Z.leb_spec a b); split; intros; try lia; reflexivity. Qed.

Lemma contains_covers : forall s x, sl_contains s x = true <-> covers s x.
Proof. intros s x. unfold sl_contains, covers. lia. Qed.

Lemma contains_slice_covers : forall s o, nonempty o ->
  (sl_contains_slice s o = true <-> forall x, covers o x -> covers s x).
Proof.
  intros s o H. apply nonempty_iff in H. unfold sl_contains_slice, sl_contains, covers. split.
  - intros E x Hx. lia.
  - intros E. pose proof (E (first o) ltac:(lia)). pose proof (E (last o) ltac:(lia)). lia.
Qed.

Lemma narrow_spec : forall s o, nonempty s -> nonempty o ->
  exists r, sl_narrow s o = Ok r /\ nonempty r
    /\ (share_point s o -> forall x, covers r x <-> covers s x /\ covers o x)
    /\ (~ share_point s o -> r = s).
Proof.
  intros [a b] [c d] Hs Ho. pose proof (share_iff (Slice a b) (Slice c d)) as Hsh.
  apply nonempty_iff in Hs, Ho. cbn in *.
  unfold sl_narrow, sl_contains, mk_slice. cbn.
  set (f := if (a <=? c) && (c <=? b) then Z.max c a else a).
  set (l := if (a <=? d) && (d <=? b) then Z.min d b else b).
  assert (Hfl : f <= l) by (subst f l; destruct ((a <=? c) && (c <=? b)) eqn:?, ((a <=? d) && (d <=? b)) eqn:?; lia).
  replace (f <=? l) with true by lia. eexists; split; [reflexivity|].
  split; [apply nonempty_iff; cbn; exact Hfl|].
  subst f l. unfold covers. cbn.
  destruct ((a <=? c) && (c <=? b)) eqn:?, ((a <=? d) && (d <=? b)) eqn:?;
    (split; intros H; [apply Hsh in H; intros; lia|]);
    assert (~ Z.max a c <= Z.min b d) by tauto; f_equal; lia.
Qed.

Lemma expand_spec : forall s v, nonempty s ->
  nonempty (sl_expand s v)
  /\ (forall x, covers (sl_expand s v) x <->
        covers s x \/ (v <= x < first s) \/ (last s < x <= v)).
Proof.
  intros s v H. apply nonempty_iff in H. rewrite nonempty_iff. unfold sl_expand, sl_before, sl_after, covers.
  destruct (Z.ltb_spec v (first s)); [cbn; split; [lia|intros; lia]|].
  destruct (Z.ltb_spec (last s) v); cbn; (split; [lia|intros; lia]).
Qed.

Lemma expanded_spec : forall s o, nonempty s -> nonempty o ->
  exists r, sl_expanded s o = Ok r
    /\ (forall x, covers s x \/ covers o x -> covers r x)
    /\ (forall r', (forall x, covers s x \/ covers o x -> covers r' x) -> forall x, covers r x -> covers r' x).
Proof.
  intros [a b] [c d] Hs Ho. apply nonempty_iff in Hs, Ho. cbn in *. unfold sl_expanded, mk_slice. cbn.
  replace (Z.min c a <=? Z.max d b) with true by lia. eexists; split; [reflexivity|]. unfold covers; cbn.
  split; [intros; lia|]. intros r' H x Hx.
  pose proof (H a ltac:(lia)). pose proof (H b ltac:(lia)). pose proof (H c ltac:(lia)).
  pose proof (H d ltac:(lia)). lia.
Qed.

Lemma overlap_spec : forall s o, nonempty s -> nonempty o ->
  (share_point s o -> ~ touch s o ->
     exists r, sl_overlap s o = Some r /\ forall x, covers r x <-> covers s x /\ covers o x)
  /\ (touch s o -> sl_overlap s o = None)
  /\ (~ share_point s o -> sl_overlap s o = None).
Proof.
  intros [a b] [c d] Hs Ho. rewrite !share_iff. apply nonempty_iff in Hs, Ho.
  unfold touch, sl_overlap, covers. cbn in *.
  repeat split.
  - intros H1 H2. replace ((a <? d) && (c <? b)) with true by lia. eexists; split; [reflexivity|]. cbn. intros; lia.
  - intros H. replace ((a <? d) && (c <? b)) with false by lia. reflexivity.
  - intros H. replace ((a <? d) && (c <? b)) with false by lia. reflexivity.
Qed.

Lemma upto_spec : forall n a x, In x (upto a n) <-> a <= x < a + Z.of_nat n.
Proof.
  induction n as [|n IH]; intros a x; cbn [upto In]; [lia|]. rewrite IH. lia.
Qed.

Lemma sl_loop_spec : forall n fuel lo hi a b,
  lo <= a -> b <= hi -> b = a + Z.of_nat n -> (n + 2 <= fuel)%nat ->
  forall e, sl_loop fuel lo hi (SlIter a b false) (SlIter e b true) = Ok (upto a (S n)).
Proof.
  induction n as [|n IH]; intros fuel lo hi a b Ha Hb E Hf e.
  - destruct fuel as [|[|fuel]]; try lia.
    assert (Hba : b = a) by lia. clear E. subst b.
    assert (Hn : sl_next lo hi (SlIter a a false) = SlIter a a true)
      by (unfold sl_next; cbn [now it_last past]; now rewrite Z.eqb_refl).
    cbn [sl_loop]. rewrite Hn. reflexivity.
  - destruct fuel as [|fuel]; [lia|]. cbn [sl_loop sl_neq past orb eqb negb].
    unfold sl_next at 1. cbn [now it_last past]. replace (a =? b) with false by lia. cbn [orb].
    unfold succ_in. replace (a =? hi) with false by lia.
    rewrite IH; try lia. reflexivity.
Qed.

Lemma iterate_spec : forall lo hi s fuel, lo <= first s -> first s <= last s -> last s <= hi ->
  (Z.to_nat (last s - first s) + 2 <= fuel)%nat ->
  sl_iterate fuel lo hi s = Ok (upto (first s) (Z.to_nat (last s - first s + 1))).
Proof.
  intros lo hi [a b] fuel H1 H2 H3 Hf. cbn in *. unfold sl_iterate. cbn [first last].
  rewrite (sl_loop_spec (Z.to_nat (b - a))) by lia. f_equal. f_equal. lia.
Qed.

Lemma get_span_spec : forall size a b check s e, get_span size a b check = Ok (s, e) ->
  s = end_pos size a /\ e = end_pos size b /\
  (check = true -> 0 <= s < size /\ 0 <= e < size).
Proof.
  intros size a b check s e. unfold get_span.
  destruct (_ && _) eqn:E; [discriminate|]. intros H. injection H as H1 H2.
  repeat split; auto; subst; intros; subst; cbn in E; lia.
Qed.

Lemma get_span_ok : forall size a b check,
  0 <= end_pos size a < size -> 0 <= end_pos size b < size ->
  get_span size a b check = Ok (end_pos size a, end_pos size b).
Proof.
  intros size a b check Ha Hb. unfold get_span.
  replace (_ && negb _) with false; [reflexivity|]. destruct check; cbn; lia.
Qed.

Lemma get_span_out : forall size a b,
  ~ (0 <= end_pos size a < size /\ 0 <= end_pos size b < size) -> get_span size a b true = Throw.
Proof.
  intros size a b H. unfold get_span. replace (_ && negb _) with true; [reflexivity|]. cbn. lia.
Qed.

Lemma end_pos_means size e p : means size e p -> end_pos size e = p.
Proof. destruct e; cbn; lia. Qed.
