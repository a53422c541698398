From Coq Require Import ZArith List Bool Lia Sorting.Sorted.
From Verif Require Import Base LayoutModel LayoutSpec LayoutProofs LayoutSums.
Import ListNotations.
Local Open Scope Z_scope.

Section H.
Context {L : Type}.
Implicit Types (s : list (piece L)) (p q : piece L).

Lemma piece_cost : forall s m p, piece_at s m = Some p ->
  cost s m = Some (value_at p m) /\ span_at s m = Some (pspan p) /\ slope_at s m = Some (pgrad p).
Proof. intros s m p H. unfold cost, span_at, slope_at. rewrite H. repeat split. Qed.

Lemma aligned_at : forall o s, left_margin o <= right_margin o -> aligned o s -> forall i p, nth_error s i = Some p ->
  (pknot p + pspan p < left_margin o -> exists q, nth_error s (S i) = Some q /\ pknot q + pspan p <= left_margin o) /\
  (pknot p + pspan p < right_margin o -> exists q, nth_error s (S i) = Some q /\ pknot q + pspan p <= right_margin o).
Proof.
  intros o s Ho. induction s as [|a s IH]; intros H i p Hn; [destruct i; discriminate|].
  cbn [aligned] in H. destruct H as [H1 H2]. destruct i as [|i].
  - injection Hn as ->. destruct s as [|b s].
    + split; intros; lia.
    + destruct H1 as [A B]. split; intros Hlt; exists b; cbn [nth_error]; auto.
  - cbn [nth_error] in *. apply IH; assumption.
Qed.

Section Plus.
Variables (o : options) (join : L -> L -> L) (s1 s2 : list (piece L)).
Hypothesis Ho : options_ok o.
Hypothesis H1 : proper s1.
Hypothesis H2 : proper s2.
Hypothesis Hal : aligned o s1.
Hypothesis Hpay : pays o s2.
Hypothesis Hsm1 : small s1.
Hypothesis Hsm2 : small s2.

Definition done (res : list (piece L)) (m : Z) : Prop :=
  exists c w g, cost res m = Some c /\ span_at res m = Some w /\ slope_at res m = Some g /\ beside o s1 s2 m c w g.

Lemma fields_in : forall s p, proper s -> In p s -> fields p /\ 0 <= pknot p.
Proof.
  intros s p ((p0 & s' & -> & E) & Hs & Hf) Hin. rewrite Forall_forall in Hf. split; [apply Hf; exact Hin|].
  destruct Hin as [<-|Hin]; [lia|]. cbn [map] in Hs. inversion Hs as [|? ? _ F]; subst. rewrite Forall_forall in F.
  specialize (F (pknot p) (in_map _ _ _ Hin)). lia.
Qed.

Lemma next_small : forall s i, small s -> next_knot (s, i) = infty \/ 
  exists q, nth_error s (S i) = Some q /\ next_knot (s, i) = pknot q /\ pknot q <= 2 ^ 28.
Proof.
  intros s i Hsm. unfold next_knot. cbn [fst snd]. destruct (nth_error s (S i)) as [q|] eqn:E; [|left; reflexivity].
  right. exists q. split; [reflexivity|]. split; [reflexivity|]. unfold small in Hsm. rewrite Forall_forall in Hsm.
  apply (Hsm q). eapply nth_error_In; eauto.
Qed.

Lemma is_inf_small : forall k, k <= 2 ^ 28 -> is_inf k = false.
Proof. intros k H. unfold is_inf. apply andb_false_iff. left. apply Z.leb_gt. unfold infty. lia. Qed.
Lemma is_inf_infty : is_inf infty = true. Proof. reflexivity. Qed.

Lemma on_next : forall s i p q, proper s -> nth_error s i = Some p -> nth_error s (S i) = Some q -> on (s, S i) (pknot q).
Proof.
  intros s i p q Hp Hn Hq. exists q. split; [exact Hq|]. split; [lia|]. apply next_knot_gt; assumption.
Qed.

Lemma round : forall f i j m1 res p1 p2,
  nth_error s1 i = Some p1 -> nth_error s2 j = Some p2 ->
  pknot p1 <= m1 < next_knot (s1, i) -> pknot p2 <= m1 + pspan p1 < next_knot (s2, j) ->
  0 <= m1 <= 2 ^ 28 -> wfb res m1 -> (forall m, 0 <= m < m1 -> done res m) ->
  exists res',
    (forall e, m1 < e -> wfb res' e) /\
    (forall m, 0 <= m -> (m < next_knot (s1, i) \/ next_knot (s1, i) = infty) ->
       (m + pspan p1 < next_knot (s2, j) \/ next_knot (s2, j) = infty) -> done res' m) /\
    hplus_loop (S f) o join (s1, i) (s2, j) m1 (m1 + pspan p1) res =
      (if is_inf (next_knot (s1, i)) && is_inf (next_knot (s2, j)) then Ok res'
       else if next_knot (s1, i) - m1 <=? next_knot (s2, j) - (m1 + pspan p1) then
         obind (cur (s1, S i)) (fun p1' =>
         obind (move_to_margin (s2, j) (next_knot (s1, i) + pspan p1')) (fun c2' =>
           hplus_loop f o join (s1, S i) c2' (next_knot (s1, i)) (next_knot (s1, i) + pspan p1') res'))
       else hplus_loop f o join (s1, i) (s2, S j) (next_knot (s2, j) - pspan p1) (next_knot (s2, j)) res').
Proof.
  intros f i j m1 res p1 p2 Hn1 Hn2 Hk1 Hk2 Hm1 Hw Hdone.
  destruct Ho as (O1 & O2 & O3 & O4).
  destruct (fields_in s1 p1 H1 (nth_error_In _ _ Hn1)) as [(F1 & F2 & F3 & F4) F5].
  destruct (fields_in s2 p2 H2 (nth_error_In _ _ Hn2)) as [(G1 & G2 & G3 & G4) G5].
  set (w := pspan p1) in *. set (m2 := m1 + w) in *.
  assert (A2 : piece_at s2 m2 = Some p2) by (apply (on_piece s2 j p2 m2 H2 Hn2); [lia|left; lia]).
  destruct (piece_cost _ _ _ A2) as (C2 & W2 & S2).
  destruct (Hpay m2 _ _ ltac:(lia) C2 S2) as [P1 P2].
  assert (V1 : 0 <= value_at p1 m1) by (unfold value_at; nia).
  set (g := pgrad p1 + pgrad p2 - (if 0 <=? m2 - left_margin o then left_cost o else 0)
               - (if 0 <=? m2 - right_margin o then right_cost o else 0)).
  set (v := value_at p1 m1 + value_at p2 m2
               - left_cost o * Z.max (m2 - left_margin o) 0 - right_cost o * Z.max (m2 - right_margin o) 0).
  assert (Eg : g = pgrad p1 + pgrad p2 - overhang_rate o m2).
  { unfold g, overhang_rate. destruct (Z.leb_spec 0 (m2 - left_margin o)), (Z.leb_spec (left_margin o) m2); try lia;
    destruct (Z.leb_spec 0 (m2 - right_margin o)), (Z.leb_spec (right_margin o) m2); lia. }
  assert (Ev : v = value_at p1 m1 + value_at p2 m2 - overhang o m2).
  { unfold v, overhang. rewrite (Z.max_comm (m2 - left_margin o)), (Z.max_comm (m2 - right_margin o)). lia. }
  set (qn := mkP m1 (pspan p1 + pspan p2) v g (join (plyt p1) (plyt p2))).
  destruct (add_extends res qn) as (res' & Eadd & Hw' & Hbelow & Habove).
  { exact Hw. }
  { split; [cbn [qn pknot]; unfold infty; lia|]. cbn [qn pspan pint pgrad]. rewrite Ev, Eg. fold w. lia. }
  { cbn [qn pknot]. lia. }
  exists res'. split; [|split].
  - intros e He. apply Hw'. exact He.
  - intros m H0 Hn Hn'. destruct (Z.lt_ge_cases m m1) as [Hlt|Hge].
    + destruct (Hdone m ltac:(lia)) as (c & w' & g' & D1 & D2 & D3 & D4). exists c, w', g'.
      unfold cost, span_at, slope_at in *. rewrite (Hbelow m) by (cbn [qn pknot]; exact Hlt). auto.
    + destruct (Habove m) as (l & El & (S1' & S2' & S3')); [cbn [qn pknot]; lia|].
      assert (B1 : piece_at s1 m = Some p1) by (apply (on_piece s1 i p1 m H1 Hn1); [lia|exact Hn]).
      assert (B2 : piece_at s2 (m + w) = Some p2) by (apply (on_piece s2 j p2 (m + w) H2 Hn2); [lia|exact Hn']).
      destruct (piece_cost _ _ _ B1) as (X1 & X2 & X3). destruct (piece_cost _ _ _ B2) as (Y1 & Y2 & Y3).
      destruct (piece_cost _ _ _ El) as (Z1 & Z2 & Z3).
      (* the margins are not crossed inside the segment *)
      assert (Hmar : forall M, M = left_margin o \/ M = right_margin o -> m2 < M -> m + w <= M - 1).
      { intros M HM Hlt.
        destruct (aligned_at o s1 ltac:(lia) Hal i p1 Hn1) as [AL AR].
        assert (HQ : exists q, nth_error s1 (S i) = Some q /\ pknot q + pspan p1 <= M).
        { destruct HM as [-> | ->]; [apply AL|apply AR]; fold w; unfold m2 in Hlt; lia. }
        destruct HQ as (q & Hq & Hle). fold w in Hle.
        assert (Enx : next_knot (s1, i) = pknot q) by (unfold next_knot; cbn [fst snd]; rewrite Hq; reflexivity).
        destruct Hn as [Hn|Hn]; [lia|].
        destruct (fields_in s1 q H1 (nth_error_In _ _ Hq)) as [(Q1 & _) _]. lia. }
      assert (Erate : overhang_rate o (m + w) = overhang_rate o m2).
      { unfold overhang_rate. f_equal.
        - destruct (Z.leb_spec (left_margin o) m2) as [Ha|Ha].
          + rewrite (proj2 (Z.leb_le _ _)) by lia. reflexivity.
          + specialize (Hmar (left_margin o) ltac:(auto) Ha). rewrite (proj2 (Z.leb_gt _ _)) by lia. reflexivity.
        - destruct (Z.leb_spec (right_margin o) m2) as [Ha|Ha].
          + rewrite (proj2 (Z.leb_le _ _)) by lia. reflexivity.
          + specialize (Hmar (right_margin o) ltac:(auto) Ha). rewrite (proj2 (Z.leb_gt _ _)) by lia. reflexivity. }
      assert (Eover : overhang o (m + w) = overhang o m2 + overhang_rate o m2 * (m - m1)).
      { assert (Em : m + w = m2 + (m - m1)) by (unfold m2; lia).
        assert (Hx : forall M, M = left_margin o \/ M = right_margin o ->
          Z.max 0 (m + w - M) = Z.max 0 (m2 - M) + (if M <=? m2 then 1 else 0) * (m - m1)).
        { intros M HM. destruct (Z.leb_spec M m2) as [Ha|Ha]; [lia|]. specialize (Hmar M HM Ha). lia. }
        unfold overhang, overhang_rate. rewrite !Hx by auto.
        destruct (left_margin o <=? m2), (right_margin o <=? m2); ring. }
      exists (value_at l m), (pspan l), (pgrad l). split; [exact Z1|]. split; [exact Z2|]. split; [exact Z3|].
      exists (value_at p1 m), w, (pgrad p1), (value_at p2 (m + w)), (pspan p2), (pgrad p2).
      split; [exact X1|]. split; [exact X2|]. split; [exact X3|]. split; [exact Y1|]. split; [exact Y2|]. split; [exact Y3|].
      split; [|split].
      * rewrite S3'. unfold value_at at 1. cbn [qn pint pgrad pknot]. rewrite Ev, Eg, Eover.
        rewrite (value_shift p1 m1 m), (value_shift p2 m2 (m + w)). unfold m2. ring.
      * rewrite S1'. reflexivity.
      * rewrite S2', Erate. cbn [qn pgrad]. exact Eg.
  - cbn [hplus_loop]. unfold cur at 1. cbn [fst snd]. rewrite Hn1. cbn [obind].
    unfold cur at 1. cbn [fst snd]. rewrite Hn2. cbn [obind]. fold w. fold m2. fold g. fold v. fold w in qn. fold qn.
    rewrite Eadd. cbn [obind]. reflexivity.
Qed.

Lemma plus_loop_ok : forall f i j m1 res p1 p2,
  nth_error s1 i = Some p1 -> nth_error s2 j = Some p2 ->
  pknot p1 <= m1 < next_knot (s1, i) -> pknot p2 <= m1 + pspan p1 < next_knot (s2, j) ->
  0 <= m1 <= 2 ^ 28 -> wfb res m1 -> (forall m, 0 <= m < m1 -> done res m) ->
  (Z.to_nat (2 ^ 28 - m1) < f)%nat ->
  exists r, hplus_loop f o join (s1, i) (s2, j) m1 (m1 + pspan p1) res = Ok r /\ proper r /\ (forall x, In x r -> pknot x <= 2 ^ 28) /\ forall m, 0 <= m -> done r m.
Proof.
  induction f as [|f IH]; intros i j m1 res p1 p2 Hn1 Hn2 Hk1 Hk2 Hm1 Hw Hdone Hf; [lia|].
  destruct (round f i j m1 res p1 p2 Hn1 Hn2 Hk1 Hk2 Hm1 Hw Hdone) as (res' & R1 & R2 & ->).
  destruct (fields_in s1 p1 H1 (nth_error_In _ _ Hn1)) as [(F1 & F2 & F3 & F4) F5].
  assert (Hsp : forall q, In q s1 -> pspan q <= 2 ^ 28).
  { unfold small in Hsm1. rewrite Forall_forall in Hsm1. intros q Hq. apply Hsm1. exact Hq. }
  pose proof (Hsp p1 (nth_error_In _ _ Hn1)) as Hs1.
  assert (Hmove : forall q, nth_error s1 (S i) = Some q -> next_knot (s1, i) = pknot q -> pknot q <= 2 ^ 28 ->
    (forall m, 0 <= m < pknot q -> done res' m) ->
    exists r, obind (cur (s1, S i)) (fun p1' =>
         obind (move_to_margin (s2, j) (next_knot (s1, i) + pspan p1')) (fun c2' =>
           hplus_loop f o join (s1, S i) c2' (next_knot (s1, i)) (next_knot (s1, i) + pspan p1') res')) = Ok r /\
      proper r /\ (forall x, In x r -> pknot x <= 2 ^ 28) /\ forall m, 0 <= m -> done r m).
  { intros q Hq Eq Hqs Hd. unfold cur. cbn [fst snd]. rewrite Hq. cbn [obind]. rewrite Eq in *.
    destruct (fields_in s1 q H1 (nth_error_In _ _ Hq)) as [(Q1 & Q2 & Q3 & Q4) Q5].
    pose proof (Hsp q (nth_error_In _ _ Hq)) as Hsq.
    destruct (move_ok s2 (pknot q + pspan q) j p2 H2) as (j' & E & (p2' & Hp2' & K1 & K2)); [lia|unfold infty; lia|exact Hn2|].
    rewrite E. cbn [obind]. cbn [fst snd] in Hp2'. apply (IH (S i) j' (pknot q) res' q p2' Hq Hp2').
    - split; [lia|]. apply next_knot_gt; assumption.
    - split; assumption.
    - lia.
    - apply R1. lia.
    - exact Hd.
    - lia. }
  destruct (next_small s1 i Hsm1) as [E1|(q1 & Hq1 & E1 & L1)].
  - destruct (next_small s2 j Hsm2) as [E2|(q2 & Hq2 & E2 & L2)].
    + rewrite E1, E2, is_inf_infty. cbn [andb]. exists res'. split; [reflexivity|]. split.
      * apply (wfb_proper res' (m1 + 1)); [apply R1; lia|lia].
      * split; [|intros m Hm; apply R2; auto]. intros x Hx.
        destruct (R1 (m1 + 1) ltac:(lia)) as (_ & _ & Hb & _). specialize (Hb x Hx). lia.
    + rewrite E2, (is_inf_small (pknot q2) L2), andb_false_r.
      rewrite (proj2 (Z.leb_gt _ _)) by (rewrite E1; unfold infty; lia).
      rewrite E2 in Hk2.
      pose proof (IH i (S j) (pknot q2 - pspan p1) res' p1 q2 Hn1 Hq2) as IHx.
      replace (pknot q2 - pspan p1 + pspan p1) with (pknot q2) in IHx by lia. apply IHx.
      * split; [lia|]. rewrite E1. unfold infty. lia.
      * split; [lia|]. apply next_knot_gt; assumption.
      * lia.
      * apply R1. lia.
      * intros m Hm. apply R2; [lia|auto|]. left. rewrite E2. lia.
      * lia.
  - destruct (next_small s2 j Hsm2) as [E2|(q2 & Hq2 & E2 & L2)].
    + rewrite E1, (is_inf_small (pknot q1) L1). cbn [andb]. rewrite <- E1.
      rewrite (proj2 (Z.leb_le _ _)) by (rewrite E1, E2; unfold infty; lia).
      apply (Hmove q1); auto. intros m Hm. apply R2; [lia|left; lia|auto].
    + rewrite E1, (is_inf_small (pknot q1) L1). cbn [andb]. rewrite <- E1.
      destruct (Z.leb_spec (next_knot (s1, i) - m1) (next_knot (s2, j) - (m1 + pspan p1))) as [Hle|Hgt].
      * apply (Hmove q1); auto. intros m Hm. apply R2; [lia|left; lia|]. left. lia.
      * rewrite E2 in *.
        pose proof (IH i (S j) (pknot q2 - pspan p1) res' p1 q2 Hn1 Hq2) as IHx.
        replace (pknot q2 - pspan p1 + pspan p1) with (pknot q2) in IHx by lia. apply IHx.
        -- split; [lia|]. lia.
        -- split; [lia|]. apply next_knot_gt; assumption.
        -- lia.
        -- apply R1. lia.
        -- intros m Hm. apply R2; [lia|left; lia|left; lia].
        -- lia.
Qed.

Lemma plus_ok : forall fuel, (Z.to_nat (2 ^ 28) < fuel)%nat -> exists r, hplus_solution fuel o join s1 s2 = Ok r /\ proper r /\
  (forall x, In x r -> pknot x <= 2 ^ 28) /\ forall m, 0 <= m -> done r m.
Proof.
  intros F HF. destruct H1 as ((p & s' & E & E0) & Hs & Hf). 
  assert (Hn : nth_error s1 0 = Some p) by (rewrite E; reflexivity).
  destruct (fields_in s1 p H1 (nth_error_In _ _ Hn)) as [(F1 & F2 & F3 & F4) F5].
  assert (Hsp : pspan p <= 2 ^ 28).
  { unfold small in Hsm1. rewrite Forall_forall in Hsm1. apply Hsm1. eapply nth_error_In; eauto. }
  assert (Hq : exists q, nth_error s2 0 = Some q) by (destruct H2 as ((q & s2' & -> & _) & _); exists q; reflexivity).
  destruct Hq as [q Hq].
  destruct (move_ok s2 (pspan p) 0 q H2 F2 ltac:(unfold infty; lia) Hq) as (j & Em & (p2 & Hp2 & K1 & K2)).
  cbn [fst snd] in Hp2.
  destruct (plus_loop_ok F 0 j 0 [] p p2 Hn Hp2) as (r & A & B & C).
  - split; [lia|]. rewrite <- E0. apply next_knot_gt; assumption.
  - split; assumption.
  - lia.
  - apply wfb_init.
  - intros m Hm. lia.
  - rewrite Z.sub_0_r. exact HF.
  - exists r. split; [|auto]. unfold hplus_solution, cur. cbn [fst snd]. rewrite Hn. cbn [obind].
    rewrite Em. cbn [obind]. exact A.
Qed.

End Plus.

(** The result pays for its own overhang too. *)
Lemma beside_pays : forall o s1 s2 (r : list (piece L)), pays o s1 -> pays o s2 ->
  (forall m w, 0 <= m -> span_at s1 m = Some w -> 0 <= w) ->
  (forall m, 0 <= m -> exists c w g, cost r m = Some c /\ span_at r m = Some w /\ slope_at r m = Some g /\ @beside L o s1 s2 m c w g) ->
  pays o r.
Proof.
  intros o s1 s2 r P1 P2 Hw H m c g Hm Hc Hg.
  destruct (H m Hm) as (c' & w' & g' & A & B & C & (c1 & w1 & g1 & c2 & w2 & g2 & X1 & X2 & X3 & Y1 & Y2 & Y3 & -> & -> & ->)).
  rewrite A in Hc. injection Hc as <-. rewrite C in Hg. injection Hg as <-.
  destruct (P1 m c1 g1 Hm X1 X3) as [Q1 Q2]. pose proof (Hw m w1 Hm X2).
  destruct (P2 (m + w1) c2 g2 ltac:(lia) Y1 Y3) as [R1 R2]. lia.
Qed.

(** ** Text *)

Lemma text_pieces : forall o span (lyt : L) m, 0 <= left_margin o <= right_margin o -> 0 <= span -> 0 <= m ->
  exists p, piece_at (text_solution o span lyt) m = Some p /\ pspan p = span /\ plyt p = lyt /\
    value_at p m = overhang o (m + span) + Z.max 0 (span - right_margin o) * (right_margin o - right_cost o) /\
    pgrad p = overhang_rate o (m + span).
Proof.
  intros o span lyt m Ho Hs Hm. unfold text_solution, overhang, overhang_rate.
  destruct (Z.leb_spec (right_margin o) span) as [Hr|Hr].
  - eexists. split.
    { unfold piece_at. cbn [filter pknot]. rewrite (proj2 (Z.leb_le 0 m)) by lia. reflexivity. }
    cbn [pspan plyt pgrad]. unfold value_at. cbn [pint pgrad pknot].
    rewrite !(proj2 (Z.leb_le _ (m + span))) by lia. rewrite !Z.max_r by lia. repeat split; ring.
  - rewrite (Z.max_l 0 (span - right_margin o)) by lia.
    destruct (Z.leb_spec (left_margin o) span) as [Hl|Hl].
    + destruct (Z.leb_spec (right_margin o - span) m) as [Hk|Hk].
      * eexists. split.
        { unfold piece_at. cbn [filter pknot]. rewrite (proj2 (Z.leb_le 0 m)), (proj2 (Z.leb_le _ m)) by lia. reflexivity. }
        cbn [pspan plyt pgrad]. unfold value_at. cbn [pint pgrad pknot].
        rewrite !(proj2 (Z.leb_le _ (m + span))) by lia. rewrite !Z.max_r by lia. repeat split; ring.
      * eexists. split.
        { unfold piece_at. cbn [filter pknot]. rewrite (proj2 (Z.leb_le 0 m)), (proj2 (Z.leb_gt _ m)) by lia. reflexivity. }
        cbn [pspan plyt pgrad]. unfold value_at. cbn [pint pgrad pknot].
        rewrite (proj2 (Z.leb_le _ (m + span))), (proj2 (Z.leb_gt _ (m + span))) by lia.
        rewrite (Z.max_r 0 (m + span - left_margin o)), (Z.max_l 0 (m + span - right_margin o)) by lia. repeat split; ring.
    + destruct (Z.leb_spec (right_margin o - span) m) as [Hk|Hk]; [|destruct (Z.leb_spec (left_margin o - span) m) as [Hk2|Hk2]].
      * eexists. split.
        { unfold piece_at. cbn [filter pknot]. rewrite (proj2 (Z.leb_le 0 m)), !(proj2 (Z.leb_le _ m)) by lia. reflexivity. }
        cbn [pspan plyt pgrad]. unfold value_at. cbn [pint pgrad pknot].
        rewrite !(proj2 (Z.leb_le _ (m + span))) by lia. rewrite !Z.max_r by lia. repeat split; ring.
      * eexists. split.
        { unfold piece_at. cbn [filter pknot]. rewrite (proj2 (Z.leb_le 0 m)), (proj2 (Z.leb_le (left_margin o - span) m)), (proj2 (Z.leb_gt _ m)) by lia. reflexivity. }
        cbn [pspan plyt pgrad]. unfold value_at. cbn [pint pgrad pknot].
        rewrite (proj2 (Z.leb_le _ (m + span))), (proj2 (Z.leb_gt _ (m + span))) by lia.
        rewrite (Z.max_r 0 (m + span - left_margin o)), (Z.max_l 0 (m + span - right_margin o)) by lia. repeat split; ring.
      * eexists. split.
        { unfold piece_at. cbn [filter pknot]. rewrite (proj2 (Z.leb_le 0 m)), !(proj2 (Z.leb_gt _ m)) by lia. reflexivity. }
        cbn [pspan plyt pgrad]. unfold value_at. cbn [pint pgrad pknot].
        rewrite !(proj2 (Z.leb_gt _ (m + span))) by lia.
        rewrite !Z.max_l by lia. repeat split; ring.
Qed.

Lemma text_proper : forall o span (lyt : L), options_ok o -> right_margin o < infty -> 0 <= span -> proper (text_solution o span lyt).
Proof.
  intros o span lyt (O1 & O2 & O3 & O4) Hr Hs. unfold text_solution.
  destruct (Z.leb_spec (right_margin o) span); [|destruct (Z.leb_spec (left_margin o) span)];
  (split; [eexists; eexists; split; [reflexivity|reflexivity]|split]).
  - repeat constructor.
  - constructor; [|constructor]. cbn [pknot pspan pint pgrad]. unfold infty. nia.
  - cbn [map pknot]. repeat constructor. lia.
  - constructor; [|constructor; [|constructor]]; cbn [pknot pspan pint pgrad]; unfold infty in *; nia.
  - cbn [map pknot]. repeat constructor; lia.
  - constructor; [|constructor; [|constructor; [|constructor]]]; cbn [pknot pspan pint pgrad]; unfold infty in *; nia.
Qed.

Lemma text_aligned : forall o span (lyt : L), options_ok o -> aligned o (text_solution o span lyt).
Proof.
  intros o span lyt (O1 & O2 & O3 & O4). unfold text_solution.
  destruct (Z.leb_spec (right_margin o) span); [|destruct (Z.leb_spec (left_margin o) span)];
  cbn [aligned pknot pspan]; repeat split; intros; lia.
Qed.

Lemma text_pays : forall o span (lyt : L), options_ok o -> 0 <= span -> pays o (text_solution o span lyt).
Proof.
  intros o span lyt (O1 & O2 & O3 & O4) Hs m c g Hm Hc Hg.
  destruct (text_pieces o span lyt m ltac:(lia) Hs Hm) as (p & A & B & C & D & E).
  destruct (piece_cost _ _ _ A) as (X1 & X2 & X3). rewrite X1 in Hc. injection Hc as <-. rewrite X3 in Hg. injection Hg as <-.
  rewrite D, E. split.
  - unfold overhang. 
    assert (0 <= left_cost o * (Z.max 0 (m + span - left_margin o) - Z.max 0 (m - left_margin o))) by (apply Z.mul_nonneg_nonneg; lia).
    destruct (Z.le_gt_cases span (right_margin o)) as [Hle|Hgt].
    + rewrite (Z.max_l 0 (span - right_margin o)) by lia.
      assert (0 <= right_cost o * (Z.max 0 (m + span - right_margin o) - Z.max 0 (m - right_margin o))) by (apply Z.mul_nonneg_nonneg; lia). lia.
    + assert (0 <= right_cost o * (Z.max 0 (m + span - right_margin o) - Z.max 0 (m - right_margin o) - (span - right_margin o))) by (apply Z.mul_nonneg_nonneg; lia).
      assert (0 <= (span - right_margin o) * right_margin o) by (apply Z.mul_nonneg_nonneg; lia).
      rewrite (Z.max_r 0 (span - right_margin o)) by lia. nia.
  - unfold overhang_rate. destruct (Z.leb_spec (left_margin o) m), (Z.leb_spec (left_margin o) (m + span)); try lia;
    destruct (Z.leb_spec (right_margin o) m), (Z.leb_spec (right_margin o) (m + span)); lia.
Qed.

Lemma text_small : forall o span (lyt : L), options_ok o -> 0 <= span <= 2 ^ 28 -> right_margin o <= 2 ^ 28 -> small (text_solution o span lyt).
Proof.
  intros o span lyt (O1 & O2 & O3 & O4) Hs Hr. unfold small, text_solution.
  destruct (Z.leb_spec (right_margin o) span); [|destruct (Z.leb_spec (left_margin o) span)];
  repeat constructor; cbn [pknot pspan]; lia.
Qed.

End H.
