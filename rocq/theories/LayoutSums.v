From Coq Require Import ZArith List Bool Lia Sorting.Sorted.
From Verif Require Import Base LayoutModel LayoutSpec LayoutProofs.
Import ListNotations.
Local Open Scope Z_scope.

Section S.
Context {L : Type}.
Implicit Types (s : list (piece L)) (p q : piece L).

Lemma exists_last' : forall A (l : list A), l = [] \/ exists l0 x, l = l0 ++ [x].
Proof. intros A [|a l]; [left; reflexivity|right]. destruct (exists_last (l := a :: l)) as (l0 & x & E); [discriminate|]. eauto. Qed.

Definition fields p : Prop := pknot p < infty /\ 0 <= pspan p /\ 0 <= pint p /\ 0 <= pgrad p.

(** A solution under construction whose next knot is [k]. *)
Definition wfb (fac : list (piece L)) (k : Z) : Prop :=
  StronglySorted Z.lt (map (@pknot L) fac) /\ Forall fields fac /\ (forall x, In x fac -> pknot x < k) /\
  ((fac = [] /\ k = 0) \/ exists f0 fl, fac = f0 :: fl /\ pknot f0 = 0).

Lemma wfb_proper : forall fac k, wfb fac k -> 0 < k -> proper fac.
Proof.
  intros fac k (A & B & C & [[-> ->]|D]) Hk; [lia|]. split; [exact D|]. split; [exact A|exact B].
Qed.

Lemma add_extends : forall fac q, wfb fac (pknot q) -> fields q -> 0 <= pknot q ->
  exists fac', add_piece fac q = Ok fac' /\ (forall k, pknot q < k -> wfb fac' k) /\
    (forall m, m < pknot q -> piece_at fac' m = piece_at fac m) /\
    (forall m, pknot q <= m -> exists l, piece_at fac' m = Some l /\ same_line l q).
Proof.
  intros fac q (Hs & Hf & Hb & Hh) (F0 & F1 & F2 & F3) Hk.
  destruct (add_piece_ok fac q Hk F1 F2 F3) as [fac' E]. exists fac'. split; [exact E|].
  assert (Hnew : fac' = fac ++ [q] ->
    (forall k, pknot q < k -> wfb fac' k) /\
    (forall m, m < pknot q -> piece_at fac' m = piece_at fac m) /\
    (forall m, pknot q <= m -> exists l, piece_at fac' m = Some l /\ same_line l q)).
  { intros ->. split; [|split].
    - intros k Hlt. split; [|split; [|split]].
      + rewrite map_app. apply sorted_snoc; [exact Hs|]. intros y Hy. apply in_map_iff in Hy.
        destruct Hy as (x & <- & Hx). auto.
      + apply Forall_app. split; [exact Hf|]. constructor; [|constructor]. repeat split; assumption.
      + intros x Hx. apply in_app_or in Hx. destruct Hx as [Hx|[<-|[]]]; [|exact Hlt]. specialize (Hb x Hx). lia.
      + right. destruct Hh as [[-> E0]|(f0 & fl & -> & E0)]; [exists q, []; auto|exists f0, (fl ++ [q]); auto].
    - intros m Hm. unfold piece_at. rewrite filter_app. cbn [filter].
      rewrite (proj2 (Z.leb_gt _ _)) by lia. rewrite app_nil_r. reflexivity.
    - intros m Hm. exists q. split; [|repeat split; reflexivity]. apply piece_at_split; [|exact Hm|contradiction].
      intros x Hx. specialize (Hb x Hx). lia. }
  destruct (exists_last' _ fac) as [->|(fac0 & l & ->)].
  - apply Hnew. unfold add_piece in E. cbn [rev] in E.
    destruct (_ || _); [discriminate|]. injection E as <-. reflexivity.
  - destruct (add_piece_same _ _ _ _ E) as [[-> SL]|(-> & _)]; [|apply Hnew; reflexivity].
    split; [|split].
    + intros k Hlt. split; [exact Hs|]. split; [exact Hf|]. split; [intros x Hx; specialize (Hb x Hx); lia|].
      destruct Hh as [[E0 _]|Hh]; [destruct fac0; discriminate|right; exact Hh].
    + reflexivity.
    + intros m Hm. exists l. split; [|exact SL]. apply piece_at_split; [| |contradiction].
      * intros x Hx. assert (pknot x < pknot q) by (apply Hb; apply in_or_app; auto). lia.
      * assert (pknot l < pknot q) by (apply Hb; apply in_or_app; right; left; reflexivity). lia.
Qed.

(** ** Cursors again *)

Lemma next_inf_last : forall s i p, proper s -> nth_error s i = Some p -> next_knot (s, i) = infty -> S i = length s.
Proof.
  intros s i p (_ & _ & Hf) Hn Hk. unfold next_knot in Hk. cbn [fst snd] in Hk.
  assert (i < length s)%nat by (apply nth_error_Some; congruence).
  destruct (nth_error s (S i)) as [q|] eqn:E.
  - rewrite Forall_forall in Hf. specialize (Hf q (nth_error_In _ _ E)). lia.
  - apply nth_error_None in E. lia.
Qed.

Lemma on_piece : forall s i p m, proper s -> nth_error s i = Some p -> pknot p <= m ->
  (m < next_knot (s, i) \/ next_knot (s, i) = infty) -> piece_at s m = Some p.
Proof.
  intros s i p m Hp Hn Hk [Hlt|Hinf].
  - destruct (Z.lt_ge_cases m infty) as [H|H].
    + eapply piece_at_cursor; eauto. apply Hp.
    + pose proof (next_knot_le (s, i) Hp). lia.
  - eapply piece_at_last; eauto; [apply Hp|]. eapply next_inf_last; eauto.
Qed.

(** ** dStar *)

Lemma dstar_some : forall margin l d, (forall k, In k l -> margin < k) ->
  dstar margin l (Some d) <= d /\ (forall k, In k l -> dstar margin l (Some d) <= k - margin) /\
  (dstar margin l (Some d) = d \/ exists k, In k l /\ dstar margin l (Some d) = k - margin).
Proof.
  induction l as [|k l IH]; intros d H; cbn [dstar].
  - split; [lia|]. split; [contradiction|auto].
  - rewrite (proj2 (Z.ltb_lt _ _)) by (apply H; left; reflexivity).
    destruct (IH (Z.min d (k - margin))) as (A & B & C); [intros x Hx; apply H; right; exact Hx|].
    split; [lia|]. split.
    + intros x [<-|Hx]; [lia|auto].
    + destruct C as [C|(x & Hx & C)]; [|right; exists x; split; [right|]; auto].
      destruct (Z.min_spec d (k - margin)) as [[_ M]|[_ M]]; [left; congruence|].
      right. exists k. split; [left; reflexivity|congruence].
Qed.

Lemma dstar_none : forall margin l, l <> [] -> (forall k, In k l -> margin < k) ->
  exists k, In k l /\ dstar margin l None = k - margin /\ forall k', In k' l -> k <= k'.
Proof.
  intros margin [|k l] Hne H; [congruence|]. cbn [dstar].
  rewrite (proj2 (Z.ltb_lt _ _)) by (apply H; left; reflexivity).
  destruct (dstar_some margin l (k - margin)) as (A & B & C); [intros x Hx; apply H; right; exact Hx|].
  destruct C as [C|(x & Hx & C)].
  - exists k. split; [left; reflexivity|]. split; [exact C|]. intros k' [<-|Hk']; [lia|]. specialize (B k' Hk'). lia.
  - exists x. split; [right; exact Hx|]. split; [exact C|]. intros k' [<-|Hk']; [lia|]. specialize (B k' Hk'). lia.
Qed.

Lemma dstar_stuck : forall margin l, (forall k, In k l -> k <= margin) -> dstar margin l None = 0.
Proof.
  induction l as [|k l IH]; intros H; cbn [dstar]; [reflexivity|].
  rewrite (proj2 (Z.ltb_ge _ _)) by (apply H; left; reflexivity). apply IH. intros x Hx. apply H. right. exact Hx.
Qed.

(** ** Sums *)

Lemma zsum_acc : forall l a, fold_left Z.add l a = a + zsum l.
Proof.
  unfold zsum. induction l as [|x l IH]; intros a; cbn [fold_left]; [lia|].
  rewrite (IH (a + x)), (IH (0 + x)). lia.
Qed.
Lemma zsum_cons : forall x l, zsum (x :: l) = x + zsum l.
Proof. intros. unfold zsum at 1. cbn [fold_left]. rewrite zsum_acc. lia. Qed.
Lemma zsum_nonneg : forall l, (forall x, In x l -> 0 <= x) -> 0 <= zsum l.
Proof.
  induction l as [|x l IH]; intros H; [reflexivity|]. rewrite zsum_cons.
  specialize (IH ltac:(intros y Hy; apply H; right; exact Hy)). specialize (H x (or_introl eq_refl)). lia.
Qed.

Lemma osum_pieces : forall (ss : list (list (piece L))) ps m, Forall2 (fun s p => piece_at s m = Some p) ss ps ->
  osum (map (fun s => cost s m) ss) = Some (zsum (map (fun p => value_at p m) ps)).
Proof.
  induction 1 as [|s p ss ps H HF IH]; [reflexivity|]. cbn [map]. rewrite zsum_cons.
  unfold cost at 1. rewrite H. cbn [option_map osum]. rewrite IH. reflexivity.
Qed.

Lemma osum_slopes : forall (ss : list (list (piece L))) ps m, Forall2 (fun s p => piece_at s m = Some p) ss ps ->
  osum (map (fun s => slope_at s m) ss) = Some (zsum (map (@pgrad L) ps)).
Proof.
  intros ss ps m HF. induction HF as [|s p ss ps A HF IH]; [reflexivity|]. cbn [map osum]. rewrite IH.
  unfold slope_at. rewrite A. cbn [option_map]. rewrite zsum_cons. reflexivity.
Qed.

Lemma zsum_value : forall ps margin m, zsum (map (fun p => value_at p m) ps)
  = zsum (map (fun p => @value_at L p margin) ps) + zsum (map (@pgrad L) ps) * (m - margin).
Proof.
  induction ps as [|p ps IH]; intros margin m; [cbn; lia|]. cbn [map]. rewrite !zsum_cons, (IH margin m).
  rewrite (value_shift p margin m). ring.
Qed.

(** ** vSumSolution *)

Section VSum.
Variable stack : list L -> L.
Variable ss : list (list (piece L)).
Hypothesis Hne : ss <> [].
Hypothesis Hprop : Forall proper ss.

Definition summed (res : list (piece L)) (m : Z) : Prop :=
  cost res m = osum (map (fun s => cost s m) ss) /\ cost res m <> None /\ span_at res m = span_at (last ss []) m /\
  slope_at res m = osum (map (fun s => slope_at s m) ss).

Lemma cur_pieces : forall cs margin, map fst cs = ss -> Forall (fun c => on c margin) cs ->
  exists ps, cur_all cs = Ok ps /\ ps <> [] /\
    Forall fields ps /\ Forall (fun p => pknot p <= margin) ps /\
    forall m, margin <= m -> (forall c, In c cs -> m < next_knot c \/ next_knot c = infty) ->
      Forall2 (fun s p => piece_at s m = Some p) ss ps.
Proof.
  intros cs margin Hss Hon. destruct (cur_all_ok cs margin Hon) as (ps & A & HF). exists ps. split; [exact A|].
  split; [|split; [|split]].
  - intros ->. inversion HF as [E|]. apply Hne. rewrite <- Hss, <- E. reflexivity.
  - clear A Hon Hne. subst ss. revert Hprop. induction HF as [|[s i] p cs ps (B & C) HF IH]; intros Hp; constructor.
    + cbn [map fst snd] in *. inversion Hp as [|? ? P1 P2]; subst. destruct P1 as (_ & _ & P). rewrite Forall_forall in P.
      apply P. eapply nth_error_In; eauto.
    + inversion Hp; subst. auto.
  - clear - HF. induction HF as [|c p cs ps (B & C) HF IH]; constructor; [lia|exact IH].
  - intros m Hm Hnext. clear A Hon Hne. subst ss. revert Hprop Hnext.
    induction HF as [|[s i] p cs ps (B & C) HF IH]; intros Hp Hnext; cbn [map fst snd] in *; constructor.
    + inversion Hp as [|? ? P1 P2]; subst. apply (on_piece s i p m P1 B); [lia|]. apply Hnext. left. reflexivity.
    + inversion Hp; subst. apply IH; [assumption|]. intros c Hc. apply Hnext. right. exact Hc.
Qed.

Lemma f2_last : forall (A B : Type) (R : A -> B -> Prop) l1 l2 d lastp r, Forall2 R l1 l2 -> rev l2 = lastp :: r ->
  R (last l1 d) lastp.
Proof.
  intros A B R l1 l2 d lastp r HF Hr.
  assert (E : l2 = rev r ++ [lastp]) by (rewrite <- (rev_involutive l2), Hr; reflexivity).
  subst l2. apply Forall2_app_inv_r in HF. destruct HF as (a & b & F1 & F2 & ->).
  inversion F2 as [|x y l' l'' H1 H2]; subst. inversion H2; subst. rewrite last_snoc. exact H1.
Qed.

(** One round of the loop. *)
Lemma vsum_round : forall f cs margin res, map fst cs = ss -> 0 <= margin < infty ->
  Forall (fun c => on c margin) cs -> wfb res margin -> (forall m, 0 <= m < margin -> summed res m) ->
  exists res' d nk, d = nk - margin /\ (exists c, In c cs /\ next_knot c = nk) /\ (forall c, In c cs -> nk <= next_knot c) /\
    margin < nk <= infty /\
    vsum_loop (S f) stack cs margin res =
      (if is_inf d then Ok res'
       else obind (move_all cs (margin + d)) (fun cs' => vsum_loop f stack cs' (margin + d) res')) /\
    wfb res' nk /\ (forall m, 0 <= m -> (m < nk \/ nk = infty) -> summed res' m).
Proof.
  intros f cs margin res Hss Hm Hon Hw Hsum.
  destruct (cur_pieces cs margin Hss Hon) as (ps & Eps & Hps & Hfld & Hkn & Hat).
  destruct (rev ps) as [|lastp r] eqn:Er.
  { exfalso. apply Hps. rewrite <- (rev_involutive ps), Er. reflexivity. }
  assert (Hcs : map (@next_knot L) cs <> []) by (intros E; apply map_eq_nil in E; subst cs; simpl in Hss; congruence).
  destruct (dstar_none margin (map next_knot cs) Hcs) as (nk & Hin & Ed & Hle).
  { intros k Hk. apply in_map_iff in Hk. destruct Hk as (c & <- & Hc). rewrite Forall_forall in Hon.
    destruct (Hon c Hc) as (p & _ & _ & H). exact H. }
  assert (Hle' : forall c, In c cs -> nk <= next_knot c) by (intros c Hc; apply Hle; apply in_map; exact Hc).
  apply in_map_iff in Hin. destruct Hin as (c0 & Ec0 & Hc0).
  assert (Hnk : margin < nk <= infty).
  { split.
    - rewrite Forall_forall in Hon. destruct (Hon c0 Hc0) as (p & _ & _ & H). lia.
    - rewrite <- Ec0. apply next_knot_le. rewrite Forall_forall in Hprop. apply Hprop. rewrite <- Hss. apply in_map. exact Hc0. }
  set (qn := mkP margin (pspan lastp) (zsum (map (fun p => value_at p margin) ps)) (zsum (map (@pgrad L) ps)) (stack (map (@plyt L) ps))).
  rewrite Forall_forall in Hfld, Hkn.
  assert (Hlast : In lastp ps) by (rewrite in_rev, Er; left; reflexivity).
  destruct (add_extends res qn) as (res' & Eadd & Hw' & Hbelow & Habove).
  { exact Hw. }
  { split; [cbn [qn pknot]; lia|]. cbn [qn pspan pint pgrad]. split; [apply (Hfld lastp Hlast)|]. split; apply zsum_nonneg.
    - intros x Hx. apply in_map_iff in Hx. destruct Hx as (p & <- & Hp). destruct (Hfld p Hp) as (A & B & C & D).
      specialize (Hkn p Hp). unfold value_at. nia.
    - intros x Hx. apply in_map_iff in Hx. destruct Hx as (p & <- & Hp). apply (Hfld p Hp). }
  { cbn [qn pknot]. lia. }
  exists res', (dstar margin (map next_knot cs) None), nk. split; [exact Ed|]. split; [eauto|]. split; [exact Hle'|].
  split; [exact Hnk|]. split; [|split].
  - cbn [vsum_loop]. rewrite Eps. cbn [obind]. rewrite Er. fold qn. rewrite Eadd. cbn [obind]. reflexivity.
  - apply Hw'. cbn [qn pknot]. lia.
  - intros m H0 Hnxt. destruct (Z.lt_ge_cases m margin) as [Hlt|Hge].
    + specialize (Hsum m ltac:(lia)). unfold summed, cost, span_at, slope_at in *.
      rewrite (Hbelow m) by (cbn [qn pknot]; exact Hlt). exact Hsum.
    + destruct (Habove m) as (l & El & (S1 & S2 & S3)); [cbn [qn pknot]; lia|].
      assert (HF : Forall2 (fun s p => piece_at s m = Some p) ss ps).
      { apply Hat; [lia|]. intros c Hc. specialize (Hle' c Hc). destruct Hnxt as [Hx|Hx]; [left; lia|].
        right. assert (next_knot c <= infty); [|lia]. apply next_knot_le. rewrite Forall_forall in Hprop.
        apply Hprop. rewrite <- Hss. apply in_map. exact Hc. }
      unfold summed. assert (Ec : cost res' m = Some (zsum (map (fun p => value_at p m) ps))).
      { unfold cost. rewrite El. cbn [option_map]. f_equal. change (value_at l m = zsum (map (fun p => value_at p m) ps)).
        rewrite S3. rewrite (zsum_value ps margin m). reflexivity. }
      split; [|split; [|split]].
      * rewrite Ec. symmetry. apply osum_pieces. exact HF.
      * rewrite Ec. discriminate.
      * unfold span_at. rewrite El. pose proof (f2_last _ _ _ _ _ [] _ _ HF Er) as Hl. cbn beta in Hl. rewrite Hl.
        cbn [option_map]. rewrite S1. reflexivity.
      * unfold slope_at at 1. rewrite El. cbn [option_map]. rewrite S2. cbn [qn pgrad]. symmetry. apply osum_slopes. exact HF.
Qed.

Lemma next_knot_in : forall (c : list (piece L) * nat) k, next_knot c = k -> k <> infty -> exists p, In p (fst c) /\ pknot p = k.
Proof.
  intros [s i] k E Hk. unfold next_knot in E. cbn [fst snd] in *. destruct (nth_error s (S i)) as [p|] eqn:En; [|congruence].
  exists p. split; [eapply nth_error_In; eauto|exact E].
Qed.

Lemma cursors_movable : forall cs k, map fst cs = ss -> Forall (fun c => on c k) cs ->
  Forall (fun c => proper (fst c) /\ exists p, nth_error (fst c) (snd c) = Some p) cs.
Proof. intros cs k H1 H2. eapply proper_cursors; eauto. Qed.

Lemma vsum_ok : (forall s p, In s ss -> In p s -> pknot p <= 4096) ->
  forall f cs margin res, map fst cs = ss -> 0 <= margin <= 4096 ->
  Forall (fun c => on c margin) cs -> wfb res margin -> (forall m, 0 <= m < margin -> summed res m) ->
  (Z.to_nat (4096 - margin) < f)%nat ->
  exists r, vsum_loop f stack cs margin res = Ok r /\ proper r /\ forall m, 0 <= m -> summed r m.
Proof.
  intros Hk. induction f as [|f IH]; intros cs margin res Hss Hm Hon Hw Hsum Hf; [lia|].
  destruct (vsum_round f cs margin res Hss ltac:(unfold infty; lia) Hon Hw Hsum)
    as (res' & d & nk & -> & (c0 & Hc0 & E0) & Hle & Hnk & -> & Hw' & Hs').
  destruct (Z.eq_dec nk infty) as [->|Hneq].
  - replace (is_inf (infty - margin)) with true
      by (symmetry; unfold is_inf; apply andb_true_iff; split; apply Z.leb_le; unfold infty; lia).
    exists res'. split; [reflexivity|]. split; [apply (wfb_proper _ _ Hw'); reflexivity|]. intros m H0. apply Hs'; auto.
  - destruct (next_knot_in c0 nk E0 Hneq) as (p & Hp & Ep).
    assert (nk <= 4096).
    { rewrite <- Ep. apply (Hk (fst c0)); [|exact Hp]. rewrite <- Hss. apply in_map. exact Hc0. }
    replace (is_inf (nk - margin)) with false
      by (symmetry; unfold is_inf; apply andb_false_iff; left; apply Z.leb_gt; unfold infty; lia).
    replace (margin + (nk - margin)) with nk by lia.
    destruct (move_all_ok nk cs) as (cs' & A & B & C); [lia|unfold infty; lia|eapply cursors_movable; eauto|].
    rewrite A. cbn [obind]. apply IH; [congruence|lia|exact C|exact Hw'| |lia].
    intros m H0. apply Hs'; lia.
Qed.

Lemma move_all_inf : forall cs, Forall (fun c => next_knot c = infty /\ exists p, nth_error (fst c) (snd c) = Some p /\ pknot p <= infty) cs ->
  move_all cs infty = Ok cs.
Proof.
  induction 1 as [|[s i] cs (A & p & B & C) HF IH]; [reflexivity|]. cbn [move_all].
  assert (E : @move_to_margin L (s, i) infty = Ok (s, i)).
  { unfold move_to_margin, cur. cbn [fst snd] in *. rewrite B. cbn [obind]. rewrite (proj2 (Z.ltb_ge _ _)) by exact C.
    cbn [advance_to]. rewrite A. rewrite Z.eqb_refl. rewrite andb_false_r. reflexivity. }
  rewrite E. cbn [obind]. rewrite IH. reflexivity.
Qed.

Lemma cur_all_fields : forall cs, map fst cs = ss -> (forall c, In c cs -> exists p, nth_error (fst c) (snd c) = Some p) ->
  exists ps, cur_all cs = Ok ps /\ length ps = length cs /\ Forall fields ps.
Proof.
  intros cs Hss Hx. subst ss. clear Hne. induction cs as [|[s i] cs IH].
  - exists []. repeat split. constructor.
  - inversion Hprop as [|? ? P1 P2]; subst. destruct (Hx (s, i) (or_introl eq_refl)) as (p & Hp). cbn [fst snd] in *.
    destruct IH as (ps & A & B & C); [exact P2|intros c Hc; apply Hx; right; exact Hc|].
    exists (p :: ps). cbn [cur_all]. unfold cur. cbn [fst snd]. rewrite Hp. cbn [obind]. rewrite A. cbn [omap].
    split; [reflexivity|]. split; [cbn [length]; congruence|]. constructor; [|exact C].
    destruct P1 as (_ & _ & P). rewrite Forall_forall in P. apply P. eapply nth_error_In; eauto.
Qed.

Lemma vsum_stuck : forall f cs res, map fst cs = ss ->
  Forall (fun c => next_knot c = infty /\ exists p, nth_error (fst c) (snd c) = Some p /\ pknot p <= infty) cs ->
  vsum_loop f stack cs infty res = Fuel.
Proof.
  induction f as [|f IH]; intros cs res Hss Hcs; [reflexivity|].
  destruct (cur_all_fields cs Hss) as (ps & A & B & C).
  { intros c Hc. rewrite Forall_forall in Hcs. destruct (Hcs c Hc) as (_ & p & Hp & _). eauto. }
  cbn [vsum_loop]. rewrite A. cbn [obind]. destruct (rev ps) as [|lastp r] eqn:Er.
  { exfalso. assert (ps = []) by (rewrite <- (rev_involutive ps), Er; reflexivity). subst ps. destruct cs; [|discriminate].
    simpl in Hss. congruence. }
  rewrite Forall_forall in C.
  assert (Hlast : In lastp ps) by (rewrite in_rev, Er; left; reflexivity).
  match goal with |- obind (add_piece res ?q) _ = _ => destruct (add_piece_ok res q) as [res' E] end.
  - cbn [pknot]. unfold infty. lia.
  - cbn [pspan]. apply (C lastp Hlast).
  - cbn [pint]. apply zsum_nonneg. intros x Hx. apply in_map_iff in Hx. destruct Hx as (p & <- & Hp).
    destruct (C p Hp) as (C1 & C2 & C3 & C4). unfold value_at. nia.
  - cbn [pgrad]. apply zsum_nonneg. intros x Hx. apply in_map_iff in Hx. destruct Hx as (p & <- & Hp). apply (C p Hp).
  - rewrite E. cbn [obind]. rewrite dstar_stuck.
    + change (is_inf 0) with false. cbn iota. rewrite Z.add_0_r. rewrite move_all_inf by exact Hcs. cbn [obind].
      apply IH; assumption.
    + intros k Hk. apply in_map_iff in Hk. destruct Hk as (c & <- & Hc). rewrite Forall_forall in Hcs.
      destruct (Hcs c Hc) as [H _]. lia.
Qed.

Lemma on_last_knots : forall s i margin p, proper s -> on (s, i) margin -> next_knot (s, i) = infty -> In p s -> pknot p <= margin.
Proof.
  intros s i margin p Hp (q & Hn & Hq & _) Hinf Hin. cbn [fst snd] in Hn.
  pose proof (next_inf_last s i q Hp Hn Hinf) as Hl.
  destruct (nth_split_piece _ _ _ Hn) as (s1 & s2 & -> & <-). rewrite app_length in Hl. simpl in Hl.
  destruct s2; [|simpl in Hl; lia]. destruct Hp as (_ & Hs & _).
  destruct (sorted_split _ _ _ Hs) as (A & _). apply in_app_or in Hin. destruct Hin as [Hin|[<-|[]]]; [|exact Hq].
  specialize (A p Hin). lia.
Qed.

Lemma vsum_diverges : (forall s p, In s ss -> In p s -> pknot p < infty - 4096) ->
  (exists s p, In s ss /\ In p s /\ 4096 < pknot p) ->
  forall f cs margin res, map fst cs = ss -> 0 <= margin < infty ->
  Forall (fun c => on c margin) cs -> wfb res margin -> (forall m, 0 <= m < margin -> summed res m) ->
  vsum_loop f stack cs margin res = Fuel.
Proof.
  intros Hk (s & p & Hs & Hp & Hbig). induction f as [|f IH]; intros cs margin res Hss Hm Hon Hw Hsum; [reflexivity|].
  destruct (vsum_round f cs margin res Hss Hm Hon Hw Hsum)
    as (res' & d & nk & -> & (c0 & Hc0 & E0) & Hle & Hnk & -> & Hw' & Hs').
  replace (margin + (nk - margin)) with nk by lia.
  destruct (Z.eq_dec nk infty) as [->|Hneq].
  - assert (Hinf : forall c, In c cs -> next_knot c = infty).
    { intros c Hc. specialize (Hle c Hc). assert (next_knot c <= infty); [|lia]. apply next_knot_le.
      rewrite Forall_forall in Hprop. apply Hprop. rewrite <- Hss. apply in_map. exact Hc. }
    assert (4096 < margin).
    { assert (Hs2 := Hs). rewrite <- Hss in Hs2. apply in_map_iff in Hs2. destruct Hs2 as ([s' i] & E & Hc).
      cbn [fst] in E. subst s'. rewrite Forall_forall in Hon, Hprop.
      pose proof (on_last_knots s i margin p (Hprop s Hs) (Hon _ Hc) (Hinf _ Hc) Hp). lia. }
    replace (is_inf (infty - margin)) with false
      by (symmetry; unfold is_inf; apply andb_false_iff; left; apply Z.leb_gt; lia).
    assert (HF : Forall (fun c => next_knot c = infty /\ exists p, nth_error (fst c) (snd c) = Some p /\ pknot p <= infty) cs).
    { rewrite Forall_forall in *. intros c Hc. split; [auto|]. destruct (Hon c Hc) as (q & A & B & C). exists q. split; [exact A|lia]. }
    rewrite move_all_inf by exact HF. cbn [obind]. apply vsum_stuck; assumption.
  - destruct (next_knot_in c0 nk E0 Hneq) as (q & Hq & Eq).
    assert (nk < infty - 4096).
    { rewrite <- Eq. apply (Hk (fst c0)); [|exact Hq]. rewrite <- Hss. apply in_map. exact Hc0. }
    replace (is_inf (nk - margin)) with false
      by (symmetry; unfold is_inf; apply andb_false_iff; left; apply Z.leb_gt; lia).
    destruct (move_all_ok nk cs) as (cs' & A & B & C); [lia|lia|eapply cursors_movable; eauto|].
    rewrite A. cbn [obind]. apply IH; [congruence|lia|exact C|exact Hw'|].
    intros m H0. apply Hs'; lia.
Qed.

End VSum.

Lemma wfb_init : wfb [] 0.
Proof. split; [constructor|]. split; [constructor|]. split; [contradiction|left; auto]. Qed.

Lemma vsum_solution_ok : forall stack (ss : list (list (piece L))), ss <> [] -> Forall proper ss ->
  (forall s p, In s ss -> In p s -> pknot p <= 4096) ->
  forall fuel, (4096 < fuel)%nat -> exists r, vsum_solution fuel stack ss = Ok r /\ proper r /\
  forall m, 0 <= m -> cost r m = osum (map (fun s => cost s m) ss) /\ cost r m <> None /\ span_at r m = span_at (last ss []) m /\
    slope_at r m = osum (map (fun s => slope_at s m) ss).
Proof.
  intros stack ss Hne Hp Hk fuel Hf. destruct ss as [|a [|b ss]]; [congruence| |].
  - exists a. inversion Hp as [|? ? Ha _]; subst. split; [reflexivity|]. split; [exact Ha|]. intros m Hm.
    destruct (proper_cost a m Ha Hm) as (p & A & _). cbn [map osum last]. unfold cost, span_at, slope_at. rewrite A. cbn [option_map].
    rewrite !Z.add_0_r. repeat split. discriminate.
  - set (ss' := a :: b :: ss) in *.
    change (vsum_solution fuel stack ss') with (vsum_loop fuel stack (map (fun s => (s, O)) ss') 0 []).
    apply (vsum_ok stack ss' Hne Hp Hk); [apply map_fst_init|lia|apply initial_on; exact Hp|apply wfb_init|lia|].
    change (Z.to_nat (4096 - 0)) with 4096%nat. exact Hf.
Qed.

Lemma vsum_solution_diverges : forall stack (ss : list (list (piece L))), (2 <= length ss)%nat -> Forall proper ss ->
  (forall s p, In s ss -> In p s -> pknot p < infty - 4096) ->
  (exists s p, In s ss /\ In p s /\ 4096 < pknot p) ->
  forall fuel, vsum_solution fuel stack ss = Fuel.
Proof.
  intros stack ss Hl Hp Hk Hx fuel. destruct ss as [|a [|b ss]]; [simpl in Hl; lia|simpl in Hl; lia|].
  set (ss' := a :: b :: ss) in *. assert (Hne : ss' <> []) by discriminate.
  change (vsum_solution fuel stack ss') with (vsum_loop fuel stack (map (fun s => (s, O)) ss') 0 []).
  apply (vsum_diverges stack ss' Hne Hp Hk Hx); [apply map_fst_init|unfold infty; lia|apply initial_on; exact Hp|apply wfb_init|lia].
Qed.

End S.
