(** Writing back the updated children of a node. *)
From Coq Require Import List Bool Arith ZArith Lia Permutation Sorted.
From Verif Require Import Base ImmModel ImmSpec ImmProofs.
Import ListNotations.
Local Open Scope nat_scope.

Definition of_field (f : nat) (x : step * nat) : bool := Nat.eqb (fst (fst x)) f.
Definition head_field (g : list (step * nat)) : nat := match g with y :: _ => fst (fst y) | [] => 0 end.

Lemma filter_nil {A} (p : A -> bool) l : (forall x, In x l -> p x = false) -> filter p l = [].
Proof.
  induction l as [|x l IH]; intros H; [reflexivity|]. cbn. rewrite (H x) by (now left). apply IH. intros y Hy. apply H. now right.
Qed.

Lemma group_by_spec l : StronglySorted field_le l ->
  (forall g, In g (group_by l) -> g <> [] /\ g = filter (of_field (head_field g)) l) /\
  (forall x, In x l -> exists g, In g (group_by l) /\ head_field g = fst (fst x)) /\
  StronglySorted lt (map head_field (group_by l)) /\
  (forall x l', l = x :: l' -> exists g gs, group_by l = (x :: g) :: gs).
Proof.
  induction l as [|x l IH]; intros S.
  - cbn. repeat split; try tauto; [constructor|discriminate].
  - inversion S as [|? ? S' F]; subst. specialize (IH S'). destruct IH as (A & B & C & D).
    destruct l as [|z l].
    + cbn. repeat split.
      * destruct H as [<-|[]]. discriminate.
      * destruct H as [<-|[]]. cbn. unfold of_field. now rewrite Nat.eqb_refl.
      * intros y [<-|[]]. exists [x]. auto.
      * constructor; [constructor|constructor].
      * intros y l' E. inversion E; subst. eauto.
    + destruct (D z l eq_refl) as (g & gs & E).
      assert (G : group_by (x :: z :: l) = if Nat.eqb (fst (fst x)) (fst (fst z)) then (x :: z :: g) :: gs else [x] :: (z :: g) :: gs).
      { change (group_by (x :: z :: l)) with (match group_by (z :: l) with
          | (y :: g) :: gs => if Nat.eqb (fst (fst x)) (fst (fst y)) then (x :: y :: g) :: gs else [x] :: (y :: g) :: gs
          | gs => [x] :: gs end). now rewrite E. }
      rewrite G. rewrite E in A, B, C. cbn [map head_field] in C. inversion C as [|? ? C1 C2]; subst.
      rewrite Forall_forall in C2.
      destruct (Nat.eqb_spec (fst (fst x)) (fst (fst z))) as [Q|Q].
      * split; [|split; [|split]].
        -- intros g0 [<-|H].
           ++ split; [discriminate|]. cbn [head_field]. change (filter (of_field (fst (fst x))) (x :: z :: l)) with
               (if of_field (fst (fst x)) x then x :: filter (of_field (fst (fst x))) (z :: l) else filter (of_field (fst (fst x))) (z :: l)).
              unfold of_field at 1. rewrite Nat.eqb_refl. f_equal. rewrite Q. apply (A (z :: g)). now left.
           ++ destruct (A g0 (or_intror H)) as [A1 A2]. split; [exact A1|]. rewrite A2 at 1.
              change (filter (of_field (head_field g0)) (x :: z :: l)) with
               (if of_field (head_field g0) x then x :: filter (of_field (head_field g0)) (z :: l) else filter (of_field (head_field g0)) (z :: l)).
              specialize (C2 (head_field g0) (in_map head_field _ _ H)). unfold of_field at 2.
              destruct (Nat.eqb_spec (fst (fst x)) (head_field g0)); [lia|reflexivity].
        -- intros y [<-|H]; [exists (x :: z :: g); split; [now left|reflexivity]|].
           destruct (B y H) as (g0 & [<-|H1] & H2).
           ++ exists (x :: z :: g). split; [now left|]. cbn in *. congruence.
           ++ exists g0. split; [now right|auto].
        -- cbn [map head_field]. rewrite Q. constructor; auto. now apply Forall_forall.
        -- intros y l' H. inversion H; subst. eauto.
      * assert (LT : fst (fst x) < fst (fst z)).
        { rewrite Forall_forall in F. specialize (F z (or_introl eq_refl)). unfold field_le in F. lia. }
        assert (LE : forall y, In y (z :: l) -> fst (fst z) <= fst (fst y)).
        { intros y [<-|H]; [lia|]. inversion S' as [|? ? _ F']; subst. rewrite Forall_forall in F'. now apply F'. }
        split; [|split; [|split]].
        -- intros g0 [<-|H].
           ++ split; [discriminate|]. cbn [head_field]. change (filter (of_field (fst (fst x))) (x :: z :: l)) with
               (if of_field (fst (fst x)) x then x :: filter (of_field (fst (fst x))) (z :: l) else filter (of_field (fst (fst x))) (z :: l)).
              unfold of_field at 1. rewrite Nat.eqb_refl. f_equal. symmetry. apply filter_nil. intros y Hy.
              apply LE in Hy. unfold of_field. apply Nat.eqb_neq. lia.
           ++ destruct (A g0 H) as [A1 A2]. split; [exact A1|]. rewrite A2 at 1.
              change (filter (of_field (head_field g0)) (x :: z :: l)) with
               (if of_field (head_field g0) x then x :: filter (of_field (head_field g0)) (z :: l) else filter (of_field (head_field g0)) (z :: l)).
              unfold of_field at 2. destruct (Nat.eqb_spec (fst (fst x)) (head_field g0)) as [W|]; [|reflexivity].
              exfalso. destruct H as [<-|H]; [cbn in W; lia|]. specialize (C2 _ (in_map head_field _ _ H)). lia.
        -- intros y [<-|H]; [exists [x]; split; [now left|reflexivity]|].
           destruct (B y H) as (g0 & H1 & H2). exists g0. split; [now right|auto].
        -- cbn [map head_field]. constructor; [exact C|]. constructor; [exact LT|]. apply Forall_forall. intros v Hv.
           specialize (C2 v Hv). lia.
        -- intros y l' H. inversion H; subst. eauto.
Qed.

(** ** Lookup in lists with distinct steps *)
Definition val (L : list (step * nat)) (st : step) : nat :=
  match find (fun y => step_eqb (fst y) st) L with Some y => snd y | None => 0 end.

Lemma find_step {A} (L : list (step * A)) st y : NoDup (map fst L) ->
  (find (fun y => step_eqb (fst y) st) L = Some y <-> In y L /\ fst y = st).
Proof.
  induction L as [|z L IH]; intros N; [cbn; split; [discriminate|tauto]|]. cbn [map] in N. inversion N as [|? ? N1 N2]; subst.
  cbn [find]. destruct (step_eqb (fst z) st) eqn:E.
  - apply step_eqb_eq in E. split.
    + intros H. injection H as <-. split; [now left|auto].
    + intros [[<-|H] H']; [reflexivity|]. exfalso. apply N1. rewrite E, <- H'. now apply in_map.
  - apply step_eqb_neq in E. rewrite (IH N2). split; [intros [H H']; split; [now right|auto]|].
    intros [[<-|H] H']; [congruence|auto].
Qed.
Lemma val_in L y : NoDup (map fst L) -> In y L -> val L (fst y) = snd y.
Proof. intros N H. unfold val. now rewrite (proj2 (find_step L (fst y) y N) (conj H eq_refl)). Qed.
Lemma map_val L : NoDup (map fst L) -> map (fun st => (st, val L st)) (map fst L) = L.
Proof.
  intros N. rewrite map_map. transitivity (map (fun x => x) L); [|apply map_id]. apply map_ext_in. intros y H. rewrite val_in by auto. now destruct y.
Qed.
Lemma nodup_by_field (l : list step) : (forall f, NoDup (filter (fun st => Nat.eqb (fst st) f) l)) -> NoDup l.
Proof.
  induction l as [|x l IH]; intros H; [constructor|]. constructor.
  - intros I. specialize (H (fst x)). cbn in H. rewrite Nat.eqb_refl in H. inversion H as [|? ? H1 _]; subst. apply H1.
    apply filter_In. split; [auto|apply Nat.eqb_refl].
  - apply IH. intros f. specialize (H f). cbn in H. destruct (Nat.eqb (fst x) f); [now inversion H|auto].
Qed.
Lemma shape_nodup f l : field_shape f l -> NoDup l.
Proof.
  intros [->|[->|[->|[(n & ->)|(ks & N & ->)]]]].
  - constructor.
  - repeat constructor; auto.
  - repeat constructor; auto.
  - apply FinFun.Injective_map_NoDup; [intros a b E; congruence|apply seq_NoDup].
  - apply FinFun.Injective_map_NoDup; auto. intros a b E; congruence.
Qed.
Lemma shaped_nodup steps : well_shaped steps -> NoDup steps.
Proof. intros H. apply nodup_by_field. intros f. eapply shape_nodup, H. Qed.
Lemma filter_fields f (L : list (step * nat)) :
  map fst (filter (of_field f) L) = filter (fun st => Nat.eqb (fst st) f) (map fst L).
Proof.
  induction L as [|x L IH]; [reflexivity|]. cbn. unfold of_field at 1. destruct (Nat.eqb (fst (fst x)) f); cbn; now rewrite IH.
Qed.
Lemma nth_idx f (g : list (step * nat)) : forall a n, map fst g = map (fun i => (f, Idx i)) (seq a n) ->
  forall j, j < n -> exists v, nth_error (map snd g) j = Some v /\ In ((f, Idx (a + j)), v) g.
Proof.
  induction g as [|[st v] g IH]; intros a n E j Hj.
  - destruct n; [lia|discriminate].
  - destruct n as [|n]; [lia|]. cbn in E. injection E as E1 E2. destruct j as [|j].
    + exists v. split; [reflexivity|]. left. rewrite Nat.add_0_r. congruence.
    + destruct (IH (S a) n E2 j ltac:(lia)) as (w & A & B). exists w. split; [exact A|]. right.
      replace (a + S j) with (S a + j) by lia. exact B.
Qed.

Section Assign.
  Variable L : list (step * nat).
  Hypothesis Shape : well_shaped (map fst L).
  Let N : NoDup (map fst L) := shaped_nodup _ Shape.

  Lemma group_nodup f : NoDup (map fst (filter (of_field f) L)).
  Proof. rewrite filter_fields. apply NoDup_filter, N. Qed.

  Lemma assigned_val f (st : step) (i : nat) : In st (map fst L) ->
    assigned (filter (of_field f) L) f (st, i) = [if Nat.eqb (fst st) f then (st, val L st) else (st, i)].
  Proof.
    intros H. unfold assigned. cbn [fst]. destruct (Nat.eqb_spec (fst st) f) as [Q|Q]; cbn [negb]; [|reflexivity].
    assert (I : In st (map fst (filter (of_field f) L))).
    { rewrite filter_fields. apply filter_In. split; auto. now apply Nat.eqb_eq. }
    pose proof (group_nodup f) as Ng.
    assert (V : forall v, In (st, v) (filter (of_field f) L) -> val L st = v).
    { intros v Hv. apply filter_In in Hv. apply (val_in L (st, v) N). tauto. }
    pose proof (Shape f) as Sh. rewrite <- filter_fields in Sh. revert I Ng V Sh. generalize (filter (of_field f) L) as g.
    intros g I Ng V Sh. destruct Sh as [E|[E|[E|[(n & E)|(ks & _ & E)]]]]; rewrite E in I.
    - destruct I.
    - destruct I as [<-|[]]. cbn [snd]. destruct g as [|[st v] g]; [discriminate|]. injection E as -> _.
      cbn [snd]. rewrite (V v); [reflexivity|now left].
    - destruct I as [<-|[]]. cbn [snd]. destruct g as [|[st v] g]; [discriminate|]. injection E as -> _.
      cbn [snd]. rewrite (V v); [reflexivity|now left].
    - apply in_map_iff in I. destruct I as (j & <- & I). apply in_seq in I. cbn [snd].
      destruct (nth_idx f g 0 n E j ltac:(lia)) as (v & A & B). rewrite A. now rewrite (V v B).
    - apply in_map_iff in I. destruct I as (k & <- & I). cbn [snd].
      assert (I' : In (f, Key k) (map fst g)) by (rewrite E; apply in_map_iff; eauto).
      apply in_map_iff in I'. destruct I' as ([st v] & E' & I'). cbn [fst] in E'. subst st.
      assert (F : find (fun y => step_eqb (fst y) (f, Key k)) (rev g) = Some (f, Key k, v)).
      { apply find_step; [|split; [now apply -> in_rev|reflexivity]]. rewrite map_rev. now apply NoDup_rev. }
      cbn [fst]. rewrite F. cbn [snd]. now rewrite (V v I').
  Qed.

  Lemma assign_group_val f sub : map fst sub = map fst L -> filter (of_field f) L <> [] ->
    assign_group sub (filter (of_field f) L) = Ok (map (fun x => if Nat.eqb (fst (fst x)) f then (fst x, val L (fst x)) else x) sub).
  Proof.
    intros E NE.
    assert (HF : forall y g, filter (of_field f) L = y :: g -> fst (fst y) = f).
    { intros y g G. assert (In y (filter (of_field f) L)) by (rewrite G; now left). apply filter_In in H. now apply Nat.eqb_eq. }
    assert (M : forall l, incl (map fst l) (map fst L) -> flat_map (assigned (filter (of_field f) L) f) l =
       map (fun x => if Nat.eqb (fst (fst x)) f then (fst x, val L (fst x)) else x) l).
    { induction l as [|[st i] l IH]; intros I; [reflexivity|]. cbn [flat_map]. rewrite assigned_val by (apply I; now left).
      cbn [map fst app]. rewrite IH; [reflexivity|]. intros z Hz. apply I. now right. }
    unfold assign_group. destruct (filter (of_field f) L) as [|y g] eqn:G; [congruence|]. specialize (HF y g eq_refl). rewrite HF.
    assert (C : existsb (fun x => Nat.eqb (fst (fst x)) f && single x) sub && negb (Nat.eqb (length (y :: g)) 1) = false).
    { apply andb_false_iff. destruct (existsb (fun x => Nat.eqb (fst (fst x)) f && single x) sub) eqn:X; [right|now left].
      apply existsb_exists in X. destruct X as ([st i] & X1 & X2). apply andb_true_iff in X2. destruct X2 as [X2 X3].
      cbn [fst] in X2. apply Nat.eqb_eq in X2.
      assert (I : In st (map fst (y :: g))).
      { rewrite <- G, filter_fields. apply filter_In. split; [|now apply Nat.eqb_eq]. rewrite <- E. now apply (in_map fst) in X1. }
      assert (Sh : field_shape f (map fst (y :: g))) by (rewrite <- G, filter_fields; apply Shape).
      destruct Sh as [W|[W|[W|[(n & W)|(ks & _ & W)]]]]; try discriminate.
      - apply (f_equal (@length _)) in W. rewrite map_length in W. now rewrite W.
      - apply (f_equal (@length _)) in W. rewrite map_length in W. now rewrite W.
      - rewrite W in I. apply in_map_iff in I. destruct I as (j & <- & _). discriminate.
      - rewrite W in I. apply in_map_iff in I. destruct I as (j & <- & _). discriminate. }
    rewrite C. f_equal. apply M. rewrite E. apply incl_refl.
  Qed.

  Lemma assign_all_val gs : (forall g, In g gs -> g <> [] /\ g = filter (of_field (head_field g)) L) ->
    forall sub, map fst sub = map fst L ->
    assign_all sub gs = Ok (map (fun x => if existsb (fun g => Nat.eqb (fst (fst x)) (head_field g)) gs then (fst x, val L (fst x)) else x) sub).
  Proof.
    unfold assign_all. induction gs as [|g gs IH]; intros H sub E.
    - cbn. rewrite map_id. reflexivity.
    - cbn [fold_left obind]. destruct (H g (or_introl eq_refl)) as [NE Q].
      assert (A : assign_group sub g = Ok (map (fun x => if Nat.eqb (fst (fst x)) (head_field g) then (fst x, val L (fst x)) else x) sub)).
      { transitivity (assign_group sub (filter (of_field (head_field g)) L)); [now rewrite <- Q|].
        apply assign_group_val; auto. rewrite <- Q. exact NE. }
      rewrite A. rewrite IH.
      + f_equal. rewrite map_map. apply map_ext. intros x. cbn [existsb].
        destruct (Nat.eqb (fst (fst x)) (head_field g)); cbn [fst orb]; [|reflexivity]. now destruct (existsb _ gs).
      + intros g' Hg'. apply H. now right.
      + rewrite <- E, map_map. apply map_ext. intros x. now destruct (Nat.eqb (fst (fst x)) (head_field g)).
  Qed.

  (** With a stable sort the children come back where they were. *)
  Lemma assign_stable srt sub : Permutation L (srt L) /\ StronglySorted field_le (srt L) ->
    (forall f, filter (fun x => Nat.eqb (fst (fst x)) f) (srt L) = filter (fun x => Nat.eqb (fst (fst x)) f) L) ->
    map fst sub = map fst L ->
    assign_all sub (group_by (srt L)) = Ok L.
  Proof.
    intros So St E. destruct So as [P S]. destruct (group_by_spec (srt L) S) as (A & B & _).
    rewrite assign_all_val; auto.
    - f_equal. transitivity (map (fun st => (st, val L st)) (map fst L)); [|exact (map_val L N)]. rewrite <- E, map_map. apply map_ext_in. intros x Hx.
      assert (Hs : In (fst x) (map fst L)) by (rewrite <- E; now apply in_map).
      apply in_map_iff in Hs. destruct Hs as (y & Ey & Hy). apply (Permutation_in _ P) in Hy. destruct (B y Hy) as (g & G1 & G2).
      assert (X : existsb (fun g => Nat.eqb (fst (fst x)) (head_field g)) (group_by (srt L)) = true).
      { apply existsb_exists. exists g. split; auto. apply Nat.eqb_eq. congruence. }
      now rewrite X.
    - intros g Hg. destruct (A g Hg) as [A1 A2]. split; [exact A1|]. rewrite A2 at 1. apply St.
  Qed.
End Assign.
