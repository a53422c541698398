(** Proofs about two-way maps and the source registry. *)
From Verif Require Import Base DodModel DodSpec DodProofs BimapModel BimapSpec.

Section Proofs.
  Context {L R : Type} (eql : L -> L -> bool) (eqr : R -> R -> bool).
  Context (eql_ok : forall a b, eql a b = true <-> a = b) (eqr_ok : forall a b, eqr a b = true <-> a = b).
  Implicit Types (m : bimap L R).

  Lemma eql_refl : forall l, eql l l = true. Proof. intros; now apply eql_ok. Qed.
  Lemma eqr_refl : forall r, eqr r r = true. Proof. intros; now apply eqr_ok. Qed.
  Lemma eql_false : forall a b, eql a b = false <-> a <> b.
  Proof. intros. rewrite <- eql_ok. destruct (eql a b); split; congruence. Qed.
  Lemma eqr_false : forall a b, eqr a b = false <-> a <> b.
  Proof. intros. rewrite <- eqr_ok. destruct (eqr a b); split; congruence. Qed.

  Lemma find_left_in : forall m l p, find_left eql m l = Some p -> In p m /\ fst p = l.
  Proof.
    induction m as [|q m IH]; cbn; intros l p H; [discriminate|]. destruct (eql (fst q) l) eqn:E.
    - inversion H; subst. apply eql_ok in E. auto.
    - apply IH in H. tauto.
  Qed.
  Lemma find_left_none : forall m l, find_left eql m l = None -> forall r, ~ In (l, r) m.
  Proof.
    induction m as [|q m IH]; cbn; intros l H r; auto. destruct (eql (fst q) l) eqn:E; [discriminate|].
    intros [->|Hin]; [cbn in E; rewrite eql_refl in E; discriminate|]. eapply IH; eauto.
  Qed.
  Lemma find_right_in : forall m r p, find_right eqr m r = Some p -> In p m /\ snd p = r.
  Proof.
    induction m as [|q m IH]; cbn; intros r p H; [discriminate|]. destruct (eqr (snd q) r) eqn:E.
    - inversion H; subst. apply eqr_ok in E. auto.
    - apply IH in H. tauto.
  Qed.
  Lemma find_right_none : forall m r, find_right eqr m r = None -> forall l, ~ In (l, r) m.
  Proof.
    induction m as [|q m IH]; cbn; intros r H l; auto. destruct (eqr (snd q) r) eqn:E; [discriminate|].
    intros [->|Hin]; [cbn in E; rewrite eqr_refl in E; discriminate|]. eapply IH; eauto.
  Qed.

  Definition left_unique m := forall l r r', In (l, r) m -> In (l, r') m -> r = r'.
  Definition right_unique m := forall l l' r, In (l, r) m -> In (l', r) m -> l = l'.

  Lemma get_right_iff : forall m l r, left_unique m -> (get_right eql m l = Some r <-> In (l, r) m).
  Proof.
    intros m l r Hu. unfold get_right. destruct (find_left eql m l) as [[a b]|] eqn:E; cbn.
    - destruct (find_left_in _ _ _ E) as [Hin Hf]. cbn in Hf. subst a. split.
      + intros H; inversion H; subst. auto.
      + intros H. f_equal. eapply Hu; eauto.
    - split; [discriminate|]. intros H. exfalso. eapply find_left_none; eauto.
  Qed.
  Lemma get_left_iff : forall m l r, right_unique m -> (get_left eqr m r = Some l <-> In (l, r) m).
  Proof.
    intros m l r Hu. unfold get_left. destruct (find_right eqr m r) as [[a b]|] eqn:E; cbn.
    - destruct (find_right_in _ _ _ E) as [Hin Hf]. cbn in Hf. subst b. split.
      + intros H; inversion H; subst. auto.
      + intros H. f_equal. eapply Hu; eauto.
    - split; [discriminate|]. intros H. exfalso. eapply find_right_none; eauto.
  Qed.
  Lemma contains_left_iff : forall m l, contains_left eql m l = true <-> exists r, In (l, r) m.
  Proof.
    intros m l. unfold contains_left. destruct (find_left eql m l) as [[a b]|] eqn:E.
    - destruct (find_left_in _ _ _ E) as [Hin Hf]. cbn in Hf. subst a. split; eauto.
    - split; [discriminate|]. intros (r & H). exfalso. eapply find_left_none; eauto.
  Qed.
  Lemma contains_right_iff : forall m r, contains_right eqr m r = true <-> exists l, In (l, r) m.
  Proof.
    intros m r. unfold contains_right. destruct (find_right eqr m r) as [[a b]|] eqn:E.
    - destruct (find_right_in _ _ _ E) as [Hin Hf]. cbn in Hf. subst b. split; eauto.
    - split; [discriminate|]. intros (l & H). exfalso. eapply find_right_none; eauto.
  Qed.

  Lemma add_refused_iff : forall m l r, add_unique_11 eql eqr m l r = None <->
    (exists r', In (l, r') m) \/ (exists l', In (l', r) m).
  Proof.
    intros. unfold add_unique_11. rewrite <- contains_left_iff, <- contains_right_iff.
    destruct (contains_left eql m l), (contains_right eqr m r); cbn; split; auto; try discriminate; intuition discriminate.
  Qed.
  Lemma add_taken : forall m l r m', add_unique_11 eql eqr m l r = Some m' -> m' = m ++ [(l, r)] /\
    (forall r', ~ In (l, r') m) /\ (forall l', ~ In (l', r) m).
  Proof.
    intros m l r m' H. assert (Hn : add_unique_11 eql eqr m l r <> None) by congruence.
    rewrite add_refused_iff in Hn. unfold add_unique_11, boost_insert_11 in H.
    destruct (contains_left eql m l || contains_right eqr m r); [discriminate|]. inversion H; subst.
    split; auto. split; intros x Hx; apply Hn; eauto.
  Qed.

  Lemma erase_left_in : forall m l p, In p (erase_left eql m l) <-> In p m /\ fst p <> l.
  Proof. intros. unfold erase_left. rewrite filter_In, negb_true_iff, eql_false. tauto. Qed.
  Lemma erase_right_in : forall m r p, In p (erase_right eqr m r) <-> In p m /\ snd p <> r.
  Proof. intros. unfold erase_right. rewrite filter_In, negb_true_iff, eqr_false. tauto. Qed.

  Lemma step11_unique : forall m o, left_unique m -> right_unique m ->
    left_unique (step11 eql eqr m o) /\ right_unique (step11 eql eqr m o).
  Proof.
    intros m o Hl Hr. destruct o as [l r|l|r]; cbn.
    - destruct (add_unique_11 eql eqr m l r) as [m'|] eqn:E; auto.
      destruct (add_taken _ _ _ _ E) as (-> & H1 & H2). unfold left_unique, right_unique in *.
      split; intros a b c Ha Hb; rewrite in_app_iff in *; cbn in *;
      destruct Ha as [Ha|[Ha|[]]]; destruct Hb as [Hb|[Hb|[]]]; try (inversion Ha; subst); try (inversion Hb; subst); auto; try (eapply Hl; eauto; fail); try (eapply Hr; eauto; fail); exfalso; try (eapply H1; eauto; fail); eapply H2; eauto.
    - split; intros a b c Ha Hb; rewrite erase_left_in in *; [eapply Hl|eapply Hr]; intuition eauto.
    - split; intros a b c Ha Hb; rewrite erase_right_in in *; [eapply Hl|eapply Hr]; intuition eauto.
  Qed.

  Lemma step11_linked : forall m o ops, (forall l r, In (l, r) m <-> linked ops l r) ->
    forall l r, In (l, r) (step11 eql eqr m o) <-> linked (o :: ops) l r.
  Proof.
    intros m o ops H l r. destruct o as [a b|a|b]; cbn.
    - destruct (add_unique_11 eql eqr m a b) as [m'|] eqn:E.
      + destruct (add_taken _ _ _ _ E) as (-> & H1 & H2). rewrite in_app_iff. cbn. rewrite H. split.
        * intros [?|[Hx|[]]]; auto. inversion Hx; subst. right. repeat split; auto; intros x; rewrite <- H; auto.
        * intros [?|(-> & -> & _)]; auto.
      + apply add_refused_iff in E. rewrite H. split; auto. intros [?|(-> & -> & H1 & H2)]; auto.
        destruct E as [(x & Hx)|(x & Hx)]; rewrite H in Hx; exfalso; [eapply H1|eapply H2]; eauto.
    - rewrite erase_left_in, H. cbn. tauto.
    - rewrite erase_right_in, H. cbn. tauto.
  Qed.

  Lemma run11_spec : forall ops, let m := run11 eql eqr (rev ops) in
    left_unique m /\ right_unique m /\ forall l r, In (l, r) m <-> linked ops l r.
  Proof.
    unfold run11. induction ops as [|o ops IH]; cbn.
    - split; [|split]; unfold left_unique, right_unique; cbn; intros; tauto.
    - rewrite fold_left_app. cbn. destruct IH as (A & B & C).
      destruct (step11_unique _ o A B). split; [|split]; auto. intros l r. apply (step11_linked _ o ops C).
  Qed.

  Lemma run11_lookups : forall ops l r,
    (get_right eql (run11 eql eqr (rev ops)) l = Some r <-> linked ops l r) /\
    (get_left eqr (run11 eql eqr (rev ops)) r = Some l <-> linked ops l r).
  Proof.
    intros. destruct (run11_spec ops) as (A & B & C).
    rewrite get_right_iff, get_left_iff by auto. rewrite C. tauto.
  Qed.

  Lemma at_get : forall m l r, at_left eqr m r = get_left eqr m r /\ at_right eql m l = get_right eql m l.
  Proof.
    intros. unfold at_left, at_right, get_left, get_right, contains_left, contains_right.
    destruct (find_left eql m l), (find_right eqr m r); auto.
  Qed.

  (** ** Many-to-one maps *)

  Lemma left_unique_nodup : forall m, NoDup (map fst m) -> left_unique m.
  Proof.
    induction m as [|[a b] m IH]; cbn; intros H l r r' H1 H2; [contradiction|].
    apply NoDup_cons_iff in H as [Hn Hd].
    destruct H1 as [H1|H1]; destruct H2 as [H2|H2].
    - congruence.
    - inversion H1; subst. exfalso. apply Hn. change l with (fst (l, r')). now apply in_map.
    - inversion H2; subst. exfalso. apply Hn. change l with (fst (l, r)). now apply in_map.
    - eapply IH; eauto.
  Qed.

  Lemma erase_first_spec : forall m l, NoDup (map fst m) ->
    NoDup (map fst (erase_first eql m l)) /\
    forall p, In p (erase_first eql m l) <-> In p m /\ fst p <> l.
  Proof.
    induction m as [|[a b] m IH]; cbn; intros l H; [split; [constructor|tauto]|].
    apply NoDup_cons_iff in H as [Hn Hd]. destruct (IH l Hd) as [A B]. destruct (eql a l) eqn:E.
    - apply eql_ok in E. subst a. split; auto. intros [x y]. cbn. split.
      + intros Hin. split; auto. intros ->. apply Hn. change l with (fst (l, y)). now apply in_map.
      + intros [[Hx|Hx] Hne]; auto. inversion Hx; subst. congruence.
    - apply eql_false in E. split.
      + cbn. constructor; auto. intros Hin. apply in_map_iff in Hin as ([x y] & Hf & Hin). cbn in Hf. subst x.
        apply B in Hin as [Hin _]. apply Hn. change a with (fst (a, y)). now apply in_map.
      + intros [x y]. cbn. rewrite B. cbn. intuition congruence.
  Qed.

  Lemma set_first_spec : forall m l r, NoDup (map fst m) ->
    map fst (set_first eql m l r) = map fst m /\
    forall x y, In (x, y) (set_first eql m l r) <->
      (x <> l /\ In (x, y) m) \/ (x = l /\ y = r /\ exists z, In (l, z) m).
  Proof.
    induction m as [|[a b] m IH]; cbn; intros l r H.
    - split; auto. intros. split; [tauto|]. intros [[_ []]|(_ & _ & _ & [])].
    - apply NoDup_cons_iff in H as [Hn Hd]. destruct (IH l r Hd) as [A B]. destruct (eql a l) eqn:E.
      + apply eql_ok in E. subst a. split; auto. intros x y. cbn. split.
        * intros [Hx|Hx].
          -- inversion Hx; subst. right. repeat split; eauto.
          -- left. split; auto. intros ->. apply Hn. change l with (fst (l, y)). now apply in_map.
        * intros [[Hne [Hx|Hx]]|(-> & -> & _)]; auto. inversion Hx; subst. congruence.
      + apply eql_false in E. cbn. split; [now rewrite A|]. intros x y. rewrite B. split.
        * intros [Hx|[[Hne Hx]|(-> & -> & z & Hz)]].
          -- inversion Hx; subst. left. auto.
          -- left. auto.
          -- right. repeat split; eauto.
        * intros [[Hne [Hx|Hx]]|(-> & -> & z & [Hz|Hz])]; auto.
          -- inversion Hz; subst. congruence.
          -- right. right. repeat split; eauto.
  Qed.

  Lemma filter_nodup : forall (f : L * R -> bool) m, NoDup (map fst m) -> NoDup (map fst (filter f m)).
  Proof.
    induction m as [|p m IH]; cbn; intros H; auto. apply NoDup_cons_iff in H as [Hn Hd].
    destruct (f p); auto. cbn. constructor; auto. intros Hin. apply Hn.
    apply in_map_iff in Hin as (q & Hq & Hin). apply filter_In in Hin as [Hin _]. rewrite <- Hq. now apply in_map.
  Qed.

  Lemma erase_first_is_erase : forall m l, NoDup (map fst m) -> erase_first eql m l = erase_left eql m l.
  Proof.
    unfold erase_left. induction m as [|[a b] m IH]; cbn; intros l H; auto.
    apply NoDup_cons_iff in H as [Hn Hd]. destruct (eql a l) eqn:E; cbn.
    - apply eql_ok in E. subst a. clear IH Hd. induction m as [|[x y] m IH]; cbn; auto.
      cbn in Hn. assert (El : eql x l = false) by (apply eql_false; intros ->; apply Hn; auto).
      rewrite El. cbn. f_equal. apply IH. intros ?; apply Hn; auto.
    - f_equal. auto.
  Qed.

  Lemma stepn1_ok : forall m o ops, NoDup (map fst m) -> (forall l r, In (l, r) m <-> partner eql eqr ops l = Some r) ->
    NoDup (map fst (stepn1 eql eqr m o)) /\
    forall l r, In (l, r) (stepn1 eql eqr m o) <-> partner eql eqr (o :: ops) l = Some r.
  Proof.
    intros m o ops Hd H. destruct o as [a b|a|b|a b]; cbn.
    - unfold add_unique_n1. destruct (contains_left eql m a) eqn:E.
      + split; auto. intros l r. rewrite H. apply contains_left_iff in E as (x & Hx). rewrite H in Hx.
        destruct (partner eql eqr ops l) eqn:Ep; [tauto|]. destruct (eql a l) eqn:El; [|tauto].
        apply eql_ok in El. subst. congruence.
      + assert (Hno : forall x, ~ In (a, x) m).
        { intros x Hx. assert (contains_left eql m a = true) by (apply contains_left_iff; eauto). congruence. }
        split.
        * rewrite map_app. cbn. rewrite <- (rev_involutive (map fst m ++ [a])). apply NoDup_rev.
          rewrite rev_app_distr. cbn. constructor; [|now apply NoDup_rev].
          rewrite <- in_rev. intros Hin. apply in_map_iff in Hin as ([x y] & Hf & Hin). cbn in Hf. subst x.
          eapply Hno; eauto.
        * intros l r. rewrite in_app_iff. cbn. rewrite H. destruct (partner eql eqr ops l) eqn:Ep.
          -- split; [intros [?|[Hx|[]]]; auto|auto]. inversion Hx; subst. exfalso. apply (Hno r0). now apply H.
          -- destruct (eql a l) eqn:El.
             ++ apply eql_ok in El. subst. split; [intros [?|[Hx|[]]]; [discriminate|congruence]|]. intros Hx. right. left. congruence.
             ++ apply eql_false in El. split; [intros [?|[Hx|[]]]; [discriminate|congruence]|discriminate].
    - destruct (erase_first_spec m a Hd) as [A B]. split; auto. intros l r. rewrite B, H. cbn.
      destruct (eql a l) eqn:El.
      + apply eql_ok in El. subst. split; [tauto|discriminate].
      + apply eql_false in El. split; [tauto|auto].
    - split; [now apply filter_nodup|]. intros l r. rewrite erase_right_in, H. cbn.
      destruct (partner eql eqr ops l) as [x|] eqn:Ep.
      + destruct (eqr x b) eqn:Er; [apply eqr_ok in Er|apply eqr_false in Er].
        * subst. split; [intros [Hx Hn]; congruence|discriminate].
        * split; [tauto|]. intros Hx; inversion Hx; subst. auto.
      + split; [intros [? _]; discriminate|discriminate].
    - unfold reassign. destruct (contains_left eql m a) eqn:E; cbn.
      + destruct (set_first_spec m a b Hd) as [A B]. rewrite A. split; auto. intros l r. rewrite B, H.
        apply contains_left_iff in E as (z & Hz).
        destruct (partner eql eqr ops l) as [x|] eqn:Ep.
        * destruct (eql a l) eqn:El; [apply eql_ok in El|apply eql_false in El].
          -- subst. split; [intros [[? _]|(_ & -> & _)]; congruence|]. intros Hx; inversion Hx; subst. right. eauto.
          -- split; [intros [[_ ?]|(? & _)]; congruence|]. auto.
        * split; [|discriminate]. intros [[_ ?]|(-> & _)]; [discriminate|]. apply H in Hz. congruence.
      + split; auto. intros l r. rewrite H. destruct (partner eql eqr ops l) as [x|] eqn:Ep; [|tauto].
        destruct (eql a l) eqn:El; [|tauto]. apply eql_ok in El. subst. exfalso.
        assert (contains_left eql m l = true) by (apply contains_left_iff; exists x; now apply H). congruence.
  Qed.

  Lemma runn1_spec : forall ops, let m := runn1 eql eqr (rev ops) in
    NoDup (map fst m) /\ forall l r, In (l, r) m <-> partner eql eqr ops l = Some r.
  Proof.
    unfold runn1. induction ops as [|o ops IH]; cbn.
    - split; [constructor|]. intros. split; [tauto|discriminate].
    - rewrite fold_left_app. cbn. destruct IH as [A B]. apply stepn1_ok; auto.
  Qed.

  Lemma runn1_erase : forall ops l, erase_left eql (runn1 eql eqr (rev ops)) l = erase_first eql (runn1 eql eqr (rev ops)) l.
  Proof. intros. symmetry. apply erase_first_is_erase. apply runn1_spec. Qed.

  Lemma runn1_lookups : forall ops, let m := runn1 eql eqr (rev ops) in
    (forall l, get_right eql m l = partner eql eqr ops l) /\
    (forall r l, In l (get_left_n eqr m r) <-> partner eql eqr ops l = Some r) /\
    (forall r, NoDup (get_left_n eqr m r)).
  Proof.
    intros ops m. destruct (runn1_spec ops) as [A B]. fold m in A, B.
    pose proof (left_unique_nodup m A) as Hu.
    split; [|split].
    - intros l. destruct (partner eql eqr ops l) as [r|] eqn:E.
      + apply get_right_iff; auto. now apply B.
      + destruct (get_right eql m l) as [r|] eqn:G; auto. apply get_right_iff in G; auto. apply B in G. congruence.
    - intros r l. unfold get_left_n. rewrite in_map_iff. rewrite <- B. split.
      + intros ([x y] & Hf & Hin). cbn in Hf. subst x. apply filter_In in Hin as [Hin Hr]. apply eqr_ok in Hr. cbn in Hr.
        now subst.
      + intros Hin. exists (l, r). split; auto. apply filter_In. cbn. rewrite eqr_refl. auto.
    - intros r. unfold get_left_n. now apply filter_nodup.
  Qed.
End Proofs.

(** ** Source registry *)

Section SourceProofs.
  Context {P T : Type} (eqp : P -> P -> bool) (eqt : T -> T -> bool).
  Context (eqp_ok : forall a b, eqp a b = true <-> a = b) (eqt_ok : forall a b, eqt a b = true <-> a = b).

  Lemma Neqb_ok : forall a b, N.eqb a b = true <-> a = b.
  Proof. apply N.eqb_eq. Qed.

  Definition sm_inv (s : manager P T) : Prop :=
    m_ids s = map (fun p => (sf_path (snd p), N.of_nat (fst p) + 1)%N) (combine (seq 0 (length (m_store s))) (m_store s))
    /\ NoDup (map sf_path (m_store s)) /\ (Z.of_nat (length (m_store s)) < 2 ^ 31)%Z.

  Lemma in_combine_seq : forall {A} (l : list A) n i x,
    In (i, x) (combine (seq n (length l)) l) <-> (n <= i)%nat /\ nth_error l (i - n) = Some x.
  Proof.
    induction l as [|y l IH]; cbn; intros n i x.
    - split; [tauto|]. intros [_ H]. destruct (i - n)%nat; discriminate.
    - split.
      + intros [H|H].
        * inversion H; subst. rewrite Nat.sub_diag. auto.
        * apply IH in H as [H1 H2]. split; [lia|]. replace (i - n)%nat with (S (i - S n)) by lia. auto.
      + intros [H1 H2]. destruct (Nat.eq_dec i n).
        * subst. rewrite Nat.sub_diag in H2. inversion H2. auto.
        * right. apply IH. split; [lia|]. replace (i - n)%nat with (S (i - S n)) in H2 by lia. auto.
  Qed.

  Lemma sm_in : forall s, sm_inv s -> forall p id, In (p, id) (m_ids s) <->
    exists i f, nth_error (m_store s) i = Some f /\ sf_path f = p /\ id = (N.of_nat i + 1)%N.
  Proof.
    intros s (H & _) p id. rewrite H, in_map_iff. split.
    - intros ([i f] & E & Hin). inversion E; subst. apply in_combine_seq in Hin as [_ Hin].
      rewrite Nat.sub_0_r in Hin. exists i, f. auto.
    - intros (i & f & H1 & H2 & H3). exists (i, f). subst. split; auto. apply in_combine_seq.
      rewrite Nat.sub_0_r. split; auto. lia.
  Qed.

  Lemma nodup_nth : forall {A B} (g : A -> B) l i j x y, NoDup (map g l) -> nth_error l i = Some x ->
    nth_error l j = Some y -> g x = g y -> i = j.
  Proof.
    intros A B g l i j x y Hd Hi Hj E.
    apply (map_nth_error g) in Hi. apply (map_nth_error g) in Hj.
    rewrite NoDup_nth_error in Hd. apply Hd.
    - apply nth_error_Some. congruence.
    - congruence.
  Qed.

  Lemma sm_unique : forall s, sm_inv s -> left_unique (m_ids s) /\ right_unique (m_ids s).
  Proof.
    intros s Hs. pose proof Hs as (_ & Hd & _). split.
    - intros p a b Ha Hb. apply (sm_in s Hs) in Ha as (i & f & H1 & H2 & ->). apply (sm_in s Hs) in Hb as (j & g & H3 & H4 & ->).
      assert (i = j) by (eapply (nodup_nth sf_path); eauto; congruence). now subst.
    - intros p q a Ha Hb. apply (sm_in s Hs) in Ha as (i & f & H1 & H2 & ->). apply (sm_in s Hs) in Hb as (j & g & H3 & H4 & E).
      assert (i = j) by lia. subst j. congruence.
  Qed.

  Lemma get_index_32 : forall i, (Z.of_nat i < 2 ^ 31)%Z -> get_index 32 0 (N.of_nat i + 1) = Some (N.of_nat i).
  Proof.
    intros i H. unfold get_index, is_nil, get_unmasked. cbn [N.eqb].
    destruct (N.eqb_spec (N.of_nat i + 1) 0); [lia|]. f_equal. lia.
  Qed.

  Lemma sm_content : forall s i f, sm_inv s -> nth_error (m_store s) i = Some f ->
    sm_get_content s (N.of_nat i + 1) = Some (sf_content f).
  Proof.
    intros s i f (_ & _ & Hl) H. unfold sm_get_content, store_at.
    assert (i < length (m_store s))%nat by (apply nth_error_Some; congruence).
    rewrite get_index_32 by lia. rewrite Nat2N.id, H. reflexivity.
  Qed.

  Lemma store_add_32 : forall {V} (c : list V) v, (Z.of_nat (length c) < 2 ^ 31)%Z ->
    store_add 32 0 c v None = Some (c ++ [v], (N.of_nat (length c) + 1)%N).
  Proof.
    intros V c v H. unfold store_add.
    assert (Hb : (N.of_nat (length c) < 2 ^ 31)%N).
    { change (2 ^ 31)%N with 2147483648%N. change (2 ^ 31)%Z with 2147483648%Z in H. lia. }
    assert (Hp : (2 ^ 31 < 2 ^ 32)%N) by reflexivity.
    rewrite id_of_small by lia.
    assert (E : from_index 32 (N.of_nat (length c)) = (N.of_nat (length c) + 1)%N).
    { unfold from_index. apply wrap_small. change (2 ^ 31)%N with 2147483648%N in Hb. change (2 ^ 32)%N with 4294967296%N. lia. }
    rewrite E. unfold is_nil, get_unmasked. cbn [N.eqb].
    destruct (N.eqb_spec (N.of_nat (length c) + 1) 0); [lia|]. reflexivity.
  Qed.

  Lemma combine_snoc : forall {A} (l : list A) x n,
    combine (seq n (length (l ++ [x]))) (l ++ [x]) = combine (seq n (length l)) l ++ [((n + length l)%nat, x)].
  Proof.
    induction l as [|y l IH]; cbn; intros x n; [now rewrite Nat.add_0_r|].
    f_equal. rewrite IH. do 3 f_equal. lia.
  Qed.

  (** One registration. *)
  Lemma sm_add_known : forall s i f p t, sm_inv s -> nth_error (m_store s) i = Some f -> sf_path f = p ->
    sm_add eqp eqt s p t = if eqt (sf_content f) t then Some (s, (N.of_nat i + 1)%N) else None.
  Proof.
    intros s i f p t Hs Hi Hp. unfold sm_add.
    assert (E : get_right eqp (m_ids s) p = Some (N.of_nat i + 1)%N).
    { apply (get_right_iff eqp eqp_ok); [apply (sm_unique s Hs)|]. apply sm_in; auto. eauto. }
    rewrite E, (sm_content s i f) by auto. reflexivity.
  Qed.

  Lemma sm_add_new : forall s p t, sm_inv s -> (Z.of_nat (S (length (m_store s))) < 2 ^ 31)%Z -> ~ In p (map sf_path (m_store s)) ->
    exists s', sm_add eqp eqt s p t = Some (s', (N.of_nat (length (m_store s)) + 1)%N) /\
      m_store s' = m_store s ++ [mkSource t p] /\ sm_inv s'.
  Proof.
    intros s p t Hs Hl Hp. pose proof Hs as (E1 & Hd & _). unfold sm_add.
    assert (Hnone : forall id, ~ In (p, id) (m_ids s)).
    { intros id Hin. apply (sm_in s Hs) in Hin as (i & f & H1 & H2 & _). apply Hp. subst p. apply in_map.
      eapply nth_error_In; eauto. }
    assert (E : get_right eqp (m_ids s) p = None).
    { destruct (get_right eqp (m_ids s) p) eqn:G; auto. apply (get_right_iff eqp eqp_ok) in G; [|apply (sm_unique s Hs)].
      exfalso. eapply Hnone; eauto. }
    rewrite E, store_add_32 by lia.
    assert (Hfresh : forall q, ~ In (q, (N.of_nat (length (m_store s)) + 1)%N) (m_ids s)).
    { intros q Hin. apply (sm_in s Hs) in Hin as (i & f & H1 & H2 & H3).
      assert (i < length (m_store s))%nat by (apply nth_error_Some; congruence). lia. }
    assert (G : get_left N.eqb (m_ids s) (N.of_nat (length (m_store s)) + 1)%N = None).
    { destruct (get_left N.eqb (m_ids s) (N.of_nat (length (m_store s)) + 1)%N) eqn:G; auto.
      apply (get_left_iff N.eqb Neqb_ok) in G; [|apply (sm_unique s Hs)]. exfalso. eapply Hfresh; eauto. }
    rewrite G.
    destruct (add_unique_11 eqp N.eqb (m_ids s) p (N.of_nat (length (m_store s)) + 1)%N) as [ids|] eqn:A.
    - apply (add_taken eqp N.eqb eqp_ok Neqb_ok) in A as (-> & _ & _).
      eexists. split; [reflexivity|]. split; [reflexivity|]. cbn. split; [|split].
      + cbn [m_ids m_store]. rewrite combine_snoc, map_app, <- E1. reflexivity.
      + cbn [m_store]. rewrite map_app. cbn. rewrite <- (rev_involutive (map sf_path (m_store s) ++ [p])). apply NoDup_rev.
        rewrite rev_app_distr. cbn. constructor; [|now apply NoDup_rev]. now rewrite <- in_rev.
      + cbn [m_store]. rewrite app_length. cbn [length]. lia.
    - exfalso. apply (add_refused_iff eqp N.eqb eqp_ok Neqb_ok) in A as [(x & Hx)|(x & Hx)]; [eapply Hnone|eapply Hfresh]; eauto.
  Qed.

  Lemma sm_empty_inv : sm_inv manager_empty.
  Proof. split; [reflexivity|]. split; [constructor|]. reflexivity. Qed.

  Definition small (s : manager P T) : Prop := (Z.of_nat (length (m_store s)) < 2 ^ 31 - 1)%Z.

  Lemma path_dec : forall p (l : list P), In p l \/ ~ In p l.
  Proof.
    intros p l. induction l as [|q l IH]; [now right|]. destruct (eqp q p) eqn:E.
    - apply eqp_ok in E. left. left. auto.
    - destruct IH; [left; right; auto|right]. intros [->|?]; auto. 
      assert (eqp p p = true) by now apply eqp_ok. congruence.
  Qed.

  Lemma path_dec_eq : forall (a b : T), a = b \/ a <> b.
  Proof.
    intros a b. destruct (eqt a b) eqn:E; [left; now apply eqt_ok|right]. intros ->.
    assert (eqt b b = true) by now apply eqt_ok. congruence.
  Qed.

  Lemma sm_add_cases : forall s p t s' id, sm_inv s -> small s -> sm_add eqp eqt s p t = Some (s', id) ->
    sm_inv s' /\ exists i, id = (N.of_nat i + 1)%N /\ nth_error (m_store s') i = Some (mkSource t p) /\
      ((s' = s) \/ m_store s' = m_store s ++ [mkSource t p] /\ i = length (m_store s)).
  Proof.
    intros s p t s' id Hs Hsm H. destruct (path_dec p (map sf_path (m_store s))) as [Hin|Hin].
    - apply in_map_iff in Hin as (f & Hf & Hin). apply In_nth_error in Hin as (i & Hi).
      rewrite (sm_add_known s i f p t Hs Hi Hf) in H. destruct (eqt (sf_content f) t) eqn:E; [|discriminate].
      inversion H; subst. split; auto. exists i. split; auto. apply eqt_ok in E. destruct f; cbn in *. subst. auto.
    - destruct (sm_add_new s p t Hs) as (s1 & A & B & C); auto; [unfold small in Hsm; lia|]. rewrite A in H. inversion H; subst.
      split; auto. exists (length (m_store s)). split; auto. rewrite B. split; auto.
      rewrite nth_error_app2, Nat.sub_diag; auto.
  Qed.

  Lemma sm_store_grows : forall s p t s' id, sm_inv s -> small s -> sm_add eqp eqt s p t = Some (s', id) ->
    (length (m_store s) <= length (m_store s'))%nat.
  Proof.
    intros. destruct (sm_add_cases s p t s' id) as (_ & i & _ & _ & [->|[-> _]]); auto. rewrite app_length. lia.
  Qed.

  Lemma path_id_inverse : forall s, sm_inv s -> forall p id,
    (sm_get_id eqp s p = Some id <-> sm_get_path s id = Some p).
  Proof.
    intros s Hs p id. unfold sm_get_id, sm_get_path.
    destruct (at_get eqp N.eqb (m_ids s) p id) as [-> ->].
    rewrite (get_right_iff eqp eqp_ok) by apply (sm_unique s Hs).
    rewrite (get_left_iff N.eqb Neqb_ok) by apply (sm_unique s Hs). tauto.
  Qed.

  Lemma sm_add_ok : forall s p t, sm_inv s -> small s ->
    (forall f, In f (m_store s) -> sf_path f = p -> sf_content f = t) ->
    exists s' id, sm_add eqp eqt s p t = Some (s', id).
  Proof.
    intros s p t Hs Hsm H. destruct (path_dec p (map sf_path (m_store s))) as [Hin|Hin].
    - apply in_map_iff in Hin as (f & Hf & Hin). pose proof Hin as Hin'. apply In_nth_error in Hin as (i & Hi).
      rewrite (sm_add_known s i f p t Hs Hi Hf). rewrite (H f Hin' Hf).
      assert (eqt t t = true) as -> by now apply eqt_ok. eauto.
    - destruct (sm_add_new s p t Hs) as (s1 & A & B & C); auto; [unfold small in Hsm; lia|]. eauto.
  Qed.

  Lemma sm_add_conflict : forall s p t f, sm_inv s -> In f (m_store s) -> sf_path f = p -> sf_content f <> t ->
    sm_add eqp eqt s p t = None.
  Proof.
    intros s p t f Hs Hin Hp Hne. apply In_nth_error in Hin as (i & Hi).
    rewrite (sm_add_known s i f p t Hs Hi Hp). destruct (eqt (sf_content f) t) eqn:E; auto.
    apply eqt_ok in E. congruence.
  Qed.

  Lemma sm_get_id_iff : forall s p id, sm_inv s -> (sm_get_id eqp s p = Some id <->
    exists i f, nth_error (m_store s) i = Some f /\ sf_path f = p /\ id = (N.of_nat i + 1)%N).
  Proof.
    intros s p id Hs. unfold sm_get_id. destruct (at_get eqp N.eqb (m_ids s) p id) as [_ ->].
    rewrite (get_right_iff eqp eqp_ok) by apply (sm_unique s Hs). now apply sm_in.
  Qed.

  (** Histories. *)
  Lemma sm_run_app : forall ops o, sm_run eqp eqt (ops ++ [o]) =
    match sm_run eqp eqt ops with
    | None => None
    | Some (s, ids) => match sm_add eqp eqt s (fst o) (snd o) with
                       | None => None
                       | Some (s', id) => Some (s', ids ++ [id])
                       end
    end.
  Proof. intros. unfold sm_run. rewrite fold_left_app. reflexivity. Qed.

  Definition hist_inv (ops : list (P * T)) (s : manager P T) (ids : list N) : Prop :=
    sm_inv s /\ length ids = length ops /\ (length (m_store s) <= length ops)%nat /\
    (forall i p t, nth_error ops i = Some (p, t) -> exists k, nth_error ids i = Some (N.of_nat k + 1)%N /\
       nth_error (m_store s) k = Some (mkSource t p)) /\
    (forall f, In f (m_store s) -> In (sf_path f, sf_content f) ops).

  Lemma sm_run_inv : forall ops s ids, (Z.of_nat (length ops) < 2 ^ 31)%Z -> sm_run eqp eqt ops = Some (s, ids) ->
    hist_inv ops s ids.
  Proof.
    induction ops as [|o ops IH] using rev_ind; intros s ids Hl H.
    - inversion H; subst. split; [apply sm_empty_inv|]. repeat split; auto; cbn.
      intros i p t Hi. destruct i; discriminate.
    - rewrite sm_run_app in H. rewrite app_length in Hl. cbn [length] in Hl.
      destruct (sm_run eqp eqt ops) as [[s0 ids0]|] eqn:E; [|discriminate].
      destruct (IH s0 ids0 ltac:(lia) eq_refl) as (H1 & H2 & H3 & H4 & H5).
      destruct (sm_add eqp eqt s0 (fst o) (snd o)) as [[s1 id]|] eqn:A; [|discriminate]. inversion H; subst. clear H.
      assert (Hsm : small s0) by (unfold small; lia).
      destruct (sm_add_cases s0 _ _ s id H1 Hsm A) as (B1 & k & -> & B2 & B3).
      split; auto. split; [rewrite !app_length; cbn; lia|]. split; [|split].
      + rewrite app_length. cbn. destruct B3 as [->|[-> _]]; [lia|]. rewrite app_length. cbn. lia.
      + intros i p t Hi. destruct (Nat.lt_ge_cases i (length ops)) as [Hlt|Hge].
        * rewrite nth_error_app1 in Hi by auto. destruct (H4 i p t Hi) as (k' & C1 & C2). exists k'. split.
          -- rewrite nth_error_app1; auto. rewrite H2. auto.
          -- destruct B3 as [->|[-> _]]; auto. rewrite nth_error_app1; auto. apply nth_error_Some. congruence.
        * rewrite nth_error_app2 in Hi by auto. destruct (i - length ops)%nat as [|n] eqn:En; [|destruct n; discriminate].
          cbn in Hi. inversion Hi; subst. exists k. split; auto.
          rewrite nth_error_app2 by lia. rewrite H2, En. reflexivity.
      + intros f Hf. rewrite in_app_iff. cbn. destruct B3 as [->|[B3 _]]; [left; auto|]. rewrite B3, in_app_iff in Hf.
        destruct Hf as [Hf|[<-|[]]]; [left; auto|right; left]. cbn. now destruct o.
  Qed.

  Definition consistent (ops : list (P * T)) : Prop := forall p t t', In (p, t) ops -> In (p, t') ops -> t = t'.

  Lemma sm_run_total : forall ops, (Z.of_nat (length ops) < 2 ^ 31)%Z ->
    (consistent ops <-> exists s ids, sm_run eqp eqt ops = Some (s, ids)).
  Proof.
    induction ops as [|o ops IH] using rev_ind; intros Hl.
    - split; [|intros _ p t t' []]. intros _. exists manager_empty, []. reflexivity.
    - rewrite app_length in Hl. cbn [length] in Hl. specialize (IH ltac:(lia)). split.
      + intros Hc. destruct IH as [IH _]. destruct IH as (s & ids & E).
        { intros p t t' H1 H2. apply (Hc p t t'); rewrite in_app_iff; auto. }
        destruct (sm_run_inv ops s ids ltac:(lia) E) as (H1 & H2 & H3 & H4 & H5).
        destruct (sm_add_ok s (fst o) (snd o) H1) as (s' & id & A).
        { unfold small. lia. }
        { intros f Hf Hp. apply (Hc (fst o)); rewrite in_app_iff; cbn.
          - left. rewrite <- Hp. auto.
          - right. left. now destruct o. }
        exists s', (ids ++ [id]). now rewrite sm_run_app, E, A.
      + intros (s' & ids' & E). rewrite sm_run_app in E. destruct (sm_run eqp eqt ops) as [[s ids]|] eqn:E0; [|discriminate].
        destruct (sm_run_inv ops s ids ltac:(lia) E0) as (H1 & H2 & H3 & H4 & H5).
        destruct (sm_add eqp eqt s (fst o) (snd o)) as [[s1 id]|] eqn:A; [|discriminate].
        assert (Hc : consistent ops) by (apply IH; eauto).
        assert (Hx : forall t, In (fst o, t) ops -> t = snd o).
        { intros t Hin. apply In_nth_error in Hin as (i & Hi). destruct (H4 i _ _ Hi) as (k & _ & Hk).
          destruct (path_dec_eq t (snd o)) as [|Hne]; auto. exfalso.
          assert (sm_add eqp eqt s (fst o) (snd o) = None); [|congruence].
          eapply (sm_add_conflict s _ _ (mkSource t (fst o)) H1); auto. eapply nth_error_In; eauto. }
        intros p t t' Ha Hb. rewrite in_app_iff in Ha, Hb. cbn in Ha, Hb.
        destruct Ha as [Ha|[Ha|[]]]; destruct Hb as [Hb|[Hb|[]]].
        * eapply Hc; eauto.
        * subst o. cbn in *. auto.
        * subst o. cbn in *. symmetry. auto.
        * congruence.
  Qed.

  Lemma sm_history : forall ops s ids, (Z.of_nat (length ops) < 2 ^ 31)%Z -> sm_run eqp eqt ops = Some (s, ids) ->
    length ids = length ops /\
    (forall i p t id, nth_error ops i = Some (p, t) -> nth_error ids i = Some id ->
       sm_get_id eqp s p = Some id /\ sm_get_path s id = Some p /\ sm_get_content s id = Some t /\
       sm_get_content_for_path eqp s p = Some t) /\
    (forall p id, sm_get_id eqp s p = Some id <-> sm_get_path s id = Some p) /\
    (forall p, (exists id, sm_get_id eqp s p = Some id) <-> In p (map fst ops)).
  Proof.
    intros ops s ids Hl H. destruct (sm_run_inv ops s ids Hl H) as (H1 & H2 & H3 & H4 & H5).
    split; auto. split; [|split].
    - intros i p t id Hi Hid. destruct (H4 i p t Hi) as (k & E & Hk).
      assert (id = N.of_nat k + 1)%N by congruence. subst id.
      assert (G : sm_get_id eqp s p = Some (N.of_nat k + 1)%N) by (apply sm_get_id_iff; eauto).
      pose proof (sm_content s k _ H1 Hk) as Gc. cbn in Gc.
      repeat split; auto.
      + now apply path_id_inverse.
      + unfold sm_get_content_for_path. now rewrite G.
    - now apply path_id_inverse.
    - intros p. split.
      + intros (id & E). apply sm_get_id_iff in E as (i & f & Ef & Ep & _); auto.
        apply in_map_iff. exists (sf_path f, sf_content f). split; auto. apply H5. eapply nth_error_In; eauto.
      + intros Hin. apply in_map_iff in Hin as ([q t] & Eq & Hin). cbn in Eq. subst q.
        apply In_nth_error in Hin as (i & Hi). destruct (H4 i p t Hi) as (k & E & Hk).
        exists (N.of_nat k + 1)%N. apply sm_get_id_iff; eauto.
  Qed.
End SourceProofs.
