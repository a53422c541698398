From Verif Require Import Base TrackModel TrackSpec.

Section P.
  Context {A : Type}.
  Implicit Types (t : tracker A) (l : list A).

  Definition rep t l : Prop := current t = rev l /\ len t = Z.of_nat (length l).

  Lemma rep_empty : rep tr_empty [].
  Proof. split; reflexivity. Qed.

  Lemma rep_push : forall t l x, rep t l -> rep (tr_push t x) (l ++ [x]).
  Proof.
    intros t l x [H1 H2]. split; cbn.
    - now rewrite rev_app_distr, H1.
    - rewrite app_length, H2. cbn. lia.
  Qed.

  Lemma rep_pop : forall t l, rep t l -> rep (tr_pop t) (removelast l).
  Proof.
    intros t l [H1 H2]. unfold tr_pop. destruct l as [|y l _] using rev_ind.
    - cbn in H1. rewrite H1. split; reflexivity.
    - rewrite rev_app_distr in H1. cbn in H1. rewrite H1, removelast_last. split; cbn; [reflexivity|].
      rewrite H2, app_length. cbn. lia.
  Qed.

  Lemma rep_history : forall ops t l, rep t l -> rep (fold_left track_step ops t) (fold_left path_step ops l).
  Proof.
    induction ops as [|[x|] ops IH]; intros t l H; cbn; auto.
    - apply IH. now apply rep_push.
    - apply IH. now apply rep_pop.
  Qed.

  Lemma nodes_spec : forall l acc, tr_nodes l acc = acc ++ l.
  Proof.
    induction l as [|x l IH]; intros acc; cbn; [now rewrite app_nil_r|].
    rewrite IH. now rewrite <- app_assoc.
  Qed.

  Lemma rep_vector : forall t l, rep t l -> tr_vector t = l.
  Proof. intros t l [H _]. unfold tr_vector. rewrite nodes_spec, H. cbn. apply rev_involutive. Qed.

  Lemma steps_up_spec : forall n l, n <= length l -> steps_up n l = Ok (skipn n l).
  Proof.
    induction n as [|n IH]; intros l H; [reflexivity|]. destruct l as [|x l]; cbn in H; [lia|].
    cbn. apply IH. lia.
  Qed.

  Lemma rep_at : forall t l i, rep t l ->
    tr_at t i = match (if (i <? 0)%Z then None else nth_error l (Z.to_nat i)) with
                | Some x => Ok x | None => Throw end.
  Proof.
    intros t l i [H1 H2]. unfold tr_at. rewrite H1, H2.
    destruct (Z.ltb_spec i 0) as [Hi|Hi]; cbn [orb]; [reflexivity|].
    destruct (Z.leb_spec (Z.of_nat (length l)) i) as [Hl|Hl].
    - assert (E : nth_error l (Z.to_nat i) = None) by (apply nth_error_None; lia). now rewrite E.
    - rewrite steps_up_spec by (rewrite rev_length; lia). cbn [obind].
      set (k := Z.to_nat i). assert (Hk : (k < length l)%nat) by lia.
      replace (Z.to_nat (Z.of_nat (length l) - 1 - i)) with (length l - S k)%nat by lia.
      destruct (nth_error l k) as [x|] eqn:E; [|apply nth_error_None in E; lia].
      apply nth_error_split in E as (p & q & -> & Hp).
      rewrite app_length. cbn [length]. rewrite rev_app_distr. cbn [rev].
      replace (length p + S (length q) - S k)%nat with (length (rev q)) by (rewrite rev_length; lia).
      rewrite <- app_assoc. rewrite skipn_app, skipn_all, Nat.sub_diag. reflexivity.
  Qed.

  Lemma rep_back : forall t l x, rep t (l ++ [x]) -> tr_back t = Ok x.
  Proof. intros t l x [H _]. unfold tr_back. rewrite rev_app_distr in H. cbn in H. now rewrite H. Qed.

  Lemma skipn_nth : forall k l x, nth_error l k = Some x -> skipn k l = x :: skipn (S k) l.
  Proof.
    induction k as [|k IH]; intros [|y l] x H; try discriminate.
    - cbn in *. congruence.
    - cbn in H. change (skipn (S k) (y :: l)) with (skipn k l). rewrite (IH l x H). reflexivity.
  Qed.

  Lemma rep_iter_from : forall n t l k, rep t l -> (k <= length l)%nat -> (length l - k < n)%nat ->
    tr_iter_from n t (Z.of_nat k) = Ok (skipn k l).
  Proof.
    induction n as [|n IH]; intros t l k H Hk Hn; [lia|]. cbn [tr_iter_from].
    pose proof H as [_ H2]. rewrite H2.
    destruct (Z.eqb_spec (Z.of_nat k) (Z.of_nat (length l))) as [E|E].
    - replace k with (length l) by lia. now rewrite skipn_all.
    - rewrite (rep_at t l) by assumption. replace (Z.of_nat k <? 0)%Z with false by lia. rewrite Nat2Z.id.
      destruct (nth_error l k) as [x|] eqn:Ex; [|apply nth_error_None in Ex; lia]. cbn [obind].
      replace (Z.of_nat k + 1)%Z with (Z.of_nat (S k)) by lia.
      rewrite (IH t l (S k)) by (auto; lia). cbn [omap obind]. f_equal.
      symmetry. now apply skipn_nth.
  Qed.

  Fixpoint visit_ok (s : scopes A) : forall t l, rep t l -> visit_track t s = visit_paths l s.
  Proof.
    destruct s as [k sub]. intros t l H. cbn [visit_track visit_paths].
    pose proof (rep_push t l k H) as Hp. rewrite (rep_vector _ _ Hp). f_equal.
    induction sub as [|x sub IHs]; [reflexivity|]. f_equal; [|exact IHs].
    apply visit_ok. exact Hp.
  Qed.
End P.
