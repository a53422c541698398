(** Proofs about the string helpers. *)
From Verif Require Import Base StrModel StrSpec.
From Coq Require Import Lia.
Local Open Scope Z_scope.

(** ** Generalities *)

Lemma nth_skipn_cons : forall (s : str) i, (i < length s)%nat -> skipn i s = char_at s i :: skipn (S i) s.
Proof.
  unfold char_at. induction s; intros [|i] H; cbn in *; try lia; auto.
  rewrite IHs by lia. reflexivity.
Qed.

Lemma firstn_snoc : forall (s : str) i, (i < length s)%nat -> firstn (S i) s = firstn i s ++ [char_at s i].
Proof.
  unfold char_at. induction s; intros [|i] H; cbn in *; try lia; auto.
  f_equal. apply IHs. lia.
Qed.

Lemma firstn_substr : forall (s : str) a n, firstn (a + n) s = firstn a s ++ substr s a n.
Proof.
  unfold substr. induction s; intros [|a'] n; cbn; auto.
  - now rewrite !firstn_nil.
  - f_equal. apply IHs.
Qed.

Lemma substr_length : forall (s : str) a n, length (substr s a n) = Nat.min n (length s - a).
Proof. intros. unfold substr. rewrite firstn_length, skipn_length. lia. Qed.

Lemma substr_nth : forall (s : str) a n i, (i < n)%nat -> nth i (substr s a n) 0 = char_at s (a + i).
Proof.
  intros. unfold substr, char_at.
  revert s n i H; induction a; intros s n i H; cbn.
  - revert n i H; induction s; intros [|n] [|i] H; cbn; try lia; auto. apply IHs. lia.
  - destruct s; cbn; [now rewrite firstn_nil; destruct i|]. apply IHa. exact H.
Qed.

Lemma Forall_substr : forall (P : byte -> Prop) (s : str) a n, (a + n <= length s)%nat ->
  (forall i, (a <= i < a + n)%nat -> P (char_at s i)) -> Forall P (substr s a n).
Proof.
  intros P s a n Hl H. apply Forall_nth. intros i d Hi. rewrite substr_length in Hi.
  rewrite (nth_indep _ d 0) by (rewrite substr_length; lia).
  rewrite substr_nth by lia. apply H. lia.
Qed.

Lemma skipn_skipn : forall (s : str) a b, skipn a (skipn b s) = skipn (a + b) s.
Proof.
  intros s a b. revert s. induction b; intros s; cbn.
  - now rewrite Nat.add_0_r.
  - rewrite Nat.add_succ_r. destruct s; cbn; [now rewrite !skipn_nil|]. apply IHb.
Qed.

(** ** join *)

Lemma join_from_pos : forall sep l k, (0 < k)%nat ->
  join_from sep k l = flat_map (fun x => sep ++ x) l.
Proof.
  induction l; intros k Hk; cbn [join_from flat_map]; auto.
  destruct (Nat.ltb_spec 0 k); try lia. rewrite IHl by lia. now rewrite app_assoc.
Qed.

Lemma join_cons : forall sep x l, join sep (x :: l) = x ++ flat_map (fun y => sep ++ y) l.
Proof. intros. unfold join. cbn. now rewrite join_from_pos by lia. Qed.

Lemma join_snoc : forall sep l x, l <> [] -> join sep (l ++ [x]) = join sep l ++ sep ++ x.
Proof.
  intros sep [|y l] x H; [congruence|]. rewrite <- app_comm_cons, !join_cons, flat_map_app. cbn.
  rewrite app_nil_r. now rewrite <- app_assoc.
Qed.

(** ** split on a character *)

Lemma getline_aux_spec : forall ch s t r, getline_aux ch s = (t, r) ->
  ~ In ch t /\ (s = t ++ [ch] ++ r \/ (s = t /\ r = [])).
Proof.
  induction s; intros t r H; cbn in H.
  - inversion H; subst. split; auto.
  - destruct (Z.eqb_spec a ch).
    + inversion H; subst. split; auto. 
    + destruct (getline_aux ch s) as [t' r'] eqn:E. inversion H; subst.
      destruct (IHs _ _ eq_refl) as [Hn Hs]. split.
      * intros [?|?]; auto.
      * destruct Hs as [->|[-> ->]]; auto.
Qed.

(** The text read so far: every token followed by the separator. *)
Definition closed (ch : byte) (ts : list str) : str := flat_map (fun t => t ++ [ch]) ts.

Lemma closed_join : forall ch ts, ts <> [] -> closed ch ts = join [ch] ts ++ [ch].
Proof.
  intros ch ts. induction ts using rev_ind; intros H; [congruence|].
  assert (E : closed ch (ts ++ [x]) = closed ch ts ++ x ++ [ch])
    by (unfold closed; rewrite flat_map_app; cbn; now rewrite app_nil_r).
  rewrite E. destruct ts as [|t ts].
  - unfold join. cbn. now rewrite app_nil_r.
  - rewrite IHts by discriminate. rewrite join_snoc by discriminate.
    rewrite <- !app_assoc. reflexivity.
Qed.

Lemma split_char_loop_ok : forall fuel s ch ts, (length s < fuel)%nat -> Forall (fun t => ~ In ch t) ts ->
  exists ts', split_char_loop fuel s ch ts = Ok ts' /\ Forall (fun t => ~ In ch t) ts' /\
    (closed ch ts ++ s = closed ch ts' \/
     exists t ts0, ts' = ts0 ++ [t] /\ t <> [] /\ closed ch ts ++ s = closed ch ts0 ++ t).
Proof.
  induction fuel; intros s ch ts Hf Hts; [lia|]. cbn.
  destruct s as [|c s].
  - cbn. exists ts. rewrite app_nil_r. auto.
  - unfold getline. destruct (getline_aux ch (c :: s)) as [t r] eqn:E.
    destruct (getline_aux_spec _ _ _ _ E) as [Hn Hs].
    assert (Hts' : Forall (fun t => ~ In ch t) (ts ++ [t])) by (apply Forall_app; auto).
    assert (Hc : closed ch (ts ++ [t]) = closed ch ts ++ t ++ [ch])
      by (unfold closed; rewrite flat_map_app; cbn; now rewrite app_nil_r).
    assert (Hr : (length r < fuel)%nat).
    { destruct Hs as [Hs|[_ ->]]; [|cbn in *; lia].
      apply (f_equal (@length _)) in Hs. rewrite !app_length in Hs. cbn in *. lia. }
    destruct Hs as [Hs|[Hs ->]].
    + destruct (IHfuel r ch (ts ++ [t]) Hr Hts') as (ts' & H1 & H2 & H3).
      exists ts'. split; [exact H1|]. split; [exact H2|].
      rewrite Hc in H3. rewrite Hs.
      rewrite <- !app_assoc in H3. exact H3.
    + exists (ts ++ [t]). split.
      * destruct fuel; [cbn in *; lia|]. reflexivity.
      * split; auto. right. exists t, ts. split; auto. split; [|now rewrite Hs].
        rewrite <- Hs. discriminate.
Qed.

Lemma last_app_single : forall (l : str) x d, last (l ++ [x]) d = x.
Proof. intros. apply last_last. Qed.

Lemma last_In : forall (l : str) d, l <> [] -> In (last l d) l.
Proof.
  intros l d H. destruct (exists_last H) as (l' & x & ->). rewrite last_last. apply in_or_app. cbn. auto.
Qed.

Lemma split_char_spec : forall s ch,
  exists ts, split_char s ch = Ok ts /\ Forall (fun t => ~ In ch t) ts /\
    (s = [] -> ts = []) /\
    (s <> [] -> last s 0 = ch -> s = join [ch] ts ++ [ch]) /\
    (s <> [] -> last s 0 <> ch -> s = join [ch] ts).
Proof.
  intros s ch. unfold split_char.
  destruct (split_char_loop_ok (S (length s)) s ch [] ltac:(lia) ltac:(constructor)) as (ts & H1 & H2 & H3).
  exists ts. split; auto. split; auto. cbn in H3.
  split; [|split].
  - intros ->. cbn in H1. injection H1 as E. symmetry. exact E.
  - intros Hs Hl. destruct H3 as [H3|(t & ts0 & -> & Ht & H3)].
    + rewrite H3. apply closed_join. intros ->. cbn in H3. auto.
    + exfalso. rewrite H3 in Hl.
      destruct (exists_last Ht) as (t' & x & ->). rewrite app_assoc, last_last in Hl. subst x.
      apply Forall_app in H2 as [_ H2]. inversion H2; subst. apply H4. apply in_or_app. cbn. auto.
  - intros Hs Hl. destruct H3 as [H3|(t & ts0 & -> & Ht & H3)].
    + exfalso. apply Hl. rewrite H3. destruct ts; [cbn in H3; congruence|].
      rewrite closed_join by discriminate. apply last_last.
    + destruct ts0 as [|t0 ts0].
      * cbn in H3. cbn. unfold join. cbn. now rewrite app_nil_r.
      * rewrite join_snoc by discriminate. rewrite H3, closed_join by discriminate.
        now rewrite <- app_assoc.
Qed.

(** ** split keeping the separators *)

Lemma same_run_ok : forall fuel s curr, (curr < length s)%nat -> (length s - curr < fuel)%nat ->
  exists c, same_run fuel s curr = Ok c /\ (curr <= c < length s)%nat /\
    (forall i, (curr <= i <= c)%nat -> char_at s i = char_at s curr) /\
    ((c + 1 < length s)%nat -> char_at s (c + 1) <> char_at s curr).
Proof.
  induction fuel; intros s curr H1 H2; [lia|]. cbn [same_run].
  destruct (Nat.ltb_spec curr (length s - 1)); cbn [andb].
  - destruct (Z.eqb_spec (char_at s (curr + 1)) (char_at s curr)); cbn [andb].
    + destruct (IHfuel s (curr + 1)%nat ltac:(lia) ltac:(lia)) as (c & E & Hc & Ha & Hn).
      exists c. split; auto. split; [lia|]. split.
      * intros i Hi. destruct (Nat.eq_dec i curr); [congruence|]. rewrite Ha by lia. auto.
      * intros H3. rewrite <- e. auto.
    + exists curr. split; auto. split; [lia|]. split; auto.
      intros i Hi. f_equal. lia.
  - exists curr. split; auto. split; [lia|]. split; [|lia]. intros i Hi. f_equal. lia.
Qed.

Lemma Forall_eq_repeat : forall (l : str) c, Forall (fun x => x = c) l -> l = repeat c (length l).
Proof. induction 1; cbn; congruence. Qed.

Lemma no_merge_snoc : forall sep l p, no_merge sep l ->
  (forall l0 q, l = l0 ++ [q] -> ~ (plain_piece sep q /\ plain_piece sep p) /\
     ~ (exists c, sep_piece sep q /\ sep_piece sep p /\ In c q /\ In c p)) ->
  no_merge sep (l ++ [p]).
Proof.
  induction l as [|a l IH]; intros p H Hl; [exact I|].
  destruct l as [|b l].
  - cbn. destruct (Hl [] a eq_refl). auto.
  - cbn in H. destruct H as (Ha & Hb & Hc).
    change ((a :: b :: l) ++ [p]) with (a :: b :: (l ++ [p])).
    cbn [no_merge]. split; auto. split; auto.
    apply (IH p Hc). intros l0 q E. apply (Hl (a :: l0) q). cbn. now rewrite <- E.
Qed.

Lemma plain_not_sep : forall sep p, plain_piece sep p -> sep_piece sep p -> False.
Proof.
  intros sep p [Hp Ha] (c & n & Hc & Hn & ->). destruct n; [lia|]. cbn in Ha. inversion Ha; congruence.
Qed.

Section Keep.
  Variables (s : str) (sep : charset).

  Definition keep_inv (prev curr : nat) (res : list str) : Prop :=
    (prev <= curr <= length s)%nat /\ concat res = firstn prev s /\
    Forall (fun p => plain_piece sep p \/ sep_piece sep p) res /\
    no_merge sep res /\
    (forall i, (prev <= i < curr)%nat -> sep (char_at s i) = false) /\
    (forall l0 q, res = l0 ++ [q] -> sep_piece sep q /\
       ((prev < length s)%nat -> ~ In (char_at s prev) q)).

  Lemma keep_plain : forall prev curr, (prev < curr <= length s)%nat ->
    (forall i, (prev <= i < curr)%nat -> sep (char_at s i) = false) ->
    plain_piece sep (substr s prev (curr - prev)).
  Proof.
    intros prev curr H1 H2. split.
    - intros E. apply (f_equal (@length _)) in E. rewrite substr_length in E. cbn in E. lia.
    - apply Forall_substr; [lia|]. intros. apply H2. lia.
  Qed.

  Lemma keep_push_plain : forall prev curr res, keep_inv prev curr res -> (prev < curr)%nat ->
    let res' := res ++ [substr s prev (curr - prev)] in
    concat res' = firstn curr s /\ Forall (fun p => plain_piece sep p \/ sep_piece sep p) res' /\
    no_merge sep res'.
  Proof.
    intros prev curr res (H1 & H2 & H3 & H4 & H5 & H6) Hlt res'. unfold res'.
    pose proof (keep_plain prev curr ltac:(lia) H5) as Hp.
    split; [|split].
    - rewrite concat_app, H2. cbn. rewrite app_nil_r, <- firstn_substr. f_equal. lia.
    - apply Forall_app; auto.
    - apply no_merge_snoc; auto. intros l0 q E. destruct (H6 _ _ E) as [Hq _]. split.
      + intros [Hq' _]. eapply plain_not_sep; eauto.
      + intros (c & _ & Hp' & _). eapply plain_not_sep; eauto.
  Qed.

  Lemma keep_loop_ok : forall fuel prev curr res, (length s - curr < fuel)%nat -> keep_inv prev curr res ->
    exists ps, keep_loop fuel s sep prev curr res = Ok ps /\ concat ps = s /\
      Forall (fun p => plain_piece sep p \/ sep_piece sep p) ps /\ no_merge sep ps.
  Proof.
    induction fuel; intros prev curr res Hf Hi; [lia|]. cbn [keep_loop].
    destruct Hi as (H1 & H2 & H3 & H4 & H5 & H6).
    assert (Hi : keep_inv prev curr res) by (repeat (split; auto)).
    destruct (Nat.ltb_spec curr (length s)).
    - destruct (sep (char_at s curr)) eqn:Es.
      + destruct (same_run_ok (S (length s)) s curr ltac:(lia) ltac:(lia)) as (c & Ec & Hc & Ha & Hn).
        rewrite Ec. cbn [obind].
        assert (Hrun : substr s curr (c - curr + 1) = repeat (char_at s curr) (c - curr + 1)).
        { rewrite (Forall_eq_repeat (substr s curr (c - curr + 1)) (char_at s curr)).
          - f_equal. rewrite substr_length. lia.
          - apply Forall_substr; [lia|]. intros. apply Ha. lia. }
        assert (Hsp : sep_piece sep (substr s curr (c - curr + 1)))
          by (exists (char_at s curr), (c - curr + 1)%nat; repeat split; auto; lia).
        set (res1 := if (prev =? curr)%nat then res else res ++ [substr s prev (curr - prev)]).
        assert (Hres1 : concat res1 = firstn curr s /\
          Forall (fun p => plain_piece sep p \/ sep_piece sep p) res1 /\ no_merge sep res1 /\
          (forall l0 q, res1 = l0 ++ [q] -> plain_piece sep q \/ ~ In (char_at s curr) q)).
        { unfold res1. destruct (Nat.eqb_spec prev curr).
          - subst prev. repeat split; auto. intros l0 q E. right. apply (H6 _ _ E). lia.
          - destruct (keep_push_plain prev curr res Hi ltac:(lia)) as (A & B & C). repeat split; auto.
            intros l0 q E. apply app_inj_tail in E as [_ <-]. left. apply keep_plain; auto. lia. }
        destruct Hres1 as (A & B & C & D).
        apply IHfuel; [lia|].
        split; [lia|]. split; [|split; [|split; [|split]]].
        * rewrite concat_app, A. cbn. rewrite app_nil_r, <- firstn_substr. f_equal. lia.
        * apply Forall_app; auto.
        * apply no_merge_snoc; auto. intros l0 q E. split.
          -- intros [_ Hp]. eapply plain_not_sep; eauto.
          -- intros (x & Hq & _ & Hx1 & Hx2). rewrite Hrun in Hx2. apply repeat_spec in Hx2. subst x.
             destruct (D _ _ E); [eapply plain_not_sep; eauto|auto].
        * intros i Hi'. lia.
        * intros l0 q E. apply app_inj_tail in E as [_ <-]. split; auto.
          intros Hlt Hin. rewrite Hrun in Hin. apply repeat_spec in Hin.
          apply Hn; [lia|]. auto.
      + apply IHfuel; [lia|]. repeat (split; auto); try lia.
        intros i Hi'. destruct (Nat.eq_dec i curr); [subst; auto|]. apply H5. lia.
    - assert (curr = length s) by lia. subst curr.
      destruct (Nat.ltb_spec prev (length s)).
      + destruct (keep_push_plain prev (length s) res Hi ltac:(lia)) as (A & B & C).
        eexists. split; [reflexivity|]. rewrite A, firstn_all. auto.
      + exists res. split; auto. rewrite H2. rewrite firstn_all2 by lia. auto.
  Qed.
End Keep.

Lemma split_keep_spec : forall s sep,
  exists ps, split_keep s sep = Ok ps /\ concat ps = s /\
    Forall (fun p => plain_piece sep p \/ sep_piece sep p) ps /\ no_merge sep ps.
Proof.
  intros. apply keep_loop_ok; [lia|].
  split; [lia|]. split; [reflexivity|]. split; [constructor|]. split; [exact I|].
  split; [intros; lia|]. intros l0 q E. destruct l0; discriminate.
Qed.

(** ** find *)

Lemma starts_with_spec : forall p s, starts_with s p = true <-> exists b, s = p ++ b.
Proof.
  induction p; intros s; cbn.
  - split; eauto. destruct s; eauto.
  - destruct s as [|c s]; cbn.
    + split; [discriminate|]. intros (b & E). discriminate.
    + rewrite andb_true_iff, Z.eqb_eq, IHp. split.
      * intros (-> & b & ->). eauto.
      * intros (b & E). inversion E; subst. eauto.
Qed.

Lemma starts_with_nil : forall s, starts_with s [] = true.
Proof. destruct s; reflexivity. Qed.

Lemma occurs_at_0 : forall p s, occurs_at p s 0 <-> starts_with s p = true.
Proof.
  intros. rewrite starts_with_spec. split.
  - intros (a & b & E & Hl). destruct a; [|discriminate]. eauto.
  - intros (b & ->). exists [], b. auto.
Qed.

Lemma occurs_at_S : forall p c s i, occurs_at p (c :: s) (S i) <-> occurs_at p s i.
Proof.
  split.
  - intros (a & b & E & Hl). destruct a; [discriminate|]. inversion E; subst. inversion Hl.
    exists a, b. auto.
  - intros (a & b & -> & Hl). exists (c :: a), b. cbn. auto.
Qed.

Lemma find_rel_Some : forall p s i, find_rel s p = Some i <-> first_occurrence p s i.
Proof.
  intros p. induction s as [|c s IH]; intros i; cbn [find_rel].
  - destruct (starts_with [] p) eqn:E.
    + split.
      * intros H; inversion H; subst. split; [now apply occurs_at_0|]. intros; lia.
      * intros [_ H]. destruct i; auto. exfalso. apply (H 0%nat); [lia|]. now apply occurs_at_0.
    + split; [discriminate|]. intros [(a & b & E1 & E2) _].
      symmetry in E1. apply app_eq_nil in E1 as [-> E1]. apply app_eq_nil in E1 as [-> _].
      discriminate.
  - destruct (starts_with (c :: s) p) eqn:E.
    + split.
      * intros H; inversion H; subst. split; [now apply occurs_at_0|]. intros; lia.
      * intros [_ H]. destruct i; auto. exfalso. apply (H 0%nat); [lia|]. now apply occurs_at_0.
    + assert (H0 : ~ occurs_at p (c :: s) 0) by (rewrite occurs_at_0; congruence).
      destruct i as [|i].
      * split; [|intros [H _]; contradiction]. destruct (find_rel s p); discriminate.
      * assert (Hx : option_map S (find_rel s p) = Some (S i) <-> find_rel s p = Some i).
        { destruct (find_rel s p); cbn; split; congruence. }
        rewrite Hx, IH. unfold first_occurrence. rewrite occurs_at_S. split.
        -- intros [A B]. split; auto. intros [|j] Hj; auto. rewrite occurs_at_S. apply B. lia.
        -- intros [A B]. split; auto. intros j Hj. rewrite <- (occurs_at_S p c). apply B. lia.
Qed.

Lemma find_rel_None : forall p s, find_rel s p = None <-> ~ occurs p s.
Proof.
  intros p. induction s as [|c s IH]; cbn [find_rel].
  - destruct (starts_with [] p) eqn:E.
    + split; [discriminate|]. intros H. exfalso. apply H. exists 0%nat. now apply occurs_at_0.
    + split; auto. intros _ (i & a & b & E1 & _).
      symmetry in E1. apply app_eq_nil in E1 as [-> E1]. apply app_eq_nil in E1 as [-> _]. discriminate.
  - destruct (starts_with (c :: s) p) eqn:E.
    + split; [discriminate|]. intros H. exfalso. apply H. exists 0%nat. now apply occurs_at_0.
    + transitivity (find_rel s p = None); [destruct (find_rel s p); cbn; split; congruence|].
      rewrite IH. unfold occurs. split.
      * intros H (i & Hi). destruct i.
        -- rewrite occurs_at_0 in Hi. congruence.
        -- rewrite occurs_at_S in Hi. eauto.
      * intros H (i & Hi). apply H. exists (S i). now rewrite occurs_at_S.
Qed.

Lemma find_split : forall s p pos i, find s p pos = Some i ->
  exists a b, skipn pos s = a ++ p ++ b /\ i = (pos + length a)%nat /\ first_occurrence p (a ++ p ++ b) (length a).
Proof.
  unfold find. intros s p pos i H. destruct (Nat.ltb_spec (length s) pos); [discriminate|].
  destruct (find_rel (skipn pos s) p) as [k|] eqn:E; [|discriminate]. inversion H; subst.
  apply find_rel_Some in E. pose proof E as [(a & b & E1 & E2) _].
  exists a, b. rewrite <- E1, E2. auto.
Qed.

Lemma find_none : forall s p pos, (pos <= length s)%nat -> find s p pos = None -> ~ occurs p (skipn pos s).
Proof.
  unfold find. intros s p pos Hp H. destruct (Nat.ltb_spec (length s) pos); [lia|].
  apply find_rel_None. destruct (find_rel (skipn pos s) p); [discriminate|auto].
Qed.

(** ** split on a delimiter *)

Lemma split_str_loop_ok : forall fuel s d start ts, d <> [] -> (start <= length s)%nat ->
  (length s - start < fuel)%nat ->
  exists ts', split_str_loop fuel s d start (find s d start) ts = Ok (ts ++ ts') /\
    split_at d (skipn start s) ts'.
Proof.
  induction fuel; intros s d start ts Hd Hs Hf; [lia|]. cbn [split_str_loop].
  destruct (find s d start) as [en|] eqn:E.
  - destruct (find_split _ _ _ _ E) as (a & b & E1 & -> & Hfo).
    assert (Hlen : (length s = start + length a + length d + length b)%nat).
    { pose proof (skipn_length start s) as L. rewrite E1, !app_length in L. lia. }
    assert (Hb : skipn (start + length a + length d) s = b).
    { rewrite <- Nat.add_assoc, Nat.add_comm, <- skipn_skipn, E1, app_assoc.
      rewrite <- app_length. rewrite skipn_app, skipn_all, Nat.sub_diag. reflexivity. }
    assert (Ht : substr s start (start + length a - start) = a).
    { unfold substr. rewrite E1. replace (start + length a - start)%nat with (length a) by lia.
      rewrite firstn_app, firstn_all, Nat.sub_diag. cbn. apply app_nil_r. }
    assert (0 < length d)%nat by (destruct d; [congruence|cbn; lia]).
    destruct (IHfuel s d (start + length a + length d)%nat (ts ++ [a]) Hd ltac:(lia) ltac:(lia))
      as (ts' & A & B).
    exists (a :: ts'). rewrite Ht. split; [etransitivity; [exact A|]; now rewrite <- app_assoc|].
    rewrite E1. constructor; auto. rewrite Hb in B. exact B.
  - exists [skipn start s]. split; auto. constructor. now apply find_none.
Qed.

Lemma split_str_spec : forall s d fuel, d <> [] -> (length s < fuel)%nat ->
  exists ts, split_str fuel s d = Ok ts /\ split_at d s ts.
Proof.
  intros. unfold split_str. destruct (split_str_loop_ok fuel s d 0 [] H ltac:(lia) ltac:(lia)) as (ts & A & B).
  exists ts. auto.
Qed.

Lemma first_occurrence_unique : forall p s i j, first_occurrence p s i -> first_occurrence p s j -> i = j.
Proof. intros p s i j H1 H2. apply find_rel_Some in H1. apply find_rel_Some in H2. congruence. Qed.

Lemma split_at_join : forall d s ts, split_at d s ts -> ts <> [] /\ join d ts = s.
Proof.
  induction 1.
  - split; [discriminate|]. unfold join. cbn. apply app_nil_r.
  - destruct IHsplit_at as [Hn Hj]. split; [discriminate|].
    destruct ts as [|t ts]; [congruence|]. rewrite join_cons. cbn [flat_map].
    rewrite <- Hj, join_cons, <- app_assoc. reflexivity.
Qed.

Lemma occurs_app : forall d a b, occurs d a -> exists j, occurs_at d (a ++ b) j /\ (j + length d <= length a)%nat.
Proof.
  intros d a b (i & x & y & -> & Hl). exists i. split.
  - exists x, (y ++ b). rewrite <- !app_assoc. auto.
  - rewrite !app_length. lia.
Qed.

Lemma split_at_clean : forall d s ts, d <> [] -> split_at d s ts -> Forall (fun t => ~ occurs d t) ts.
Proof.
  induction 2; constructor; auto.
  intros Ho. destruct (occurs_app d a (d ++ b) Ho) as (j & Hj & Hl).
  destruct H0 as [_ H0]. apply (H0 j); auto. destruct d; [congruence|]. cbn in Hl. lia.
Qed.

Lemma app_len_inj : forall (a a' b b' : str), length a = length a' -> a ++ b = a' ++ b' -> a = a' /\ b = b'.
Proof.
  induction a as [|x a IHa]; intros [|y a'] b b' Hl E; cbn in *; try discriminate; auto.
  injection E as -> E. injection Hl as Hl. destruct (IHa a' b b' Hl E) as [-> ->]. auto.
Qed.

Lemma split_at_functional : forall d s ts, split_at d s ts -> forall ts', split_at d s ts' -> ts = ts'.
Proof.
  induction 1; intros ts' H'.
  - inversion H'; subst; auto. exfalso. apply H. exists (length a). apply H0.
  - remember (a ++ d ++ b) as s0 eqn:Es. destruct H' as [s0 Hn | a' b' ts' Hf Hs].
    + subst. exfalso. apply Hn. exists (length a). apply H.
    + assert (Hl : length a' = length a) by (eapply first_occurrence_unique; eauto).
      destruct (app_len_inj _ _ _ _ Hl Es) as [-> Eb].
      apply app_inv_head in Eb. subst. f_equal. auto.
Qed.

(** The empty delimiter never stops matching. *)
Lemma find_empty : forall s pos, (pos <= length s)%nat -> find s [] pos = Some pos.
Proof.
  intros. unfold find. destruct (Nat.ltb_spec (length s) pos); [lia|].
  assert (E : find_rel (skipn pos s) [] = Some 0%nat) by (destruct (skipn pos s); reflexivity).
  rewrite E. cbn. f_equal. lia.
Qed.

Lemma split_str_empty : forall fuel s, split_str fuel s [] = Fuel.
Proof.
  intros fuel s. unfold split_str.
  assert (H : forall fuel ts, split_str_loop fuel s [] 0 (find s [] 0) ts = Fuel).
  { clear. induction fuel; intros ts; auto. cbn [split_str_loop].
    rewrite find_empty at 1 by lia. cbn [length Nat.add]. apply IHfuel. }
  apply H.
Qed.

(** ** replace_all *)

Lemma replace_loop_ok : forall fuel s from to pos, from <> [] -> (pos <= length s)%nat ->
  (length s - pos < fuel)%nat ->
  exists r, replace_loop fuel s from to pos = Ok (firstn pos s ++ r) /\ replaced from to (skipn pos s) r.
Proof.
  induction fuel; intros s from to pos Hd Hp Hf; [lia|]. cbn [replace_loop].
  destruct (find s from pos) as [en|] eqn:E.
  - destruct (find_split _ _ _ _ E) as (a & b & E1 & -> & Hfo).
    assert (Hlen : (length s = pos + length a + length from + length b)%nat).
    { pose proof (skipn_length pos s) as L. rewrite E1, !app_length in L. lia. }
    assert (Hb : skipn (pos + length a + length from) s = b).
    { rewrite <- Nat.add_assoc, Nat.add_comm, <- skipn_skipn, E1, app_assoc.
      rewrite <- app_length. rewrite skipn_app, skipn_all, Nat.sub_diag. reflexivity. }
    assert (Ha : firstn (pos + length a) s = firstn pos s ++ a).
    { rewrite firstn_substr. unfold substr. rewrite E1, firstn_app, firstn_all, Nat.sub_diag. cbn.
      now rewrite app_nil_r. }
    assert (0 < length from)%nat by (destruct from; [congruence|cbn; lia]).
    assert (Hr : replace_at s (pos + length a) (length from) to = (firstn pos s ++ a ++ to) ++ b).
    { unfold replace_at. rewrite Hb, Ha, <- !app_assoc. reflexivity. }
    assert (Hl2 : length (firstn pos s ++ a ++ to) = (pos + length a + length to)%nat).
    { rewrite !app_length, firstn_length. lia. }
    destruct (IHfuel (replace_at s (pos + length a) (length from) to) from to (pos + length a + length to)%nat Hd)
      as (r & A & B).
    { rewrite Hr, app_length. lia. }
    { rewrite Hr, app_length. lia. }
    rewrite A, Hr, <- Hl2.
    rewrite firstn_app, firstn_all, Nat.sub_diag. cbn [firstn]. rewrite app_nil_r.
    exists (a ++ to ++ r). split.
    + now rewrite <- !app_assoc.
    + rewrite E1. constructor; auto.
      rewrite Hr, <- Hl2, skipn_app, skipn_all, Nat.sub_diag in B. exact B.
  - exists (skipn pos s). rewrite firstn_skipn. split; auto. constructor. now apply find_none.
Qed.

Lemma str_replace_all_spec : forall fuel s from to, from <> [] -> (length s < fuel)%nat ->
  exists r, str_replace_all fuel s from to = Ok r /\ replaced from to s r.
Proof.
  intros. destruct (replace_loop_ok fuel s from to 0 H ltac:(lia) ltac:(lia)) as (r & A & B). eauto.
Qed.

Lemma replaced_functional : forall from to s r, replaced from to s r -> forall r', replaced from to s r' -> r = r'.
Proof.
  induction 1; intros r' H'.
  - remember s as s0 eqn:Es. destruct H' as [s0 Hn | a b b' Hf Hs]; auto.
    exfalso. apply H. exists (length a). apply Hf.
  - remember (a ++ from ++ b) as s0 eqn:Es. destruct H' as [s0 Hn | a' c c' Hf Hs].
    + subst. exfalso. apply Hn. exists (length a). apply H.
    + assert (Hl : length a' = length a) by (eapply first_occurrence_unique; eauto).
      destruct (app_len_inj _ _ _ _ Hl Es) as [-> Eb].
      apply app_inv_head in Eb. subst. do 2 f_equal. auto.
Qed.

Lemma replace_all_eq : forall fuel s from to, from <> [] -> replace_all fuel s from to = str_replace_all fuel s from to.
Proof. intros. destruct from; [congruence|reflexivity]. Qed.

(** With an empty pattern the member function never stops: each round inserts the replacement and moves past
    it. *)
Lemma replace_loop_empty : forall fuel s to pos, (pos <= length s)%nat -> replace_loop fuel s [] to pos = Fuel.
Proof.
  induction fuel; intros s to pos H; auto. cbn [replace_loop]. rewrite find_empty by auto.
  apply IHfuel. unfold replace_at. cbn [length]. rewrite Nat.add_0_r, !app_length, firstn_length. lia.
Qed.

(** Replacing text by itself, or by text the pattern does not occur in, and lengths. *)
Lemma replaced_same : forall from s r, replaced from from s r -> r = s.
Proof. induction 1; congruence. Qed.

(** ** strip *)

Lemma strip_start_ok : forall fuel s lead off size, (off + size = length s)%nat -> (size <= fuel)%nat ->
  exists k, strip_start fuel s lead off size = ((off + k)%nat, (size - k)%nat) /\ (k <= size)%nat /\
    (forall i, (off <= i < off + k)%nat -> lead (char_at s i) = true) /\
    ((k < size)%nat -> lead (char_at s (off + k)) = false).
Proof.
  induction fuel; intros s lead off size H1 H2.
  - exists 0%nat. cbn. replace (off + 0)%nat with off by lia. replace (size - 0)%nat with size by lia.
    repeat split; auto; intros; lia.
  - cbn [strip_start]. destruct (Nat.ltb_spec 0 size); cbn [andb].
    + destruct (lead (char_at s off)) eqn:E.
      * destruct (IHfuel s lead (off + 1)%nat (size - 1)%nat ltac:(lia) ltac:(lia)) as (k & A & B & C & D).
        exists (S k). rewrite A. split; [f_equal; lia|]. split; [lia|]. split.
        -- intros i Hi. destruct (Nat.eq_dec i off); [congruence|]. apply C. lia.
        -- intros Hk. replace (off + S k)%nat with (off + 1 + k)%nat by lia. apply D. lia.
      * exists 0%nat. rewrite Nat.add_0_r, Nat.sub_0_r. repeat split; auto; intros; lia.
    + exists 0%nat. rewrite Nat.add_0_r, Nat.sub_0_r. repeat split; auto; intros; lia.
Qed.

Lemma strip_end_ok : forall fuel s tr off size, (off + size <= length s)%nat -> (size <= fuel)%nat ->
  exists k, strip_end fuel s tr off size = (off, (size - k)%nat) /\ (k <= size)%nat /\
    (forall i, (off + size - k <= i < off + size)%nat -> tr (char_at s i) = true) /\
    ((k < size)%nat -> tr (char_at s (off + size - k - 1)) = false).
Proof.
  induction fuel; intros s tr off size H1 H2.
  - exists 0%nat. cbn. replace (size - 0)%nat with size by lia. repeat split; auto; intros; lia.
  - cbn [strip_end]. destruct (Nat.ltb_spec 0 size); cbn [andb].
    + destruct (tr (char_at s (off + size - 1))) eqn:E.
      * destruct (IHfuel s tr off (size - 1)%nat ltac:(lia) ltac:(lia)) as (k & A & B & C & D).
        exists (S k). rewrite A. split; [f_equal; lia|]. split; [lia|]. split.
        -- intros i Hi. destruct (Nat.eq_dec i (off + size - 1)); [congruence|]. apply C. lia.
        -- intros Hk. replace (off + size - S k - 1)%nat with (off + (size - 1) - k - 1)%nat by lia.
           apply D. lia.
      * exists 0%nat. rewrite Nat.sub_0_r. repeat split; auto; try (intros; lia).
        intros _. rewrite Nat.sub_0_r. exact E.
    + exists 0%nat. rewrite Nat.sub_0_r. repeat split; auto; intros; lia.
Qed.

Lemma strip_spec : forall s lead tr, exists a b,
  s = a ++ strip s lead tr ++ b /\
  Forall (fun c => lead c = true) a /\ Forall (fun c => tr c = true) b /\
  (forall c m, strip s lead tr ++ b = c :: m -> lead c = false) /\
  (forall m c, strip s lead tr = m ++ [c] -> tr c = false).
Proof.
  intros s lead tr. unfold strip.
  destruct (Nat.ltb_spec 0 (length s)).
  2:{ destruct s; cbn in *; [|lia]. exists [], []. cbn. repeat split; auto; try discriminate.
      intros [|]; discriminate. }
  destruct (strip_start_ok (length s) s lead 0 (length s) eq_refl ltac:(lia)) as (k & A & B & C & D).
  rewrite A. cbn [Nat.add] in *.
  destruct (strip_end_ok (length s) s tr k (length s - k)%nat ltac:(lia) ltac:(lia)) as (j & E & F & G & I).
  rewrite E.
  assert (Hb : skipn k s = substr s k (length s - k - j) ++ substr s (length s - j) j).
  { unfold substr. rewrite <- (firstn_skipn (length s - k - j) (skipn k s)) at 1. f_equal.
    rewrite skipn_skipn. replace (length s - k - j + k)%nat with (length s - j)%nat by lia.
    rewrite firstn_all2; auto. rewrite skipn_length. lia. }
  exists (substr s 0 k), (substr s (length s - j) j).
  split; [|split; [|split; [|split]]].
  - rewrite <- Hb. unfold substr. cbn [skipn]. symmetry. apply firstn_skipn.
  - apply Forall_substr; [lia|]. intros. apply C. lia.
  - apply Forall_substr; [lia|]. intros. apply G. lia.
  - intros c m Hc. rewrite <- Hb in Hc.
    assert (Hk : (k < length s)%nat).
    { apply (f_equal (@length _)) in Hc. rewrite skipn_length in Hc. cbn in Hc. lia. }
    rewrite nth_skipn_cons in Hc by auto. inversion Hc; subst. apply D. lia.
  - intros m c Hc. pose proof (f_equal (@length _) Hc) as L.
    rewrite substr_length, app_length in L. cbn in L.
    assert (Ej : (j < length s - k)%nat) by lia.
    assert (Hn : nth (length m) (substr s k (length s - k - j)) 0 = c).
    { rewrite Hc, app_nth2, Nat.sub_diag; auto. }
    rewrite substr_nth in Hn by lia. rewrite <- Hn.
    replace (k + length m)%nat with (k + (length s - k) - j - 1)%nat by lia. auto.
Qed.

Lemma drop_prefix_spec : forall s p, (forall r, s = p ++ r -> drop_prefix s p = r) /\
  ((forall r, s <> p ++ r) -> drop_prefix s p = s).
Proof.
  intros s p. unfold drop_prefix. destruct (starts_with s p) eqn:E.
  - split.
    + intros r ->. rewrite skipn_app, skipn_all, Nat.sub_diag. reflexivity.
    + intros H. apply starts_with_spec in E as (b & ->). exfalso. apply (H b). reflexivity.
  - split; auto. intros r ->. exfalso.
    assert (starts_with (p ++ r) p = true) by (apply starts_with_spec; eauto). congruence.
Qed.

Lemma ends_with_spec : forall s p, ends_with s p = true <-> exists r, s = r ++ p.
Proof.
  intros. unfold ends_with. rewrite andb_true_iff, Nat.leb_le. split.
  - intros [H1 H2]. apply starts_with_spec in H2 as (b & E).
    exists (firstn (length s - length p) s).
    rewrite <- (firstn_skipn (length s - length p) s) at 1. f_equal.
    pose proof (f_equal (@length _) E) as L. rewrite skipn_length, app_length in L.
    destruct b; [now rewrite app_nil_r in E|cbn in L; lia].
  - intros (r & ->). rewrite app_length. split; [lia|].
    replace (length r + length p - length p)%nat with (length r) by lia.
    rewrite skipn_app, skipn_all, Nat.sub_diag. cbn. apply starts_with_spec. exists []. now rewrite app_nil_r.
Qed.

Lemma drop_suffix_spec : forall s p, (forall r, s = r ++ p -> drop_suffix s p = r) /\
  ((forall r, s <> r ++ p) -> drop_suffix s p = s).
Proof.
  intros s p. unfold drop_suffix. destruct (ends_with s p) eqn:E.
  - split.
    + intros r ->. rewrite app_length. replace (length r + length p - length p)%nat with (length r) by lia.
      rewrite firstn_app, firstn_all, Nat.sub_diag. cbn. apply app_nil_r.
    + intros H. apply ends_with_spec in E as (b & ->). exfalso. apply (H b). reflexivity.
  - split; auto. intros r ->. exfalso.
    assert (ends_with (r ++ p) p = true) by (apply ends_with_spec; eauto). congruence.
Qed.
