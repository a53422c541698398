From Coq Require Import ZArith List Bool Lia Sorting.Sorted.
From Verif Require Import Base LayoutModel LayoutSpec.
Import ListNotations.
Local Open Scope Z_scope.

Section P.
Context {L : Type}.
Implicit Types (s : list (piece L)) (p q : piece L).

(** ** Pieces and cursors *)

Lemma sorted_app_inv : forall (a b : list Z), StronglySorted Z.lt (a ++ b) ->
  StronglySorted Z.lt a /\ StronglySorted Z.lt b /\ forall x y, In x a -> In y b -> x < y.
Proof.
  induction a as [|x a IH]; simpl; intros b H.
  - split; [constructor|]. split; [exact H|]. contradiction.
  - inversion H as [|? ? Hs Hf]; subst. destruct (IH b Hs) as (A & B & C).
    rewrite Forall_app in Hf. destruct Hf as [F1 F2].
    split; [constructor; assumption|]. split; [exact B|].
    intros y z [->|Hy] Hz; [rewrite Forall_forall in F2; auto|auto].
Qed.

Lemma sorted_snoc : forall (a : list Z) x, StronglySorted Z.lt a -> (forall y, In y a -> y < x) ->
  StronglySorted Z.lt (a ++ [x]).
Proof.
  induction a as [|y a IH]; simpl; intros x H F.
  - constructor; constructor.
  - inversion H as [|? ? Hs Hf]; subst. constructor.
    + apply IH; auto.
    + rewrite Forall_app. split; [exact Hf|]. constructor; [auto|constructor].
Qed.

Lemma filter_all : forall A (f : A -> bool) l, (forall x, In x l -> f x = true) -> filter f l = l.
Proof.
  induction l as [|x l IH]; simpl; intros H; [reflexivity|].
  rewrite H by auto. f_equal. apply IH. auto.
Qed.
Lemma filter_none : forall A (f : A -> bool) l, (forall x, In x l -> f x = false) -> filter f l = [].
Proof.
  induction l as [|x l IH]; simpl; intros H; [reflexivity|].
  rewrite H by auto. apply IH. auto.
Qed.

Lemma last_snoc : forall A (l : list A) x d, last (l ++ [x]) d = x.
Proof.
  induction l as [|y l IH]; intros x d; [reflexivity|].
  simpl. rewrite IH. destruct l; reflexivity.
Qed.

Lemma piece_at_split : forall s1 p s2 m,
  (forall x, In x s1 -> pknot x <= m) -> pknot p <= m -> (forall x, In x s2 -> m < pknot x) ->
  piece_at (s1 ++ p :: s2) m = Some p.
Proof.
  intros s1 p s2 m H1 Hp H2. unfold piece_at.
  rewrite filter_app. simpl. rewrite (proj2 (Z.leb_le _ _) Hp).
  rewrite (filter_all _ _ s1) by (intros x Hx; apply Z.leb_le; auto).
  rewrite (filter_none _ _ s2) by (intros x Hx; apply Z.leb_gt; auto).
  rewrite map_app. simpl. apply last_snoc.
Qed.

Lemma sorted_split : forall s1 p s2, StronglySorted Z.lt (map (@pknot L) (s1 ++ p :: s2)) ->
  (forall x, In x s1 -> pknot x < pknot p) /\ (forall x, In x s2 -> pknot p < pknot x) /\
  StronglySorted Z.lt (map (@pknot L) s2).
Proof.
  intros s1 p s2 H. rewrite map_app in H. simpl in H.
  destruct (sorted_app_inv _ _ H) as (A & B & C).
  inversion B as [|? ? Bs Bf]; subst. split; [|split].
  - intros x Hx. apply C; [apply in_map; exact Hx|left; reflexivity].
  - intros x Hx. rewrite Forall_forall in Bf. apply Bf. apply in_map. exact Hx.
  - exact Bs.
Qed.

Lemma next_knot_app : forall s1 p s2,
  next_knot (s1 ++ p :: s2, length s1) = match s2 with [] => infty | q :: _ => pknot q end.
Proof.
  intros. unfold next_knot. cbn [fst snd].
  rewrite nth_error_app2 by lia.
  replace (S (length s1) - length s1)%nat with 1%nat by lia.
  simpl. destruct s2; reflexivity.
Qed.

Lemma nth_split_piece : forall s i p, nth_error s i = Some p ->
  exists s1 s2, s = s1 ++ p :: s2 /\ length s1 = i.
Proof. intros s i p H. apply nth_error_split in H. exact H. Qed.

Lemma piece_at_cursor : forall s i p m, StronglySorted Z.lt (map (@pknot L) s) ->
  nth_error s i = Some p -> pknot p <= m -> m < next_knot (s, i) -> m < infty ->
  piece_at s m = Some p.
Proof.
  intros s i p m Hs Hn Hp Hk Hi.
  destruct (nth_split_piece _ _ _ Hn) as (s1 & s2 & -> & <-).
  destruct (sorted_split _ _ _ Hs) as (A & B & C).
  rewrite next_knot_app in Hk.
  apply piece_at_split; [intros x Hx; specialize (A x Hx); lia|exact Hp|].
  destruct s2 as [|q s2]; [contradiction|].
  intros x [<-|Hx]; [lia|].
  inversion C as [|? ? Cs Cf]; subst. rewrite Forall_forall in Cf.
  specialize (Cf (pknot x) (in_map _ _ _ Hx)). lia.
Qed.

(** The same when the last piece is in force for ever. *)
Lemma piece_at_last : forall s i p m, StronglySorted Z.lt (map (@pknot L) s) ->
  nth_error s i = Some p -> S i = length s -> pknot p <= m -> piece_at s m = Some p.
Proof.
  intros s i p m Hs Hn Hl Hp.
  destruct (nth_split_piece _ _ _ Hn) as (s1 & s2 & -> & <-).
  rewrite app_length in Hl. simpl in Hl.
  destruct s2; [|simpl in Hl; lia].
  destruct (sorted_split _ _ _ Hs) as (A & B & C).
  apply piece_at_split; [intros x Hx; specialize (A x Hx); lia|exact Hp|contradiction].
Qed.

(** A cursor stands on the piece in force at [k]. *)
Definition on (c : list (piece L) * nat) (k : Z) : Prop :=
  exists p, nth_error (fst c) (snd c) = Some p /\ pknot p <= k /\ k < next_knot c.

Lemma next_knot_gt : forall s i p, proper s -> nth_error s i = Some p -> pknot p < next_knot (s, i).
Proof.
  intros s i p (_ & Hs & Hf) Hn.
  destruct (nth_split_piece _ _ _ Hn) as (s1 & s2 & -> & <-).
  rewrite next_knot_app. destruct (sorted_split _ _ _ Hs) as (A & B & C).
  destruct s2 as [|q s2]; [|apply B; left; reflexivity].
  rewrite Forall_forall in Hf. apply (Hf p). apply in_or_app. right. left. reflexivity.
Qed.

Lemma retreat_ok : forall s margin, proper s -> 0 <= margin -> margin < infty ->
  forall i p, nth_error s i = Some p -> margin < next_knot (s, i) ->
  exists j, retreat_to s margin i = Ok j /\ on (s, j) margin.
Proof.
  intros s margin Hp Hm Hi. induction i as [|i IH]; intros p Hn Hk.
  - simpl. destruct Hp as ((p0 & s' & -> & H0) & _). injection Hn as <-.
    rewrite (proj2 (Z.ltb_ge _ _)) by lia. exists O. split; [reflexivity|].
    exists p0. split; [reflexivity|]. split; [lia|exact Hk].
  - cbn [retreat_to]. rewrite Hn. destruct (Z.ltb_spec margin (pknot p)) as [Hlt|Hge].
    + assert (Hx : exists q, nth_error s i = Some q).
      { destruct (nth_error s i) eqn:E; [eauto|]. apply nth_error_None in E.
        assert (S i < length s)%nat by (apply nth_error_Some; congruence). lia. }
      destruct Hx as [q Hq]. apply (IH q Hq).
      unfold next_knot. cbn [fst snd]. rewrite Hn. exact Hlt.
    + exists (S i). split; [reflexivity|]. exists p. split; [exact Hn|]. split; [lia|exact Hk].
Qed.

Lemma advance_ok : forall s margin, proper s -> margin < infty ->
  forall fuel i p, (length s - i < fuel)%nat -> nth_error s i = Some p -> pknot p <= margin ->
  exists j, advance_to fuel s margin i = Ok j /\ on (s, j) margin /\ (i <= j)%nat.
Proof.
  intros s margin Hp Hi. induction fuel as [|fuel IH]; intros i p Hf Hn Hk; [lia|].
  cbn [advance_to].
  destruct (Z.leb_spec (next_knot (s, i)) margin) as [Hle|Hgt]; cbn [andb].
  - destruct (Z.eqb_spec (next_knot (s, i)) infty) as [E|E]; [lia|]. cbn [negb].
    unfold next_knot in Hle, E. cbn [fst snd] in Hle, E.
    destruct (nth_error s (S i)) as [q|] eqn:Eq; [|congruence].
    assert (S i < length s)%nat by (apply nth_error_Some; congruence).
    destruct (IH (S i) q) as (j & A & B & C); [lia|exact Eq|lia|].
    exists j. split; [exact A|]. split; [exact B|lia].
  - exists i. split; [reflexivity|]. split; [|lia]. exists p. split; [exact Hn|]. split; [lia|exact Hgt].
Qed.

Lemma move_ok : forall s margin i p, proper s -> 0 <= margin -> margin < infty ->
  nth_error s i = Some p ->
  exists j, move_to_margin (s, i) margin = Ok (s, j) /\ on (s, j) margin.
Proof.
  intros s margin i p Hp H0 Hi Hn. unfold move_to_margin, cur. cbn [fst snd]. rewrite Hn. cbn [obind].
  destruct (Z.ltb_spec margin (pknot p)) as [Hlt|Hge].
  - destruct (retreat_ok s margin Hp H0 Hi i p Hn) as (j & A & B).
    { pose proof (next_knot_gt s i p Hp Hn). lia. }
    exists j. rewrite A. split; [reflexivity|exact B].
  - destruct (advance_ok s margin Hp Hi (S (length s)) i p) as (j & A & B & _); [lia|exact Hn|lia|].
    exists j. rewrite A. split; [reflexivity|exact B].
Qed.

Lemma move_all_ok : forall margin cs, 0 <= margin -> margin < infty ->
  Forall (fun c => proper (fst c) /\ exists p, nth_error (fst c) (snd c) = Some p) cs ->
  exists cs', move_all cs margin = Ok cs' /\ map fst cs' = map fst cs /\ Forall (fun c => on c margin) cs'.
Proof.
  intros margin cs H0 Hi. induction cs as [|c cs IH]; intros H.
  - exists []. repeat split. constructor.
  - inversion H as [|? ? [Hp (p & Hn)] Hr]; subst. destruct c as [s i]. cbn [fst snd] in *.
    destruct (move_ok s margin i p Hp H0 Hi Hn) as (j & A & B).
    destruct (IH Hr) as (cs' & C & D & E).
    exists ((s, j) :: cs'). cbn [move_all]. rewrite A. cbn [obind]. rewrite C. cbn [omap obind].
    split; [reflexivity|]. split; [cbn [map fst]; congruence|]. constructor; assumption.
Qed.

Lemma cur_all_ok : forall cs k, Forall (fun c => on c k) cs ->
  exists ps, cur_all cs = Ok ps /\
    Forall2 (fun c p => nth_error (fst c) (snd c) = Some p /\ pknot p <= k < next_knot c) cs ps.
Proof.
  induction cs as [|c cs IH]; intros k H.
  - exists []. split; [reflexivity|constructor].
  - inversion H as [|? ? (p & Hn & H1 & H2) Hr]; subst. destruct (IH k Hr) as (ps & A & B).
    exists (p :: ps). cbn [cur_all]. unfold cur. rewrite Hn. cbn [obind]. rewrite A. cbn [omap obind].
    split; [reflexivity|]. constructor; [|exact B]. split; [exact Hn|lia].
Qed.

(** ** Smallest elements *)

Lemma first_min_none : forall l, first_min l = None <-> l = [].
Proof.
  intros [|x l]; cbn [first_min]; split; intros H; try reflexivity; try discriminate.
  destruct (first_min l) as [[i v]|]; [destruct (v <? x)|]; discriminate.
Qed.

Lemma first_min_some : forall l i v, first_min l = Some (i, v) ->
  nth_error l i = Some v /\ (forall x, In x l -> v <= x) /\
  (forall i' x, (i' < i)%nat -> nth_error l i' = Some x -> v < x).
Proof.
  induction l as [|x l IH]; cbn [first_min]; intros i v H; [discriminate|].
  destruct (first_min l) as [[j w]|] eqn:E.
  - destruct (IH j w eq_refl) as (A & B & C). destruct (Z.ltb_spec w x) as [Hlt|Hge].
    + injection H as <- <-. split; [exact A|]. split.
      * intros y [->|Hy]; [lia|auto].
      * intros [|i'] y Hi Hy; [injection Hy as <-; exact Hlt|]. apply (C i' y); [lia|exact Hy].
    + injection H as <- <-. split; [reflexivity|]. split.
      * intros y [->|Hy]; [lia|]. specialize (B y Hy). lia.
      * intros i' y Hi. lia.
  - apply first_min_none in E. subst l. injection H as <- <-. split; [reflexivity|]. split.
    + intros y [->|[]]. lia.
    + intros i' y Hi. lia.
Qed.

Lemma first_min_unique : forall l i v, nth_error l i = Some v -> (forall x, In x l -> v <= x) ->
  (forall i' x, (i' < i)%nat -> nth_error l i' = Some x -> v < x) -> first_min l = Some (i, v).
Proof.
  intros l i v A B C. destruct (first_min l) as [[j w]|] eqn:E.
  - destruct (first_min_some _ _ _ E) as (A' & B' & C').
    assert (v = w).
    { assert (v <= w) by (apply B; eapply nth_error_In; eauto).
      assert (w <= v) by (apply B'; eapply nth_error_In; eauto). lia. }
    subst w. assert (i = j); [|congruence].
    destruct (Nat.lt_trichotomy i j) as [Hlt|[Heq|Hgt]]; [|exact Heq|].
    + specialize (C' i v Hlt A). lia.
    + specialize (C j v Hgt A'). lia.
  - apply first_min_none in E. subst l. destruct i; discriminate.
Qed.

(** ** Crossovers *)

Lemma ceil_div_spec : forall a b d, 0 < b -> (ceil_div a b <= d <-> a <= b * d).
Proof.
  intros a b d Hb. unfold ceil_div. pose proof (Z.div_mod (- a) b ltac:(lia)) as E.
  pose proof (Z.mod_pos_bound (- a) b Hb) as M. split; intros H; nia.
Qed.
Lemma ceil_div_nonneg : forall a b, 0 < b -> 0 <= a -> 0 <= ceil_div a b.
Proof.
  intros a b Hb Ha. destruct (Z.le_gt_cases 0 (ceil_div a b)) as [H|H]; [exact H|].
  assert (ceil_div a b <= -1) as H' by lia. apply ceil_div_spec in H'; [|exact Hb]. nia.
Qed.

Lemma value_shift : forall p k m, value_at p m = value_at p k + pgrad p * (m - k).
Proof. intros. unfold value_at. ring. Qed.

Lemma crossovers_in : forall (ps : list (piece L)) kl kh v g k, In k (crossovers ps kl kh v g) <->
  k <= kh /\ exists p, In p ps /\ pgrad p < g /\ k = kl + ceil_div (value_at p kl - v) (g - pgrad p).
Proof.
  intros. unfold crossovers. rewrite filter_In, in_map_iff. split.
  - intros [(p & <- & Hp) Hk]. apply filter_In in Hp. destruct Hp as [Hp Hg].
    apply Z.ltb_lt in Hg. apply Z.leb_le in Hk. split; [exact Hk|]. exists p. auto.
  - intros [Hk (p & Hp & Hg & ->)]. split; [|apply Z.leb_le; exact Hk]. exists p. split; [reflexivity|].
    apply filter_In. split; [exact Hp|]. apply Z.ltb_lt. exact Hg.
Qed.

(** Up to the next crossover the chosen piece stays the cheapest. *)
Lemma min_until_cross : forall (ps : list (piece L)) kl kh p m,
  (forall q, In q ps -> value_at p kl <= value_at q kl) -> kl <= m <= kh ->
  (forall k, In k (crossovers ps kl kh (value_at p kl) (pgrad p)) -> m < k) ->
  forall q, In q ps -> value_at p m <= value_at q m.
Proof.
  intros ps kl kh p m Hmin Hm Hc q Hq. specialize (Hmin q Hq).
  rewrite (value_shift p kl m), (value_shift q kl m).
  destruct (Z.lt_ge_cases (pgrad q) (pgrad p)) as [Hg|Hg]; [|nia].
  set (d := ceil_div (value_at q kl - value_at p kl) (pgrad p - pgrad q)) in *.
  assert (m < kl + d) as Hd.
  { destruct (Z.le_gt_cases (kl + d) kh) as [H|H]; [|lia].
    apply Hc. apply crossovers_in. split; [exact H|]. exists q. auto. }
  destruct (Z.le_gt_cases (value_at q kl - value_at p kl) ((pgrad p - pgrad q) * (m - kl))) as [H|H]; [|nia].
  apply ceil_div_spec in H; [|lia]. fold d in H. lia.
Qed.

(** ** The inner loop *)

Lemma inner_stuck : forall fuel ps ixs kl kh i ix v p fac,
  first_min (map (fun q => value_at q kl) ps) = Some (i, v) -> nth_error ps i = Some p ->
  nth_error ixs i = Some ix ->
  (exists j, first_min (crossovers ps kl kh v (pgrad p)) = Some (j, kl)) ->
  @min_inner L fuel ps ixs kl kh (Some (i, ix)) fac = Fuel.
Proof.
  induction fuel as [|fuel IH]; intros ps ixs kl kh i ix v p fac Hf Hp Hx [j Hc]; [reflexivity|].
  cbn [min_inner]. rewrite Hf, Hp, Hx, !Nat.eqb_refl. cbn [andb obind]. rewrite Hc.
  eapply IH; eauto.
Qed.

Definition same_line (a b : piece L) : Prop :=
  pspan a = pspan b /\ pgrad a = pgrad b /\ forall m, value_at a m = value_at b m.

(** What the solution under construction knows about columns below [kl]. *)
Record built (ss : list (list (piece L))) (fac : list (piece L)) (lst : option (nat * nat)) (kl : Z) : Prop := {
  b_sorted : StronglySorted Z.lt (map (@pknot L) fac);
  b_fields : Forall (fun p => pknot p < infty /\ 0 <= pspan p /\ 0 <= pint p /\ 0 <= pgrad p) fac;
  b_below : forall x, In x fac -> pknot x < kl;
  b_cost : forall m, 0 <= m < kl -> exists p, piece_at fac m = Some p /\ cheapest ss m (value_at p m) (pspan p) /\
    exists s q, In s ss /\ piece_at s m = Some q /\ same_line p q;
  b_knots : Forall (fun x => exists s q, In s ss /\ piece_at s (pknot x) = Some q /\ same_line x q /\ plyt x = plyt q) fac;
  b_last : (fac = [] /\ lst = None /\ kl = 0) \/
    (exists f0 fl l i ix s q, fac = f0 :: fl /\ pknot f0 = 0 /\ (exists fac0, fac = fac0 ++ [l]) /\
       lst = Some (i, ix) /\ nth_error ss i = Some s /\ nth_error s ix = Some q /\ same_line l q) }.

Lemma add_piece_same : forall fac l q fac', add_piece (fac ++ [l]) q = Ok fac' ->
  (fac' = fac ++ [l] /\ same_line l q) \/
  (fac' = (fac ++ [l]) ++ [q] /\ 0 <= pspan q /\ 0 <= pint q /\ 0 <= pgrad q).
Proof.
  intros fac l q fac' H. unfold add_piece in H. rewrite rev_app_distr in H. cbn [rev app] in H.
  destruct ((pspan q =? pspan l) && (pgrad q =? pgrad l) && (pint l + (pknot q - pknot l) * pgrad l =? pint q)) eqn:E.
  - injection H as <-. left. split; [reflexivity|]. rewrite !andb_true_iff, !Z.eqb_eq in E.
    destruct E as [[E1 E2] E3]. split; [congruence|]. split; [congruence|].
    intros m. unfold value_at. rewrite <- E3, E2. ring.
  - destruct ((pknot q <? 0) || (pspan q <? 0) || (pint q <? 0) || (pgrad q <? 0)) eqn:F; [discriminate|].
    injection H as <-. right. rewrite !orb_false_iff, !Z.ltb_ge in F. split; [reflexivity|]. lia.
Qed.

Lemma add_piece_ok : forall fac q, 0 <= pknot q -> 0 <= pspan q -> 0 <= pint q -> 0 <= pgrad q ->
  exists fac', add_piece fac q = Ok fac'.
Proof.
  intros fac q A B C D. unfold add_piece.
  destruct (match rev fac with [] => false | l :: _ => _ end); [eauto|].
  rewrite !(proj2 (Z.ltb_ge _ _)) by assumption. cbn. eauto.
Qed.

Lemma f2_length : forall A B (R : A -> B -> Prop) l1 l2, Forall2 R l1 l2 -> length l1 = length l2.
Proof. induction 1; simpl; congruence. Qed.

Section Inner.
Variables (ss : list (list (piece L))) (cs : list (list (piece L) * nat)) (ps : list (piece L)) (k0 kh : Z).
Hypothesis Hss : map fst cs = ss.
Hypothesis Hprop : Forall proper ss.
Hypothesis Hk0 : 0 <= k0.
Hypothesis Hkh : kh < infty.
Hypothesis Hps : Forall2 (fun c p => nth_error (fst c) (snd c) = Some p /\ pknot p <= k0 /\ kh < next_knot c) cs ps.

Lemma in_piece_at : forall m i s, k0 <= m <= kh -> nth_error ss i = Some s ->
  exists p, nth_error ps i = Some p /\ piece_at s m = Some p /\ (exists ix, nth_error (map snd cs) i = Some ix /\ nth_error s ix = Some p).
Proof.
  intros m i s Hm Hi. clear Hk0. subst ss. revert i s Hi Hprop. induction Hps as [|[s' ix] p cs' ps' (A & B & C) HF IH];
    intros i s Hi Hprop.
  - destruct i; discriminate.
  - cbn [map fst snd] in *. inversion Hprop as [|? ? P1 P2]; subst. destruct i as [|i].
    + injection Hi as <-. exists p. split; [reflexivity|]. split; [|exists ix; auto].
      apply (piece_at_cursor s' ix p m); [apply P1|exact A|lia|lia|lia].
    + cbn [nth_error] in *. apply IH; assumption.
Qed.

Lemma ps_ss : forall i p, nth_error ps i = Some p -> exists s, nth_error ss i = Some s.
Proof.
  intros i p H. destruct (nth_error ss i) eqn:E; [eauto|]. apply nth_error_None in E.
  assert (i < length ps)%nat by (apply nth_error_Some; congruence).
  subst ss. rewrite map_length in E.
  assert (length cs = length ps) by (exact (f2_length _ _ _ _ _ Hps)). lia.
Qed.

Lemma cost_piece : forall m i s p, k0 <= m <= kh -> nth_error ss i = Some s -> nth_error ps i = Some p ->
  cost s m = Some (value_at p m) /\ span_at s m = Some (pspan p) /\ slope_at s m = Some (pgrad p).
Proof.
  intros m i s p Hm Hi Hp. destruct (in_piece_at m i s Hm Hi) as (p' & A & B & _).
  assert (p' = p) by congruence. subst p'.
  unfold cost, span_at, slope_at. rewrite B. repeat split.
Qed.

Lemma cheapest_piece : forall m i p, k0 <= m <= kh -> nth_error ps i = Some p ->
  (forall q, In q ps -> value_at p m <= value_at q m) -> cheapest ss m (value_at p m) (pspan p).
Proof.
  intros m i p Hm Hp Hmin. destruct (ps_ss i p Hp) as [s Hs].
  destruct (cost_piece m i s p Hm Hs Hp) as (A & B & _). split.
  - exists s. split; [eapply nth_error_In; eauto|auto].
  - intros s' v' Hin Hv. destruct (In_nth_error _ _ Hin) as [j Hj].
    destruct (in_piece_at m j s' Hm Hj) as (q & Hq & Hat & _).
    destruct (cost_piece m j s' q Hm Hj Hq) as (E & _). rewrite Hv in E. injection E as ->.
    apply Hmin. eapply nth_error_In; eauto.
Qed.

Lemma fields_at : forall i p, nth_error ps i = Some p ->
  0 <= pspan p /\ 0 <= pint p /\ 0 <= pgrad p /\ 0 <= pknot p.
Proof.
  intros i p Hp. destruct (ps_ss i p Hp) as [s Hs].
  assert (Hin : In p s).
  { clear Hprop. subst ss. revert i Hp Hs. induction Hps as [|[s' ix] p' cs' ps' (A & _) HF IH]; intros [|i] Hp Hs; try discriminate.
    - cbn in *. injection Hp as ->. injection Hs as ->. eapply nth_error_In; eauto.
    - cbn in *. eapply IH; eauto. }
  rewrite Forall_forall in Hprop. destruct (Hprop s (nth_error_In _ _ Hs)) as (H0 & Hso & Hf).
  rewrite Forall_forall in Hf. specialize (Hf p Hin). destruct H0 as (p0 & s0 & -> & E0).
  assert (0 <= pknot p); [|lia]. destruct Hin as [<-|Hin]; [lia|].
  cbn [map] in Hso. inversion Hso as [|? ? ? Hf2]; subst. rewrite Forall_forall in Hf2.
  specialize (Hf2 (pknot p) (in_map _ _ _ Hin)). lia.
Qed.

Lemma value_nonneg : forall i p m, nth_error ps i = Some p -> k0 <= m -> 0 <= value_at p m.
Proof.
  intros i p m Hp Hm. destruct (fields_at i p Hp) as (A & B & C & D).
  assert (pknot p <= k0).
  { clear - Hps Hp. revert i Hp. induction Hps as [|c p' cs' ps' (A & B & C) HF IH]; intros [|i] Hp; try discriminate.
    - injection Hp as ->. exact B.
    - eapply IH; eauto. }
  unfold value_at. nia.
Qed.

Lemma first_some : ps <> [] -> forall kl, exists i v p ix, first_min (map (fun q => value_at q kl) ps) = Some (i, v) /\
  nth_error ps i = Some p /\ nth_error (map snd cs) i = Some ix /\ v = value_at p kl.
Proof.
  intros Hne kl. destruct (first_min (map (fun q => value_at q kl) ps)) as [[i v]|] eqn:E.
  - destruct (first_min_some _ _ _ E) as (A & B & C). rewrite nth_error_map in A.
    destruct (nth_error ps i) as [p|] eqn:Ep; [|discriminate]. injection A as A.
    destruct (nth_error (map snd cs) i) as [ix|] eqn:Ex.
    + exists i, v, p, ix. repeat split; auto.
    + exfalso. apply nth_error_None in Ex. rewrite map_length in Ex.
      assert (i < length ps)%nat by (apply nth_error_Some; congruence).
      assert (length cs = length ps) by (exact (f2_length _ _ _ _ _ Hps)). lia.
  - apply first_min_none in E. destruct ps; [congruence|discriminate].
Qed.

(** One step: the factory after the possible [add]. *)
Lemma step_add : forall kl lst fac i ix p,
  built ss fac lst kl -> k0 <= kl <= kh -> nth_error ps i = Some p -> nth_error (map snd cs) i = Some ix ->
  (forall q, In q ps -> value_at p kl <= value_at q kl) ->
  exists fac',
   (if match lst with Some (i', ix') => Nat.eqb i i' && Nat.eqb ix ix' | None => false end then Ok fac
    else add_piece fac (mkP kl (pspan p) (value_at p kl) (pgrad p) (plyt p))) = Ok fac' /\
   forall k, kl < k -> k <= kh + 1 ->
     (forall m, kl <= m < k -> forall q, In q ps -> value_at p m <= value_at q m) ->
     built ss fac' (Some (i, ix)) k.
Proof.
  intros kl lst fac i ix p HB Hkl Hp Hix Hmin.
  destruct (ps_ss i p Hp) as [s Hs].
  destruct (in_piece_at kl i s Hkl Hs) as (p' & Hp' & Hat & (ix' & Hix' & Hsx)).
  assert (p' = p) by congruence. assert (ix' = ix) by congruence. subst p' ix'.
  destruct (fields_at i p Hp) as (F1 & F2 & F3 & F4).
  assert (Hv : 0 <= value_at p kl) by (eapply value_nonneg; [exact Hp|lia]).
  set (qn := mkP kl (pspan p) (value_at p kl) (pgrad p) (plyt p)).
  assert (Hqn : same_line qn p).
  { split; [reflexivity|]. split; [reflexivity|]. intros m. rewrite (value_shift p kl m). reflexivity. }
  (* what every outcome needs *)
  assert (Main : forall fac', (exists f0 fl, fac' = f0 :: fl /\ pknot f0 = 0) ->
     (exists fac0 l, fac' = fac0 ++ [l] /\ same_line l p) ->
     StronglySorted Z.lt (map (@pknot L) fac') ->
     Forall (fun p => pknot p < infty /\ 0 <= pspan p /\ 0 <= pint p /\ 0 <= pgrad p) fac' ->
     Forall (fun x => exists s q, In s ss /\ piece_at s (pknot x) = Some q /\ same_line x q /\ plyt x = plyt q) fac' ->
     (forall x, In x fac' -> pknot x <= kl) ->
     (forall m, 0 <= m < kl -> piece_at fac' m = piece_at fac m) ->
     forall k, kl < k -> k <= kh + 1 ->
     (forall m, kl <= m < k -> forall q, In q ps -> value_at p m <= value_at q m) ->
     built ss fac' (Some (i, ix)) k).
  { intros fac' (f0 & fl & E0 & Z0) (fac0 & l & E1 & SL) Hs1 Hs2 Hs5 Hs3 Hs4 k Hk Hkk Hm.
    constructor; auto.
    - intros x Hx. specialize (Hs3 x Hx). lia.
    - intros m Hm'. destruct (Z.lt_ge_cases m kl) as [Hlt|Hge].
      + rewrite Hs4 by lia. apply (b_cost _ _ _ _ HB). lia.
      + exists l. split.
        * rewrite E1. apply piece_at_split.
          -- intros x Hx. assert (pknot x <= kl); [|lia]. apply Hs3. rewrite E1. apply in_or_app. auto.
          -- assert (pknot l <= kl); [|lia]. apply Hs3. rewrite E1. apply in_or_app. right. left. reflexivity.
          -- contradiction.
        * split.
          -- destruct SL as (S1 & S2 & S3). rewrite S1, S3. eapply cheapest_piece; [|exact Hp|].
             ++ lia.
             ++ apply Hm. lia.
          -- destruct (in_piece_at m i s ltac:(lia) Hs) as (p' & Hp'' & Hat' & _).
             exists s, p'. split; [eapply nth_error_In; eauto|]. split; [exact Hat'|]. congruence.
    - right. exists f0, fl, l, i, ix, s, p. repeat split; auto; try (exists fac0; exact E1); apply SL. }
  destruct (b_last _ _ _ _ HB) as [(Ef & El & Ek)|(f0 & fl & l & i0 & ix0 & s0 & q & Ef & Z0 & (fac0 & E1) & El & Hi0 & Hq & SL)].
  - subst fac lst kl. cbn [add_piece rev]. exists [qn]. split.
    { unfold qn. unfold add_piece. cbn. rewrite !(proj2 (Z.ltb_ge _ _)) by (try assumption; lia). reflexivity. }
    apply Main.
    + exists qn, []. split; reflexivity.
    + exists [], qn. split; [reflexivity|exact Hqn].
    + constructor; constructor.
    + constructor; [|constructor]. subst qn. cbn. unfold infty in *. lia.
    + constructor; [|constructor]. exists s, p. split; [eapply nth_error_In; eauto|]. auto.
    + intros x [<-|[]]. cbn. lia.
    + intros m Hm. lia.
  - assert (HlastB : forall x, In x fac -> pknot x < kl) by apply HB.
    destruct (match lst with Some (i', ix') => Nat.eqb i i' && Nat.eqb ix ix' | None => false end) eqn:E.
    + exists fac. split; [reflexivity|]. subst lst. apply andb_true_iff in E. destruct E as [EA EB].
      apply Nat.eqb_eq in EA, EB. subst i0 ix0.
      assert (s0 = s) by congruence. subst s0. assert (q = p) by congruence. subst q.
      apply Main; try (apply HB); auto.
      * exists f0, fl. auto.
      * exists fac0, l. auto.
      * intros x Hx. specialize (HlastB x Hx). lia.
    + destruct (add_piece_ok fac qn) as [fac' Hadd]; try (subst qn; cbn; lia).
      exists fac'. split; [exact Hadd|]. rewrite E1 in Hadd.
      destruct (add_piece_same _ _ _ _ Hadd) as [[-> SL2]|(-> & _)].
      * rewrite <- E1. apply Main; try (apply HB); auto.
        -- exists f0, fl. auto.
        -- exists fac0, l. split; [exact E1|]. destruct SL2 as (A & B & C), Hqn as (A' & B' & C').
           split; [congruence|]. split; [congruence|]. intros m. rewrite C. apply C'.
        -- intros x Hx. specialize (HlastB x Hx). lia.
      * rewrite <- E1. apply Main.
        -- exists f0, (fl ++ [qn]). split; [rewrite Ef; reflexivity|exact Z0].
        -- exists fac, qn. split; [reflexivity|exact Hqn].
        -- rewrite map_app. apply sorted_snoc; [apply HB|]. intros y Hy. apply in_map_iff in Hy.
           destruct Hy as (x & <- & Hx). cbn. apply HlastB. exact Hx.
        -- apply Forall_app. split; [apply HB|]. constructor; [|constructor]. subst qn. cbn [pknot pspan pint pgrad]. lia.
        -- apply Forall_app. split; [apply HB|]. constructor; [|constructor].
           exists s, p. split; [eapply nth_error_In; eauto|]. auto.
        -- intros x Hx. apply in_app_or in Hx. destruct Hx as [Hx|[<-|[]]]; [|cbn; lia].
           specialize (HlastB x Hx). lia.
        -- intros m Hm. unfold piece_at. rewrite filter_app. cbn [filter].
           replace (pknot qn <=? m) with false by (symmetry; apply Z.leb_gt; cbn; lia).
           rewrite app_nil_r. reflexivity.
Qed.

Lemma inner_result : ps <> [] -> forall fuel kl lst fac, built ss fac lst kl -> k0 <= kl <= kh ->
  min_inner fuel ps (map snd cs) kl kh lst fac = Fuel \/
  exists lst' fac', min_inner fuel ps (map snd cs) kl kh lst fac = Ok (lst', fac') /\ built ss fac' lst' (kh + 1).
Proof.
  intros Hne. induction fuel as [|fuel IH]; intros kl lst fac HB Hkl; [left; reflexivity|].
  destruct (first_some Hne kl) as (i & v & p & ix & Ef & Ep & Ex & ->).
  destruct (first_min_some _ _ _ Ef) as (_ & Hmin & _).
  assert (Hmin' : forall q, In q ps -> value_at p kl <= value_at q kl).
  { intros q Hq. apply Hmin. apply (in_map (fun q => value_at q kl)). exact Hq. }
  destruct (step_add kl lst fac i ix p HB Hkl Ep Ex Hmin') as (fac' & Hadd & Hnext).
  cbn [min_inner]. rewrite Ef, Ep, Ex. cbv zeta. rewrite Hadd. cbn [obind].
  destruct (first_min (crossovers ps kl kh (value_at p kl) (pgrad p))) as [[j k]|] eqn:Ec.
  - destruct (first_min_some _ _ _ Ec) as (Hk & Hkmin & _).
    apply nth_error_In in Hk. apply crossovers_in in Hk. destruct Hk as (Hkh' & q & Hq & Hg & Hkq).
    assert (kl <= k).
    { rewrite Hkq. assert (0 <= ceil_div (value_at q kl - value_at p kl) (pgrad p - pgrad q)); [|lia].
      apply ceil_div_nonneg; [lia|]. specialize (Hmin' q Hq). lia. }
    destruct (Z.eq_dec k kl) as [->|Hneq].
    + left. eapply inner_stuck; eauto.
    + apply IH; [|lia]. apply Hnext; [lia|lia|]. intros m Hm. apply (min_until_cross ps kl kh p m Hmin'); [lia|].
      intros k' Hk'. specialize (Hkmin k' Hk'). lia.
  - right. apply first_min_none in Ec. exists (Some (i, ix)), fac'. split; [reflexivity|].
    apply Hnext; [lia|lia|]. intros m Hm. apply (min_until_cross ps kl kh p m Hmin'); [lia|].
    rewrite Ec. contradiction.
Qed.

(** The first cheapest piece at [kl], seen from the specification. *)
Lemma tie_iff : forall m, k0 <= m <= kh ->
  (steeper_tie ss m <-> exists i p q, first_min (map (fun q => value_at q m) ps) = Some (i, value_at p m) /\
     nth_error ps i = Some p /\ In q ps /\ value_at q m = value_at p m /\ pgrad q < pgrad p).
Proof.
  intros m Hm. split.
  - intros (i & j & si & sj & v & gi & gj & Hi & Hj & Ci & Cj & Hmin & Hfst & Gi & Gj & Hlt).
    destruct (in_piece_at m i si Hm Hi) as (p & Hp & _). destruct (in_piece_at m j sj Hm Hj) as (q & Hq & _).
    destruct (cost_piece m i si p Hm Hi Hp) as (A1 & _ & A3).
    destruct (cost_piece m j sj q Hm Hj Hq) as (B1 & _ & B3).
    rewrite Ci in A1. injection A1 as A1. rewrite Cj in B1. injection B1 as B1.
    rewrite Gi in A3. injection A3 as A3. rewrite Gj in B3. injection B3 as B3.
    exists i, p, q. split; [|split; [exact Hp|split; [eapply nth_error_In; eauto|split; congruence]]].
    apply first_min_unique.
    + rewrite nth_error_map, Hp. reflexivity.
    + intros x Hx. apply in_map_iff in Hx. destruct Hx as (r & <- & Hr).
      destruct (In_nth_error _ _ Hr) as [n Hn]. destruct (ps_ss n r Hn) as [sr Hsr].
      destruct (cost_piece m n sr r Hm Hsr Hn) as (C1 & _). rewrite <- A1.
      apply (Hmin sr); [eapply nth_error_In; eauto|exact C1].
    + intros i' x Hlt' Hx. rewrite nth_error_map in Hx. destruct (nth_error ps i') as [r|] eqn:Hr; [|discriminate].
      injection Hx as <-. destruct (ps_ss i' r Hr) as [sr Hsr].
      destruct (cost_piece m i' sr r Hm Hsr Hr) as (C1 & _). rewrite <- A1.
      apply (Hfst i' sr); auto.
  - intros (i & p & q & Hf & Hp & Hq & Hv & Hg).
    destruct (first_min_some _ _ _ Hf) as (_ & Hmin & Hfst).
    destruct (ps_ss i p Hp) as [si Hi]. destruct (In_nth_error _ _ Hq) as [j Hj].
    destruct (ps_ss j q Hj) as [sj Hsj].
    destruct (cost_piece m i si p Hm Hi Hp) as (A1 & _ & A3).
    destruct (cost_piece m j sj q Hm Hsj Hj) as (B1 & _ & B3).
    exists i, j, si, sj, (value_at p m), (pgrad p), (pgrad q).
    split; [exact Hi|]. split; [exact Hsj|]. split; [exact A1|]. split; [congruence|]. split; [|split].
    + intros s v' Hin Hc. destruct (In_nth_error _ _ Hin) as [n Hn].
      destruct (in_piece_at m n s Hm Hn) as (r & Hr & _). destruct (cost_piece m n s r Hm Hn Hr) as (C1 & _).
      rewrite Hc in C1. injection C1 as ->. apply Hmin. apply (in_map (fun q => value_at q m)). eapply nth_error_In; eauto.
    + intros i' s v' Hlt Hn Hc. destruct (in_piece_at m i' s Hm Hn) as (r & Hr & _).
      destruct (cost_piece m i' s r Hm Hn Hr) as (C1 & _). rewrite Hc in C1. injection C1 as ->.
      apply (Hfst i'); [exact Hlt|]. rewrite nth_error_map, Hr. reflexivity.
    + auto.
Qed.

Lemma inner_returns : ps <> [] -> forall fuel kl lst fac, built ss fac lst kl -> k0 <= kl <= kh ->
  (forall m, kl <= m <= kh -> ~ steeper_tie ss m) -> (Z.to_nat (kh - kl) < fuel)%nat ->
  min_inner fuel ps (map snd cs) kl kh lst fac <> Fuel.
Proof.
  intros Hne. induction fuel as [|fuel IH]; intros kl lst fac HB Hkl Hno Hf; [lia|].
  destruct (first_some Hne kl) as (i & v & p & ix & Ef & Ep & Ex & ->).
  destruct (first_min_some _ _ _ Ef) as (_ & Hmin & _).
  assert (Hmin' : forall q, In q ps -> value_at p kl <= value_at q kl).
  { intros q Hq. apply Hmin. apply (in_map (fun q => value_at q kl)). exact Hq. }
  destruct (step_add kl lst fac i ix p HB Hkl Ep Ex Hmin') as (fac' & Hadd & Hnext).
  cbn [min_inner]. rewrite Ef, Ep, Ex. cbv zeta. rewrite Hadd. cbn [obind].
  destruct (first_min (crossovers ps kl kh (value_at p kl) (pgrad p))) as [[j k]|] eqn:Ec; [|discriminate].
  destruct (first_min_some _ _ _ Ec) as (Hk & Hkmin & _).
  apply nth_error_In in Hk. apply crossovers_in in Hk. destruct Hk as (Hkh' & q & Hq & Hg & Hkq).
  assert (kl < k).
  { rewrite Hkq. assert (0 <= ceil_div (value_at q kl - value_at p kl) (pgrad p - pgrad q)) as H0
      by (apply ceil_div_nonneg; [lia|]; specialize (Hmin' q Hq); lia).
    destruct (Z.eq_dec (ceil_div (value_at q kl - value_at p kl) (pgrad p - pgrad q)) 0) as [E|E]; [|lia].
    exfalso. assert (ceil_div (value_at q kl - value_at p kl) (pgrad p - pgrad q) <= 0) as E' by lia.
    apply ceil_div_spec in E'; [|lia]. apply (Hno kl); [lia|]. apply tie_iff; [lia|].
    exists i, p, q. specialize (Hmin' q Hq). repeat split; auto. lia. }
  apply IH; [|lia| |lia].
  - apply Hnext; [lia|lia|]. intros m Hm. apply (min_until_cross ps kl kh p m Hmin'); [lia|].
    intros k' Hk'. specialize (Hkmin k' Hk'). lia.
  - intros m Hm. apply Hno. lia.
Qed.

Lemma inner_diverges : ps <> [] -> forall fuel kl lst fac m, built ss fac lst kl -> k0 <= kl <= kh ->
  kl <= m <= kh -> steeper_tie ss m -> min_inner fuel ps (map snd cs) kl kh lst fac = Fuel.
Proof.
  intros Hne. induction fuel as [|fuel IH]; intros kl lst fac m HB Hkl Hm Htie; [reflexivity|].
  destruct (first_some Hne kl) as (i & v & p & ix & Ef & Ep & Ex & ->).
  destruct (first_min_some _ _ _ Ef) as (_ & Hmin & Hfst).
  assert (Hmin' : forall q, In q ps -> value_at p kl <= value_at q kl).
  { intros q Hq. apply Hmin. apply (in_map (fun q => value_at q kl)). exact Hq. }
  destruct (step_add kl lst fac i ix p HB Hkl Ep Ex Hmin') as (fac' & Hadd & Hnext).
  cbn [min_inner]. rewrite Ef, Ep, Ex. cbv zeta. rewrite Hadd. cbn [obind].
  apply tie_iff in Htie; [|lia]. destruct Htie as (ti & tp & tq & Tf & Tp & Tq & Tv & Tg).
  destruct (first_min_some _ _ _ Tf) as (_ & Tmin & _).
  assert (Tmin' : forall q, In q ps -> value_at tp m <= value_at q m).
  { intros q Hq. apply Tmin. apply (in_map (fun q => value_at q m)). exact Hq. }
  pose proof (Tmin' p (nth_error_In _ _ Ep)) as Hpm. pose proof (Hmin' tp (nth_error_In _ _ Tp)) as Htp.
  pose proof (Hmin' tq Tq) as Htq.
  pose proof (value_shift p kl m) as V1. pose proof (value_shift tp kl m) as V2.
  pose proof (value_shift tq kl m) as V3.
  (* the second tied piece gives a crossover at or before m *)
  assert (Hc : exists k, In k (crossovers ps kl kh (value_at p kl) (pgrad p)) /\ k <= m).
  { destruct (Z.lt_ge_cases (pgrad tq) (pgrad p)) as [Hg|Hg].
    - exists (kl + ceil_div (value_at tq kl - value_at p kl) (pgrad p - pgrad tq)).
      assert (ceil_div (value_at tq kl - value_at p kl) (pgrad p - pgrad tq) <= m - kl).
      { apply ceil_div_spec; [lia|]. nia. }
      split; [|lia]. apply crossovers_in. split; [lia|]. exists tq. auto.
    - exfalso. destruct (Z.eq_dec m kl) as [->|Hneq].
      + assert (p = tp); [|subst; lia]. rewrite Ef in Tf. injection Tf as <- _. congruence.
      + nia. }
  destruct Hc as (k & Hk & Hkm).
  destruct (first_min (crossovers ps kl kh (value_at p kl) (pgrad p))) as [[j k']|] eqn:Ec.
  - destruct (first_min_some _ _ _ Ec) as (Hk' & Hkmin & _). specialize (Hkmin k Hk).
    apply nth_error_In in Hk'. apply crossovers_in in Hk'. destruct Hk' as (Hkh' & q & Hq & Hg & Hkq).
    assert (kl <= k').
    { rewrite Hkq. assert (0 <= ceil_div (value_at q kl - value_at p kl) (pgrad p - pgrad q)); [|lia].
      apply ceil_div_nonneg; [lia|]. specialize (Hmin' q Hq). lia. }
    destruct (Z.eq_dec k' kl) as [->|Hneq].
    + eapply inner_stuck; eauto.
    + apply IH with (m := m); [|lia|lia|].
      * apply Hnext; [lia|lia|]. intros x Hx. apply (min_until_cross ps kl kh p x Hmin'); [lia|].
        intros k'' Hk''. destruct (first_min_some _ _ _ Ec) as (_ & Hkm2 & _). specialize (Hkm2 k'' Hk''). lia.
      * apply tie_iff; [lia|]. exists ti, tp, tq. auto.
  - apply first_min_none in Ec. rewrite Ec in Hk. contradiction.
Qed.

End Inner.

(** ** The outer loop *)

Lemma first_min_next : forall (cs : list (list (piece L) * nat)), cs <> [] ->
  exists i nk, first_min (map next_knot cs) = Some (i, nk) /\ (forall c, In c cs -> nk <= next_knot c) /\
    exists c, In c cs /\ next_knot c = nk.
Proof.
  intros cs Hne. destruct (first_min (map next_knot cs)) as [[i nk]|] eqn:E.
  - destruct (first_min_some _ _ _ E) as (A & B & _). exists i, nk. split; [reflexivity|]. split.
    + intros c Hc. apply B. apply in_map. exact Hc.
    + apply nth_error_In in A. apply in_map_iff in A. destruct A as (c & A1 & A2). exists c. auto.
  - apply first_min_none in E. destruct cs; [congruence|discriminate].
Qed.

Lemma next_knot_le : forall c : list (piece L) * nat, proper (fst c) -> next_knot c <= infty.
Proof.
  intros [s i] (_ & _ & Hf). unfold next_knot. cbn [fst snd] in *.
  destruct (nth_error s (S i)) as [p|] eqn:E; [|lia].
  rewrite Forall_forall in Hf. specialize (Hf p (nth_error_In _ _ E)). lia.
Qed.

Lemma outer_step : forall ss cs kl lst fac fuel, map fst cs = ss -> ss <> [] -> Forall proper ss ->
  0 <= kl < infty -> Forall (fun c => on c kl) cs -> built ss fac lst kl ->
  exists kh ps, kl <= kh < infty /\ ps <> [] /\
    Forall2 (fun c p => nth_error (fst c) (snd c) = Some p /\ pknot p <= kl /\ kh < next_knot c) cs ps /\
    min_outer (S fuel) cs kl lst fac =
      obind (min_inner fuel ps (map snd cs) kl kh lst fac) (fun '(lst', fac') =>
      obind (if kh + 1 <? infty then move_all cs (kh + 1) else Ok cs) (fun cs' =>
      min_outer fuel cs' (kh + 1) lst' fac')).
Proof.
  intros ss cs kl lst fac fuel Hss Hne Hp Hkl Hon HB.
  assert (Hcs : cs <> []) by (intros ->; simpl in Hss; congruence).
  destruct (first_min_next cs Hcs) as (i & nk & E & Hle & (c0 & Hc0 & Enk)).
  destruct (cur_all_ok cs kl Hon) as (ps & Eps & HF).
  assert (Hnk : kl < nk <= infty).
  { rewrite Forall_forall in Hon. destruct (Hon c0 Hc0) as (p & _ & _ & H2). split; [lia|].
    rewrite <- Enk. apply next_knot_le. rewrite Forall_forall in Hp. apply Hp. subst ss. apply in_map. exact Hc0. }
  exists (nk - 1), ps. split; [lia|]. split; [|split].
  - intros ->. inversion HF; subst. congruence.
  - clear - HF Hle Hnk. revert Hle. induction HF as [|c p cs ps (A & B) HF IH]; intros Hle; constructor.
    + split; [exact A|]. split; [lia|]. specialize (Hle c (or_introl eq_refl)). lia.
    + apply IH. intros c' Hc'. apply Hle. right. exact Hc'.
  - cbn [min_outer]. rewrite (proj2 (Z.ltb_lt _ _)) by lia. rewrite E, Eps. reflexivity.
Qed.

Lemma proper_cursors : forall ss cs, map fst cs = ss -> Forall proper ss -> forall k, Forall (fun c => on c k) cs ->
  Forall (fun c => proper (fst c) /\ exists p, nth_error (fst c) (snd c) = Some p) cs.
Proof.
  intros ss cs Hss Hp k Hon. rewrite Forall_forall in *. intros c Hc. split.
  - apply Hp. subst ss. apply in_map. exact Hc.
  - destruct (Hon c Hc) as (p & A & _). eauto.
Qed.

Lemma outer_result : forall ss, ss <> [] -> Forall proper ss -> forall fuel cs kl lst fac,
  map fst cs = ss -> 0 <= kl <= infty -> (kl < infty -> Forall (fun c => on c kl) cs) -> built ss fac lst kl ->
  min_outer fuel cs kl lst fac = Fuel \/
  exists r lst', min_outer fuel cs kl lst fac = Ok r /\ built ss r lst' infty.
Proof.
  intros ss Hne Hp. induction fuel as [|fuel IH]; intros cs kl lst fac Hss Hkl Hon HB; [left; reflexivity|].
  destruct (Z.eq_dec kl infty) as [->|Hneq].
  - right. exists fac, lst. split; [reflexivity|exact HB].
  - assert (Hlt : kl < infty) by lia. specialize (Hon Hlt).
    destruct (outer_step ss cs kl lst fac fuel Hss Hne Hp ltac:(lia) Hon HB) as (kh & ps & Hkh & Hps & HF & ->).
    destruct (inner_result ss cs ps kl kh Hss Hp ltac:(lia) ltac:(lia) HF Hps fuel kl lst fac HB ltac:(lia)) as [->|(lst' & fac' & -> & HB')].
    + left. reflexivity.
    + cbn [obind]. destruct (Z.ltb_spec (kh + 1) infty) as [Hl|Hl].
      * destruct (move_all_ok (kh + 1) cs) as (cs' & A & B & C); [lia|lia|eapply proper_cursors; eauto|].
        rewrite A. cbn [obind]. apply IH; [congruence|lia|auto|exact HB'].
      * cbn [obind]. apply IH; [exact Hss|lia|lia|exact HB'].
Qed.

Lemma outer_returns : forall ss, ss <> [] -> Forall proper ss -> forall fuel cs kl lst fac,
  map fst cs = ss -> 0 <= kl <= infty -> (kl < infty -> Forall (fun c => on c kl) cs) -> built ss fac lst kl ->
  (forall m, kl <= m < infty -> ~ steeper_tie ss m) -> (Z.to_nat (infty - kl) + Z.to_nat infty < fuel)%nat ->
  min_outer fuel cs kl lst fac <> Fuel.
Proof.
  intros ss Hne Hp. induction fuel as [|fuel IH]; intros cs kl lst fac Hss Hkl Hon HB Hno Hf; [lia|].
  destruct (Z.eq_dec kl infty) as [->|Hneq]; [discriminate|].
  assert (Hlt : kl < infty) by lia. specialize (Hon Hlt).
  destruct (outer_step ss cs kl lst fac fuel Hss Hne Hp ltac:(lia) Hon HB) as (kh & ps & Hkh & Hps & HF & ->).
  assert (Hin : min_inner fuel ps (map snd cs) kl kh lst fac <> Fuel).
  { apply (inner_returns ss cs ps kl kh Hss Hp ltac:(lia) ltac:(lia) HF Hps); [exact HB|lia| |lia].
    intros m Hm. apply Hno. lia. }
  destruct (inner_result ss cs ps kl kh Hss Hp ltac:(lia) ltac:(lia) HF Hps fuel kl lst fac HB ltac:(lia)) as [E|(lst' & fac' & -> & HB')]; [contradiction|].
  cbn [obind]. destruct (Z.ltb_spec (kh + 1) infty) as [Hl|Hl].
  - destruct (move_all_ok (kh + 1) cs) as (cs' & A & B & C); [lia|lia|eapply proper_cursors; eauto|].
    rewrite A. cbn [obind]. apply IH; [congruence|lia|auto|exact HB'| |lia].
    intros m Hm. apply Hno. lia.
  - cbn [obind]. apply IH; [exact Hss|lia|lia|exact HB'| |lia]. intros m Hm. lia.
Qed.

Lemma outer_diverges : forall ss, ss <> [] -> Forall proper ss -> forall fuel cs kl lst fac m,
  map fst cs = ss -> 0 <= kl <= infty -> (kl < infty -> Forall (fun c => on c kl) cs) -> built ss fac lst kl ->
  kl <= m < infty -> steeper_tie ss m -> min_outer fuel cs kl lst fac = Fuel.
Proof.
  intros ss Hne Hp. induction fuel as [|fuel IH]; intros cs kl lst fac m Hss Hkl Hon HB Hm Ht; [reflexivity|].
  assert (Hlt : kl < infty) by lia. specialize (Hon Hlt).
  destruct (outer_step ss cs kl lst fac fuel Hss Hne Hp ltac:(lia) Hon HB) as (kh & ps & Hkh & Hps & HF & ->).
  destruct (Z.le_gt_cases m kh) as [Hle|Hgt].
  - rewrite (inner_diverges ss cs ps kl kh Hss Hp ltac:(lia) ltac:(lia) HF Hps fuel kl lst fac m HB ltac:(lia) ltac:(lia) Ht).
    reflexivity.
  - destruct (inner_result ss cs ps kl kh Hss Hp ltac:(lia) ltac:(lia) HF Hps fuel kl lst fac HB ltac:(lia)) as [->|(lst' & fac' & -> & HB')]; [reflexivity|].
    cbn [obind]. destruct (Z.ltb_spec (kh + 1) infty) as [Hl|Hl]; [|lia].
    destruct (move_all_ok (kh + 1) cs) as (cs' & A & B & C); [lia|lia|eapply proper_cursors; eauto|].
    rewrite A. cbn [obind]. apply IH with (m := m); [congruence|lia|auto|exact HB'|lia|exact Ht].
Qed.

(** ** minSolution *)

Lemma initial_on : forall ss, Forall proper ss -> Forall (fun c => on c 0) (map (fun s => (s, O)) ss).
Proof.
  intros ss H. rewrite Forall_forall in *. intros c Hc. apply in_map_iff in Hc. destruct Hc as (s & <- & Hs).
  pose proof (H s Hs) as Hp. destruct Hp as ((p & s' & E & E0) & Hr). exists p. cbn [fst snd]. subst s.
  split; [reflexivity|]. split; [lia|]. rewrite <- E0.
  apply next_knot_gt; [|reflexivity]. exact (H _ Hs).
Qed.

Lemma initial_built : forall ss, built ss [] None 0.
Proof.
  intros ss. constructor; try (constructor; fail); try contradiction.
  - intros m Hm. lia.
  - left. auto.
Qed.

Lemma map_fst_init : forall ss : list (list (piece L)), map fst (map (fun s => (s, O)) ss) = ss.
Proof. intros. rewrite map_map. apply map_id. Qed.

Lemma proper_cost : forall s m, proper s -> 0 <= m -> exists p, piece_at s m = Some p /\ In p s /\ pknot p <= m.
Proof.
  intros s m ((p & s' & -> & E) & _) Hm. unfold piece_at. cbn [filter].
  rewrite (proj2 (Z.leb_le _ _)) by lia.
  set (l := p :: filter (fun q => pknot q <=? m) s').
  destruct (exists_last (l := l)) as (l0 & q & El); [discriminate|].
  rewrite El, map_app. cbn [map]. rewrite last_snoc. exists q. split; [reflexivity|].
  assert (Hin : In q l) by (rewrite El; apply in_or_app; right; left; reflexivity).
  destruct Hin as [<-|Hin]; [split; [left; reflexivity|lia]|].
  apply filter_In in Hin. destruct Hin as [A B]. apply Z.leb_le in B. split; [right; exact A|exact B].
Qed.

Lemma single_cheapest : forall s m, proper s -> column m ->
  exists v w, cost s m = Some v /\ span_at s m = Some w /\ cheapest [s] m v w.
Proof.
  intros s m Hp [Hm _]. destruct (proper_cost s m Hp Hm) as (p & A & _ & _).
  exists (value_at p m), (pspan p). unfold cost, span_at. rewrite A. cbn. split; [reflexivity|]. split; [reflexivity|].
  split.
  - exists s. unfold cost, span_at. rewrite A. split; [left; reflexivity|]. split; reflexivity.
  - intros s' v' [<-|[]] Hc. unfold cost in Hc. rewrite A in Hc. cbn in Hc. injection Hc as <-. unfold value_at. lia.
Qed.

Lemma min_solution_correct : forall fuel (ss : list (list (piece L))) r, Forall proper ss -> min_solution fuel ss = Ok r ->
  proper r /\ forall m, column m ->
    exists v w, cost r m = Some v /\ span_at r m = Some w /\ cheapest ss m v w.
Proof.
  intros fuel ss r Hp H.
  assert (Hcase : (exists s, ss = [s]) \/ ss = [] \/ (ss <> [] /\ min_solution fuel ss = min_outer fuel (map (fun s => (s, O)) ss) 0 None [])).
  { destruct ss as [|a [|b ss]]; [right; left; reflexivity|left; exists a; reflexivity|right; right]. split; [discriminate|reflexivity]. }
  destruct Hcase as [(s & ->)|[->|(Hne & E)]].
  - injection H as <-. inversion Hp; subst. split; [assumption|]. intros m Hm. apply single_cheapest; assumption.
  - unfold min_solution in H. destruct fuel; simpl in H; discriminate.
  - rewrite E in H. clear E.
    destruct (outer_result ss Hne Hp fuel (map (fun s => (s, O)) ss) 0 None []) as [E|(r' & lst' & E & HB)].
    + apply map_fst_init.
    + unfold infty; lia.
    + intros _. apply initial_on. exact Hp.
    + apply initial_built.
    + rewrite E in H. discriminate.
    + rewrite E in H. injection H as ->. destruct (b_last _ _ _ _ HB) as [(_ & _ & E0)|(f0 & fl & l & i & ix & s & q & E1 & E2 & _)].
      * discriminate.
      * split.
        -- split; [exists f0, fl; auto|]. split; apply HB.
        -- intros m Hm. destruct (b_cost _ _ _ _ HB m Hm) as (p & A & B & _).
           exists (value_at p m), (pspan p). unfold cost, span_at. rewrite A. cbn. repeat split; auto; apply B.
Qed.

Lemma min_solution_total : forall fuel (ss : list (list (piece L))), ss <> [] -> Forall proper ss ->
  min_solution fuel ss = Fuel \/ exists r, min_solution fuel ss = Ok r.
Proof.
  intros fuel ss Hne Hp. destruct ss as [|a [|b ss]]; [congruence|right; eexists; reflexivity|].
  set (ss' := a :: b :: ss) in *.
  change (min_solution fuel ss') with (min_outer fuel (map (fun s => (s, O)) ss') 0 None []).
  destruct (outer_result ss' Hne Hp fuel (map (fun s => (s, O)) ss') 0 None []) as [E|(r' & lst' & E & HB)].
  - apply map_fst_init.
  - unfold infty; lia.
  - intros _. apply initial_on. exact Hp.
  - apply initial_built.
  - left. exact E.
  - right. exists r'. exact E.
Qed.

Lemma min_solution_returns_iff : forall (ss : list (list (piece L))), (2 <= length ss)%nat -> Forall proper ss ->
  ((exists fuel r, min_solution fuel ss = Ok r) <-> forall m, column m -> ~ steeper_tie ss m).
Proof.
  intros ss Hlen Hp. destruct ss as [|a [|b ss]]; [simpl in Hlen; lia|simpl in Hlen; lia|].
  set (ss' := a :: b :: ss) in *.
  assert (Hne : ss' <> []) by discriminate.
  split.
  - intros (fuel & r & H) m Hm Ht.
    change (min_solution fuel ss') with (min_outer fuel (map (fun s => (s, O)) ss') 0 None []) in H.
    rewrite (outer_diverges ss' Hne Hp fuel _ 0 None [] m) in H; [discriminate|apply map_fst_init|unfold infty; lia| |apply initial_built|exact Hm|exact Ht].
    intros _. apply initial_on. exact Hp.
  - intros Hno. set (fuel := S (Z.to_nat (infty - 0) + Z.to_nat infty)).
    exists fuel.
    destruct (min_solution_total fuel ss' Hne Hp) as [E|[r E]]; [|exists r; exact E].
    exfalso. change (min_solution fuel ss') with (min_outer fuel (map (fun s => (s, O)) ss') 0 None []) in E.
    revert E. apply (outer_returns ss' Hne Hp).
    + apply map_fst_init.
    + unfold infty; lia.
    + intros _. apply initial_on. exact Hp.
    + apply initial_built.
    + intros m Hm. apply Hno. exact Hm.
    + unfold fuel. apply Nat.lt_succ_diag_r.
Qed.

Lemma piece_at_in : forall s m p, piece_at s m = Some p -> In p s.
Proof.
  intros s m p H. unfold piece_at in H.
  destruct (filter (fun p => pknot p <=? m) s) as [|a l] eqn:E; [discriminate|].
  destruct (exists_last (l := a :: l)) as (l0 & q & El); [discriminate|].
  rewrite El, map_app in H. cbn [map] in H. rewrite last_snoc in H. injection H as ->.
  assert (Hin : In p (filter (fun p => pknot p <=? m) s)) by (rewrite E, El; apply in_or_app; right; left; reflexivity).
  apply filter_In in Hin. apply Hin.
Qed.

Lemma min_solution_layout : forall fuel (ss : list (list (piece L))) r, Forall proper ss -> min_solution fuel ss = Ok r ->
  (forall s1 s2 a b, In s1 ss -> In s2 ss -> In a s1 -> In b s2 -> pspan a = pspan b -> pgrad a = pgrad b ->
     (forall m, value_at a m = value_at b m) -> plyt a = plyt b) ->
  forall m, column m -> exists s v, In s ss /\ cost s m = Some v /\ cost r m = Some v /\
    layout_at r m = layout_at s m /\ span_at r m = span_at s m /\ forall s' v', In s' ss -> cost s' m = Some v' -> v <= v'.
Proof.
  intros fuel ss r Hp H Hd m Hm.
  destruct (min_solution_correct fuel ss r Hp H) as (_ & HC).
  destruct (HC m Hm) as (v & w & C1 & C2 & (_ & C4)).
  assert (Hcase : (exists s, ss = [s]) \/ ss = [] \/ (ss <> [] /\ min_solution fuel ss = min_outer fuel (map (fun s => (s, O)) ss) 0 None [])).
  { destruct ss as [|a [|b ss]]; [right; left; reflexivity|left; exists a; reflexivity|right; right]. split; [discriminate|reflexivity]. }
  destruct Hcase as [(s & ->)|[->|(Hne & E)]].
  - injection H as <-. exists s, v. split; [left; reflexivity|]. repeat split; auto.
  - unfold min_solution in H. destruct fuel; simpl in H; discriminate.
  - rewrite E in H. clear E.
    destruct (outer_result ss Hne Hp fuel (map (fun s => (s, O)) ss) 0 None []) as [E|(r' & lst' & E & HB)].
    + apply map_fst_init.
    + unfold infty; lia.
    + intros _. apply initial_on. exact Hp.
    + apply initial_built.
    + rewrite E in H. discriminate.
    + rewrite E in H. injection H as ->.
      destruct (b_cost _ _ _ _ HB m Hm) as (p & A & _ & s & q & Hs & Hq & (L1 & L2 & L3)).
      pose proof (b_knots _ _ _ _ HB) as HK. rewrite Forall_forall in HK.
      destruct (HK p (piece_at_in _ _ _ A)) as (s2 & q2 & Hs2 & Hq2 & (M1 & M2 & M3) & Hly).
      exists s, v. split; [exact Hs|].
      assert (Hv : cost r m = Some (value_at p m)) by (unfold cost; rewrite A; reflexivity).
      rewrite Hv in C1. injection C1 as <-.
      split; [|split; [exact Hv|split; [|split; [|exact C4]]]].
      * unfold cost. rewrite Hq. cbn. f_equal. symmetry. apply L3.
      * unfold layout_at. rewrite A, Hq. cbn. f_equal. rewrite Hly.
        apply (Hd s2 s); auto; try (eapply piece_at_in; eauto).
        -- congruence.
        -- congruence.
        -- intros m'. rewrite <- M3, L3. reflexivity.
      * unfold span_at. rewrite A, Hq. cbn. f_equal. exact L1.
Qed.

End P.
