(** Proofs about the order of siblings that are not reported as moved. *)
From Coq Require Import List Bool Arith ZArith Lia Permutation.
From Verif Require Import EagerModel EagerSpec EagerProofs AstDiffModel AstDiffSpec AstDiffTree AstDiffMap AstDiffZs AstDiffDist AstDiffMarks AstDiffReports.
Import ListNotations.

(** * Counting *)
Definition cnt (key : nat -> nat) (l : list nat) (k : nat) : nat := length (filter (fun a => key a <? k) l).
Lemma filter_le {B} (f g : B -> bool) l : (forall x, In x l -> f x = true -> g x = true) -> length (filter f l) <= length (filter g l).
Proof.
  induction l as [|x r IH]; intros H; [cbn; lia|]. cbn [filter]. assert (IHr := IH (fun y Y => H y (or_intror Y))).
  destruct (f x) eqn:F; [rewrite (H x (or_introl eq_refl) F); cbn; lia|]. destruct (g x); cbn; lia.
Qed.
Lemma filter_lt {B} (f g : B -> bool) l x : (forall y, In y l -> f y = true -> g y = true) -> In x l -> f x = false -> g x = true -> length (filter f l) < length (filter g l).
Proof.
  intros H I FX GX. apply in_split in I as (a & b & ->). rewrite !filter_app, !app_length. cbn [filter]. rewrite FX, GX. cbn [length].
  assert (length (filter f a) <= length (filter g a)) by (apply filter_le; intros y Y; apply H, in_or_app; left; exact Y).
  assert (length (filter f b) <= length (filter g b)) by (apply filter_le; intros y Y; apply H, in_or_app; right; right; exact Y). lia.
Qed.
Lemma filter_eq {B} (f g : B -> bool) l : (forall x, In x l -> f x = g x) -> filter f l = filter g l.
Proof. induction l as [|x r IH]; intros H; [reflexivity|]. cbn [filter]. rewrite (H x), IH by (auto with datatypes). reflexivity. Qed.
Lemma filter_both {B} (f g : B -> bool) l : filter f (filter g l) = filter (fun x => g x && f x) l.
Proof. induction l as [|x r IH]; [reflexivity|]. cbn [filter]. destruct (g x); cbn [filter andb]; [|exact IH]. destruct (f x); rewrite IH; reflexivity. Qed.
Lemma cnt_le key l i j : i <= j -> cnt key l i <= cnt key l j.
Proof. intros H. apply filter_le. intros x _ E. apply Nat.ltb_lt in E. apply Nat.ltb_lt. lia. Qed.
Lemma cnt_lt key l i j x : In x l -> i <= key x < j -> cnt key l i < cnt key l j.
Proof.
  intros I K. apply (filter_lt _ _ l x); [|exact I|apply Nat.ltb_ge; lia|apply Nat.ltb_lt; lia]. intros y _ E. apply Nat.ltb_lt in E. apply Nat.ltb_lt. lia.
Qed.
Lemma cnt_gap key l i j : cnt key l i < cnt key l j -> exists x, In x l /\ i <= key x < j.
Proof.
  unfold cnt. induction l as [|x r IH]; cbn [filter]; [intros H; cbn in H; lia|]. destruct (Nat.ltb_spec (key x) i), (Nat.ltb_spec (key x) j); cbn [length]; intros H1.
  - destruct IH as (y & Y & K); [lia|]. exists y. split; [right; exact Y|exact K].
  - destruct IH as (y & Y & K); [lia|]. exists y. split; [right; exact Y|exact K].
  - exists x. split; [left; reflexivity|lia].
  - destruct IH as (y & Y & K); [lia|]. exists y. split; [right; exact Y|exact K].
Qed.
Lemma cnt_one key l k : NoDup l -> (forall x y, In x l -> In y l -> key x = key y -> x = y) -> cnt key l (S k) <= S (cnt key l k).
Proof.
  intros N. unfold cnt. induction N as [|x r X N IH]; intros J; [cbn; lia|]. cbn [filter]. assert (IHr := IH (fun a b A B => J a b (or_intror A) (or_intror B))).
  destruct (Nat.ltb_spec (key x) (S k)), (Nat.ltb_spec (key x) k); cbn [length]; try lia.
  assert (E : filter (fun a => key a <? S k) r = filter (fun a => key a <? k) r).
  { apply filter_eq. intros y Y. destruct (Nat.ltb_spec (key y) (S k)), (Nat.ltb_spec (key y) k); try reflexivity; [|lia]. exfalso. apply X. rewrite (J x y); [exact Y|left; reflexivity|right; exact Y|lia]. }
  rewrite E. lia.
Qed.
Lemma cnt_hits key l : NoDup l -> (forall x y, In x l -> In y l -> key x = key y -> x = y) -> forall k r, r < cnt key l k -> exists g, In g l /\ key g < k /\ cnt key l (key g) = r.
Proof.
  intros N J. induction k as [|k IH]; intros r R.
  - exfalso. unfold cnt in R. rewrite filter_none in R; [cbn in R; lia|]. intros x _. apply Nat.ltb_ge. lia.
  - destruct (Nat.lt_ge_cases r (cnt key l k)) as [L|L]; [destruct (IH r L) as (g & G & K & E); exists g; repeat split; auto; lia|].
    pose proof (cnt_one key l k N J). destruct (cnt_gap key l k (S k)) as (g & G & K); [lia|]. exists g. assert (key g = k) by lia. split; [exact G|]. split; [lia|]. rewrite H0. lia.
Qed.
Section Shuffle.
Variable M : list nat.
Variables ls rs : nat -> nat.
Variable sh : nat -> bool.
Hypothesis nodup : NoDup M.
Hypothesis inj_l : forall x y, In x M -> In y M -> ls x = ls y -> x = y.
Hypothesis inj_r : forall x y, In x M -> In y M -> rs x = rs y -> x = y.
Notation F := (filter (fun a => negb (sh a)) M).
Definition cs (x : nat) : nat := cnt ls F (ls x).
Definition cd (x : nat) : nat := cnt rs F (rs x).
Definition later (x : nat) : list nat := filter (fun a => (rs a <? rs x) && sh a && (ls x <? ls a)) M.
Hypothesis step : forall x, In x M -> sh x = false <-> cs x = cd x + length (later x).
Lemma in_f x : In x F <-> In x M /\ sh x = false.
Proof. rewrite filter_In, negb_true_iff. reflexivity. Qed.
Lemma in_later x a : In a (later x) <-> In a M /\ rs a < rs x /\ sh a = true /\ ls x < ls a.
Proof. unfold later. rewrite filter_In, !andb_true_iff, !Nat.ltb_lt. tauto. Qed.
Lemma nodup_f : NoDup F.
Proof. apply NoDup_filter. exact nodup. Qed.
Lemma inj_lf x y : In x F -> In y F -> ls x = ls y -> x = y.
Proof. rewrite !in_f. intros [X _] [Y _]. apply inj_l; assumption. Qed.
Lemma cd_inj x y : In x F -> In y F -> cd x = cd y -> x = y.
Proof.
  intros X Y E. unfold cd in E. destruct (Nat.lt_trichotomy (rs x) (rs y)) as [L|[L|L]].
  - pose proof (cnt_lt rs F (rs x) (rs y) x X ltac:(lia)). lia.
  - apply in_f in X as [X _]. apply in_f in Y as [Y _]. apply inj_r; assumption.
  - pose proof (cnt_lt rs F (rs y) (rs x) y Y ltac:(lia)). lia.
Qed.
Lemma f_same n : forall x, ls x <= n -> In x F -> cs x = cd x /\ later x = [].
Proof.
  induction n as [n IH] using lt_wf_ind. intros x L X. pose proof X as X'. apply in_f in X' as [XM XS]. apply (step x XM) in XS.
  assert (E : cs x = cd x).
  { destruct (Nat.lt_ge_cases (cd x) (cs x)) as [LT|]; [|lia]. exfalso. unfold cs in LT. destruct (cnt_hits ls F nodup_f inj_lf (ls x) (cd x) LT) as (g & G & K & Q).
    assert (g = x); [|subst g; lia]. apply cd_inj; [exact G|exact X|]. destruct (IH (ls g) ltac:(lia) g (le_n _) G) as [Y _]. unfold cs in Y. lia. }
  split; [exact E|]. destruct (later x) as [|a r] eqn:Z; [reflexivity|]. cbn [length] in XS. lia.
Qed.
Lemma f_after f z : In f F -> In z M -> sh z = true -> ls f < ls z -> rs f < rs z.
Proof.
  intros H Z S1 L. destruct (Nat.lt_trichotomy (rs f) (rs z)) as [Q|[Q|Q]]; [exact Q| |].
  - apply in_f in H as [H S2]. assert (f = z) by (apply inj_r; assumption). subst z. congruence.
  - destruct (f_same (ls f) f (le_n _) H) as [_ E]. assert (I : In z (later f)) by (apply in_later; auto). rewrite E in I. destruct I.
Qed.
Lemma f_order f g : In f F -> In g F -> ls f < ls g -> rs f < rs g.
Proof.
  intros H G L. destruct (f_same _ f (le_n _) H) as [E1 _]. destruct (f_same _ g (le_n _) G) as [E2 _].
  pose proof (cnt_lt ls F (ls f) (ls g) f H ltac:(lia)) as C. unfold cs, cd in *. destruct (Nat.lt_ge_cases (rs f) (rs g)) as [Q|Q]; [exact Q|]. pose proof (cnt_le rs F _ _ Q). lia.
Qed.
Lemma largest (l : list nat) : l <> [] -> exists z, In z l /\ forall a, In a l -> ls a <= ls z.
Proof.
  induction l as [|x r IH]; [contradiction|]. intros _. destruct r as [|y q]; [exists x; split; [left; reflexivity|intros a [<-|[]]; lia]|].
  destruct IH as (z & Z & H); [discriminate|]. destruct (Nat.le_gt_cases (ls x) (ls z)).
  - exists z. split; [right; exact Z|]. intros a [<-|I]; [assumption|apply H; exact I].
  - exists x. split; [left; reflexivity|]. intros a [<-|I]; [lia|]. specialize (H a I). lia.
Qed.
Lemma f_crossing y f : In f F -> cs y = cd y -> ls y < ls f -> rs f < rs y -> False.
Proof.
  intros H E L R. unfold cs, cd in E.
  assert (cnt ls F (ls y) < cnt rs F (rs y)); [|lia]. apply (filter_lt _ _ F f).
  - intros g G K. apply Nat.ltb_lt in K. apply Nat.ltb_lt. assert (rs g < rs f) by (apply f_order; [exact G|exact H|lia]). lia.
  - exact H.
  - apply Nat.ltb_ge. lia.
  - apply Nat.ltb_lt. exact R.
Qed.
Lemma still_unshifted y : In y M -> cs y = cd y -> sh y = false.
Proof.
  intros Y E. destruct (sh y) eqn:SY; [|reflexivity]. exfalso.
  assert (D : later y <> []). { intros Z. assert (sh y = false); [|congruence]. apply (step y Y). rewrite Z. cbn. lia. }
  destruct (largest _ D) as (z & Z & MAX). apply in_later in Z as (ZM & RZ & SZ & LZ).
  assert (ZE : later z = []).
  { destruct (later z) as [|a r] eqn:Q; [reflexivity|]. exfalso. assert (I : In a (later z)) by (rewrite Q; left; reflexivity). apply in_later in I as (AM & RA & SA & LA).
    assert (I : In a (later y)) by (apply in_later; repeat split; auto; lia). specialize (MAX a I). lia. }
  assert (NE : cs z <> cd z). { intros Q. assert (sh z = false); [|congruence]. apply (step z ZM). rewrite ZE. cbn. lia. }
  assert (C1 : cs y <= cs z) by (apply cnt_le; lia). assert (C2 : cd z <= cd y) by (apply cnt_le; lia).
  destruct (Nat.eq_dec (cs y) (cs z)) as [Q|Q].
  - destruct (cnt_gap rs F (rs z) (rs y)) as (f & H & K); [unfold cs, cd in *; lia|].
    assert (N : f <> z) by (intros ->; apply in_f in H; destruct H; congruence).
    assert (ls z < ls f).
    { destruct (Nat.lt_trichotomy (ls z) (ls f)) as [X|[X|X]]; [exact X| |].
      - exfalso. apply N. apply in_f in H as [H _]. apply inj_l; auto.
      - pose proof (f_after f z H ZM SZ X). lia. }
    apply (f_crossing y f H E); lia.
  - destruct (cnt_gap ls F (ls y) (ls z)) as (f & H & K); [unfold cs, cd in *; lia|].
    assert (ls f <> ls y). { intros X. assert (f = y) by (apply in_f in H as [H _]; apply inj_l; auto). subst f. apply in_f in H. destruct H. congruence. }
    assert (rs f < rs z) by (apply f_after; auto; lia). apply (f_crossing y f H E); lia.
Qed.
Lemma order_kept x y : In x M -> In y M -> cs x = cd x -> cs y = cd y -> ls x < ls y -> rs x < rs y.
Proof. intros X Y EX EY. apply f_order; apply in_f; split; auto using still_unshifted. Qed.
End Shuffle.

(** * Places in lists *)
Fixpoint index (x : nat) (l : list nat) : nat := match l with [] => 0 | y :: r => if y =? x then 0 else S (index x r) end.
Lemma index_split x pre suf : ~ In x pre -> index x (pre ++ x :: suf) = length pre.
Proof. induction pre as [|y r IH]; intros N; cbn [app index length]; [rewrite Nat.eqb_refl; reflexivity|]. destruct (Nat.eqb_spec y x) as [->|]; [exfalso; apply N; left; reflexivity|]. rewrite IH; [reflexivity|]. intros I. apply N. right. exact I. Qed.
Lemma index_before a pre suf : In a pre -> index a (pre ++ suf) < length pre.
Proof. induction pre as [|y r IH]; [intros []|]. intros [->|I]; cbn [app index length]; [rewrite Nat.eqb_refl; lia|]. destruct (y =? a); [lia|]. specialize (IH I). lia. Qed.
Lemma index_after a pre suf : ~ In a pre -> length pre <= index a (pre ++ suf).
Proof. induction pre as [|y r IH]; intros N; cbn [app index length]; [lia|]. destruct (Nat.eqb_spec y a) as [->|]; [exfalso; apply N; left; reflexivity|]. assert (~ In a r) by (intros I; apply N; right; exact I). specialize (IH H). lia. Qed.
Lemma index_nth (l : list nat) x : In x l -> nth_error l (index x l) = Some x.
Proof. induction l as [|y r IH]; [intros []|]. intros I. cbn [index]. destruct (Nat.eqb_spec y x) as [->|N]; [reflexivity|]. destruct I as [->|I]; [congruence|]. apply IH. exact I. Qed.
Lemma index_inj (l : list nat) x y : In x l -> In y l -> index x l = index y l -> x = y.
Proof. intros X Y E. apply index_nth in X, Y. rewrite E in X. congruence. Qed.
Lemma index_at (l : list nat) n x : NoDup l -> nth_error l n = Some x -> index x l = n.
Proof. intros N E. pose proof (nth_error_In _ _ E) as I. apply index_nth in I. apply (proj1 (NoDup_nth_error l) N); [apply nth_error_Some; rewrite I; discriminate|congruence]. Qed.
Lemma total_count f l : (forall x, In x l -> f x = 0%Z \/ f x = (-1)%Z) -> total f l = Z.of_nat (length (filter (fun x => Z.eqb (f x) 0) l)).
Proof.
  induction l as [|x r IH]; intros H; [reflexivity|]. cbn [total fold_right filter]. fold (total f r). rewrite IH by (auto with datatypes). destruct (H x (or_introl eq_refl)) as [E|E]; rewrite E; cbn [Z.eqb length]; lia.
Qed.
Lemma filter_index (f : nat -> bool) pre x suf : NoDup (pre ++ x :: suf) -> filter (fun a => f a && (index a (pre ++ x :: suf) <? length pre)) (pre ++ x :: suf) = filter f pre.
Proof.
  intros N. apply nodup_app in N as (_ & _ & D). set (l := pre ++ x :: suf). unfold l at 2. rewrite filter_app.
  rewrite (filter_none _ (x :: suf)), app_nil_r.
  - apply filter_eq. intros a I. subst l. rewrite (proj2 (Nat.ltb_lt _ _) (index_before a pre (x :: suf) I)), andb_true_r. reflexivity.
  - intros a I. subst l. rewrite (proj2 (Nat.ltb_ge _ _)), andb_false_r; [reflexivity|]. apply index_after. intros J. apply (D a J I).
Qed.

(** * Siblings *)
Section Siblings.
Context {A : Type}.
Variables allowed equal : A -> A -> bool.
Variables s d : tree A.
Notation src := (from_node s).
Notation dst := (from_node d).
Variable m : mapping.
Hypothesis G : good allowed s d m.
Notation k2 := (fold_left (mark_inserted m) (seq 0 (size_of dst)) (fold_left (mark_deleted m) (seq 0 (size_of src)) no_marks)).
Notation k3 := (fold_left (mark_shift src dst m) (bfs src) k2).
Notation k4 := (change_kinds equal src dst m).
Variables p q : nat.
Hypothesis pq : get_dst m p = Some q.
Hypothesis goes : forall x y, In x (node_kids src p) -> get_dst m x = Some y -> In y (node_kids dst q).
Hypothesis comes : forall x y, In y (node_kids dst q) -> get_dst m x = Some y -> In x (node_kids src p).
Definition img (x : nat) : nat := match get_dst m x with Some y => y | None => 0 end.
Notation L := (node_kids src p).
Notation R := (node_kids dst q).
Notation M := (filter (has_src m) L).
Notation ls x := (index x L).
Notation rs x := (index (img x) R).
Definition sh (x : nat) : bool := negb (Z.eqb (src_shift k3 x) 0).
Lemma in_m x : In x M <-> In x L /\ get_dst m x = Some (img x).
Proof. rewrite filter_In. unfold has_src, img. destruct (get_dst m x); split; intros [I E]; split; auto; discriminate. Qed.
Lemma img_inj x y : In x M -> In y M -> img x = img y -> x = y.
Proof. rewrite !in_m. intros [_ X] [_ Y] E. rewrite E in X. apply (proj1 G) in X, Y. congruence. Qed.
Lemma img_in x : In x M -> In (img x) R.
Proof. rewrite in_m. intros [I X]. apply (goes x); assumption. Qed.
(** The shifts of nodes of both trees *)
Lemma final_shift x y : get_dst m x = Some y -> (src_shift k3 x = 0%Z \/ src_shift k3 x = (-1)%Z) /\ dst_shift k3 y = src_shift k3 x.
Proof.
  intros D. destruct (matched_range allowed s d m G x y D) as [B _]. destruct (bfs_split s x B) as (pre & suf & E).
  destruct (shift_decided allowed s d m G x y pre suf D E) as (_ & _ & -> & ->). destruct (moved _ _ _ _ _ _); auto.
Qed.
Lemma src_unmatched l x : x < count s -> get_dst m x = None -> src_shift (fold_left (mark_shift src dst m) l k2) x = (-1)%Z.
Proof.
  intros B N. assert (E : forall l k, src_shift (fold_left (mark_shift src dst m) l k) x = src_shift k x).
  { clear l. induction l as [|a r IH]; intros k; [reflexivity|]. cbn [fold_left]. rewrite IH. unfold mark_shift. destruct (get_dst m a) as [b|] eqn:D; [|reflexivity]. destruct (moved _ _ _ _ _ _); [|reflexivity].
    cbn. unfold less. apply set_at_other. congruence. }
  rewrite E. destruct (k2_marks s d m) as (_ & -> & _). unfold has_src. rewrite N, (proj2 (Nat.ltb_lt _ _) B). reflexivity.
Qed.
Lemma dst_unmatched l y : y < count d -> get_src m y = None -> dst_shift (fold_left (mark_shift src dst m) l k2) y = (-1)%Z.
Proof.
  intros B N. rewrite shift_dst_out by (intros i D; apply (proj1 G) in D; congruence).
  destruct (k2_marks s d m) as (_ & _ & _ & ->). unfold has_dst. rewrite N, (proj2 (Nat.ltb_lt _ _) B). reflexivity.
Qed.
(** Nodes of the second tree that come before [img x], by those of the first *)
Lemma count_back (P : nat -> bool) (h : nat -> Z) x pre suf : In x M -> R = pre ++ img x :: suf ->
  (forall a, In a M -> Z.eqb (h (img a)) 0 = P a) -> (forall b, In b R -> get_src m b = None -> h b = (-1)%Z) ->
  length (filter (fun b => Z.eqb (h b) 0) pre) = length (filter (fun a => P a && (rs a <? rs x)) M).
Proof.
  intros X E HP HN. pose proof (kids_nodup d q) as ND. rewrite <- (map_length img (filter (fun a => P a && (rs a <? rs x)) M)). symmetry. apply Permutation_length, NoDup_Permutation.
  - assert (NM : NoDup (filter (fun a => P a && (rs a <? rs x)) M)) by (apply NoDup_filter, NoDup_filter, kids_nodup).
    assert (J : forall a b, In a (filter (fun a => P a && (rs a <? rs x)) M) -> In b (filter (fun a => P a && (rs a <? rs x)) M) -> img a = img b -> a = b).
    { intros a b I1 I2. apply filter_In in I1 as [I1 _]. apply filter_In in I2 as [I2 _]. apply img_inj; assumption. }
    revert NM J. generalize (filter (fun a => P a && (rs a <? rs x)) M). clear. induction l as [|a r IH]; intros N J; [constructor|]. inversion N; subst. cbn [map]. constructor.
    + intros I. apply in_map_iff in I as (b & Q & I). assert (b = a) by (apply J; [right; exact I|left; reflexivity|exact Q]). subst b. contradiction.
    + apply IH; [assumption|]. intros b c B C. apply J; right; assumption.
  - rewrite E in ND. apply nodup_app in ND as (ND & _). apply NoDup_filter. exact ND.
  - assert (NX : ~ In (img x) pre) by (rewrite E in ND; apply NoDup_remove_2 in ND; intros I; apply ND, in_or_app; left; exact I).
    assert (RX : rs x = length pre) by (rewrite E; apply index_split; exact NX).
    intros b. rewrite in_map_iff, filter_In. split.
    + intros (a & <- & I). apply filter_In in I as [I H]. apply andb_true_iff in H as [HPa H]. apply Nat.ltb_lt in H. split; [|rewrite HP by exact I; exact HPa].
      destruct (in_dec Nat.eq_dec (img a) pre) as [Y|Y]; [exact Y|]. exfalso. rewrite RX, E in H. pose proof (index_after (img a) pre (img x :: suf) Y). lia.
    + intros [I H]. assert (IR : In b R) by (rewrite E; apply in_or_app; left; exact I).
      destruct (get_src m b) as [a|] eqn:SB; [|rewrite (HN b IR SB) in H; discriminate]. apply (proj1 G) in SB.
      assert (AL : In a L) by (apply (comes a b); assumption). assert (IA : img a = b) by (unfold img; rewrite SB; reflexivity).
      assert (AM : In a M) by (apply in_m; split; [exact AL|rewrite IA; exact SB]).
      exists a. split; [exact IA|]. apply filter_In. split; [exact AM|]. rewrite <- (HP a AM), IA, H. cbn [andb]. apply Nat.ltb_lt. rewrite RX, E. apply index_before. exact I.
Qed.
Lemma count_src (h : nat -> Z) x pre suf : In x M -> L = pre ++ x :: suf ->
  (forall a, In a pre -> h a = src_shift k3 a) -> total h pre = Z.of_nat (cs M (fun x => ls x) sh x).
Proof.
  intros X E H. pose proof (kids_nodup s p) as ND. assert (NX : ~ In x pre) by (rewrite E in ND; apply NoDup_remove_2 in ND; intros I; apply ND, in_or_app; left; exact I).
  rewrite (total_ext h (src_shift k3)) by exact H.
  assert (V : forall a, In a pre -> a < count s) by (intros a I; apply (kids_valid s p); rewrite E; apply in_or_app; left; exact I).
  assert (SH : forall a, In a pre -> src_shift k3 a = 0%Z \/ src_shift k3 a = (-1)%Z).
  { intros a I. destruct (get_dst m a) as [b|] eqn:D; [apply (final_shift a b D)|right; apply src_unmatched; auto]. }
  rewrite total_count by exact SH. f_equal. unfold cs, cnt. rewrite !filter_both.
  rewrite (filter_eq _ (fun a => (has_src m a && negb (sh a)) && (ls a <? ls x)) L) by (intros a _; rewrite andb_assoc; reflexivity).
  assert (LX : ls x = length pre) by (rewrite E; apply index_split; exact NX). rewrite LX. rewrite E in ND |- *.
  rewrite (filter_index (fun a => has_src m a && negb (sh a)) pre x suf ND). f_equal. apply filter_eq. intros a I.
  unfold sh. rewrite negb_involutive. unfold has_src. destruct (get_dst m a) eqn:D; [reflexivity|]. rewrite src_unmatched by auto. reflexivity.
Qed.
Lemma count_final x pre suf : In x M -> R = pre ++ img x :: suf -> total (dst_shift k3) pre = Z.of_nat (cd M (fun x => rs x) sh x).
Proof.
  intros X E. rewrite total_count.
  - f_equal. rewrite (count_back (fun a => negb (sh a)) (dst_shift k3) x pre suf X E).
    + unfold cd, cnt. rewrite !filter_both. reflexivity.
    + intros a I. apply in_m in I as [_ D]. rewrite (proj2 (final_shift a _ D)). unfold sh. rewrite negb_involutive. reflexivity.
    + intros b I N. apply dst_unmatched; [apply (kids_valid d q); exact I|exact N].
  - intros b I. assert (IR : In b R) by (rewrite E; apply in_or_app; left; exact I). destruct (get_src m b) as [a|] eqn:N.
    + apply (proj1 G) in N. destruct (final_shift a b N) as [Q ->]. exact Q.
    + right. apply dst_unmatched; [apply (kids_valid d q); exact IR|exact N].
Qed.
Lemma parents_kept x : In x M -> same_parents src dst m x (img x) = true.
Proof.
  intros X. pose proof X as Y. apply in_m in Y as [I D]. apply (same_parents_spec allowed s d m G x _ D). right. apply img_in in X. apply kids_child in I as (k & C). apply kids_child in X as (k' & C').
  exists p, k, q, k'. auto.
Qed.
Lemma shift_step x : In x M -> sh x = false <-> cs M (fun x => ls x) sh x = cd M (fun x => rs x) sh x + length (later M (fun x => ls x) (fun x => rs x) sh x).
Proof.
  intros X. pose proof X as Y. apply in_m in Y as [IL D]. destruct (matched_range allowed s d m G p q pq) as [BP BQ]. destruct (bfs_siblings s p BP) as (b1 & b2 & BF).
  apply in_split in IL as (pre & suf & E). assert (EB : bfs src = (b1 ++ pre) ++ x :: (suf ++ b2)) by (rewrite BF, E, <- !app_assoc; reflexivity).
  destruct (shift_decided allowed s d m G x (img x) _ _ D EB) as (Z1 & Z2 & S1 & _). cbn zeta in *. set (k := fold_left (mark_shift src dst m) (b1 ++ pre) k2) in *.
  pose proof (bfs_nodup s) as ND. rewrite EB in ND.
  assert (OUT : forall a, In a (b1 ++ pre) -> ~ In a (x :: suf ++ b2)) by (apply nodup_app in ND as (_ & _ & ND); exact ND).
  pose proof (kids_nodup s p) as NL. pose proof (img_in x X) as IR. apply in_split in IR as (pre' & suf' & E').
  assert (SHX : sh x = moved src dst m k x (img x)) by (unfold sh; rewrite S1; destruct (moved _ _ _ _ _ _); reflexivity).
  rewrite SHX. unfold moved. rewrite (parents_kept x X). cbn [negb orb].
  rewrite (position_child s (src_shift k) p x pre suf E), (position_child d (dst_shift k) q (img x) pre' suf' E'), Z1, Z2, !Z.add_0_r.
  rewrite (count_src (src_shift k) x pre suf X E).
  2: { intros a I. rewrite EB, fold_left_app. fold k. rewrite shift_src_out; [reflexivity|]. apply OUT, in_or_app. right. exact I. }
  (* the shifts of the second tree at this time *)
  assert (NX : ~ In x pre) by (rewrite E in NL; apply NoDup_remove_2 in NL; intros I; apply NL, in_or_app; left; exact I).
  assert (LX : ls x = length pre) by (rewrite E; apply index_split; exact NX).
  assert (NOW : forall a, In a M -> dst_shift k (img a) = if ls a <? ls x then src_shift k3 a else 0%Z).
  { intros a AM. pose proof AM as AM'. apply in_m in AM' as [AL AD]. destruct (Nat.ltb_spec (ls a) (ls x)) as [LT|GE].
    - assert (IA : In a pre). { destruct (in_dec Nat.eq_dec a pre) as [Y|Y]; [exact Y|]. exfalso. rewrite LX, E in LT. pose proof (index_after a pre (x :: suf) Y). lia. }
      rewrite <- (proj2 (final_shift a _ AD)). rewrite EB, fold_left_app. fold k. rewrite shift_dst_out; [reflexivity|]. intros a' D'. assert (a' = a) by (apply (proj1 G) in D', AD; congruence). subst a'. apply OUT, in_or_app. right. exact IA.
    - assert (IA : In a (x :: suf)). { rewrite E in AL. apply in_app_or in AL as [Y|Y]; [|exact Y]. exfalso. rewrite LX, E in GE. pose proof (index_before a pre (x :: suf) Y). lia. }
      subst k. rewrite shift_dst_out.
      + destruct (k2_marks s d m) as (_ & _ & _ & ->). unfold has_dst. rewrite (proj1 (proj1 G _ _) AD). cbn. rewrite andb_false_r. reflexivity.
      + intros a' D'. assert (a' = a) by (apply (proj1 G) in D', AD; congruence). subst a'. intros I. apply (OUT a I). destruct IA as [->|IA]; [left; reflexivity|right; apply in_or_app; left; exact IA]. }
  assert (NONE : forall b, In b R -> get_src m b = None -> dst_shift k b = (-1)%Z) by (intros b I N; apply dst_unmatched; [apply (kids_valid d q); exact I|exact N]).
  assert (SGN : forall b, In b pre' -> dst_shift k b = 0%Z \/ dst_shift k b = (-1)%Z).
  { intros b I. assert (IR : In b R) by (rewrite E'; apply in_or_app; left; exact I). destruct (get_src m b) as [a|] eqn:N; [|right; apply NONE; assumption].
    apply (proj1 G) in N. assert (AL : In a L) by (apply (comes a b); assumption). assert (IA : img a = b) by (unfold img; rewrite N; reflexivity). subst b.
    rewrite (NOW a) by (apply in_m; auto). destruct (ls a <? ls x); [apply (final_shift a _ N)|auto]. }
  rewrite (total_count _ _ SGN), (count_back (fun a => negb (sh a) || (ls x <=? ls a)) (dst_shift k) x pre' suf' X E').
  3: exact NONE.
  2: { intros a AM. rewrite (NOW a AM). unfold sh. rewrite negb_involutive. destruct (Nat.ltb_spec (ls a) (ls x)), (Nat.leb_spec (ls x) (ls a)); rewrite ?orb_false_r, ?orb_true_r; try reflexivity; lia. }
  assert (SPLIT : length (filter (fun a => (negb (sh a) || (ls x <=? ls a)) && (rs a <? rs x)) M) = cd M (fun x => rs x) sh x + length (later M (fun x => ls x) (fun x => rs x) sh x)).
  { unfold cd, cnt, later.
    assert (NE : forall a, In a M -> rs a < rs x -> ls a <> ls x).
    { intros a AM LT EQ. apply in_m in AM as [AL _]. assert (IX : In x L) by (apply in_m in X; apply X). assert (a = x) by (apply (index_inj L); assumption). subst a. lia. }
    revert NE. generalize M. clear. intros l. rewrite filter_both. induction l as [|a r IH]; intros NE; [reflexivity|]. cbn [filter]. assert (IHr := IH (fun b B => NE b (or_intror B))). pose proof (NE a (or_introl eq_refl)) as N.
    destruct (sh a), (Nat.ltb_spec (rs a) (rs x)), (Nat.leb_spec (ls x) (ls a)), (Nat.ltb_spec (ls x) (ls a)); cbn [negb andb orb length]; try lia; rewrite ?IHr; cbn [length]; try lia.
    all: exfalso; specialize (N H); lia. }
  rewrite SPLIT. rewrite negb_false_iff, Z.eqb_eq. lia.
Qed.
Lemma siblings_order x y : In x M -> In y M -> moved src dst m k4 x (img x) = false -> moved src dst m k4 y (img y) = false -> ls x < ls y -> rs x < rs y.
Proof.
  assert (ST : forall x, In x M -> moved src dst m k4 x (img x) = false -> cs M (fun x => ls x) sh x = cd M (fun x => rs x) sh x).
  { clear x y. intros x X H. rewrite (moved_ext s d m k4 k3) in H by apply k4_shifts. unfold moved in H. apply orb_false_iff in H as [_ H]. apply negb_false_iff, Z.eqb_eq in H.
    pose proof X as Y. apply in_m in Y as [IL D]. apply in_split in IL as (pre & suf & E). pose proof (img_in x X) as IR. apply in_split in IR as (pre' & suf' & E').
    rewrite (position_child s _ p x pre suf E), (position_child d _ q (img x) pre' suf' E') in H. rewrite (proj2 (final_shift x _ D)) in H.
    rewrite (count_src (src_shift k3) x pre suf X E) in H by reflexivity. rewrite (count_final x pre' suf' X E') in H. lia. }
  intros X Y HX HY. apply (order_kept M (fun x => ls x) (fun x => rs x) sh).
  - apply NoDup_filter, kids_nodup.
  - intros a b A1 B1. apply in_m in A1 as [A1 _]. apply in_m in B1 as [B1 _]. apply index_inj; assumption.
  - intros a b A1 B1 E. apply img_inj; try assumption. apply (index_inj R); auto using img_in.
  - exact shift_step.
  - exact X.
  - exact Y.
  - apply ST; assumption.
  - apply ST; assumption.
Qed.
End Siblings.
