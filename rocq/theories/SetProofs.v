From Verif Require Import Base SetModel SetSpec.
Local Open Scope Z_scope.

Lemma described_ord_spec : forall l v i,
  (In v l -> i <= described_ord l v i < i + Z.of_nat (length l)
             /\ nth_error l (Z.to_nat (described_ord l v i - i)) = Some v).
Proof.
  induction l as [|x l IH]; intros v i Hin; [destruct Hin|].
  cbn [described_ord length]. destruct (Z.eqb_spec x v) as [->|Hne].
  - split; [lia|]. now rewrite Z.sub_diag.
  - destruct Hin as [?|Hin]; [congruence|].
    destruct (IH v (i + 1) Hin) as [H1 H2]. split; [lia|].
    replace (Z.to_nat (described_ord l v (i + 1) - i))
      with (S (Z.to_nat (described_ord l v (i + 1) - (i + 1)))) by lia.
    exact H2.
Qed.

Lemma ord_range : forall d n v, indexed d -> type_bits d n -> in_type d n v ->
  0 <= ord d v < Z.of_nat n.
Proof.
  intros [| b | | low | l] n v Hi Hb Hv; cbn in *; try tauto; try lia.
  - subst n. destruct (Z.ltb_spec v 0); lia.
  - destruct (described_ord_spec l v 0 Hv) as [H _]. lia.
Qed.

Lemma ord_inj : forall d n v w, indexed d -> type_bits d n -> in_type d n v -> in_type d n w ->
  ord d v = ord d w -> v = w.
Proof.
  intros [| b | | low | l] n v w Hi Hb Hv Hw E; cbn in *; try tauto; try lia.
  - destruct (Z.ltb_spec v 0), (Z.ltb_spec w 0); lia.
  - destruct (described_ord_spec l v 0 Hv) as [_ H1].
    destruct (described_ord_spec l w 0 Hw) as [_ H2].
    rewrite E in H1. congruence.
Qed.

Lemma from_ord : forall d n v, zero_based d -> type_bits d n -> in_type d n v ->
  from_index d (Z.to_nat (ord d v)) = v.
Proof.
  intros [| b | | low | l] n v Hz Hb Hv; cbn in *; try tauto; try lia.
  - destruct (Z.ltb_spec v 0) as [H|H].
    + destruct (Z.ltb_spec (Z.of_nat (Z.to_nat (v + 256))) 128); lia.
    + destruct (Z.ltb_spec (Z.of_nat (Z.to_nat v)) 128); lia.
  - destruct (described_ord_spec l v 0 Hv) as [H1 H2].
    rewrite Z.sub_0_r in H2. remember (Z.to_nat (described_ord l v 0)) as k eqn:Ek.
    assert (k < length l)%nat by lia.
    rewrite Hz in H2. rewrite nth_error_map in H2.
    rewrite (nth_error_nth' (seq 0 (length l)) 0%nat) in H2 by (rewrite seq_length; lia).
    cbn in H2. rewrite seq_nth in H2 by lia. injection H2 as H2.
    lia.
Qed.

Lemma zero_indexed : forall d, zero_based d -> indexed d.
Proof. intros [| | | |]; cbn; tauto. Qed.

Lemma to_idx_some : forall d n s v, indexed d -> type_bits d n -> length s = n -> in_type d n v ->
  to_idx d s v = Some (Z.to_nat (ord d v)).
Proof.
  intros d n s v Hi Hb Hl Hv. unfold to_idx. pose proof (ord_range d n v Hi Hb Hv).
  rewrite Hl. now replace ((0 <=? ord d v) && (ord d v <? Z.of_nat n)) with true by lia.
Qed.

Lemma set_bit_length : forall s i b, length (set_bit s i b) = length s.
Proof. induction s as [|x s IH]; intros [|i] b; cbn; auto. Qed.

Lemma nth_set_bit : forall s i j b, (i < length s)%nat ->
  nth j (set_bit s i b) false = if (j =? i)%nat then b else nth j s false.
Proof.
  induction s as [|x s IH]; intros i j b H; cbn in H; [lia|].
  destruct i as [|i], j as [|j]; cbn; try reflexivity.
  rewrite IH by lia. reflexivity.
Qed.

Lemma zip_bits_length : forall f s t, length s = length t -> length (zip_bits f s t) = length s.
Proof. induction s as [|x s IH]; intros [|y t] H; cbn in *; try lia. f_equal. apply IH. lia. Qed.

Lemma nth_zip_bits : forall f s t i, length s = length t -> (i < length s)%nat ->
  nth i (zip_bits f s t) false = f (nth i s false) (nth i t false).
Proof.
  induction s as [|x s IH]; intros [|y t] i H Hi; cbn in *; try lia.
  destruct i as [|i]; [reflexivity|]. apply IH; lia.
Qed.

Lemma bits_eqb_spec : forall s t, bits_eqb s t = true <-> s = t.
Proof.
  induction s as [|x s IH]; intros [|y t]; cbn; split; intros H; try congruence; try discriminate.
  - apply andb_prop in H as [H1 H2]. apply eqb_prop in H1. apply IH in H2. congruence.
  - injection H as -> ->. rewrite eqb_reflx. cbn. now apply IH.
Qed.

Section Dom.
  Variables (d : domain) (n : nat).
  Hypothesis Hi : indexed d.
  Hypothesis Hb : type_bits d n.

  Definition bit (s : bitset) (v : Z) : bool := nth (Z.to_nat (ord d v)) s false.

  Lemma contains_ok : forall s v, length s = n -> in_type d n v -> set_contains d s v = Ok (bit s v).
  Proof. intros s v Hl Hv. unfold set_contains. now rewrite (to_idx_some d n s v Hi Hb Hl Hv). Qed.

  Lemma has_bit : forall s v, length s = n -> in_type d n v -> has d s v = bit s v.
  Proof. intros. unfold has. now rewrite contains_ok. Qed.

  Lemma idx_lt : forall v, in_type d n v -> (Z.to_nat (ord d v) < n)%nat.
  Proof. intros v Hv. pose proof (ord_range d n v Hi Hb Hv). lia. Qed.

  Lemma bit_set_bit : forall s x v b, length s = n -> in_type d n x -> in_type d n v ->
    bit (set_bit s (Z.to_nat (ord d x)) b) v = if v =? x then b else bit s v.
  Proof.
    intros s x v b Hl Hx Hv. unfold bit.
    rewrite nth_set_bit by (rewrite Hl; now apply idx_lt).
    pose proof (ord_range d n x Hi Hb Hx). pose proof (ord_range d n v Hi Hb Hv).
    destruct (Z.eqb_spec v x) as [->|Hne].
    - now rewrite Nat.eqb_refl.
    - destruct (Nat.eqb_spec (Z.to_nat (ord d v)) (Z.to_nat (ord d x))) as [E|]; [|reflexivity].
      exfalso. apply Hne. apply (ord_inj d n v x Hi Hb Hv Hx). lia.
  Qed.

  Lemma proper_set_bit : forall s x b, length s = n -> in_type d n x ->
    proper d s -> proper d (set_bit s (Z.to_nat (ord d x)) b).
  Proof.
    intros s x b Hl Hx Hp j H. rewrite set_bit_length, Hl.
    rewrite nth_set_bit in H by (rewrite Hl; now apply idx_lt).
    destruct (Nat.eqb_spec j (Z.to_nat (ord d x))) as [E|E].
    - exists x. split; [assumption|]. pose proof (ord_range d n x Hi Hb Hx). lia.
    - rewrite <- Hl. now apply Hp.
  Qed.

  Lemma incl_ok : forall s x, length s = n -> in_type d n x ->
    set_incl d s x = Ok (set_bit s (Z.to_nat (ord d x)) true).
  Proof. intros. unfold set_incl. now rewrite (to_idx_some d n s x Hi Hb). Qed.
  Lemma excl_ok : forall s x, length s = n -> in_type d n x ->
    set_excl d s x = Ok (set_bit s (Z.to_nat (ord d x)) false).
  Proof. intros. unfold set_excl. now rewrite (to_idx_some d n s x Hi Hb). Qed.

  Lemma incl_all_ok : forall l s, length s = n -> Forall (in_type d n) l ->
    exists s', set_incl_all d s l = Ok s' /\ length s' = n /\ (proper d s -> proper d s')
      /\ forall v, in_type d n v -> bit s' v = mem l v || bit s v.
  Proof.
    induction l as [|x l IH]; intros s Hl Hf.
    - exists s. cbn. auto.
    - apply Forall_cons_iff in Hf as [Hx Hf']. cbn [set_incl_all].
      rewrite (incl_ok s x Hl Hx). cbn [obind].
      destruct (IH (set_bit s (Z.to_nat (ord d x)) true)) as (s' & E & L & P & B).
      + now rewrite set_bit_length.
      + assumption.
      + exists s'. split; [exact E|]. split; [exact L|]. split.
        * intro Hp. apply P. now apply proper_set_bit.
        * intros v Hv. rewrite B by assumption. rewrite bit_set_bit by auto.
          change (mem (x :: l) v) with ((v =? x) || mem l v).
          destruct (v =? x), (mem l v); cbn; rewrite ?orb_true_r; auto.
  Qed.

  Lemma excl_all_ok : forall l s, length s = n -> Forall (in_type d n) l ->
    exists s', set_excl_all d s l = Ok s' /\ length s' = n /\ (proper d s -> proper d s')
      /\ forall v, in_type d n v -> bit s' v = negb (mem l v) && bit s v.
  Proof.
    induction l as [|x l IH]; intros s Hl Hf.
    - exists s. cbn. auto.
    - apply Forall_cons_iff in Hf as [Hx Hf']. cbn [set_excl_all].
      rewrite (excl_ok s x Hl Hx). cbn [obind].
      destruct (IH (set_bit s (Z.to_nat (ord d x)) false)) as (s' & E & L & P & B).
      + now rewrite set_bit_length.
      + assumption.
      + exists s'. split; [exact E|]. split; [exact L|]. split.
        * intro Hp. apply P. now apply proper_set_bit.
        * intros v Hv. rewrite B by assumption. rewrite bit_set_bit by auto.
          change (mem (x :: l) v) with ((v =? x) || mem l v).
          destruct (v =? x), (mem l v); cbn; auto.
  Qed.

  Lemma proper_zip : forall f s t, f false false = false -> length s = n -> length t = n ->
    proper d s -> proper d t -> proper d (zip_bits f s t).
  Proof.
    intros f s t Hf Hs Ht Ps Pt i H.
    assert (HL : length (zip_bits f s t) = n) by (rewrite zip_bits_length; congruence).
    destruct (Nat.lt_ge_cases i n) as [Hlt|Hge];
      [|rewrite nth_overflow in H by (rewrite HL; lia); discriminate].
    rewrite nth_zip_bits in H by (rewrite ?Hs, ?Ht; auto). rewrite HL.
    destruct (nth i s false) eqn:E1; [rewrite <- Hs; now apply Ps|].
    destruct (nth i t false) eqn:E2; [rewrite <- Ht; now apply Pt|]. congruence.
  Qed.

  Lemma proper_diff : forall s t, length s = n -> length t = n -> proper d s -> proper d (set_diff s t).
  Proof.
    intros s t Hs Ht Ps i H. unfold set_diff in *.
    assert (HL : length (zip_bits andb s (map negb t)) = n)
      by (rewrite zip_bits_length; rewrite ?map_length; congruence).
    destruct (Nat.lt_ge_cases i n) as [Hlt|Hge];
      [|rewrite nth_overflow in H by (rewrite HL; lia); discriminate].
    rewrite nth_zip_bits in H by (rewrite ?map_length, ?Hs, ?Ht; auto). rewrite HL.
    apply andb_prop in H as [H _]. rewrite <- Hs. now apply Ps.
  Qed.

  Lemma nth_negb : forall t i, (i < length t)%nat -> nth i (map negb t) false = negb (nth i t false).
  Proof.
    intros t i H. rewrite (nth_indep _ false (negb false)) by (rewrite map_length; lia). apply map_nth.
  Qed.

  Lemma step_ok : forall s o, length s = n -> op_in_type d n o ->
    exists s', set_step d s o = Ok s' /\ length s' = n
      /\ (proper d s -> op_proper d o -> proper d s')
      /\ forall v, in_type d n v -> bit s' v = fset_op (has d) (bit s) o v.
  Proof.
    intros s o Hl Ho.
    assert (Hbits : forall f t, length t = n -> length (zip_bits f s t) = n /\
              forall v, in_type d n v -> bit (zip_bits f s t) v = f (bit s v) (bit t v)).
    { intros f t Ht. split; [rewrite zip_bits_length; congruence|].
      intros v Hv. unfold bit. apply nth_zip_bits; [congruence|]. rewrite Hl. now apply idx_lt. }
    destruct o; cbn [set_step op_in_type op_proper fset_op] in *.
    - rewrite incl_ok by assumption. eexists; split; [reflexivity|]. rewrite set_bit_length. split; [assumption|].
      split; [intros; now apply proper_set_bit|].
      intros w Hw. rewrite bit_set_bit by assumption. destruct (w =? v); reflexivity.
    - rewrite excl_ok by assumption. eexists; split; [reflexivity|]. rewrite set_bit_length. split; [assumption|].
      split; [intros; now apply proper_set_bit|].
      intros w Hw. rewrite bit_set_bit by assumption. destruct (w =? v); reflexivity.
    - destruct (incl_all_ok l s Hl Ho) as (s' & E & L & P & B). exists s'. auto.
    - destruct (excl_all_ok l s Hl Ho) as (s' & E & L & P & B). exists s'. auto.
    - destruct (Hbits orb t Ho) as [H1 H2]. eexists; split; [reflexivity|]. split; [exact H1|].
      split; [intros; now apply proper_zip|]. intros v Hv. unfold set_union. rewrite H2 by assumption. now rewrite has_bit.
    - destruct (Hbits andb (map negb t)) as [H1 H2]; [now rewrite map_length|].
      eexists; split; [reflexivity|]. split; [exact H1|].
      split; [intros; now apply proper_diff|]. intros v Hv. unfold set_diff. rewrite H2 by assumption.
      rewrite has_bit by assumption. unfold bit at 2. rewrite nth_negb by (rewrite Ho; now apply idx_lt). reflexivity.
    - destruct (Hbits andb t Ho) as [H1 H2]. eexists; split; [reflexivity|]. split; [exact H1|].
      split; [intros; now apply proper_zip|]. intros v Hv. unfold set_inter. rewrite H2 by assumption. now rewrite has_bit.
    - destruct (Hbits xorb t Ho) as [H1 H2]. eexists; split; [reflexivity|]. split; [exact H1|].
      split; [intros; now apply proper_zip|]. intros v Hv. unfold set_xor. rewrite H2 by assumption. now rewrite has_bit.
  Qed.

  Lemma fset_op_ext : forall f g o v, f v = g v -> fset_op (has d) f o v = fset_op (has d) g o v.
  Proof. intros f g o v E. destruct o; cbn; now rewrite E. Qed.

  Lemma fset_run_ext : forall ops f g v, f v = g v -> fset_run (has d) f ops v = fset_run (has d) g ops v.
  Proof.
    induction ops as [|o ops IH]; intros f g v E; cbn; [exact E|].
    apply IH. now apply fset_op_ext.
  Qed.

  Lemma history_ok : forall ops s, length s = n -> Forall (op_in_type d n) ops ->
    exists s', set_run d s ops = Ok s' /\ length s' = n
      /\ (proper d s -> Forall (op_proper d) ops -> proper d s')
      /\ forall v, in_type d n v -> set_contains d s' v = Ok (fset_run (has d) (has d s) ops v).
  Proof.
    induction ops as [|o ops IH]; intros s Hl Hf.
    - exists s. cbn. repeat split; auto. intros v Hv. rewrite contains_ok by assumption. now rewrite has_bit.
    - apply Forall_cons_iff in Hf as [Ho Hf']. cbn [set_run].
      destruct (step_ok s o Hl Ho) as (s1 & E1 & L1 & P1 & B1). rewrite E1. cbn [obind].
      destruct (IH s1 L1 Hf') as (s2 & E2 & L2 & P2 & B2).
      exists s2. split; [exact E2|]. split; [exact L2|]. split.
      + intros Hp Hops. apply Forall_cons_iff in Hops as [? ?]. auto.
      + intros v Hv. rewrite B2 by assumption. f_equal. cbn [fset_run fold_left].
        apply fset_run_ext. rewrite has_bit by assumption. rewrite B1 by assumption.
        apply fset_op_ext. now rewrite has_bit.
  Qed.

  (** Equality and inclusion. *)
  Lemma bits_ext : forall s t, length s = length t ->
    (forall i, nth i s false = nth i t false) -> s = t.
  Proof.
    intros s t Hl H. apply (nth_ext s t false false Hl). intros i _. apply H.
  Qed.

  Lemma proper_nth : forall s i, length s = n -> proper d s -> nth i s false = true ->
    exists v, in_type d n v /\ bit s v = true /\ Z.to_nat (ord d v) = i.
  Proof.
    intros s i Hl Hp H. destruct (Hp i H) as (v & Hv & E). rewrite Hl in Hv.
    exists v. assert (Z.to_nat (ord d v) = i) by lia. split; [assumption|]. split; [|assumption].
    unfold bit. now rewrite H0.
  Qed.

  Lemma eq_members : forall s t, length s = n -> length t = n -> proper d s -> proper d t ->
    (set_eqb s t = true <-> forall v, in_type d n v -> set_contains d s v = set_contains d t v).
  Proof.
    intros s t Hs Ht Ps Pt. unfold set_eqb. rewrite bits_eqb_spec. split; [intros ->; reflexivity|].
    intros H. apply bits_ext; [congruence|]. intros i.
    assert (Hbit : forall v, in_type d n v -> bit s v = bit t v).
    { intros v Hv. specialize (H v Hv). rewrite !contains_ok in H by assumption. congruence. }
    destruct (nth i s false) eqn:E1.
    - destruct (proper_nth s i Hs Ps E1) as (v & Hv & B & Ei).
      rewrite Hbit in B by assumption. unfold bit in B. rewrite Ei in B. congruence.
    - destruct (nth i t false) eqn:E2; [|reflexivity].
      destruct (proper_nth t i Ht Pt E2) as (v & Hv & B & Ei).
      rewrite <- Hbit in B by assumption. unfold bit in B. rewrite Ei in B. congruence.
  Qed.

  Lemma contains_set_bits : forall s t, length s = n -> length t = n ->
    (set_contains_set s t = true <-> forall i, nth i t false = true -> nth i s false = true).
  Proof.
    intros s t Hs Ht. unfold set_contains_set. rewrite bits_eqb_spec. split.
    - intros E i Hi'. destruct (Nat.lt_ge_cases i n) as [Hlt|Hge];
        [|rewrite nth_overflow in Hi' by lia; discriminate].
      assert (H := f_equal (fun l => nth i l false) E). cbn in H.
      rewrite nth_zip_bits in H by (rewrite ?Hs, ?Ht; auto). rewrite Hi' in H. now apply andb_prop in H.
    - intros H. apply bits_ext; [rewrite zip_bits_length; congruence|]. intros i.
      destruct (Nat.lt_ge_cases i n) as [Hlt|Hge];
        [|rewrite !nth_overflow; rewrite ?zip_bits_length; try reflexivity; rewrite ?Hs, ?Ht; lia].
      rewrite nth_zip_bits by (rewrite ?Hs, ?Ht; auto).
      destruct (nth i t false) eqn:E; [rewrite (H i E); reflexivity|apply andb_false_r].
  Qed.

  Lemma contains_set_members : forall s t, length s = n -> length t = n -> proper d t ->
    (set_contains_set s t = true <->
       forall v, in_type d n v -> set_contains d t v = Ok true -> set_contains d s v = Ok true).
  Proof.
    intros s t Hs Ht Pt. rewrite (contains_set_bits s t Hs Ht). split.
    - intros H v Hv. rewrite !contains_ok by assumption. intros E. injection E as E. f_equal. now apply H.
    - intros H i E. destruct (proper_nth t i Ht Pt E) as (v & Hv & B & Ei).
      specialize (H v Hv). rewrite !contains_ok in H by assumption. rewrite B in H.
      specialize (H eq_refl). injection H as H. unfold bit in H. now rewrite Ei in H.
  Qed.
End Dom.

(** Sizes. *)
Lemma size_cons : forall b s, set_size (b :: s) = ((if b then 1 else 0) + set_size s)%nat.
Proof. intros [|] s; reflexivity. Qed.

Lemma size_union_inter : forall s t, length s = length t ->
  (set_size (set_union s t) + set_size (set_inter s t) = set_size s + set_size t)%nat.
Proof.
  unfold set_union, set_inter.
  induction s as [|a s IH]; intros [|b t] H; cbn [length] in H; try lia; [reflexivity|].
  cbn [zip_bits]. rewrite !size_cons. specialize (IH t ltac:(lia)). destruct a, b; cbn [orb andb]; lia.
Qed.

Lemma size_diff : forall s t, length s = length t ->
  (set_size (set_diff s t) + set_size (set_inter s t) = set_size s)%nat.
Proof.
  unfold set_diff, set_inter.
  induction s as [|a s IH]; intros [|b t] H; cbn [length] in H; try lia; [reflexivity|].
  cbn [zip_bits map]. rewrite !size_cons. specialize (IH t ltac:(lia)). destruct a, b; cbn [negb andb]; lia.
Qed.

Lemma size_le_sub : forall s t, length s = length t ->
  (forall i, nth i s false = true -> nth i t false = true) ->
  (set_size s <= set_size t)%nat /\
  ((set_size s < set_size t)%nat <-> exists i, nth i t false = true /\ nth i s false = false).
Proof.
  induction s as [|a s IH]; intros [|b t] Hl H; cbn [length] in Hl; try lia.
  - split; [lia|]. split; [lia|]. intros (i & E & _). destruct i; discriminate.
  - rewrite !size_cons.
    destruct (IH t ltac:(lia) (fun i => H (S i))) as [H1 H2].
    pose proof (H 0%nat) as H0. cbn in H0. split; [destruct a, b; try lia; now (specialize (H0 eq_refl))|].
    destruct a, b; try (specialize (H0 eq_refl); discriminate).
    + split.
      * intros Hlt. destruct (proj1 H2 ltac:(lia)) as (i & E1 & E2). now exists (S i).
      * intros ([|i] & E1 & E2); [discriminate|]. apply proj2 in H2.
        assert (set_size s < set_size t)%nat by (apply H2; now exists i). lia.
    + split; [intros _; now exists 0%nat|intros _; lia].
    + split.
      * intros Hlt. destruct (proj1 H2 ltac:(lia)) as (i & E1 & E2). now exists (S i).
      * intros ([|i] & E1 & E2); [discriminate|]. apply proj2 in H2.
        assert (set_size s < set_size t)%nat by (apply H2; now exists i). lia.
Qed.

Lemma lt_members : forall d n s t, indexed d -> type_bits d n -> length s = n -> length t = n ->
  proper d s -> proper d t ->
  (set_lt s t = true <->
     (forall v, in_type d n v -> set_contains d s v = Ok true -> set_contains d t v = Ok true)
     /\ exists v, in_type d n v /\ set_contains d t v = Ok true /\ set_contains d s v = Ok false).
Proof.
  intros d n s t Hi Hb Hs Ht Ps Pt. unfold set_lt. rewrite andb_true_iff, Nat.ltb_lt.
  rewrite (contains_set_members d n Hi Hb t s Ht Hs Ps).
  split.
  - intros [H1 H2]. split; [exact H1|].
    assert (H3 : forall i, nth i s false = true -> nth i t false = true).
    { apply (contains_set_bits n t s Ht Hs). now apply (contains_set_members d n Hi Hb t s Ht Hs Ps). }
    destruct (proj1 (proj2 (size_le_sub s t ltac:(congruence) H3)) H2) as (i & E1 & E2).
    destruct (proper_nth d n t i Ht Pt E1) as (v & Hv & B & Ei).
    exists v. rewrite !(contains_ok d n Hi Hb) by assumption. rewrite B. unfold bit. rewrite Ei, E2. auto.
  - intros [H1 (v & Hv & E1 & E2)]. split; [exact H1|].
    assert (H3 : forall i, nth i s false = true -> nth i t false = true).
    { apply (contains_set_bits n t s Ht Hs). now apply (contains_set_members d n Hi Hb t s Ht Hs Ps). }
    apply (size_le_sub s t ltac:(congruence) H3).
    rewrite (contains_ok d n Hi Hb) in E1, E2 by assumption. injection E1 as E1. injection E2 as E2.
    now exists (Z.to_nat (ord d v)).
Qed.

(** Iteration. *)
Definition pos_from (s : bitset) (i : nat) : list nat :=
  filter (fun j => nth j s false) (seq i (length s - i)).

Lemma pos_from_step : forall s i, (i < length s)%nat ->
  pos_from s i = if nth i s false then i :: pos_from s (S i) else pos_from s (S i).
Proof.
  intros s i H. unfold pos_from. replace (length s - i)%nat with (S (length s - S i)) by lia.
  cbn [seq filter]. destruct (nth i s false); reflexivity.
Qed.

Lemma pos_from_end : forall s, pos_from s (length s) = [].
Proof. intros. unfold pos_from. now rewrite Nat.sub_diag. Qed.

Definition settled (s : bitset) (i : nat) : Prop :=
  i = length s \/ ((i < length s)%nat /\ nth i s false = true).

Lemma it_skip_ok : forall fuel s i, (i <= length s)%nat -> (length s - i < fuel)%nat ->
  exists j, it_skip fuel s i = Ok j /\ (i <= j)%nat /\ settled s j /\ pos_from s j = pos_from s i.
Proof.
  induction fuel as [|fuel IH]; intros s i Hi Hf; [lia|]. cbn [it_skip].
  destruct (Nat.ltb_spec i (length s)) as [Hlt|Hge]; cbn [andb].
  - destruct (nth i s false) eqn:E; cbn [negb].
    + exists i. unfold settled. auto 6.
    + destruct (IH s (S i) ltac:(lia) ltac:(lia)) as (j & E1 & E2 & E3 & E4).
      exists j. split; [exact E1|]. split; [lia|]. split; [exact E3|].
      rewrite E4. rewrite (pos_from_step s i Hlt), E. reflexivity.
  - exists i. unfold settled. repeat split; auto. left; lia.
Qed.

Lemma it_incr_ok : forall s i, settled s i -> (i < length s)%nat ->
  exists j, it_incr s i = Ok j /\ (i < j)%nat /\ settled s j /\ pos_from s i = i :: pos_from s j.
Proof.
  intros s i [He|[Hlt E]] Hi; [lia|]. unfold it_incr.
  replace (i <? length s)%nat with true by (symmetry; apply Nat.ltb_lt; lia).
  rewrite E. cbn [andb].
  destruct (it_skip_ok (S (length s)) s (S i) ltac:(lia) ltac:(lia)) as (j & E1 & E2 & E3 & E4).
  exists j. split; [exact E1|]. split; [lia|]. split; [exact E3|].
  rewrite (pos_from_step s i Hlt), E, E4. reflexivity.
Qed.

Lemma settled_le : forall s i, settled s i -> (i <= length s)%nat.
Proof. intros s i [->|[H _]]; lia. Qed.

Lemma it_loop_ok : forall fuel d s i, settled s i -> (length s - i < fuel)%nat ->
  it_loop fuel d s i (length s) = Ok (map (from_index d) (pos_from s i)).
Proof.
  induction fuel as [|fuel IH]; intros d s i Hs Hf; [lia|]. cbn [it_loop].
  destruct (Nat.eqb_spec i (length s)) as [->|Hne].
  - now rewrite pos_from_end.
  - pose proof (settled_le s i Hs).
    destruct (it_incr_ok s i Hs ltac:(lia)) as (j & E1 & E2 & E3 & E4).
    rewrite E1. cbn [obind]. pose proof (settled_le s j E3).
    rewrite IH by (auto; lia). cbn [obind]. now rewrite E4.
Qed.

Lemma iterate_ok : forall d s, set_iterate d s = Ok (map (from_index d) (positions s)).
Proof.
  intros d s. unfold set_iterate.
  assert (Hpos : positions s = pos_from s 0) by (unfold positions, pos_from; now rewrite Nat.sub_0_r).
  assert (H0 : exists i, it_make s 0 = Ok i /\ settled s i /\ pos_from s i = pos_from s 0).
  { unfold it_make. destruct (Nat.ltb_spec 0 (length s)) as [Hlt|Hge]; cbn [andb].
    - destruct (nth 0 s false) eqn:E; cbn [negb].
      + exists 0%nat. unfold settled. auto 6.
      + unfold it_incr. rewrite E, andb_false_r.
        destruct (it_skip_ok (S (length s)) s 0 ltac:(lia) ltac:(lia)) as (j & E1 & _ & E3 & E4).
        now exists j.
    - exists 0%nat. unfold settled. repeat split; auto. left; lia. }
  assert (H1 : it_make s (length s) = Ok (length s)).
  { unfold it_make. now rewrite Nat.ltb_irrefl. }
  destruct H0 as (i & E & Hs & Hp). rewrite E, H1. cbn [obind].
  pose proof (settled_le s i Hs). rewrite it_loop_ok by (auto; lia). now rewrite Hpos, Hp.
Qed.

Lemma positions_length : forall s, length (positions s) = set_size s.
Proof.
  intros s. unfold positions. 
  assert (H : forall k t, length (filter (fun i => nth (i - k) t false) (seq k (length t))) = set_size t).
  { intros k t. revert k. induction t as [|b t IH]; intros k; [reflexivity|].
    cbn [length seq filter]. rewrite Nat.sub_diag. cbn [nth]. rewrite size_cons.
    rewrite <- (IH (S k)).
    rewrite (filter_ext_in (fun i => nth (i - k) (b :: t) false) (fun i => nth (i - S k) t false)).
    - destruct b; reflexivity.
    - intros a Ha. apply in_seq in Ha. replace (a - k)%nat with (S (a - S k)) by lia. reflexivity. }
  rewrite <- (H 0%nat s). f_equal. apply filter_ext. intros i. now rewrite Nat.sub_0_r.
Qed.

Lemma positions_in : forall s i, In i (positions s) <-> nth i s false = true.
Proof.
  intros s i. unfold positions. rewrite filter_In, in_seq. split; [tauto|].
  intros H. split; [|exact H]. destruct (Nat.lt_ge_cases i (length s)); [lia|].
  rewrite nth_overflow in H by lia. discriminate.
Qed.

Lemma seq_sorted : forall n k, StronglySorted lt (seq k n).
Proof.
  induction n as [|n IH]; intros k; cbn; constructor; [apply IH|].
  apply Forall_forall. intros x Hx. apply in_seq in Hx. lia.
Qed.

Lemma filter_sorted : forall {A} (R : A -> A -> Prop) f l, StronglySorted R l -> StronglySorted R (filter f l).
Proof.
  intros A R f l H. induction H as [|a l H IH Hf]; cbn; [constructor|].
  destruct (f a); [constructor|]; try assumption.
  apply Forall_forall. intros x Hx. apply filter_In in Hx as [Hx _].
  rewrite Forall_forall in Hf. auto.
Qed.

Lemma positions_sorted : forall s, StronglySorted lt (positions s).
Proof. intros. apply filter_sorted, seq_sorted. Qed.

Lemma iterate_members : forall d n s, zero_based d -> type_bits d n -> length s = n -> proper d s ->
  exists l, set_iterate d s = Ok l
    /\ StronglySorted (fun a b => ord d a < ord d b) l
    /\ (forall v, In v l <-> in_type d n v /\ set_contains d s v = Ok true)
    /\ length l = set_size s.
Proof.
  intros d n s Hz Hb Hl Hp. pose proof (zero_indexed d Hz) as Hi.
  exists (map (from_index d) (positions s)). split; [apply iterate_ok|].
  assert (Hpos : forall i, In i (positions s) ->
            exists v, in_type d n v /\ bit d s v = true /\ Z.to_nat (ord d v) = i /\ from_index d i = v).
  { intros i Hin. apply positions_in in Hin.
    destruct (proper_nth d n s i Hl Hp Hin) as (v & Hv & B & E). exists v. repeat split; auto.
    rewrite <- E. now apply (from_ord d n). }
  split; [|split].
  - assert (Hall : Forall (fun i => ord d (from_index d i) = Z.of_nat i) (positions s)).
    { apply Forall_forall. intros i Hin. destruct (Hpos i Hin) as (v & Hv & B & E & F).
      rewrite F. pose proof (ord_range d n v Hi Hb Hv). lia. }
    pose proof (positions_sorted s) as Hs. revert Hall Hs.
    generalize (positions s) as l. induction l as [|a l IH]; intros Hall Hs; cbn; constructor.
    + inversion Hall; inversion Hs; subst. apply IH; assumption.
    + inversion Hall as [|? ? Ha Hall']; inversion Hs as [|? ? Hs' Hf]; subst.
      apply Forall_forall. intros x Hx. apply in_map_iff in Hx as (j & <- & Hj).
      rewrite Forall_forall in Hall', Hf. rewrite Ha, (Hall' j Hj). specialize (Hf j Hj). lia.
  - intros v. rewrite in_map_iff. split.
    + intros (i & F & Hin). destruct (Hpos i Hin) as (w & Hw & B & E & F'). subst v. rewrite F'.
      split; [assumption|]. rewrite (contains_ok d n Hi Hb) by assumption. now rewrite B.
    + intros [Hv E]. rewrite (contains_ok d n Hi Hb) in E by assumption. injection E as E.
      exists (Z.to_nat (ord d v)). split; [now apply (from_ord d n)|]. now apply positions_in.
  - now rewrite map_length, positions_length.
Qed.

Lemma json_round_trip : forall d n s, zero_based d -> type_bits d n -> length s = n -> proper d s ->
  set_json_round_trip d s = Ok s.
Proof.
  intros d n s Hz Hb Hl Hp. pose proof (zero_indexed d Hz) as Hi.
  destruct (iterate_members d n s Hz Hb Hl Hp) as (l & E & _ & M & _).
  unfold set_json_round_trip. rewrite E. cbn [obind]. unfold set_of.
  assert (He : length (set_empty (length s)) = n) by (unfold set_empty; now rewrite repeat_length).
  assert (Hf : Forall (in_type d n) l).
  { apply Forall_forall. intros v Hv. now apply M in Hv. }
  assert (Pe : proper d (set_empty (length s))).
  { intros i H. unfold set_empty in H. rewrite nth_repeat in H. discriminate. }
  destruct (incl_all_ok d n Hi Hb l (set_empty (length s)) He Hf) as (s' & E' & L' & P' & B').
  rewrite E'. f_equal. apply bits_eqb_spec.
  apply (eq_members d n Hi Hb s' s L' Hl (P' Pe) Hp).
  intros v Hv. rewrite !(contains_ok d n Hi Hb) by assumption. f_equal. rewrite B' by assumption.
  unfold bit at 1, set_empty. rewrite nth_repeat, orb_false_r.
  destruct (bit d s v) eqn:Eb.
  - apply existsb_exists. exists v. split; [|apply Z.eqb_refl]. apply M. split; [assumption|].
    rewrite (contains_ok d n Hi Hb) by assumption. now rewrite Eb.
  - destruct (mem l v) eqn:Em; [|reflexivity]. apply existsb_exists in Em as (w & Hw & Ew).
    apply Z.eqb_eq in Ew as <-. apply M in Hw as [_ Hw]. rewrite (contains_ok d n Hi Hb) in Hw by assumption.
    congruence.
Qed.

Lemma signed_negative : forall bits n s v, type_bits (DSigned bits) n -> length s = n ->
  in_type (DSigned bits) n v ->
  (v < 0 -> set_contains (DSigned bits) s v = Throw /\ set_incl (DSigned bits) s v = Throw)
  /\ (0 <= v -> exists b, set_contains (DSigned bits) s v = Ok b).
Proof.
  intros bits n s v [Hb Hn] Hl Hv. cbn in Hv. unfold set_contains, set_incl, to_idx. cbn [ord].
  split.
  - intros H. now replace (0 <=? v) with false by lia.
  - intros H. assert (2 ^ (bits - 1) <= 2 ^ bits) by (apply Z.pow_le_mono_r; lia).
    replace ((0 <=? v) && (v <? Z.of_nat (length s))) with true by lia. eauto.
Qed.
