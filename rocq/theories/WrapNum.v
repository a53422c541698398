(** Proofs about writing numbers in groups of digits. *)
From Verif Require Import Base StrModel WrapModel WrapSpec.
Local Open Scope Z_scope.

Lemma number_from : forall base s n,
  fold_left (fun n c => n * base + digit_value c) s n = n * base ^ Z.of_nat (length s) + number base s.
Proof.
  intros base. unfold number. induction s as [|c s IH]; intros n.
  - cbn. lia.
  - cbn [fold_left length]. rewrite IH. rewrite (IH (0 * base + digit_value c)).
    rewrite Nat2Z.inj_succ, Z.pow_succ_r by lia. lia.
Qed.

Lemma number_cons : forall base c s, number base (c :: s) = digit_value c * base ^ Z.of_nat (length s) + number base s.
Proof. intros base c s. unfold number at 1. cbn [fold_left]. rewrite number_from. lia. Qed.

Lemma number_snoc : forall base s c, number base (s ++ [c]) = number base s * base + digit_value c.
Proof. intros base s c. unfold number. rewrite fold_left_app. reflexivity. Qed.

Lemma number_zeros : forall base n s, number base (repeat 48 n ++ s) = number base s.
Proof. intros base n s. induction n as [|n IH]; [reflexivity|]. cbn [repeat app]. rewrite number_cons, IH. cbn [digit_value]. unfold digit_value. cbn. lia. Qed.

Lemma digit_ok : forall d, 0 <= d < 16 -> digit_value (digit_char d) = d.
Proof. intros d H. unfold digit_value, digit_char. destruct (d <? 10) eqn:E; destruct (_ <? 58) eqn:E2; lia. Qed.

Lemma digit_is : forall base d, 0 <= d < base -> base <= 16 -> is_digit_of base (digit_char d).
Proof.
  intros base d H H2. split; [|rewrite digit_ok by lia; lia].
  unfold digit_char. destruct (d <? 10) eqn:E; lia.
Qed.

(** What the digits of a number are. *)
Definition digits_of (base v : Z) (s : str) : Prop :=
  number base s = v /\ Forall (is_digit_of base) s /\ s <> [] /\ ((2 <= length s)%nat -> hd 48 s <> 48).

Lemma digits_step : forall base v d s, 2 <= base <= 16 -> 0 <= d < base -> 0 < v -> digits_of base v s ->
  digits_of base (v * base + d) (s ++ [digit_char d]).
Proof.
  intros base v d s Hb Hd Hv (D1 & D2 & D3 & D4). split; [|split; [|split]].
  - rewrite number_snoc, D1, digit_ok by lia. reflexivity.
  - apply Forall_app. split; [exact D2|]. constructor; [apply digit_is; lia|constructor].
  - now destruct s.
  - intros _. destruct s as [|c s]; [contradiction|]. cbn [app hd].
    destruct s as [|c2 s]; [|apply D4; cbn; lia].
    intros E. subst c. cbn in D1. lia.
Qed.

Lemma digits_one : forall base d, 2 <= base <= 16 -> 0 <= d < base -> digits_of base d [digit_char d].
Proof.
  intros base d Hb Hd. split; [|split; [|split]].
  - unfold number. cbn [fold_left]. rewrite digit_ok by lia. lia.
  - constructor; [apply digit_is; lia|constructor].
  - discriminate.
  - cbn. lia.
Qed.

Lemma based_ok : forall fuel base v acc, 2 <= base <= 16 -> 0 <= v -> v < base ^ Z.of_nat fuel -> (0 < fuel)%nat ->
  exists s, based fuel base v acc = Ok (s ++ acc) /\ digits_of base v s.
Proof.
  induction fuel as [|f IH]; intros base v acc Hb Hv Hf H0; [lia|].
  cbn [based]. pose proof (Z.mod_pos_bound v base ltac:(lia)) as Hm.
  pose proof (Z.div_mod v base ltac:(lia)) as Hd.
  destruct (v <? base) eqn:E.
  - rewrite Z.mod_small by lia. exists [digit_char v]. split; [reflexivity|]. apply digits_one; lia.
  - assert (H1 : 1 <= v / base) by (apply Z.div_le_lower_bound; lia).
    rewrite Nat2Z.inj_succ, Z.pow_succ_r in Hf by lia.
    assert (H2 : v / base < base ^ Z.of_nat f) by (apply Z.div_lt_upper_bound; lia).
    assert (H3 : (0 < f)%nat). { destruct f; [cbn in H2; lia|lia]. }
    destruct (IH base (v / base) (digit_char (v mod base) :: acc) Hb ltac:(lia) H2 H3) as (s & S1 & S2).
    exists (s ++ [digit_char (v mod base)]). rewrite S1. split; [now rewrite <- app_assoc|].
    replace v with ((v / base) * base + v mod base) at 1 by lia. apply digits_step; try assumption; lia.
Qed.

Lemma bits_ok : forall fuel v acc, 0 < v -> v < 2 ^ Z.of_nat fuel ->
  exists s, bits_loop fuel v acc = Ok (s ++ acc) /\ digits_of 2 v s.
Proof.
  induction fuel as [|f IH]; intros v acc Hv Hf; [cbn in Hf; lia|].
  cbn [bits_loop]. replace (v =? 0) with false by lia.
  rewrite Nat2Z.inj_succ, Z.pow_succ_r in Hf by lia.
  assert (El : Z.land v 1 = v mod 2).
  { change 1 with (Z.ones 1). rewrite Z.land_ones by lia. reflexivity. }
  pose proof (Z.mod_pos_bound v 2 ltac:(lia)) as Hm. pose proof (Z.div_mod v 2 ltac:(lia)) as Hd.
  assert (Ec : 48 + Z.land v 1 = digit_char (v mod 2)).
  { rewrite El. unfold digit_char. replace (v mod 2 <? 10) with true by lia. reflexivity. }
  rewrite Ec. rewrite Z.shiftr_div_pow2 by lia. change (2 ^ 1) with 2.
  destruct (Z.eq_dec (v / 2) 0) as [E|E].
  - rewrite E. exists [digit_char (v mod 2)]. split; [now destruct f|].
    replace v with (v mod 2) at 1 by lia. apply digits_one; lia.
  - assert (H2 : v / 2 < 2 ^ Z.of_nat f) by (apply Z.div_lt_upper_bound; lia).
    destruct (IH (v / 2) (digit_char (v mod 2) :: acc) ltac:(lia) H2) as (s & S1 & S2).
    exists (s ++ [digit_char (v mod 2)]). rewrite S1. split; [now rewrite <- app_assoc|].
    replace v with ((v / 2) * 2 + v mod 2) at 1 by lia. apply digits_step; try assumption; lia.
Qed.

(** * Padding *)

Definition padded (base v : Z) (pad : Z) (s : str) : Prop :=
  number base s = v /\ Forall (is_digit_of base) s /\ s <> [] /\ pad <= slen s
  /\ ((2 <= length s)%nat -> pad < slen s -> hd 48 s <> 48).

Lemma zero_digit : forall base, 2 <= base -> is_digit_of base 48.
Proof. intros base H. split; [lia|]. unfold digit_value. cbn. lia. Qed.

Lemma pad_ok : forall base v pad s, 2 <= base -> digits_of base v s -> padded base v pad (pad_zeros pad s).
Proof.
  intros base v pad s Hb (D1 & D2 & D3 & D4). unfold pad_zeros.
  destruct ((0 <? pad) && (slen s <? pad))%bool eqn:E.
  - apply andb_true_iff in E. destruct E as [E1 E2].
    assert (L : slen (repeat 48 (Z.to_nat (pad - slen s)) ++ s) = pad).
    { unfold slen in *. rewrite app_length, repeat_length. lia. }
    split; [rewrite number_zeros; exact D1|]. split.
    + apply Forall_app. split; [|exact D2]. apply Forall_forall. intros x Hx. apply repeat_spec in Hx. subst x.
      apply zero_digit; lia.
    + split; [intros N; apply app_eq_nil in N; now destruct N|]. split; [lia|]. lia.
  - split; [exact D1|]. split; [exact D2|]. split; [exact D3|]. split.
    + apply andb_false_iff in E. assert (1 <= slen s) by (destruct s; [contradiction|unfold slen; cbn [length]; lia]).
      destruct E as [E|E]; lia.
    + intros H _. apply D4; exact H.
Qed.

(** * Groups *)

Lemma group_shift : forall rest k g t, group_loop rest (4 + S k) (g ++ t) = group_loop rest (S k) g ++ t.
Proof.
  induction rest as [|c rest IH]; intros k g t; [reflexivity|].
  cbn [group_loop].
  assert (E : ((4 + S k) mod 4 = S k mod 4)%nat).
  { replace (4 + S k)%nat with (S k + 1 * 4)%nat by lia. apply Nat.mod_add; lia. }
  rewrite E. replace (0 <? 4 + S k)%nat with true by lia. replace (0 <? S k)%nat with true by lia. cbn [andb].
  replace (S (4 + S k)) with (4 + S (S k))%nat by lia.
  destruct (S k mod 4 =? 0)%nat; [exact (IH (S k) (c :: 39 :: g) t)|exact (IH (S k) (c :: g) t)].
Qed.

Lemma grouped_more : forall a t, a <> [] -> length t = 4%nat -> grouped (a ++ t) = grouped a ++ [39] ++ t.
Proof.
  intros a t Ha Ht. unfold grouped. rewrite rev_app_distr.
  destruct t as [|t1 [|t2 [|t3 [|t4 [|]]]]]; try discriminate. cbn [rev app].
  destruct (rev a) as [|c r] eqn:E.
  - exfalso. apply Ha. rewrite <- (rev_involutive a), E. reflexivity.
  - cbn [group_loop Nat.ltb Nat.leb andb]. 
    change (4 mod 4 =? 0)%nat with true. change (1 mod 4 =? 0)%nat with false. change (2 mod 4 =? 0)%nat with false.
    change (3 mod 4 =? 0)%nat with false. cbn [andb].
    exact (group_shift r 0 [c] (39 :: t1 :: t2 :: t3 :: t4 :: [])).
Qed.

Lemma grouped_small : forall s, (length s <= 4)%nat -> grouped s = s.
Proof.
  intros s H. destruct s as [|a [|b [|c [|d [|e s]]]]]; try reflexivity. cbn in H. lia.
Qed.

Lemma without_app : forall a b, without_quotes (a ++ b) = without_quotes a ++ without_quotes b.
Proof. intros a b. unfold without_quotes. apply filter_app. Qed.
Lemma without_none : forall s, ~ In 39 s -> without_quotes s = s.
Proof.
  induction s as [|c s IH]; intros H; [reflexivity|]. cbn.
  replace (c =? 39) with false; [cbn; f_equal; apply IH; intro; apply H; now right|].
  symmetry. apply Z.eqb_neq. intros ->. apply H. now left.
Qed.

Lemma grouped_ok : forall n s, (length s <= n)%nat -> s <> [] -> ~ In 39 s ->
  in_fours (grouped s) /\ without_quotes (grouped s) = s.
Proof.
  induction n as [|n IH]; intros s Hn Hs Hq; [destruct s; [contradiction|cbn in Hn; lia]|].
  destruct (le_lt_dec (length s) 4) as [H|H].
  - rewrite grouped_small by exact H. split; [|apply without_none; exact Hq].
    apply fours_first; [destruct s; [contradiction|cbn [length] in *; lia]|exact Hq].
  - set (k := (length s - 4)%nat).
    assert (L1 : length (firstn k s) = k) by (rewrite firstn_length; lia).
    assert (L2 : length (skipn k s) = 4%nat) by (rewrite skipn_length; lia).
    assert (Q : ~ In 39 (firstn k s) /\ ~ In 39 (skipn k s)).
    { rewrite <- (firstn_skipn k s) in Hq. split; intro X; apply Hq; apply in_or_app; [now left|now right]. }
    destruct Q as [Q1 Q2].
    assert (N1 : firstn k s <> []) by (intros X; rewrite X in L1; cbn in L1; lia).
    destruct (IH (firstn k s) ltac:(lia) N1 Q1) as [I1 I2].
    rewrite <- (firstn_skipn k s). rewrite grouped_more by assumption. split.
    + apply fours_more; assumption.
    + rewrite !without_app, I2, (without_none (skipn k s)) by exact Q2. reflexivity.
Qed.

Lemma digits_no_quote : forall base s, Forall (is_digit_of base) s -> ~ In 39 s.
Proof. intros base s H X. rewrite Forall_forall in H. destruct (H _ X) as [[A|A] _]; lia. Qed.

Lemma format_ok : forall v fmt pad, 0 <= v < 2 ^ 64 ->
  exists d, format_integer_bits v fmt pad = Ok (prefix_of fmt ++ d)
    /\ padded (base_of fmt) v pad (without_quotes d)
    /\ (if base_of fmt =? 10 then ~ In 39 d else in_fours d).
Proof.
  intros v fmt pad Hv. unfold format_integer_bits, base_of, prefix_of.
  assert (G : forall base s, digits_of base v s -> 2 <= base ->
    padded base v pad (without_quotes (grouped (pad_zeros pad s))) /\ in_fours (grouped (pad_zeros pad s))).
  { intros base s D Hb. pose proof (pad_ok base v pad s Hb D) as P. pose proof P as (_ & P2 & P3 & _).
    destruct (grouped_ok _ (pad_zeros pad s) (le_n _) P3 (digits_no_quote _ _ P2)) as [G1 G2].
    rewrite G2. split; assumption. }
  assert (B : forall base, 2 <= base <= 16 -> exists s, based 64 base v [] = Ok s /\ digits_of base v s).
  { intros base Hb. destruct (based_ok 64 base v [] Hb ltac:(lia)) as (s & S1 & S2); [|lia|].
    - apply Z.lt_le_trans with (2 ^ 64); [lia|]. change (Z.of_nat 64) with 64. apply Z.pow_le_mono_l. lia.
    - rewrite app_nil_r in S1. exists s. split; assumption. }
  destruct (fmt =? 98).
  - destruct (v =? 0) eqn:E0.
    + cbn [obind]. exists (grouped (pad_zeros pad [48])). split; [reflexivity|].
      replace v with 0 in * by lia. apply G; [|lia]. exact (digits_one 2 0 ltac:(lia) ltac:(lia)).
    + destruct (bits_ok 64 v [] ltac:(lia)) as (s & S1 & S2); [change (Z.of_nat 64) with 64; lia|].
      rewrite app_nil_r in S1. rewrite S1. cbn [obind]. eexists. split; [reflexivity|]. apply G; [exact S2|lia].
  - destruct (fmt =? 111); [|destruct (fmt =? 120)].
    + destruct (B 8 ltac:(lia)) as (s & S1 & S2). rewrite S1. cbn [obind]. eexists. split; [reflexivity|]. apply G; [exact S2|lia].
    + destruct (B 16 ltac:(lia)) as (s & S1 & S2). rewrite S1. cbn [obind]. eexists. split; [reflexivity|]. apply G; [exact S2|lia].
    + destruct (B 10 ltac:(lia)) as (s & S1 & S2). rewrite S1. cbn [obind]. eexists. split; [reflexivity|].
      pose proof (pad_ok 10 v pad s ltac:(lia) S2) as P. pose proof P as (_ & P2 & _).
      pose proof (digits_no_quote _ _ P2) as Q. rewrite without_none by exact Q. split; [exact P|exact Q].
Qed.
