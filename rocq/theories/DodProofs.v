(** Proofs for DodModel. *)
From Verif Require Import Base DodModel DodSpec.
Open Scope N_scope.

Ltac Zify.zify_post_hook ::= Z.div_mod_to_equations.

(** ** Bit-level facts *)

Lemma wrap_testbit w x i : N.testbit (wrap w x) i = N.testbit x i && (i <? w).
Proof.
  unfold wrap. destruct (N.ltb_spec i w) as [H|H].
  - rewrite N.mod_pow2_bits_low by exact H. now rewrite andb_true_r.
  - rewrite N.mod_pow2_bits_high by exact H. now rewrite andb_false_r.
Qed.

Lemma wrap_lt w x : wrap w x < 2 ^ w.
Proof. unfold wrap. apply N.mod_lt. apply N.pow_nonzero. lia. Qed.

Lemma wrap_small w x : x < 2 ^ w -> wrap w x = x.
Proof. unfold wrap. apply N.mod_small. Qed.

Lemma ones_testbit w i : N.testbit (N.ones w) i = (i <? w).
Proof.
  destruct (N.ltb_spec i w) as [H|H].
  - now apply N.ones_spec_low.
  - now apply N.ones_spec_high.
Qed.

Lemma bnot_testbit w x i : N.testbit (bnot w x) i = xorb (N.testbit x i) (i <? w).
Proof. unfold bnot. now rewrite N.lxor_spec, ones_testbit. Qed.

Lemma lt_pow2_testbit x w : x < 2 ^ w -> forall i, w <= i -> N.testbit x i = false.
Proof.
  intros Hx i Hi. rewrite <- (N.mod_small x (2 ^ w) Hx).
  now apply N.mod_pow2_bits_high.
Qed.

Lemma high_ones_testbit w m i :
  m <= w -> N.testbit (high_ones w m) i = (w - m <=? i) && (i <? w).
Proof.
  intros Hm. unfold high_ones, mask_offset. rewrite wrap_testbit.
  destruct (N.leb_spec (w - m) i) as [H|H].
  - rewrite N.shiftl_spec_high' by exact H. rewrite bnot_testbit, N.bits_0. simpl.
    destruct (N.ltb_spec (i - (w - m)) w), (N.ltb_spec i w); simpl; try reflexivity; lia.
  - now rewrite N.shiftl_spec_low.
Qed.

Lemma get_unmasked_mod w m v :
  0 < m -> m <= w -> v < 2 ^ w -> get_unmasked w m v = v mod 2 ^ (w - m).
Proof.
  intros Hm Hw Hv. unfold get_unmasked.
  destruct (N.eqb_spec m 0) as [->|_]; [lia|].
  apply N.bits_inj. intros i.
  rewrite N.land_spec, bnot_testbit, high_ones_testbit by exact Hw.
  destruct (N.ltb_spec i (w - m)) as [H|H].
  - rewrite N.mod_pow2_bits_low by exact H.
    destruct (N.leb_spec (w - m) i); [lia|].
    destruct (N.ltb_spec i w); [|lia]. simpl. now rewrite andb_true_r.
  - rewrite N.mod_pow2_bits_high by exact H.
    destruct (N.leb_spec (w - m) i); [|lia]. simpl.
    destruct (N.ltb_spec i w); simpl; now rewrite andb_false_r.
Qed.

Lemma get_mask_div w m v :
  m <= w -> v < 2 ^ w -> get_mask w m v = v / 2 ^ (w - m).
Proof.
  intros Hw Hv. unfold get_mask, mask_offset. rewrite <- N.shiftr_div_pow2.
  apply N.bits_inj. intros i. rewrite !N.shiftr_spec'.
  rewrite N.land_spec, high_ones_testbit by exact Hw.
  destruct (N.ltb_spec (i + (w - m)) w) as [H|H].
  - destruct (N.leb_spec (w - m) (i + (w - m))); [|lia]. now rewrite andb_true_r.
  - rewrite andb_false_r, andb_false_r. symmetry. now apply lt_pow2_testbit with w.
Qed.

Lemma get_mask_unshifted_eq w m v :
  m <= w -> v < 2 ^ w -> get_mask_unshifted w m v = N.shiftl (v / 2 ^ (w - m)) (w - m).
Proof.
  intros Hw Hv. unfold get_mask_unshifted. rewrite <- N.shiftr_div_pow2.
  apply N.bits_inj. intros i. rewrite N.land_spec, high_ones_testbit by exact Hw.
  destruct (N.leb_spec (w - m) i) as [H|H].
  - rewrite N.shiftl_spec_high' by exact H. rewrite N.shiftr_spec'.
    replace (i - (w - m) + (w - m)) with i by lia.
    destruct (N.ltb_spec i w); simpl; [now rewrite andb_true_r|].
    rewrite andb_false_r. symmetry. now apply lt_pow2_testbit with w.
  - rewrite N.shiftl_spec_low by exact H. simpl. now rewrite andb_false_r.
Qed.

Lemma lor_disjoint_add k a b : a < 2 ^ k -> N.lor a (N.shiftl b k) = a + b * 2 ^ k.
Proof.
  intros Ha. apply N.bits_inj. intros i.
  rewrite N.lor_spec.
  destruct (N.ltb_spec i k) as [H|H].
  - rewrite N.shiftl_spec_low by exact H. rewrite orb_false_r.
    rewrite <- (N.mod_pow2_bits_low (a + b * 2 ^ k) k i H).
    rewrite N.mod_add by (apply N.pow_nonzero; lia).
    now rewrite N.mod_pow2_bits_low.
  - rewrite N.shiftl_spec_high' by exact H.
    rewrite (lt_pow2_testbit a k Ha i H). simpl.
    replace i with ((i - k) + k) at 2 by lia. rewrite <- N.shiftr_spec'.
    rewrite N.shiftr_div_pow2.
    rewrite N.div_add by (apply N.pow_nonzero; lia).
    now rewrite (N.div_small a (2 ^ k) Ha).
Qed.

Lemma pow2_pos k : 0 < 2 ^ k.
Proof. apply N.neq_0_lt_0, N.pow_nonzero. lia. Qed.

Lemma pow2_split w m : m <= w -> 2 ^ w = 2 ^ m * 2 ^ (w - m).
Proof. intros H. rewrite <- N.pow_add_r. f_equal. lia. Qed.

(** The packing view: an id value is [mask * 2^off + unmasked]. *)
Definition pack (w m mask u : N) : N := u + mask * 2 ^ (w - m).

Lemma pack_lt w m mask u :
  m <= w -> mask < 2 ^ m -> u < 2 ^ (w - m) -> pack w m mask u < 2 ^ w.
Proof.
  intros Hw Hk Hu. unfold pack. rewrite (pow2_split w m Hw). nia.
Qed.

Lemma pack_unmasked w m mask u :
  0 < m -> m <= w -> mask < 2 ^ m -> u < 2 ^ (w - m) ->
  get_unmasked w m (pack w m mask u) = u.
Proof.
  intros Hm Hw Hk Hu. rewrite get_unmasked_mod; auto using pack_lt.
  unfold pack. rewrite N.mod_add by (apply N.pow_nonzero; lia). now apply N.mod_small.
Qed.

Lemma pack_mask w m mask u :
  m <= w -> mask < 2 ^ m -> u < 2 ^ (w - m) ->
  get_mask w m (pack w m mask u) = mask.
Proof.
  intros Hw Hk Hu. rewrite get_mask_div; auto using pack_lt.
  unfold pack. rewrite N.div_add by (apply N.pow_nonzero; lia).
  now rewrite N.div_small.
Qed.

Lemma pack_mask_unshifted w m mask u :
  m <= w -> mask < 2 ^ m -> u < 2 ^ (w - m) ->
  get_mask_unshifted w m (pack w m mask u) = N.shiftl mask (w - m).
Proof.
  intros Hw Hk Hu. rewrite get_mask_unshifted_eq; auto using pack_lt.
  unfold pack. rewrite N.div_add by (apply N.pow_nonzero; lia).
  now rewrite N.div_small.
Qed.

Lemma unpack w m v :
  m <= w -> v < 2 ^ w ->
  exists mask u, mask < 2 ^ m /\ u < 2 ^ (w - m) /\ v = pack w m mask u.
Proof.
  intros Hw Hv. exists (v / 2 ^ (w - m)), (v mod 2 ^ (w - m)).
  assert (Hp := pow2_pos (w - m)).
  repeat split.
  - apply N.div_lt_upper_bound; [lia|]. rewrite N.mul_comm, <- pow2_split by exact Hw. exact Hv.
  - apply N.mod_lt. lia.
  - unfold pack. rewrite (N.div_mod v (2 ^ (w - m))) at 1 by lia. lia.
Qed.

Lemma pack_inj w m k1 u1 k2 u2 :
  u1 < 2 ^ (w - m) -> u2 < 2 ^ (w - m) ->
  pack w m k1 u1 = pack w m k2 u2 -> k1 = k2 /\ u1 = u2.
Proof.
  unfold pack. intros H1 H2 H.
  destruct (N.div_mod_unique (2 ^ (w - m)) k1 k2 u1 u2 H1 H2); [lia|auto].
Qed.

(** [setMask] on a packed id. *)
Lemma mask_check_ok m mask :
  m <= 64 -> mask < 2 ^ m -> N.land mask (bnot 64 (wrap 64 (N.shiftl 1 m - 1))) = 0.
Proof.
  intros Hm Hk. apply N.bits_inj. intros i. rewrite N.land_spec, bnot_testbit, N.bits_0.
  destruct (N.ltb_spec i m) as [H|H].
  - assert (E : N.shiftl 1 m - 1 = N.ones m).
    { rewrite N.shiftl_1_l, N.ones_equiv. lia. }
    rewrite E, wrap_testbit, ones_testbit.
    destruct (N.ltb_spec i m); [|lia]. destruct (N.ltb_spec i 64); [|lia]. simpl.
    now rewrite andb_false_r.
  - now rewrite (lt_pow2_testbit mask m Hk i H).
Qed.

Lemma mask_check_bad m mask :
  m <= 64 -> mask < 2 ^ 64 -> 2 ^ m <= mask ->
  N.land mask (bnot 64 (wrap 64 (N.shiftl 1 m - 1))) <> 0.
Proof.
  intros Hm Hk Hbig Hz.
  assert (E : N.shiftl 1 m - 1 = N.ones m).
  { rewrite N.shiftl_1_l, N.ones_equiv. lia. }
  rewrite E in Hz.
  set (i := N.log2 mask) in *.
  assert (Hpos : 0 < mask) by (pose proof (pow2_pos m); lia).
  assert (Hi : N.testbit mask i = true) by (apply N.bit_log2; lia).
  assert (Hmi : m <= i).
  { apply N.log2_le_pow2 in Hbig; [exact Hbig|exact Hpos]. }
  assert (Hi64 : i < 64) by (apply N.log2_lt_pow2; assumption).
  assert (Hb : N.testbit (N.land mask (bnot 64 (wrap 64 (N.ones m)))) i = true).
  { rewrite N.land_spec, bnot_testbit, wrap_testbit, ones_testbit, Hi.
    destruct (N.ltb_spec i m); [lia|]. destruct (N.ltb_spec i 64); [|lia]. reflexivity. }
  rewrite Hz, N.bits_0 in Hb. discriminate.
Qed.

Lemma set_mask_pack w m k0 u mask :
  0 < m -> m <= w -> w <= 64 -> k0 < 2 ^ m -> u < 2 ^ (w - m) -> mask < 2 ^ m ->
  set_mask w m (pack w m k0 u) mask = Some (pack w m mask u).
Proof.
  intros Hm Hmw Hw Hk0 Hu Hk. unfold set_mask.
  rewrite mask_check_ok by (lia || assumption). rewrite N.eqb_refl. simpl.
  unfold mask_offset. destruct (N.ltb_spec (w - m) w); [|lia]. simpl.
  rewrite pack_unmasked by assumption.
  rewrite wrap_small.
  - now rewrite lor_disjoint_add by exact Hu.
  - rewrite N.shiftl_mul_pow2, (pow2_split w m Hmw).
    pose proof (pow2_pos (w - m)). nia.
Qed.

Lemma set_mask_throws w m v mask :
  m <= 64 -> mask < 2 ^ 64 -> 2 ^ m <= mask -> set_mask w m v mask = None.
Proof.
  intros Hm Hk Hbig. unfold set_mask.
  destruct (N.eqb_spec (N.land mask (bnot 64 (wrap 64 (N.shiftl 1 m - 1)))) 0) as [E|E].
  - now apply mask_check_bad in E.
  - reflexivity.
Qed.

Lemma from_index_pack w m idx :
  m < w -> idx + 1 < 2 ^ (w - m) -> from_index w idx = pack w m 0 (idx + 1).
Proof.
  intros Hm Hi. unfold from_index, pack. rewrite wrap_small; [lia|].
  rewrite (pow2_split w m) by lia. pose proof (pow2_pos m). nia.
Qed.

Lemma from_masked_idx_pack w m idx mask :
  0 < m -> m < w -> w <= 64 -> idx + 1 < 2 ^ (w - m) -> mask < 2 ^ m ->
  from_masked_idx w m idx mask = Some (pack w m mask (idx + 1)).
Proof.
  intros Hm Hmw Hw Hi Hk. unfold from_masked_idx.
  rewrite (from_index_pack w m) by assumption.
  pose proof (pow2_pos m). apply set_mask_pack; assumption || lia.
Qed.

(** ** C01 *)

Lemma id_roundtrip w m idx mask :
  0 < m -> m < w -> w <= 64 -> idx < 2 ^ (w - m) - 1 -> mask < 2 ^ m ->
  exists id, from_masked_idx w m idx mask = Some id /\
    get_index w m id = Some idx /\ get_mask w m id = mask /\ is_nil w m id = false /\ id < 2 ^ w.
Proof.
  intros Hm Hmw Hw Hi Hk. exists (pack w m mask (idx + 1)).
  assert (Hu : idx + 1 < 2 ^ (w - m)) by lia.
  assert (Hn : is_nil w m (pack w m mask (idx + 1)) = false).
  { unfold is_nil. rewrite pack_unmasked by (lia || assumption).
    apply N.eqb_neq. lia. }
  repeat split.
  - now apply from_masked_idx_pack.
  - unfold get_index. rewrite Hn, pack_unmasked by (lia || assumption). f_equal. lia.
  - apply pack_mask; lia || assumption.
  - exact Hn.
  - apply pack_lt; lia || assumption.
Qed.

Lemma id_wide_mask_rejected w m idx mask :
  m <= w -> w <= 64 -> mask < 2 ^ 64 -> 2 ^ m <= mask -> from_masked_idx w m idx mask = None.
Proof. intros. apply set_mask_throws; assumption || lia. Qed.

Lemma id_values_are_packed w m v :
  0 < m -> m < w -> w <= 64 -> v < 2 ^ w ->
  (get_index w m v = None /\ v = get_mask w m v * 2 ^ (w - m)) \/
  (exists idx, get_index w m v = Some idx /\
     from_masked_idx w m idx (get_mask w m v) = Some v).
Proof.
  intros Hm Hmw Hw Hv.
  destruct (unpack w m v) as (k & u & Hk & Hu & ->); [lia|exact Hv|].
  unfold get_index, is_nil.
  rewrite pack_unmasked, pack_mask by (lia || assumption).
  destruct (N.eqb_spec u 0) as [->|Hu0].
  - left. split; [reflexivity|]. unfold pack. lia.
  - right. exists (u - 1). split; [reflexivity|].
    rewrite from_masked_idx_pack by (lia || assumption).
    f_equal. f_equal. lia.
Qed.

(** ** C02 *)

Lemma set_mask_keeps_index w m v mask :
  0 < m -> m < w -> w <= 64 -> v < 2 ^ w -> mask < 2 ^ m ->
  exists v', set_mask w m v mask = Some v' /\
    get_index w m v' = get_index w m v /\ get_mask w m v' = mask.
Proof.
  intros Hm Hmw Hw Hv Hk.
  destruct (unpack w m v) as (k & u & Hk' & Hu & ->); [lia|exact Hv|].
  exists (pack w m mask u). split; [|split].
  - apply set_mask_pack; lia || assumption.
  - unfold get_index, is_nil. now rewrite !pack_unmasked by (lia || assumption).
  - apply pack_mask; lia || assumption.
Qed.

(** ** C03 *)

Lemma plus_pack w m k u n :
  0 < m -> m < w -> k < 2 ^ m -> u < 2 ^ (w - m) ->
  (0 <= Z.of_N u + n)%Z -> (Z.of_N u + n < 2 ^ Z.of_N (w - m))%Z ->
  id_plus w m (pack w m k u) n = pack w m k (Z.to_N (Z.of_N u + n)).
Proof.
  intros Hm Hmw Hk Hu Hlo Hhi. unfold id_plus.
  rewrite pack_unmasked, pack_mask_unshifted by (lia || assumption).
  assert (Hhi' : Z.to_N (Z.of_N u + n) < 2 ^ (w - m)).
  { change 2%Z with (Z.of_N 2) in Hhi. rewrite <- N2Z.inj_pow in Hhi. lia. }
  assert (Hsplit : 2 ^ (w - m) <= 2 ^ w) by (apply N.pow_le_mono_r; lia).
  rewrite N.lor_comm.
  destruct (Z.leb_spec 0 n) as [Hn|Hn].
  - assert (E : saturating_add w u (Z.to_N n) = Z.to_N (Z.of_N u + n)).
    { unfold saturating_add. rewrite wrap_small by lia.
      destruct (N.ltb_spec (u + Z.to_N n) u); lia. }
    rewrite E. now apply lor_disjoint_add.
  - assert (E : saturating_sub w u (Z.to_N (Z.abs n)) = Z.to_N (Z.of_N u + n)).
    { unfold saturating_sub. rewrite (wrap_small w (Z.to_N (Z.abs n))) by lia.
      assert (Hw : wrap w (u + 2 ^ w - Z.to_N (Z.abs n)) = u - Z.to_N (Z.abs n)).
      { unfold wrap. replace (u + 2 ^ w - Z.to_N (Z.abs n)) with ((u - Z.to_N (Z.abs n)) + 1 * 2 ^ w) by lia.
        rewrite N.mod_add by (apply N.pow_nonzero; lia). apply N.mod_small. lia. }
      rewrite Hw. destruct (N.ltb_spec u (u - Z.to_N (Z.abs n))); lia. }
    rewrite E. now apply lor_disjoint_add.
Qed.

Lemma id_plus_moves_index w m v n idx :
  0 < m -> m < w -> w <= 64 -> v < 2 ^ w ->
  get_index w m v = Some idx ->
  (0 <= Z.of_N idx + n)%Z -> (Z.of_N idx + n < 2 ^ Z.of_N (w - m) - 1)%Z ->
  get_index w m (id_plus w m v n) = Some (Z.to_N (Z.of_N idx + n)) /\
  get_mask w m (id_plus w m v n) = get_mask w m v /\
  ((0 <= n)%Z -> id_distance w m v (id_plus w m v n) = Z.to_N n) /\
  ((n <= 0)%Z -> id_distance w m (id_plus w m v n) v = Z.to_N (- n)).
Proof.
  intros Hm Hmw Hw Hv Hidx Hlo Hhi.
  destruct (unpack w m v) as (k & u & Hk & Hu & ->); [lia|exact Hv|].
  unfold get_index, is_nil in Hidx. rewrite pack_unmasked in Hidx by (lia || assumption).
  destruct (N.eqb_spec u 0) as [Hz|Hu0]; [discriminate|].
  injection Hidx as <-.
  rewrite plus_pack by (lia || assumption).
  set (u' := Z.to_N (Z.of_N u + n)).
  assert (Hu' : u' < 2 ^ (w - m)).
  { subst u'. assert (Z.of_N (2 ^ (w - m)) = 2 ^ Z.of_N (w - m))%Z by (now rewrite N2Z.inj_pow). lia. }
  assert (Hsplit : 2 ^ (w - m) <= 2 ^ w) by (apply N.pow_le_mono_r; lia).
  unfold get_index, is_nil, id_distance.
  rewrite !pack_unmasked, !pack_mask by (lia || assumption).
  assert (Hsub : forall a b, b <= a -> a < 2 ^ w -> saturating_sub w a b = a - b).
  { intros a b Hab Ha. unfold saturating_sub. rewrite (wrap_small w b) by lia.
    assert (E : wrap w (a + 2 ^ w - b) = a - b).
    { unfold wrap. replace (a + 2 ^ w - b) with ((a - b) + 1 * 2 ^ w) by lia.
      rewrite N.mod_add by (apply N.pow_nonzero; lia). apply N.mod_small. lia. }
    rewrite E. destruct (N.ltb_spec a (a - b)); lia. }
  repeat split.
  - destruct (N.eqb_spec u' 0); [lia|]. f_equal. lia.
  - intros Hn. rewrite Hsub by lia. lia.
  - intros Hn. rewrite Hsub by lia. lia.
Qed.

Lemma id_incr_is_plus_one w m v : id_incr w m v = id_plus w m v 1.
Proof. reflexivity. Qed.

Lemma id_decr_is_minus_one w m v : id_decr w m v = id_plus w m v (-1).
Proof. reflexivity. Qed.

(** ** C04: store *)

Lemma id_of_small w n :
  (Z.of_nat n < 2 ^ 31)%Z -> N.of_nat n < 2 ^ w -> id_of_int w (int_of_size n) = N.of_nat n.
Proof.
  intros Hn Hw. unfold id_of_int, int_of_size.
  rewrite (Z.mod_small (Z.of_nat n)) by lia.
  destruct (Z.ltb_spec (Z.of_nat n) (2 ^ 31)); [|lia].
  assert (E : (2 ^ Z.of_N w)%Z = Z.of_N (2 ^ w)) by (now rewrite N2Z.inj_pow).
  rewrite E. rewrite Z.mod_small by lia. lia.
Qed.

(** The id a value added at position [n] must get. *)
Definition id_at (w m : N) (n : nat) (mask : option N) : N :=
  pack w m (match mask with Some k => k | None => 0 end) (N.of_nat n + 1).



Lemma mask_or_zero_lt m mask : mask_ok m mask -> match mask with Some k => k | None => 0 end < 2 ^ m.
Proof. destruct mask; simpl; auto. intros _. apply pow2_pos. Qed.

Lemma id_at_index w m n mask :
  0 < m -> m < w -> fits w m (S n) -> mask_ok m mask ->
  get_index w m (id_at w m n mask) = Some (N.of_nat n) /\ is_nil w m (id_at w m n mask) = false.
Proof.
  intros Hm Hmw [H1 H2] Hk. apply mask_or_zero_lt in Hk. unfold id_at, get_index, is_nil.
  rewrite pack_unmasked by (lia || assumption).
  destruct (N.eqb_spec (N.of_nat n + 1) 0); [lia|]. split; [f_equal; lia|reflexivity].
Qed.

Lemma store_add_ok {V} w m (c : list V) v mask :
  0 < m -> m < w -> w <= 64 -> fits w m (S (length c)) -> mask_ok m mask ->
  store_add w m c v mask = Some (c ++ [v], id_at w m (length c) mask).
Proof.
  intros Hm Hmw Hw Hf Hk. destruct (id_at_index w m (length c) mask Hm Hmw Hf Hk) as [_ Hn].
  destruct Hf as [H1 H2].
  assert (Hp : 2 ^ (w - m) <= 2 ^ w) by (apply N.pow_le_mono_r; lia).
  unfold store_add. rewrite id_of_small by lia.
  destruct mask as [k|]; simpl in *.
  - rewrite from_masked_idx_pack by (lia || assumption).
    unfold id_at in Hn. now rewrite Hn.
  - rewrite (from_index_pack w m) by lia. unfold id_at in Hn. now rewrite Hn.
Qed.

Lemma fits_le w m a b : fits w m b -> (a <= b)%nat -> fits w m a.
Proof. unfold fits. lia. Qed.

Fixpoint ids_from {V} (w m : N) (n : nat) (ops : list (V * option N)) : list N :=
  match ops with
  | [] => []
  | (_, k) :: ops' => id_at w m n k :: ids_from w m (S n) ops'
  end.

Lemma run_adds_spec {V} w m (ops : list (V * option N)) :
  0 < m -> m < w -> w <= 64 ->
  forall c, fits w m (length c + length ops) -> Forall (fun o => mask_ok m (snd o)) ops ->
  run_adds w m c ops = Some (c ++ map fst ops, ids_from w m (length c) ops).
Proof.
  intros Hm Hmw Hw. induction ops as [|[v k] ops IH]; intros c Hf Hk; simpl.
  - now rewrite app_nil_r.
  - inversion Hk as [|? ? Hk1 Hk2]; subst. simpl in Hf.
    rewrite store_add_ok by (try assumption; apply fits_le with (1 := Hf); lia).
    rewrite IH; [|rewrite app_length; simpl; apply fits_le with (1 := Hf); lia|exact Hk2].
    rewrite app_length. simpl. rewrite <- app_assoc. simpl.
    now replace (length c + 1)%nat with (S (length c)) by lia.
Qed.

Lemma ids_from_nth {V} w m (ops : list (V * option N)) : forall n i,
  nth_error (ids_from w m n ops) i =
  match nth_error ops i with Some (_, k) => Some (id_at w m (n + i) k) | None => None end.
Proof.
  induction ops as [|[v k] ops IH]; intros n i; destruct i; simpl; try reflexivity.
  - now rewrite Nat.add_0_r.
  - rewrite IH. now replace (S n + i)%nat with (n + S i)%nat by lia.
Qed.

Lemma store_at_id_at {V} w m (c : list V) n mask :
  0 < m -> m < w -> fits w m (S n) -> mask_ok m mask ->
  store_at w m c (id_at w m n mask) = nth_error c n.
Proof.
  intros Hm Hmw Hf Hk. unfold store_at.
  destruct (id_at_index w m n mask Hm Hmw Hf Hk) as [-> _]. now rewrite Nat2N.id.
Qed.

Lemma store_pairs_from_spec {V} w m (c : list V) : forall i,
  m < w -> N.of_nat (length c) + i <= 2 ^ (w - m) - 1 ->
  store_pairs_from w c i = combine (map (fun j => pack w m 0 (N.of_nat j + i + 1)) (seq 0 (length c))) c.
Proof.
  induction c as [|v c IH]; intros i Hmw Hb; cbn [store_pairs_from length seq map combine]; [reflexivity|].
  cbn [length] in Hb. rewrite (from_index_pack w m) by lia.
  replace (N.of_nat 0 + i + 1) with (i + 1) by lia. f_equal.
  rewrite IH by lia. f_equal. rewrite <- seq_shift, map_map. apply map_ext. intros j.
  f_equal. lia.
Qed.

Lemma store_history {V} w m (ops : list (V * option N)) :
  0 < m -> m < w -> w <= 64 -> fits w m (length ops) -> Forall (fun o => mask_ok m (snd o)) ops ->
  exists c ids,
    run_adds w m [] ops = Some (c, ids) /\
    length ids = length ops /\ length c = length ops /\
    (forall i v k, nth_error ops i = Some (v, k) ->
       exists id, nth_error ids i = Some id /\ store_at w m c id = Some v /\
         store_contains w m c id = true /\
         get_mask w m id = match k with Some x => x | None => 0 end) /\
    (forall i j a b, nth_error ids i = Some a -> nth_error ids j = Some b ->
       get_index w m a = get_index w m b -> i = j) /\
    map snd (store_pairs w c) = map fst ops /\
    (forall i id v, nth_error (store_pairs w c) i = Some (id, v) ->
       store_at w m c id = Some v /\
       exists id', nth_error ids i = Some id' /\ get_index w m id = get_index w m id').
Proof.
  intros Hm Hmw Hw Hf Hk.
  exists (map fst ops), (ids_from w m 0 ops).
  assert (Hlen : length (ids_from w m 0 ops) = length ops).
  { clear. generalize 0%nat. induction ops as [|[v k] ops IH]; intros n; simpl; auto. }
  assert (Hnk : forall i v k, nth_error ops i = Some (v, k) -> mask_ok m k /\ (i < length ops)%nat).
  { intros i v k Hi. split.
    - apply nth_error_In in Hi. rewrite Forall_forall in Hk. exact (Hk _ Hi).
    - apply nth_error_Some. congruence. }
  split; [|split; [exact Hlen|split; [apply map_length|split; [|split; [|split]]]]].
  - rewrite run_adds_spec by assumption. reflexivity.
  - intros i v k Hi. destruct (Hnk i v k Hi) as [Hmk Hlt].
    exists (id_at w m i k). rewrite ids_from_nth, Hi. simpl.
    assert (Hfi : fits w m (S i)) by (apply fits_le with (1 := Hf); lia).
    split; [reflexivity|]. split; [|split].
    + rewrite store_at_id_at by assumption. rewrite nth_error_map, Hi. reflexivity.
    + unfold store_contains. destruct (id_at_index w m i k Hm Hmw Hfi Hmk) as [-> _].
      apply N.ltb_lt. rewrite map_length. lia.
    + apply pack_mask; [lia|now apply mask_or_zero_lt|]. destruct Hfi. lia.
  - intros i j a b Hi Hj Heq. rewrite ids_from_nth in Hi, Hj.
    destruct (nth_error ops i) as [[v1 k1]|] eqn:E1; [|discriminate].
    destruct (nth_error ops j) as [[v2 k2]|] eqn:E2; [|discriminate].
    injection Hi as <-. injection Hj as <-. simpl in Heq.
    destruct (Hnk _ _ _ E1) as [Hm1 Hl1]. destruct (Hnk _ _ _ E2) as [Hm2 Hl2].
    destruct (id_at_index w m i k1 Hm Hmw) as [R1 _];
      [apply fits_le with (1 := Hf); lia|exact Hm1|].
    destruct (id_at_index w m j k2 Hm Hmw) as [R2 _];
      [apply fits_le with (1 := Hf); lia|exact Hm2|].
    rewrite R1, R2 in Heq. injection Heq as Heq. now apply Nat2N.inj.
  - unfold store_pairs. rewrite (store_pairs_from_spec w m) by (try assumption; rewrite map_length; destruct Hf; lia).
    clear. set (l := map fst ops). generalize 0 as q. generalize 0%nat as s.
    induction l as [|x l IH]; intros s q; simpl; [reflexivity|]. f_equal. apply IH.
  - intros i id v Hp. unfold store_pairs in Hp.
    rewrite (store_pairs_from_spec w m) in Hp by (try assumption; rewrite map_length; destruct Hf; lia).
    assert (Hnc : forall (A B : Type) (la : list A) (lb : list B) i a b,
      nth_error (combine la lb) i = Some (a, b) -> nth_error la i = Some a /\ nth_error lb i = Some b).
    { clear. intros A B la. induction la as [|x la IH]; intros lb i a b H.
      - destruct i; discriminate.
      - destruct lb as [|y lb]; [destruct i; discriminate|].
        destruct i; simpl in *; [injection H as -> ->; auto|now apply IH]. }
    apply Hnc in Hp. destruct Hp as [Hp1 Hp2].
    assert (Hi : (i < length ops)%nat).
    { rewrite <- (map_length fst ops). apply nth_error_Some. rewrite Hp2. discriminate. }
    rewrite nth_error_map in Hp1.
    destruct (nth_error (seq 0 (length (map fst ops))) i) as [j|] eqn:Es; [|discriminate].
    assert (j = i).
    { assert (Hj := nth_error_nth _ _ 0%nat Es). rewrite seq_nth in Hj by (rewrite map_length; exact Hi).
      now symmetry. }
    subst j. simpl in Hp1. injection Hp1 as <-.
    assert (Hfi : fits w m (S i)) by (apply fits_le with (1 := Hf); lia).
    assert (Eid : pack w m 0 (N.of_nat i + 0 + 1) = id_at w m i None).
    { unfold id_at. f_equal. lia. }
    rewrite Eid. split.
    + now rewrite store_at_id_at by (assumption || exact I).
    + destruct (nth_error ops i) as [[v' k']|] eqn:Eo.
      2:{ apply nth_error_None in Eo. lia. }
      exists (id_at w m i k'). rewrite ids_from_nth, Eo. split; [reflexivity|].
      destruct (Hnk _ _ _ Eo) as [Hmk _].
      destruct (id_at_index w m i None Hm Hmw Hfi I) as [-> _].
      destruct (id_at_index w m i k' Hm Hmw Hfi Hmk) as [-> _]. reflexivity.
Qed.

Lemma list_set_nth {V} (c : list V) : forall i v j, (i < length c)%nat ->
  nth_error (list_set c i v) j = if Nat.eqb i j then Some v else nth_error c j.
Proof.
  induction c as [|x c IH]; intros i v j Hi; simpl in Hi; [lia|].
  destruct i, j; simpl; try reflexivity. apply IH. lia.
Qed.

Lemma list_set_length {V} (c : list V) : forall i v, length (list_set c i v) = length c.
Proof. induction c; intros [|i] v; simpl; auto. Qed.

(** [insert] at an index up to the size writes exactly that position. *)
Lemma store_insert_ok {V} w m (c : list V) id i v :
  get_index w m id = Some i -> i <= N.of_nat (length c) ->
  exists c', store_insert w m c id v = Some c' /\
    store_at w m c' id = Some v /\
    (forall id' j, get_index w m id' = Some j -> j <> i -> store_at w m c' id' = store_at w m c id') /\
    length c' = Nat.max (length c) (S (N.to_nat i)).
Proof.
  intros Hid Hi. unfold store_insert. rewrite Hid.
  destruct (N.eqb_spec i (N.of_nat (length c))) as [E|E].
  - exists (c ++ [v]). subst i. split; [reflexivity|]. unfold store_at.
    split; [|split].
    + rewrite Hid, Nat2N.id, nth_error_app2, Nat.sub_diag by lia. reflexivity.
    + intros id' j Hj Hne. rewrite Hj.
      destruct (Nat.lt_ge_cases (N.to_nat j) (length c)) as [Hl|Hl].
      * now rewrite nth_error_app1.
      * rewrite nth_error_app2 by lia.
        destruct (N.to_nat j - length c)%nat as [|n] eqn:En; [lia|]. simpl.
        rewrite (proj2 (nth_error_None c (N.to_nat j))) by lia. now destruct n.
    + rewrite app_length. simpl. lia.
  - destruct (N.ltb_spec i (N.of_nat (length c))) as [Hl|Hl]; [|lia].
    exists (list_set c (N.to_nat i) v). split; [reflexivity|]. unfold store_at. split; [|split].
    + rewrite Hid, list_set_nth by lia. now rewrite Nat.eqb_refl.
    + intros id' j Hj Hne. rewrite Hj, list_set_nth by lia.
      destruct (Nat.eqb_spec (N.to_nat i) (N.to_nat j)); [lia|reflexivity].
    + rewrite list_set_length. lia.
Qed.

(** ** C05: interning *)

Section Intern.
  Context {V : Type} (eqb : V -> V -> bool).
  Hypothesis eqb_spec : forall a b, reflect (a = b) (eqb a b).
  Variables w m : N.
  Hypothesis Hm : 0 < m.
  Hypothesis Hmw : m < w.
  Hypothesis Hw : w <= 64.


  Definition intern_inv (s : intern V) : Prop :=
    NoDup (content s) /\
    length (id_map s) = length (content s) /\
    (forall i v, nth_error (content s) i = Some v ->
       exists k, mask_ok m k /\ nth_error (id_map s) i = Some (v, id_at w m i k)).

  Lemma map_find_none l v : map_find eqb l v = None <-> ~ In v (map fst l).
  Proof.
    induction l as [|[x i] l IH]; simpl; [tauto|].
    destruct (eqb_spec x v) as [->|Hne]; split; try discriminate; intuition.
  Qed.

  Lemma map_find_some l v i : map_find eqb l v = Some i -> In (v, i) l.
  Proof.
    induction l as [|[x j] l IH]; simpl; [discriminate|].
    destruct (eqb_spec x v) as [->|Hne]; [intros H; injection H as ->; auto|auto].
  Qed.

  Lemma inv_id_map_keys s : intern_inv s -> map fst (id_map s) = content s.
  Proof.
    intros (Hnd & Hlen & Hc).
    assert (Hext : forall (A : Type) (l1 l2 : list A), length l1 = length l2 ->
      (forall i a, nth_error l2 i = Some a -> nth_error l1 i = Some a) -> l1 = l2).
    { clear. intros A l1. induction l1 as [|x l1 IH]; intros [|y l2] Hl H; simpl in *; try discriminate; auto.
      f_equal.
      - specialize (H 0%nat y eq_refl). simpl in H. now injection H.
      - apply IH; [lia|]. intros i a Hi. apply (H (S i) a Hi). }
    apply Hext; [now rewrite map_length|].
    intros i v Hi. destruct (Hc i v Hi) as (k & _ & Hk). now rewrite nth_error_map, Hk.
  Qed.

  Lemma intern_add_step s v k :
    intern_inv s -> fits w m (S (length (content s))) -> mask_ok m k ->
    exists s' id, intern_add eqb w m s v k = Some (s', id) /\ intern_inv s' /\
      (exists i, nth_error (content s') i = Some v /\ nth_error (id_map s') i = Some (v, id)
        /\ get_index w m id = Some (N.of_nat i)) /\
      (exists tl, content s' = content s ++ tl /\ (In v (content s) -> tl = []) /\
         (~ In v (content s) -> tl = [v])) /\
      (exists tl, id_map s' = id_map s ++ tl).
  Proof.
    intros Hinv Hf Hk. pose proof Hinv as (Hnd & Hlen & Hc).
    unfold intern_add. destruct (map_find eqb (id_map s) v) as [id|] eqn:Ef.
    - apply map_find_some in Ef. apply In_nth_error in Ef. destruct Ef as [i Hi].
      assert (Hil : (i < length (content s))%nat).
      { rewrite <- Hlen. apply nth_error_Some. congruence. }
      destruct (nth_error (content s) i) as [v'|] eqn:Ev.
      2:{ apply nth_error_None in Ev. lia. }
      destruct (Hc i v' Ev) as (k' & Hk' & Hik). rewrite Hi in Hik. injection Hik as <- ->.
      destruct (id_at_index w m i k') as [Hidx Hnil]; try assumption.
      { apply fits_le with (1 := Hf). lia. }
      rewrite Hnil. exists s, (id_at w m i k').
      split; [reflexivity|]. split; [exact Hinv|]. split; [|split].
      + exists i. auto.
      + exists []. rewrite app_nil_r. split; [reflexivity|]. split; [reflexivity|].
        intros Hn. exfalso. apply Hn. now apply nth_error_In with i.
      + exists []. now rewrite app_nil_r.
    - apply map_find_none in Ef. rewrite inv_id_map_keys in Ef by exact Hinv.
      rewrite store_add_ok by assumption.
      destruct (id_at_index w m (length (content s)) k) as [Hidx Hnil]; try assumption.
      rewrite Hnil. eexists _, _. split; [reflexivity|]. split; [|split; [|split]].
      + split; [|split]; simpl.
        * apply NoDup_Add with (a := v) (l := content s); [|split; assumption].
          clear. assert (H := Add_app v (content s) []). now rewrite app_nil_r in H.
        * rewrite !app_length. simpl. lia.
        * intros i v' Hi.
          destruct (Nat.lt_ge_cases i (length (content s))) as [Hl|Hl].
          -- rewrite nth_error_app1 in Hi by exact Hl.
             destruct (Hc i v' Hi) as (k' & Hk' & Hik). exists k'. split; [exact Hk'|].
             rewrite nth_error_app1 by lia. exact Hik.
          -- rewrite nth_error_app2 in Hi by exact Hl.
             destruct (i - length (content s))%nat as [|n] eqn:En; simpl in Hi.
             2:{ destruct n; discriminate. }
             injection Hi as <-. exists k. split; [exact Hk|].
             rewrite nth_error_app2 by lia.
             replace (i - length (id_map s))%nat with 0%nat by lia. simpl.
             do 2 f_equal. f_equal. lia.
      + exists (length (content s)). simpl. rewrite !nth_error_app2 by lia.
        rewrite Hlen, Nat.sub_diag. simpl. auto.
      + exists [v]. split; [reflexivity|]. split; [contradiction|reflexivity].
      + exists [(v, id_at w m (length (content s)) k)]. reflexivity.
  Qed.

  Lemma run_interns_spec ops : forall s,
    intern_inv s -> fits w m (length (content s) + length ops) ->
    Forall (fun o => mask_ok m (snd o)) ops ->
    exists s' ids, run_interns eqb w m s ops = Some (s', ids) /\ intern_inv s' /\
      (exists tl, content s' = content s ++ tl) /\ (exists tl, id_map s' = id_map s ++ tl) /\
      (length (content s') <= length (content s) + length ops)%nat /\
      length ids = length ops /\
      (forall x, In x (content s') <-> In x (content s) \/ In x (map fst ops)) /\
      (forall n v k, nth_error ops n = Some (v, k) ->
         exists id i, nth_error ids n = Some id /\ nth_error (content s') i = Some v /\
           nth_error (id_map s') i = Some (v, id) /\ get_index w m id = Some (N.of_nat i)).
  Proof.
    induction ops as [|[v k] ops IH]; intros s Hinv Hf Hk; simpl in *.
    - exists s, []. split; [reflexivity|]. split; [exact Hinv|].
      split; [exists []; now rewrite app_nil_r|]. split; [exists []; now rewrite app_nil_r|].
      split; [lia|]. split; [reflexivity|]. split; [tauto|].
      intros n v k Hn. destruct n; discriminate.
    - inversion Hk as [|? ? Hk1 Hk2]; subst. simpl in Hk1.
      destruct (intern_add_step s v k Hinv) as (s1 & id & Ha & Hinv1 & (i & Hi1 & Hi2 & Hi3) & (tl1 & Hc1 & Htl & Htl') & (tl2 & Hm2));
        [apply fits_le with (1 := Hf); lia|exact Hk1|].
      rewrite Ha.
      assert (Hlen1 : (length (content s1) <= S (length (content s)))%nat).
      { rewrite Hc1, app_length.
        destruct (in_dec (fun a b => reflect_dec _ _ (eqb_spec a b)) v (content s)) as [H|H].
        - rewrite (Htl H). simpl. lia.
        - rewrite (Htl' H). simpl. lia. }
      destruct (IH s1 Hinv1) as (s2 & ids & Hr & Hinv2 & (t1 & Hc2) & (t2 & Hm3) & Hlen2 & Hl & Hin & Hn);
        [apply fits_le with (1 := Hf); lia|exact Hk2|].
      rewrite Hr. exists s2, (id :: ids).
      split; [reflexivity|]. split; [exact Hinv2|].
      split; [exists (tl1 ++ t1); now rewrite Hc2, Hc1, app_assoc|].
      split; [exists (tl2 ++ t2); now rewrite Hm3, Hm2, app_assoc|].
      split; [lia|]. split; [simpl; now rewrite Hl|].
      split.
      + intros x. rewrite Hin. rewrite Hc1, in_app_iff.
        destruct (in_dec (fun a b => reflect_dec _ _ (eqb_spec a b)) v (content s)) as [H|H].
        * rewrite (Htl H). simpl. split; [tauto|].
          intros [Hx|[Hx|Hx]]; subst; tauto.
        * rewrite (Htl' H). simpl. tauto.
      + intros n v0 k0 Hn0. destruct n as [|n]; simpl in *.
        * injection Hn0 as <- <-. exists id, i. split; [reflexivity|].
          rewrite Hc2, Hm3.
          rewrite !nth_error_app1; auto.
          -- apply nth_error_Some. congruence.
          -- apply nth_error_Some. congruence.
        * apply Hn with (k := k0). exact Hn0.
  Qed.

  Lemma intern_empty_inv : intern_inv intern_empty.
  Proof.
    split; [constructor|]. split; [reflexivity|]. intros i v Hi. destruct i; discriminate.
  Qed.

  Lemma nodup_content_count s (l : list V) (dec : forall a b : V, {a = b} + {a <> b}) :
    NoDup (content s) -> (forall x, In x (content s) <-> In x l) ->
    length (content s) = length (nodup dec l).
  Proof.
    intros Hnd Hin. apply Nat.le_antisymm; apply NoDup_incl_length.
    - exact Hnd.
    - intros x Hx. apply nodup_In. now apply Hin.
    - apply NoDup_nodup.
    - intros x Hx. apply nodup_In in Hx. now apply Hin.
  Qed.

  (** Values equal iff ids equal, every id reads its value back in the final store. *)
  Lemma intern_history (dec : forall a b : V, {a = b} + {a <> b}) ops :
    fits w m (length ops) -> Forall (fun o => mask_ok m (snd o)) ops ->
    exists s ids, run_interns eqb w m intern_empty ops = Some (s, ids) /\
      length ids = length ops /\
      (forall n v k, nth_error ops n = Some (v, k) ->
         exists id, nth_error ids n = Some id /\ intern_at w m s id = Some v) /\
      (forall n1 n2 v1 k1 v2 k2 a b,
         nth_error ops n1 = Some (v1, k1) -> nth_error ops n2 = Some (v2, k2) ->
         nth_error ids n1 = Some a -> nth_error ids n2 = Some b ->
         (a = b <-> v1 = v2)) /\
      length (content s) = length (nodup dec (map fst ops)) /\
      (forall v, intern_contains eqb s v = true <-> In v (map fst ops)).
  Proof.
    intros Hf Hk.
    destruct (run_interns_spec ops intern_empty intern_empty_inv Hf Hk)
      as (s & ids & Hr & Hinv & _ & _ & _ & Hlen & Hin & Hn).
    exists s, ids. split; [exact Hr|]. split; [exact Hlen|].
    assert (Hinv' := Hinv). destruct Hinv as (Hnd & Hl & Hc).
    split; [|split; [|split]].
    - intros n v k Hop. destruct (Hn n v k Hop) as (id & i & H1 & H2 & H3 & H4).
      exists id. split; [exact H1|]. unfold intern_at, store_at. rewrite H4, Nat2N.id. exact H2.
    - intros n1 n2 v1 k1 v2 k2 a b O1 O2 I1 I2.
      destruct (Hn _ _ _ O1) as (id1 & i1 & H1 & H2 & H3 & H4).
      destruct (Hn _ _ _ O2) as (id2 & i2 & G1 & G2 & G3 & G4).
      rewrite I1 in H1. injection H1 as <-. rewrite I2 in G1. injection G1 as <-.
      split.
      + intros <-. rewrite H4 in G4. injection G4 as E.
        assert (i1 = i2) by lia. subst. congruence.
      + intros <-.
        assert (i1 = i2).
        { apply (NoDup_nth_error (content s)); [exact Hnd| |congruence].
          apply nth_error_Some. congruence. }
        subst. congruence.
    - apply nodup_content_count; [exact Hnd|]. intros x. rewrite Hin. simpl. tauto.
    - intros v. unfold intern_contains.
      destruct (map_find eqb (id_map s) v) as [id|] eqn:Ef.
      + split; [intros _|reflexivity]. apply map_find_some in Ef.
        apply (in_map fst) in Ef. rewrite inv_id_map_keys in Ef by exact Hinv'.
        apply Hin in Ef. simpl in Ef. tauto.
      + split; [discriminate|]. intros Hv. apply map_find_none in Ef.
        rewrite inv_id_map_keys in Ef by exact Hinv'. exfalso. apply Ef, Hin. auto.
  Qed.

  (** Ids handed out earlier keep their meaning. *)
  Lemma intern_history_prefix ops1 ops2 s1 ids1 s2 ids2 :
    fits w m (length (ops1 ++ ops2)) -> Forall (fun o => mask_ok m (snd o)) (ops1 ++ ops2) ->
    run_interns eqb w m intern_empty ops1 = Some (s1, ids1) ->
    run_interns eqb w m intern_empty (ops1 ++ ops2) = Some (s2, ids2) ->
    forall id v, intern_at w m s1 id = Some v -> intern_at w m s2 id = Some v.
  Proof.
    intros Hf Hk H1 H2 id v Hat.
    apply Forall_app in Hk. destruct Hk as [Hk1 Hk2]. rewrite app_length in Hf.
    destruct (run_interns_spec ops1 intern_empty intern_empty_inv) as (s1' & ids1' & Hr & Hinv1 & _ & _ & Hl1 & _);
      [apply fits_le with (1 := Hf); simpl; lia|exact Hk1|].
    rewrite H1 in Hr. injection Hr as <- <-.
    assert (Hsplit : forall ops s, run_interns eqb w m s (ops ++ ops2) =
       match run_interns eqb w m s ops with None => None | Some (s', i1) =>
         match run_interns eqb w m s' ops2 with None => None | Some (s'', i2) => Some (s'', i1 ++ i2) end end).
    { clear. induction ops as [|[v k] ops IH]; intros s; simpl.
      - destruct (run_interns eqb w m s ops2) as [[? ?]|]; reflexivity.
      - destruct (intern_add eqb w m s v k) as [[s' i]|]; [|reflexivity]. rewrite IH.
        destruct (run_interns eqb w m s' ops) as [[s1 i1]|]; [|reflexivity].
        destruct (run_interns eqb w m s1 ops2) as [[? ?]|]; reflexivity. }
    rewrite Hsplit, H1 in H2.
    destruct (run_interns_spec ops2 s1 Hinv1) as (s2' & ids2' & Hr2 & _ & (tl & Hc) & _);
      [simpl in Hl1; apply fits_le with (1 := Hf); lia|exact Hk2|].
    rewrite Hr2 in H2. injection H2 as <- <-.
    unfold intern_at, store_at in *. rewrite Hc.
    destruct (get_index w m id) as [i|]; [|discriminate].
    rewrite nth_error_app1; [exact Hat|]. apply nth_error_Some. congruence.
  Qed.
End Intern.

(** ** C06: immutable node ids *)

Lemma imm_combine_mask_ok kind : kind < 2 ^ 12 -> imm_combine_mask kind = Some kind.
Proof.
  intros Hk. unfold imm_combine_mask.
  assert (E : N.land (wrap 64 (N.shiftl kind NodeKindOffset)) NodeKindMask = N.shiftl kind 40).
  { unfold NodeKindOffset. rewrite wrap_small by (rewrite N.shiftl_mul_pow2; nia).
    change NodeKindMask with (N.shiftl (N.ones 12) 40).
    apply N.bits_inj. intros i. rewrite N.land_spec.
    destruct (N.ltb_spec i 40) as [H|H].
    - now rewrite !N.shiftl_spec_low by exact H.
    - rewrite !N.shiftl_spec_high' by exact H. rewrite ones_testbit.
      destruct (N.ltb_spec (i - 40) 12) as [H2|H2]; [now rewrite andb_true_r|].
      rewrite andb_false_r. symmetry. now apply (lt_pow2_testbit kind 12). }
  rewrite E. change ImmIdMaskOffset with 40. rewrite N.shiftr_shiftl_l, N.sub_diag, N.shiftl_0_r by lia.
  rewrite from_masked_idx_pack.
  2-5: unfold ImmIdMaskSize; cbn; lia.
  2:{ unfold ImmIdMaskSize. apply N.lt_trans with (2 ^ 12); [exact Hk|reflexivity]. }
  assert (Hkind : imm_get_kind (pack 64 ImmIdMaskSize kind (0 + 1)) = kind).
  { unfold imm_get_kind, NodeKindOffset. change NodeKindMask with (N.shiftl (N.ones 12) 40).
    apply N.bits_inj. intros i. rewrite N.shiftr_spec', N.land_spec.
    rewrite N.shiftl_spec_high' by lia. replace (i + 40 - 40) with i by lia.
    rewrite ones_testbit.
    assert (Hd : N.shiftr (pack 64 ImmIdMaskSize kind (0 + 1)) 40 = kind).
    { rewrite N.shiftr_div_pow2. unfold pack, ImmIdMaskSize. change (64 - 24) with 40.
      rewrite N.div_add by discriminate. reflexivity. }
    rewrite <- N.shiftr_spec', Hd.
    destruct (N.ltb_spec i 12) as [H|H]; [now rewrite andb_true_r|].
    rewrite andb_false_r. symmetry. now apply (lt_pow2_testbit kind 12). }
  rewrite Hkind, N.eqb_refl. reflexivity.
Qed.

Lemma imm_combine_mask_rejects kind : 2 ^ 12 <= kind -> kind < 2 ^ 64 -> imm_combine_mask kind = None.
Proof.
  intros Hk Hk2. unfold imm_combine_mask.
  destruct (from_masked_idx _ _ _ _) as [t|]; [|reflexivity].
  destruct (N.eqb_spec (imm_get_kind t) kind) as [E|E]; [|reflexivity].
  exfalso. assert (Hlt : imm_get_kind t < 2 ^ 12).
  { unfold imm_get_kind, NodeKindOffset. change NodeKindMask with (N.shiftl (N.ones 12) 40).
    rewrite N.shiftr_land, N.shiftr_shiftl_l, N.sub_diag, N.shiftl_0_r by lia.
    rewrite N.land_ones. apply N.mod_lt. discriminate. }
  lia.
Qed.

Lemma imm_kind_of_pack kind u : kind < 2 ^ 12 -> u < 2 ^ 40 -> imm_get_kind (pack 64 24 kind u) = kind.
Proof.
  intros Hk Hu. unfold imm_get_kind, NodeKindOffset. change NodeKindMask with (N.shiftl (N.ones 12) 40).
  rewrite N.shiftr_land, N.shiftr_shiftl_l, N.sub_diag, N.shiftl_0_r by lia.
  rewrite N.land_ones, N.shiftr_div_pow2. unfold pack. change (64 - 24) with 40.
  rewrite N.div_add by discriminate. rewrite N.div_small by exact Hu. now apply N.mod_small.
Qed.

Lemma imm_idx_of_pack kind u : u < 2 ^ 40 -> imm_get_node_idx (pack 64 24 kind u) = wrap 32 u.
Proof.
  intros Hu. unfold imm_get_node_idx, NodeIdxOffset. rewrite N.shiftr_0_r.
  change NodeIdxMask with (N.ones 40). rewrite N.land_ones. unfold pack. change (64 - 24) with 40.
  rewrite N.mod_add by discriminate. f_equal. now apply N.mod_small.
Qed.

Lemma imm_store_id_ok kind idx :
  kind < 2 ^ 12 -> idx < 2 ^ 40 - 1 ->
  exists id, imm_store_id kind idx = Some id /\
    imm_get_kind id = kind /\ get_index 64 24 id = Some idx /\ is_nil 64 24 id = false /\
    imm_get_node_idx id = wrap 32 (idx + 1) /\ id < 2 ^ 64.
Proof.
  intros Hk Hi. unfold imm_store_id. rewrite imm_combine_mask_ok by exact Hk.
  change ImmIdMaskSize with 24.
  assert (Hk24 : kind < 2 ^ 24) by (apply N.lt_trans with (2 ^ 12); [exact Hk|reflexivity]).
  destruct (id_roundtrip 64 24 idx kind) as (id & E & H1 & H2 & H3 & H4); try (lia || reflexivity).
  { change (64 - 24) with 40. exact Hi. }
  exists id. rewrite E.
  rewrite from_masked_idx_pack in E; try (lia || assumption).
  2:{ change (64 - 24) with 40. lia. }
  injection E as <-. repeat split; auto.
  - apply imm_kind_of_pack; [exact Hk|lia].
  - apply imm_idx_of_pack. lia.
Qed.

Lemma imm_store_id_inj k1 i1 k2 i2 id :
  k1 < 2 ^ 12 -> i1 < 2 ^ 40 - 1 -> k2 < 2 ^ 12 -> i2 < 2 ^ 40 - 1 ->
  imm_store_id k1 i1 = Some id -> imm_store_id k2 i2 = Some id -> k1 = k2 /\ i1 = i2.
Proof.
  intros A B C D E F.
  destruct (imm_store_id_ok k1 i1 A B) as (x & X & X1 & X2 & _).
  destruct (imm_store_id_ok k2 i2 C D) as (y & Y & Y1 & Y2 & _).
  split; congruence.
Qed.

Lemma imm_id_make_is_store_id kind node :
  kind < 2 ^ 12 -> node < 2 ^ 32 -> imm_id_make kind node = imm_store_id kind node.
Proof.
  intros Hk Hn. unfold imm_id_make, imm_combine_full, imm_store_id.
  rewrite imm_combine_mask_ok by exact Hk. change ImmIdMaskOffset with 40. change ImmIdMaskSize with 24.
  assert (Hk24 : kind < 2 ^ 24) by (apply N.lt_trans with (2 ^ 12); [exact Hk|reflexivity]).
  assert (Hk64 : N.shiftl kind 40 < 2 ^ 64) by (rewrite N.shiftl_mul_pow2; lia).
  rewrite (wrap_small 64 (N.shiftl kind 40)) by exact Hk64.
  unfold NodeIdxOffset. rewrite N.shiftl_0_r, (wrap_small 64 node) by lia.
  change NodeIdxMask with (N.ones 40). rewrite N.land_ones, (N.mod_small node) by lia.
  rewrite N.lor_comm, lor_disjoint_add by lia.
  rewrite from_masked_idx_pack; try (lia || assumption).
  2:{ change (64 - 24) with 40. lia. }
  f_equal. unfold pack. change (64 - 24) with 40. rewrite wrap_small; lia.
Qed.

(** ** Findings *)

Lemma high_ones_run_masked w m : 0 < m -> m <= w -> high_ones_run w m = Ok (high_ones w m).
Proof.
  intros. unfold high_ones_run, mask_offset. destruct (N.ltb_spec (w - m) w); [reflexivity|lia].
Qed.

Lemma plus_run_defined_iff w m v n : m <= w -> 0 < w ->
  (id_plus_run w m v n = Ok (id_plus w m v n) <-> 0 < m) /\
  (id_plus_run w m v n = UB <-> m = 0) /\
  (get_mask_run w m v = UB <-> m = 0).
Proof.
  intros Hm Hw. unfold id_plus_run, get_mask_run, high_ones_run, mask_offset.
  destruct (N.ltb_spec (w - m) w) as [H|H]; simpl; repeat split; intros; try discriminate; try lia; reflexivity.
Qed.

Lemma set_unmasked_clears w m v base :
  0 < m -> 2 * m <= w -> w <= 64 -> v < 2 ^ w -> base < 2 ^ (w - m) ->
  get_mask w m (set_unmasked w m v base) = 0 /\
  set_unmasked w m v base = N.lor (get_mask w m v) base.
Proof.
  intros Hm Hmw Hw Hv Hb. split; [|reflexivity].
  destruct (unpack w m v) as (k & u & Hk & Hu & ->); [lia|exact Hv|].
  unfold set_unmasked. rewrite pack_mask by (lia || assumption).
  assert (Hk2 : k < 2 ^ (w - m)).
  { apply N.lt_le_trans with (1 := Hk). apply N.pow_le_mono_r; lia. }
  assert (Hl : N.lor k base < 2 ^ (w - m)).
  { destruct (N.eq_dec (N.lor k base) 0) as [E|E]; [rewrite E; apply pow2_pos|].
    apply N.log2_lt_pow2; [lia|]. rewrite N.log2_lor.
    apply N.max_lub_lt.
    - destruct (N.eq_dec k 0) as [->|]; [cbn; lia|]. apply N.log2_lt_pow2; lia.
    - destruct (N.eq_dec base 0) as [->|]; [cbn; lia|]. apply N.log2_lt_pow2; lia. }
  rewrite get_mask_div; [|lia|].
  - now apply N.div_small.
  - apply N.lt_le_trans with (1 := Hl). apply N.pow_le_mono_r; lia.
Qed.

Lemma store_back_is_last {V} w m (c : list V) v :
  0 < m -> m < w -> fits w m (S (length c)) ->
  store_at w m (c ++ [v]) (store_back w (c ++ [v])) = Some v.
Proof.
  intros Hm Hmw Hf. unfold store_back. rewrite app_length. cbn [length].
  assert (E : wrap w (N.of_nat (length c + 1)) = id_at w m (length c) None).
  { destruct Hf as [H1 H2]. unfold id_at, pack. rewrite wrap_small; [lia|].
    apply N.lt_le_trans with (2 ^ (w - m)); [lia|]. apply N.pow_le_mono_r; lia. }
  rewrite E, store_at_id_at by (assumption || exact I).
  rewrite nth_error_app2, Nat.sub_diag by lia. reflexivity.
Qed.

(** Stepping clamps at both ends of the word. *)
Lemma saturating_add_exact w v c : v < 2 ^ w -> c < 2 ^ w -> saturating_add w v c = N.min (v + c) (2 ^ w - 1).
Proof.
  intros Hv Hc. unfold saturating_add. rewrite N.ones_equiv, <- N.sub_1_r.
  destruct (N.lt_ge_cases (v + c) (2 ^ w)) as [H|H].
  - rewrite wrap_small by exact H. destruct (N.ltb_spec (v + c) v); lia.
  - assert (E : wrap w (v + c) = v + c - 2 ^ w).
    { unfold wrap. replace (v + c) with ((v + c - 2 ^ w) + 1 * 2 ^ w) at 1 by lia.
      rewrite N.mod_add by (apply N.pow_nonzero; lia). apply N.mod_small. lia. }
    rewrite E. destruct (N.ltb_spec (v + c - 2 ^ w) v); lia.
Qed.

Lemma saturating_sub_exact w v c : v < 2 ^ w -> c < 2 ^ w -> saturating_sub w v c = v - c.
Proof.
  intros Hv Hc. unfold saturating_sub. rewrite (wrap_small w c) by exact Hc.
  destruct (N.le_gt_cases c v) as [H|H].
  - assert (E : wrap w (v + 2 ^ w - c) = v - c).
    { unfold wrap. replace (v + 2 ^ w - c) with ((v - c) + 1 * 2 ^ w) by lia.
      rewrite N.mod_add by (apply N.pow_nonzero; lia). apply N.mod_small. lia. }
    rewrite E. destruct (N.ltb_spec v (v - c)); lia.
  - rewrite wrap_small by lia. destruct (N.ltb_spec v (v + 2 ^ w - c)); lia.
Qed.

Lemma id_plus_exact w m k u n :
  0 < m -> m < w -> k < 2 ^ m -> u < 2 ^ (w - m) -> (- 2 ^ Z.of_N w < n < 2 ^ Z.of_N w)%Z ->
  id_plus w m (k * 2 ^ (w - m) + u) n =
  N.lor (k * 2 ^ (w - m)) (Z.to_N (Z.max 0 (Z.min (2 ^ Z.of_N w - 1) (Z.of_N u + n)))).
Proof.
  intros Hm Hmw Hk Hu Hn. rewrite (N.add_comm _ u). change (u + k * 2 ^ (w - m)) with (pack w m k u). unfold id_plus.
  rewrite pack_unmasked, pack_mask_unshifted, N.shiftl_mul_pow2 by (lia || assumption).
  assert (Hsplit : 2 ^ (w - m) <= 2 ^ w) by (apply N.pow_le_mono_r; lia).
  assert (Hz : Z.of_N (2 ^ w) = (2 ^ Z.of_N w)%Z) by (now rewrite N2Z.inj_pow).
  rewrite <- Hz in *. f_equal.
  destruct (Z.leb_spec 0 n) as [H|H].
  - rewrite saturating_add_exact by lia. lia.
  - rewrite saturating_sub_exact by lia. lia.
Qed.

Lemma id_distance_exact w m k1 u1 k2 u2 :
  0 < m -> m < w -> k1 < 2 ^ m -> u1 < 2 ^ (w - m) -> k2 < 2 ^ m -> u2 < 2 ^ (w - m) ->
  id_distance w m (k1 * 2 ^ (w - m) + u1) (k2 * 2 ^ (w - m) + u2) = u2 - u1 /\
  id_lt w m (k1 * 2 ^ (w - m) + u1) (k2 * 2 ^ (w - m) + u2) = (u1 <? u2).
Proof.
  intros Hm Hmw Hk1 Hu1 Hk2 Hu2.
  rewrite (N.add_comm _ u1), (N.add_comm _ u2).
  change (u1 + k1 * 2 ^ (w - m)) with (pack w m k1 u1). change (u2 + k2 * 2 ^ (w - m)) with (pack w m k2 u2).
  assert (Hsplit : 2 ^ (w - m) <= 2 ^ w) by (apply N.pow_le_mono_r; lia).
  unfold id_distance, id_lt. rewrite !pack_unmasked by (lia || assumption).
  split; [apply saturating_sub_exact; lia|reflexivity].
Qed.
