(** Property theorems C01-C06: packed ids, stores, interning, document node ids. *)
From Verif Require Import Base DodModel DodSpec DodProofs.
Open Scope N_scope.

(** *** C01 *)

Theorem id_pack_unpack : forall w m idx mask,
  0 < m -> m < w -> w <= 64 -> idx < 2 ^ (w - m) - 1 -> mask < 2 ^ m ->
  exists id, from_masked_idx w m idx mask = Some id /\
    get_index w m id = Some idx /\ get_mask w m id = mask /\ is_nil w m id = false /\ id < 2 ^ w.
Proof. exact id_roundtrip. Qed.
Print Assumptions id_pack_unpack.

Example id_pack_unpack_hyps : 0 < 24 /\ 24 < 64 /\ 64 <= 64 /\ 123456789 < 2 ^ (64 - 24) - 1 /\ 4095 < 2 ^ 24.
Proof. repeat split; reflexivity || discriminate. Qed.

Theorem id_too_wide_mask_rejected : forall w m idx mask,
  m <= w -> w <= 64 -> mask < 2 ^ 64 -> 2 ^ m <= mask -> from_masked_idx w m idx mask = None.
Proof. exact id_wide_mask_rejected. Qed.
Print Assumptions id_too_wide_mask_rejected.

Example id_too_wide_mask_rejected_hyps : 16 <= 64 /\ 70000 < 2 ^ 64 /\ 2 ^ 16 <= 70000.
Proof. repeat split; reflexivity || discriminate. Qed.

Theorem id_every_value_is_a_packing : forall w m v,
  0 < m -> m < w -> w <= 64 -> v < 2 ^ w ->
  (get_index w m v = None /\ v = get_mask w m v * 2 ^ (w - m)) \/
  (exists idx, get_index w m v = Some idx /\
     from_masked_idx w m idx (get_mask w m v) = Some v).
Proof. exact id_values_are_packed. Qed.
Print Assumptions id_every_value_is_a_packing.

Example id_every_value_hyps : get_index 64 16 0xABCD000000000007 = Some 6 /\ 0xABCD000000000007 < 2 ^ 64.
Proof. split; vm_compute; reflexivity. Qed.

(** *** C02 *)

Theorem id_set_mask_keeps_index : forall w m v mask,
  0 < m -> m < w -> w <= 64 -> v < 2 ^ w -> mask < 2 ^ m ->
  exists v', set_mask w m v mask = Some v' /\
    get_index w m v' = get_index w m v /\ get_mask w m v' = mask.
Proof. exact set_mask_keeps_index. Qed.
Print Assumptions id_set_mask_keeps_index.

Example id_set_mask_keeps_index_hyps :
  0 < 16 /\ 16 < 64 /\ 0xABCD000000000007 < 2 ^ 64 /\ 0x1234 < 2 ^ 16.
Proof. repeat split; reflexivity. Qed.

(** The full C02 claim "setting the index part keeps the mask, and reads back the index part" is false. *)
Theorem id_set_unmasked_keeps_mask_refuted : exists v base,
  v < 2 ^ 64 /\ base < 2 ^ (64 - 16) /\
  get_mask 64 16 (set_unmasked 64 16 v base) <> get_mask 64 16 v /\
  get_unmasked 64 16 (set_unmasked 64 16 v base) <> base.
Proof. exists 0x0005000000000003, 8. vm_compute. repeat split; discriminate. Qed.
Print Assumptions id_set_unmasked_keeps_mask_refuted.

(** It is lost always: whenever the mask is not wider than the index part, the result has mask zero. *)
Theorem id_set_unmasked_always_clears_mask : forall w m v base,
  0 < m -> 2 * m <= w -> w <= 64 -> v < 2 ^ w -> base < 2 ^ (w - m) ->
  get_mask w m (set_unmasked w m v base) = 0 /\
  set_unmasked w m v base = N.lor (get_mask w m v) base.
Proof. exact set_unmasked_clears. Qed.
Print Assumptions id_set_unmasked_always_clears_mask.

Example id_set_unmasked_hyps : 2 * 16 <= 64 /\ 0x0005000000000003 < 2 ^ 64 /\ 8 < 2 ^ (64 - 16).
Proof. repeat split; reflexivity || discriminate. Qed.

(** *** C03 *)

Theorem id_step_moves_index : forall w m v n idx,
  0 < m -> m < w -> w <= 64 -> v < 2 ^ w ->
  get_index w m v = Some idx ->
  (0 <= Z.of_N idx + n)%Z -> (Z.of_N idx + n < 2 ^ Z.of_N (w - m) - 1)%Z ->
  get_index w m (id_plus w m v n) = Some (Z.to_N (Z.of_N idx + n)) /\
  get_mask w m (id_plus w m v n) = get_mask w m v /\
  ((0 <= n)%Z -> id_distance w m v (id_plus w m v n) = Z.to_N n) /\
  ((n <= 0)%Z -> id_distance w m (id_plus w m v n) v = Z.to_N (- n)).
Proof. exact id_plus_moves_index. Qed.
Print Assumptions id_step_moves_index.

Example id_step_hyps :
  get_index 64 16 0xABCD000000000007 = Some 6 /\ (0 <= 6 + -4)%Z /\ (6 + -4 < 2 ^ 48 - 1)%Z.
Proof. split; [vm_compute; reflexivity|]. split; reflexivity || discriminate. Qed.

Theorem id_incr_decr_are_steps : forall w m v,
  id_incr w m v = id_plus w m v 1 /\ id_decr w m v = id_plus w m v (-1).
Proof. exact (fun w m v => conj (id_incr_is_plus_one w m v) (id_decr_is_minus_one w m v)). Qed.
Print Assumptions id_incr_decr_are_steps.

(** "Addition is saturated and unmasked part won't overflow" (dod_base.hpp:309-310) is false: the
    largest index steps into the mask bits. *)
Theorem id_step_saturates_refuted : exists v,
  v < 2 ^ 64 /\ get_mask 64 16 v = 0 /\ get_mask 64 16 (id_plus 64 16 v 1) = 1 /\
  get_index 64 16 (id_plus 64 16 v 1) = None.
Proof. exists (2 ^ 48 - 1). vm_compute. repeat split. Qed.
Print Assumptions id_step_saturates_refuted.

(** What stepping does at the ends of the word, for an id with mask [k] and raw index part [u] (0 is
    nil): the index part is clamped to the whole word before the mask is put back.  At the lower end
    that is nil with the mask kept; at the upper end the index runs into the mask bits, and only a step
    past the whole word is clamped. *)
Theorem id_step_exact : forall w m k u n,
  0 < m -> m < w -> k < 2 ^ m -> u < 2 ^ (w - m) -> (- 2 ^ Z.of_N w < n < 2 ^ Z.of_N w)%Z ->
  id_plus w m (k * 2 ^ (w - m) + u) n =
  N.lor (k * 2 ^ (w - m)) (Z.to_N (Z.max 0 (Z.min (2 ^ Z.of_N w - 1) (Z.of_N u + n)))).
Proof. exact id_plus_exact. Qed.
Print Assumptions id_step_exact.

Example id_step_exact_case :
  5 * 2 ^ (16 - 4) + 7 = 0x5007 /\ id_plus 16 4 0x5007 (-9) = 0x5000 /\ id_plus 16 4 0x5007 65530 = 0xFFFF /\
  id_decr 16 4 0x5000 = 0x5000.
Proof. vm_compute. repeat split. Qed.

(** Distance and order look at the index part only. *)
Theorem id_distance_and_order : forall w m k1 u1 k2 u2,
  0 < m -> m < w -> k1 < 2 ^ m -> u1 < 2 ^ (w - m) -> k2 < 2 ^ m -> u2 < 2 ^ (w - m) ->
  id_distance w m (k1 * 2 ^ (w - m) + u1) (k2 * 2 ^ (w - m) + u2) = u2 - u1 /\
  id_lt w m (k1 * 2 ^ (w - m) + u1) (k2 * 2 ^ (w - m) + u2) = (u1 <? u2).
Proof. exact id_distance_exact. Qed.
Print Assumptions id_distance_and_order.

Example id_distance_case :
  id_lt 16 4 0x9002 0x1003 = true /\ id_distance 16 4 0x9002 0x1003 = 1 /\ id_distance 16 4 0x1003 0x9002 = 0.
Proof. vm_compute. repeat split. Qed.

(** Stepping or reading the mask of an id type without mask bits shifts by the full word width:
    undefined behaviour, and only then. *)
Theorem id_step_defined_iff_masked : forall w m v n, m <= w -> 0 < w ->
  (id_plus_run w m v n = Ok (id_plus w m v n) <-> 0 < m) /\
  (id_plus_run w m v n = UB <-> m = 0) /\
  (get_mask_run w m v = UB <-> m = 0).
Proof. exact plus_run_defined_iff. Qed.
Print Assumptions id_step_defined_iff_masked.

Example id_step_defined_hyps : 0 <= 32 /\ 0 < 32 /\ id_plus_run 32 0 5 1 = UB /\ id_plus_run 32 8 5 1 = Ok 6.
Proof. vm_compute. repeat split; discriminate. Qed.

(** *** C04 *)

Theorem store_ids_are_permanent : forall (V : Type) w m (ops : list (V * option N)),
  0 < m -> m < w -> w <= 64 -> fits w m (length ops) -> Forall (fun o => mask_ok m (snd o)) ops ->
  exists c ids,
    run_adds w m [] ops = Some (c, ids) /\
    length ids = length ops /\ length c = length ops /\
    (forall i v k, nth_error ops i = Some (v, k) ->
       exists id, nth_error ids i = Some id /\ store_at w m c id = Some v /\
         store_contains w m c id = true /\
         get_mask w m id = match k with Some x => x | None => 0 end) /\
    (forall i j a b, nth_error ids i = Some a -> nth_error ids j = Some b ->
       get_index w m a = get_index w m b -> i = j) /\
    map snd (store_pairs w c) = map fst ops /\
    (forall i id v, nth_error (store_pairs w c) i = Some (id, v) ->
       store_at w m c id = Some v /\
       exists id', nth_error ids i = Some id' /\ get_index w m id = get_index w m id').
Proof. exact @store_history. Qed.
Print Assumptions store_ids_are_permanent.

Example store_ids_hyps :
  let ops := [(10, Some 3); (20, None); (10, Some 65535)] in
  fits 64 16 (length ops) /\ Forall (fun o => mask_ok 16 (snd o)) ops /\
  run_adds 64 16 [] ops = Some ([10; 20; 10], [0x0003000000000001; 2; 0xFFFF000000000003]).
Proof. cbv zeta. repeat split; try discriminate. repeat constructor. Qed.

Theorem store_insert_writes_one_slot : forall (V : Type) w m (c : list V) id i v,
  get_index w m id = Some i -> i <= N.of_nat (length c) ->
  exists c', store_insert w m c id v = Some c' /\
    store_at w m c' id = Some v /\
    (forall id' j, get_index w m id' = Some j -> j <> i -> store_at w m c' id' = store_at w m c id') /\
    length c' = Nat.max (length c) (S (N.to_nat i)).
Proof. exact @store_insert_ok. Qed.
Print Assumptions store_insert_writes_one_slot.

Example store_insert_hyps : get_index 64 16 0x0001000000000002 = Some 1 /\ 1 <= N.of_nat (length [5; 6; 7]).
Proof. split; vm_compute; [reflexivity|discriminate]. Qed.

(** An insert above the end returns normally and stores nothing. *)
Theorem store_insert_stores_value_refuted : exists (c : list N) id v c',
  get_index 64 16 id <> None /\ store_insert 64 16 c id v = Some c' /\ store_at 64 16 c' id <> Some v.
Proof. exists [5], 3, 9, [5]. vm_compute. repeat split; discriminate. Qed.
Print Assumptions store_insert_stores_value_refuted.

Theorem store_back_is_last_added : forall (V : Type) w m (c : list V) v,
  0 < m -> m < w -> fits w m (S (length c)) ->
  store_at w m (c ++ [v]) (store_back w (c ++ [v])) = Some v.
Proof. exact @store_back_is_last. Qed.
Print Assumptions store_back_is_last_added.

Example store_back_hyps : 0 < 16 /\ 16 < 64 /\ fits 64 16 (S (length [1; 2; 3])).
Proof. repeat split; discriminate. Qed.

(** *** C05 *)

Theorem interning_is_injective : forall (V : Type) (eqb : V -> V -> bool),
  (forall a b, reflect (a = b) (eqb a b)) ->
  forall w m, 0 < m -> m < w -> w <= 64 ->
  forall (dec : forall a b : V, {a = b} + {a <> b}) (ops : list (V * option N)),
  fits w m (length ops) -> Forall (fun o => mask_ok m (snd o)) ops ->
  exists s ids, run_interns eqb w m intern_empty ops = Some (s, ids) /\
    length ids = length ops /\
    (forall n v k, nth_error ops n = Some (v, k) ->
       exists id, nth_error ids n = Some id /\ intern_at w m s id = Some v) /\
    (forall n1 n2 v1 k1 v2 k2 a b,
       nth_error ops n1 = Some (v1, k1) -> nth_error ops n2 = Some (v2, k2) ->
       nth_error ids n1 = Some a -> nth_error ids n2 = Some b ->
       (a = b <-> v1 = v2)) /\
    length (content s) = length (nodup dec (map fst ops)) /\
    (forall v, intern_contains eqb s v = true <-> In v (map fst ops)).
Proof. exact @intern_history. Qed.
Print Assumptions interning_is_injective.

Example interning_hyps :
  let ops := [(10, Some 3); (20, None); (10, Some 5)] in
  fits 64 16 (length ops) /\ Forall (fun o => mask_ok 16 (snd o)) ops /\
  option_map snd (run_interns N.eqb 64 16 intern_empty ops) = Some [0x0003000000000001; 2; 0x0003000000000001].
Proof. cbv zeta. repeat split; try discriminate. repeat constructor. Qed.

Theorem interned_ids_keep_their_value : forall (V : Type) (eqb : V -> V -> bool),
  (forall a b, reflect (a = b) (eqb a b)) ->
  forall w m, 0 < m -> m < w -> w <= 64 ->
  forall ops1 ops2 s1 ids1 s2 ids2,
  fits w m (length (ops1 ++ ops2)) -> Forall (fun o => mask_ok m (snd o)) (ops1 ++ ops2) ->
  run_interns eqb w m intern_empty ops1 = Some (s1, ids1) ->
  run_interns eqb w m intern_empty (ops1 ++ ops2) = Some (s2, ids2) ->
  forall id v, intern_at w m s1 id = Some v -> intern_at w m s2 id = Some v.
Proof. exact @intern_history_prefix. Qed.
Print Assumptions interned_ids_keep_their_value.

Example interned_ids_hyps :
  exists s1 ids1 s2 ids2,
  run_interns N.eqb 64 16 intern_empty [(10, Some 3)] = Some (s1, ids1) /\
  run_interns N.eqb 64 16 intern_empty ([(10, Some 3)] ++ [(11, Some 3); (10, None)]) = Some (s2, ids2) /\
  intern_at 64 16 s1 0x0003000000000001 = Some 10.
Proof.
  do 4 eexists. split; [vm_compute; reflexivity|]. split; vm_compute; reflexivity.
Qed.

(** With [insert] at an explicit id the interning guarantee breaks: after [add 1] and [insert] of 2 at
    the same id, adding 1 returns an id that reads back 2, and 1 and 2 share one id. *)
Theorem intern_insert_keeps_interning_refuted : exists s1 id1 s2,
  intern_add N.eqb 64 16 intern_empty 1 None = Some (s1, id1) /\
  intern_insert N.eqb 64 16 s1 id1 2 = Some s2 /\
  intern_add N.eqb 64 16 s2 1 None = Some (s2, id1) /\
  intern_add N.eqb 64 16 s2 2 None = Some (s2, id1) /\
  intern_at 64 16 s2 id1 = Some 2.
Proof.
  do 3 eexists. split; [vm_compute; reflexivity|]. split; [vm_compute; reflexivity|].
  repeat split; vm_compute; reflexivity.
Qed.
Print Assumptions intern_insert_keeps_interning_refuted.

(** *** C06 *)

Theorem imm_id_carries_kind_and_index : forall kind idx,
  kind < 2 ^ 12 -> idx < 2 ^ 40 - 1 ->
  exists id, imm_store_id kind idx = Some id /\
    imm_get_kind id = kind /\ get_index 64 24 id = Some idx /\ is_nil 64 24 id = false /\
    imm_get_node_idx id = wrap 32 (idx + 1) /\ id < 2 ^ 64.
Proof. exact imm_store_id_ok. Qed.
Print Assumptions imm_id_carries_kind_and_index.

Example imm_id_hyps : 61 < 2 ^ 12 /\ 1000000 < 2 ^ 40 - 1.
Proof. split; reflexivity. Qed.

Theorem imm_id_injective : forall k1 i1 k2 i2 id,
  k1 < 2 ^ 12 -> i1 < 2 ^ 40 - 1 -> k2 < 2 ^ 12 -> i2 < 2 ^ 40 - 1 ->
  imm_store_id k1 i1 = Some id -> imm_store_id k2 i2 = Some id -> k1 = k2 /\ i1 = i2.
Proof. exact imm_store_id_inj. Qed.
Print Assumptions imm_id_injective.

Example imm_id_injective_hyps : exists id, imm_store_id 61 1000000 = Some id.
Proof. eexists. vm_compute. reflexivity. Qed.

Theorem imm_id_from_parts_is_store_id : forall kind node,
  kind < 2 ^ 12 -> node < 2 ^ 32 -> imm_id_make kind node = imm_store_id kind node.
Proof. exact imm_id_make_is_store_id. Qed.
Print Assumptions imm_id_from_parts_is_store_id.

Example imm_id_from_parts_hyps : 61 < 2 ^ 12 /\ 4294967295 < 2 ^ 32.
Proof. split; reflexivity. Qed.

Theorem imm_id_bad_kind_rejected : forall kind, 2 ^ 12 <= kind -> kind < 2 ^ 64 -> imm_combine_mask kind = None.
Proof. exact imm_combine_mask_rejects. Qed.
Print Assumptions imm_id_bad_kind_rejected.

Example imm_id_bad_kind_hyps : 2 ^ 12 <= 5000 /\ 5000 < 2 ^ 64.
Proof. split; reflexivity || discriminate. Qed.

(** A default constructed document node id is not nil: it is index 0 of kind number 0. *)
Theorem imm_default_id_is_nil_refuted :
  is_nil 64 24 imm_id_default = false /\ get_index 64 24 imm_id_default = Some 0 /\ imm_get_kind imm_id_default = 0.
Proof. vm_compute. repeat split. Qed.
Print Assumptions imm_default_id_is_nil_refuted.
