(** C19-C23: splitting, replacing and trimming, UTF-8, escaping, aligning and normalising text. *)
From Verif Require Import Base StrModel StrSpec StrProofs Utf8Proofs.
Local Open Scope Z_scope.

(** ** C19 *)

Theorem C19_split_keep_lossless : forall s sep,
  exists ps, split_keep s sep = Ok ps /\ concat ps = s /\
    Forall (fun p => plain_piece sep p \/ sep_piece sep p) ps /\ no_merge sep ps.
Proof. exact split_keep_spec. Qed.
Print Assumptions C19_split_keep_lossless.
Example C19_split_keep_example :
  split_keep [97; 44; 44; 32; 98; 99; 32] (fun c => (c =? 44) || (c =? 32)) =
    Ok [[97]; [44; 44]; [32]; [98; 99]; [32]].
Proof. vm_compute. reflexivity. Qed.

Theorem C19_split_char_join : forall s ch,
  exists ts, split_char s ch = Ok ts /\ Forall (fun t => ~ In ch t) ts /\
    (s = [] -> ts = []) /\
    (s <> [] -> last s 0 = ch -> s = join [ch] ts ++ [ch]) /\
    (s <> [] -> last s 0 <> ch -> s = join [ch] ts).
Proof. exact split_char_spec. Qed.
Print Assumptions C19_split_char_join.
Example C19_split_char_example :
  split_char [97; 44; 44; 98; 44] 44 = Ok [[97]; []; [98]] /\ split_char [97; 44; 44; 98] 44 = Ok [[97]; []; [98]]
  /\ join [44] [[97]; []; [98]] = [97; 44; 44; 98].
Proof. vm_compute. auto. Qed.

Theorem C19_split_str_join : forall s d fuel, d <> [] -> (length s < fuel)%nat ->
  exists ts, split_str fuel s d = Ok ts /\ split_at d s ts /\ join d ts = s /\
    Forall (fun t => ~ occurs d t) ts.
Proof.
  intros s d fuel Hd Hf. destruct (split_str_spec s d fuel Hd Hf) as (ts & A & B).
  exists ts. repeat split; auto; [apply (split_at_join d s ts B)|apply (split_at_clean d s ts Hd B)].
Qed.
Print Assumptions C19_split_str_join.
Example C19_split_str_example :
  split_str 8 [97; 45; 62; 98; 45; 62] [45; 62] = Ok [[97]; [98]; []].
Proof. vm_compute. reflexivity. Qed.

Theorem C19_split_at_unique : forall d s ts ts', split_at d s ts -> split_at d s ts' -> ts = ts'.
Proof. intros d s ts ts' H H'. exact (split_at_functional d s ts H ts' H'). Qed.
Print Assumptions C19_split_at_unique.

Theorem C19_split_str_empty_diverges : forall fuel s, split_str fuel s [] = Fuel.
Proof. exact split_str_empty. Qed.
Print Assumptions C19_split_str_empty_diverges.

(** ** C20 *)

Theorem C20_replace_all_exact : forall fuel s from to, (length s < fuel)%nat ->
  exists r, replace_all fuel s from to = Ok r /\
    (from = [] -> r = s) /\ (from <> [] -> replaced from to s r).
Proof.
  intros fuel s [|c from] to Hf.
  - exists s. repeat split; auto. congruence.
  - destruct (str_replace_all_spec fuel s (c :: from) to ltac:(discriminate) Hf) as (r & A & B).
    exists r. repeat split; auto. discriminate.
Qed.
Print Assumptions C20_replace_all_exact.
Example C20_replace_all_example :
  replace_all 9 [97; 97; 97; 98; 97; 97] [97; 97] [97; 120] = Ok [97; 120; 97; 98; 97; 120].
Proof. vm_compute. reflexivity. Qed.

Theorem C20_replaced_unique : forall from to s r r', replaced from to s r -> replaced from to s r' -> r = r'.
Proof. intros from to s r r' H H'. exact (replaced_functional from to s r H r' H'). Qed.
Print Assumptions C20_replaced_unique.

Theorem C20_member_replace_all_partial : forall fuel s from to, from <> [] -> (length s < fuel)%nat ->
  exists r, str_replace_all fuel s from to = Ok r /\ replaced from to s r.
Proof. exact str_replace_all_spec. Qed.
Print Assumptions C20_member_replace_all_partial.
Example C20_member_replace_all_example :
  str_replace_all 9 [97; 98; 97; 98; 99] [97; 98] [] = Ok [99].
Proof. vm_compute. reflexivity. Qed.

(** The member function does not return for an empty pattern, whatever the text and the replacement. *)
Theorem C20_member_empty_pattern_refuted :
  exists s to, forall fuel, str_replace_all fuel s [] to = Fuel.
Proof. exists [97], [98]. intros fuel. apply replace_loop_empty, Nat.le_0_l. Qed.
Print Assumptions C20_member_empty_pattern_refuted.

Theorem C20_member_empty_pattern_diverges : forall fuel s to, str_replace_all fuel s [] to = Fuel.
Proof. intros. apply replace_loop_empty. apply Nat.le_0_l. Qed.
Print Assumptions C20_member_empty_pattern_diverges.

Theorem C20_strip_exact : forall s lead tr, exists a b,
  s = a ++ strip s lead tr ++ b /\
  Forall (fun c => lead c = true) a /\ Forall (fun c => tr c = true) b /\
  (forall c m, strip s lead tr ++ b = c :: m -> lead c = false) /\
  (forall m c, strip s lead tr = m ++ [c] -> tr c = false).
Proof. exact strip_spec. Qed.
Print Assumptions C20_strip_exact.
Example C20_strip_example :
  strip [32; 32; 97; 32; 98; 46; 46] (fun c => c =? 32) (fun c => c =? 46) = [97; 32; 98]
  /\ strip [32; 32] (fun c => c =? 32) (fun c => c =? 32) = [].
Proof. vm_compute. auto. Qed.

Theorem C20_drop_prefix_exact : forall s p, (forall r, s = p ++ r -> drop_prefix s p = r) /\
  ((forall r, s <> p ++ r) -> drop_prefix s p = s).
Proof. exact drop_prefix_spec. Qed.
Print Assumptions C20_drop_prefix_exact.

Theorem C20_drop_suffix_exact : forall s p, (forall r, s = r ++ p -> drop_suffix s p = r) /\
  ((forall r, s <> r ++ p) -> drop_suffix s p = s).
Proof. exact drop_suffix_spec. Qed.
Print Assumptions C20_drop_suffix_exact.
Example C20_drop_example :
  drop_prefix [97; 98; 99] [97; 98] = [99] /\ drop_suffix [97; 98; 99] [98] = [97; 98; 99]
  /\ drop_suffix [97; 98; 99] [98; 99] = [97].
Proof. vm_compute. auto. Qed.

(** ** C21 *)

Theorem C21_validate_exact : forall s, is_bytes s ->
  (validate_utf8 s = Ok tt \/ validate_utf8 s = Throw) /\
  (validate_utf8 s = Ok tt <-> exists cs, utf8_text s cs).
Proof. exact validate_spec. Qed.
Print Assumptions C21_validate_exact.
Example C21_validate_example :
  validate_utf8 [97; 208; 150; 226; 130; 172; 240; 159; 152; 128] = Ok tt /\
  validate_utf8 [237; 160; 128] = Throw /\ validate_utf8 [192; 128] = Throw /\
  flat_map utf8_encode [97; 1046; 8364; 128512] = [97; 208; 150; 226; 130; 172; 240; 159; 152; 128].
Proof. vm_compute. auto. Qed.

Theorem C21_text_unique : forall s cs ds, utf8_text s cs -> utf8_text s ds -> cs = ds.
Proof. exact utf8_text_inj. Qed.
Print Assumptions C21_text_unique.

Theorem C21_chunks_lossless : forall s, exists rs, rune_chunks s = Ok rs /\ rune_length s = Ok (length rs) /\
  concat rs = s /\ Forall (fun r => r <> []) rs.
Proof. exact rune_chunks_spec. Qed.
Print Assumptions C21_chunks_lossless.
Example C21_chunks_example :
  rune_chunks [208; 150; 97; 226; 130] = Ok [[208; 150]; [97]; [226; 130]].
Proof. vm_compute. reflexivity. Qed.

Theorem C21_rune_count_partial : forall s cs, utf8_text s cs ->
  rune_chunks s = Ok (map utf8_encode cs) /\ rune_length s = Ok (length cs) /\
  length (filter (fun b => negb (is_cont b)) s) = length cs.
Proof. exact rune_chunks_text. Qed.
Print Assumptions C21_rune_count_partial.
Example C21_rune_count_example :
  utf8_text [97; 208; 150] [97; 1046] /\ rune_length [97; 208; 150] = Ok 2%nat.
Proof. split; [|vm_compute; reflexivity]. split; [|reflexivity]. repeat constructor; unfold scalar; lia. Qed.

(** On text that is not UTF-8 the count is not the number of non-continuation bytes: a lead byte swallows the
    letters after it. *)
Theorem C21_rune_count_refuted : exists s n, is_bytes s /\ rune_length s = Ok n /\
  n <> length (filter (fun b => negb (is_cont b)) s).
Proof.
  exists [226; 97; 98], 1%nat. split; [repeat constructor; lia|]. split; [vm_compute; reflexivity|].
  vm_compute. discriminate.
Qed.
Print Assumptions C21_rune_count_refuted.

(** ** C22 *)

Theorem C22_escape_refuted : exists s t q, s <> t /\ escape_for_write s q = escape_for_write t q.
Proof. exists [10], [92; 110], true. split; [discriminate|]. vm_compute. reflexivity. Qed.
Print Assumptions C22_escape_refuted.

Theorem C22_escape_injective_partial : forall s t q, ~ In 92 s -> ~ In 92 t ->
  escape_for_write s q = escape_for_write t q -> s = t.
Proof. exact escape_inj. Qed.
Print Assumptions C22_escape_injective_partial.

Theorem C22_escape_reversible_partial : forall s q, ~ In 92 s -> unescape (escape_body s q) = s.
Proof. exact unescape_escape. Qed.
Print Assumptions C22_escape_reversible_partial.

(** A reader finds the closing quote: quotes inside the text are told apart from it. *)
Theorem C22_quoted_reads_back_partial : forall s rest, ~ In 92 s ->
  read_quoted (escape_for_write s true ++ rest) = Some (s, rest).
Proof. exact read_escape. Qed.
Print Assumptions C22_quoted_reads_back_partial.
Example C22_quoted_example : escape_for_write [97; 34; 98] true = [34; 97; 92; 34; 98; 34] /\ ~ In 92 [97; 34; 98].
Proof. split; [vm_compute; reflexivity|]. cbn. lia. Qed.

Theorem C22_escape_one_line : forall s q, ~ In 9 (escape_for_write s q) /\ ~ In 10 (escape_for_write s q).
Proof. exact escape_clean. Qed.
Print Assumptions C22_escape_one_line.
Example C22_escape_example :
  escape_for_write [97; 10; 34; 9] true = [34; 97; 92; 110; 92; 34; 92; 116; 34] /\ ~ In 92 [97; 10; 34; 9].
Proof. split; [vm_compute; reflexivity|]. cbn. lia. Qed.

Theorem C22_escape_literal_refuted : exists s t, s <> t /\ escape_literal s = escape_literal t.
Proof. exists [10], [226; 144; 164]. split; [discriminate|]. vm_compute. reflexivity. Qed.
Print Assumptions C22_escape_literal_refuted.

Theorem C22_escape_literal_injective_partial : forall s t, ~ In 226 s -> ~ In 226 t ->
  escape_literal s = escape_literal t -> s = t.
Proof. exact escape_lit_inj. Qed.
Print Assumptions C22_escape_literal_injective_partial.
Example C22_escape_literal_example : escape_literal [97; 10] = [194; 171; 97; 226; 144; 164; 194; 187].
Proof. vm_compute. reflexivity. Qed.

(** ** C23 *)

Theorem C23_left_aligned_partial : forall s cs n c, utf8_text s cs -> 0 <= c <= 127 ->
  exists r, left_aligned s n c = Ok r /\
    r = s ++ repeat c (Z.to_nat (n - Z.of_nat (length cs))) /\
    rune_length r = Ok (Z.to_nat (Z.max n (Z.of_nat (length cs)))).
Proof. exact left_aligned_text. Qed.
Print Assumptions C23_left_aligned_partial.
Example C23_left_aligned_example :
  left_aligned [208; 150] 3 46 = Ok [208; 150; 46; 46] /\ left_aligned [97; 98] 1 46 = Ok [97; 98].
Proof. vm_compute. auto. Qed.

(** A text that ends in the middle of a character swallows the padding. *)
Theorem C23_left_aligned_refuted : exists s n r k, is_bytes s /\ left_aligned s n 32 = Ok r /\
  rune_length r = Ok k /\ Z.of_nat k < n.
Proof.
  exists [226], 3, [226; 32; 32], 1%nat. split; [repeat constructor; lia|]. vm_compute. auto.
Qed.
Print Assumptions C23_left_aligned_refuted.

Theorem C23_right_aligned : forall s n c, 0 <= c <= 127 ->
  exists k r, rune_length s = Ok k /\ right_aligned s n c = Ok r /\
    r = repeat c (Z.to_nat (n - Z.of_nat k)) ++ s /\
    rune_length r = Ok (Z.to_nat (Z.max n (Z.of_nat k))).
Proof. exact right_aligned_any. Qed.
Print Assumptions C23_right_aligned.
Example C23_right_aligned_example : right_aligned [208; 150; 226] 4 46 = Ok [46; 46; 208; 150; 226].
Proof. vm_compute. reflexivity. Qed.

Theorem C23_normalize_idempotent : forall s, normalize (normalize s) = normalize s.
Proof. exact normalize_idem. Qed.
Print Assumptions C23_normalize_idempotent.

Theorem C23_normalize_exact : forall s, normalize s = folded_alnum s.
Proof. exact normalize_folded. Qed.
Print Assumptions C23_normalize_exact.

Theorem C23_normalize_ignores_case : forall s, normalize (map to_lower s) = normalize s.
Proof. exact normalize_case. Qed.
Print Assumptions C23_normalize_ignores_case.

Theorem C23_normalize_ignores_punctuation : forall a b c, is_alnum c = false ->
  normalize (a ++ c :: b) = normalize (a ++ b).
Proof. exact normalize_insert. Qed.
Print Assumptions C23_normalize_ignores_punctuation.
Example C23_normalize_example :
  normalize [70; 111; 95; 66; 45; 49] = [102; 111; 98; 49] /\ is_alnum 95 = false /\ is_alnum 45 = false.
Proof. vm_compute. auto. Qed.

Theorem C23_iequals_exact : forall a b, iequals a b = true <-> map to_lower a = map to_lower b.
Proof. exact iequals_spec. Qed.
Print Assumptions C23_iequals_exact.
Example C23_iequals_example : iequals [65; 98] [97; 66] = true /\ iequals [65] [97; 97] = false.
Proof. vm_compute. auto. Qed.
