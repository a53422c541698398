(** Proofs about UTF-8 validation, runes, escaping, alignment and normalisation. *)
From Verif Require Import Base StrModel StrSpec StrProofs.
Local Open Scope Z_scope.

(** ** Facts about single bytes, by looking at all 256 of them *)

Definition all_bytes : list Z := map Z.of_nat (seq 0 256).

Lemma all_bytes_in : forall b, 0 <= b < 256 -> In b all_bytes.
Proof.
  intros b H. unfold all_bytes. apply in_map_iff. exists (Z.to_nat b). split; [lia|].
  apply in_seq. lia.
Qed.

Lemma by_bytes : forall (f : Z -> bool), forallb f all_bytes = true -> forall b, 0 <= b < 256 -> f b = true.
Proof. intros f H b Hb. rewrite forallb_forall in H. apply H. now apply all_bytes_in. Qed.

Lemma is_cont_byte : forall b, 0 <= b < 256 -> is_cont b = ((128 <=? b) && (b <? 192)).
Proof.
  intros b H. apply eqb_prop. revert b H.
  apply (by_bytes (fun b => Bool.eqb (is_cont b) ((128 <=? b) && (b <? 192)))). vm_compute. reflexivity.
Qed.

Definition width_table (b : Z) : nat :=
  if b <? 192 then 1 else if b <? 224 then 2 else if b <? 240 then 3 else if b <? 248 then 4
  else if b <? 252 then 5 else if b <? 254 then 6 else 1.

Lemma rune_width_byte : forall b, 0 <= b < 256 -> rune_width b = width_table b.
Proof.
  intros b H. apply Nat.eqb_eq. revert b H.
  apply (by_bytes (fun b => (rune_width b =? width_table b)%nat)). vm_compute. reflexivity.
Qed.

Lemma rune_width_pos : forall b, (1 <= rune_width b)%nat.
Proof. intros. unfold rune_width. repeat destruct (_ <=? _); repeat destruct (_ =? _); lia. Qed.

(** ** One step of the validator *)

Definition step (r : str) : option nat :=
  let b := char_at r in
  if b 0%nat <=? 127 then Some 1%nat
  else if (194 <=? b 0%nat) && (b 0%nat <=? 223) then
    if (length r <=? 1)%nat then None else if negb (is_cont (b 1%nat)) then None else Some 2%nat
  else if (224 <=? b 0%nat) && (b 0%nat <=? 239) then
    if (length r <=? 2)%nat then None
    else if negb (is_cont (b 1%nat)) || negb (is_cont (b 2%nat)) then None
    else if (b 0%nat =? 224) && (b 1%nat <? 160) then None
    else if (b 0%nat =? 237) && (159 <? b 1%nat) then None else Some 3%nat
  else if (240 <=? b 0%nat) && (b 0%nat <=? 244) then
    if (length r <=? 3)%nat then None
    else if negb (is_cont (b 1%nat)) || negb (is_cont (b 2%nat)) || negb (is_cont (b 3%nat)) then None
    else if (b 0%nat =? 240) && (b 1%nat <? 144) then None
    else if (b 0%nat =? 244) && (143 <? b 1%nat) then None else Some 4%nat
  else None.

Lemma char_at_skipn : forall s i k, char_at (skipn i s) k = char_at s (i + k).
Proof.
  unfold char_at. intros s i. revert s. induction i; intros s k; cbn; auto.
  destruct s; cbn; [destruct k; reflexivity|]. apply IHi.
Qed.

Lemma leb_shift : forall (s : str) i k, (i < length s)%nat ->
  (length s <=? i + k)%nat = (length (skipn i s) <=? k)%nat.
Proof.
  intros. rewrite skipn_length. destruct (Nat.leb_spec (length s) (i + k)); destruct (Nat.leb_spec (length s - i) k); auto; lia.
Qed.

Lemma validate_loop_step : forall fuel s i,
  validate_loop (S fuel) s i =
    if (i <? length s)%nat then
      match step (skipn i s) with Some n => validate_loop fuel s (i + n) | None => Throw end
    else Ok tt.
Proof.
  intros. cbn [validate_loop]. destruct (Nat.ltb_spec i (length s)); auto.
  unfold step. rewrite !char_at_skipn, !Nat.add_0_r, !(leb_shift s i) by auto.
  destruct (char_at s i <=? 127); auto.
  destruct ((194 <=? char_at s i) && (char_at s i <=? 223)).
  { destruct (_ <=? 1)%nat; auto. destruct (negb _); auto. f_equal. lia. }
  destruct ((224 <=? char_at s i) && (char_at s i <=? 239)).
  { destruct (_ <=? 2)%nat; auto. destruct (negb _ || negb _); auto.
    destruct ((_ =? 224) && _); auto. destruct ((_ =? 237) && _); auto. f_equal. lia. }
  destruct ((240 <=? char_at s i) && (char_at s i <=? 244)); auto.
  destruct (_ <=? 3)%nat; auto. destruct (negb _ || negb _ || negb _); auto.
  destruct ((_ =? 240) && _); auto. destruct ((_ =? 244) && _); auto. f_equal. lia.
Qed.

Ltac bytes r := match goal with H : is_bytes (_ :: _) |- _ => apply Forall_cons_iff in H; destruct H as [? H]; bytes r | _ => idtac end.

Lemma enc1 : forall a, 0 <= a <= 127 -> scalar a /\ utf8_encode a = [a].
Proof. intros. unfold scalar, utf8_encode. destruct (Z.ltb_spec a 128); [|lia]. split; auto; lia. Qed.

Lemma enc2 : forall a b, 194 <= a <= 223 -> 128 <= b < 192 ->
  exists c, scalar c /\ utf8_encode c = [a; b].
Proof.
  intros. exists ((a - 192) * 64 + (b - 128)). unfold scalar, utf8_encode. split; [lia|].
  destruct (Z.ltb_spec ((a - 192) * 64 + (b - 128)) 128); [lia|].
  destruct (Z.ltb_spec ((a - 192) * 64 + (b - 128)) 2048); [|lia].
  f_equal; [|f_equal]; Z.to_euclidean_division_equations; lia.
Qed.

Lemma enc3 : forall a b d, 224 <= a <= 239 -> 128 <= b < 192 -> 128 <= d < 192 ->
  (a = 224 -> 160 <= b) -> (a = 237 -> b <= 159) ->
  exists c, scalar c /\ utf8_encode c = [a; b; d].
Proof.
  intros. set (c := (a - 224) * 4096 + (b - 128) * 64 + (d - 128)).
  assert (Hc : c = (a - 224) * 4096 + (b - 128) * 64 + (d - 128)) by reflexivity. clearbody c.
  exists c. unfold scalar, utf8_encode. split; [lia|].
  destruct (Z.ltb_spec c 128); [lia|]. destruct (Z.ltb_spec c 2048); [lia|].
  destruct (Z.ltb_spec c 65536); [|lia].
  f_equal; [|f_equal; [|f_equal]]; Z.to_euclidean_division_equations; lia.
Qed.

Lemma enc4 : forall a b d e, 240 <= a <= 244 -> 128 <= b < 192 -> 128 <= d < 192 -> 128 <= e < 192 ->
  (a = 240 -> 144 <= b) -> (a = 244 -> b <= 143) ->
  exists c, scalar c /\ utf8_encode c = [a; b; d; e].
Proof.
  intros. set (c := (a - 240) * 262144 + (b - 128) * 4096 + (d - 128) * 64 + (e - 128)).
  assert (Hc : c = (a - 240) * 262144 + (b - 128) * 4096 + (d - 128) * 64 + (e - 128)) by reflexivity.
  clearbody c.
  exists c. unfold scalar, utf8_encode. split; [lia|].
  destruct (Z.ltb_spec c 128); [lia|]. destruct (Z.ltb_spec c 2048); [lia|].
  destruct (Z.ltb_spec c 65536); [lia|].
  f_equal; [|f_equal; [|f_equal; [|f_equal]]]; Z.to_euclidean_division_equations; lia.
Qed.

Lemma cont_range : forall b, 0 <= b < 256 -> negb (is_cont b) = false -> 128 <= b < 192.
Proof. intros b H E. rewrite is_cont_byte in E by auto. lia. Qed.

Lemma step_sound : forall r n, is_bytes r -> r <> [] -> step r = Some n ->
  exists c t, scalar c /\ r = utf8_encode c ++ t /\ n = length (utf8_encode c).
Proof.
  intros r n Hb Hr H. destruct r as [|a r]; [congruence|].
  apply Forall_cons_iff in Hb as [Ha Hb]. unfold step in H. cbn [char_at nth] in H.
  unfold char_at in H. cbn [nth] in H.
  destruct (Z.leb_spec a 127).
  { inversion H; subst. destruct (enc1 a ltac:(lia)) as [A B]. exists a, r. rewrite B. auto. }
  destruct ((194 <=? a) && (a <=? 223)) eqn:E1.
  { destruct r as [|b r]; [discriminate|]. apply Forall_cons_iff in Hb as [Hb0 Hb]. cbn [length Nat.leb nth] in H.
    destruct (negb (is_cont b)) eqn:C1; [discriminate|]. inversion H; subst.
    destruct (enc2 a b ltac:(lia) (cont_range b Hb0 C1)) as (c & A & B). exists c, r. rewrite B. auto. }
  destruct ((224 <=? a) && (a <=? 239)) eqn:E2.
  { destruct r as [|b [|d r]]; [discriminate|discriminate|].
    apply Forall_cons_iff in Hb as [Hb0 Hb]. apply Forall_cons_iff in Hb as [Hb1 Hb].
    cbn [length Nat.leb nth] in H.
    destruct (negb (is_cont b)) eqn:C1; [discriminate|]. destruct (negb (is_cont d)) eqn:C2; [discriminate|].
    cbn [orb] in H.
    destruct ((a =? 224) && (b <? 160)) eqn:C3; [discriminate|].
    destruct ((a =? 237) && (159 <? b)) eqn:C4; [discriminate|]. inversion H; subst.
    destruct (enc3 a b d ltac:(lia) (cont_range b Hb0 C1) (cont_range d Hb1 C2) ltac:(lia) ltac:(lia)) as (c & A & B).
    exists c, r. rewrite B. auto. }
  destruct ((240 <=? a) && (a <=? 244)) eqn:E3; [|discriminate].
  destruct r as [|b [|d [|e r]]]; [discriminate|discriminate|discriminate|].
  apply Forall_cons_iff in Hb as [Hb0 Hb]. apply Forall_cons_iff in Hb as [Hb1 Hb].
  apply Forall_cons_iff in Hb as [Hb2 Hb].
  cbn [length Nat.leb nth] in H.
  destruct (negb (is_cont b)) eqn:C1; [discriminate|]. destruct (negb (is_cont d)) eqn:C2; [discriminate|].
  destruct (negb (is_cont e)) eqn:C3; [discriminate|]. cbn [orb] in H.
  destruct ((a =? 240) && (b <? 144)) eqn:C4; [discriminate|].
  destruct ((a =? 244) && (143 <? b)) eqn:C5; [discriminate|]. inversion H; subst.
  destruct (enc4 a b d e ltac:(lia) (cont_range b Hb0 C1) (cont_range d Hb1 C2) (cont_range e Hb2 C3) ltac:(lia) ltac:(lia)) as (c & A & B).
  exists c, r. rewrite B. auto.
Qed.

(** The encodings and their byte ranges. *)
Lemma encode_cases : forall c, scalar c ->
  (exists a, utf8_encode c = [a] /\ 0 <= a <= 127) \/
  (exists a b, utf8_encode c = [a; b] /\ 194 <= a <= 223 /\ 128 <= b < 192) \/
  (exists a b d, utf8_encode c = [a; b; d] /\ 224 <= a <= 239 /\ 128 <= b < 192 /\ 128 <= d < 192 /\
     (a = 224 -> 160 <= b) /\ (a = 237 -> b <= 159)) \/
  (exists a b d e, utf8_encode c = [a; b; d; e] /\ 240 <= a <= 244 /\ 128 <= b < 192 /\ 128 <= d < 192 /\
     128 <= e < 192 /\ (a = 240 -> 144 <= b) /\ (a = 244 -> b <= 143)).
Proof.
  intros c Hc. unfold scalar in Hc. unfold utf8_encode.
  destruct (Z.ltb_spec c 128). { left. exists c. split; auto. lia. }
  destruct (Z.ltb_spec c 2048).
  { right; left. do 2 eexists. split; [reflexivity|]. Z.to_euclidean_division_equations; lia. }
  destruct (Z.ltb_spec c 65536).
  { right; right; left. do 3 eexists. split; [reflexivity|]. Z.to_euclidean_division_equations; lia. }
  right; right; right. do 4 eexists. split; [reflexivity|]. Z.to_euclidean_division_equations; lia.
Qed.

Lemma cont_true : forall b, 128 <= b < 192 -> negb (is_cont b) = false.
Proof. intros. rewrite is_cont_byte by lia. lia. Qed.

Lemma step_complete : forall c t, scalar c -> step (utf8_encode c ++ t) = Some (length (utf8_encode c)).
Proof.
  intros c t Hc. destruct (encode_cases c Hc) as [(a & -> & H)|[(a & b & -> & H & H1)|[(a & b & d & -> & H & H1 & H2 & H3 & H4)|(a & b & d & e & -> & H & H1 & H2 & H3 & H4 & H5)]]];
  unfold step, char_at; cbn [app nth length Nat.leb].
  - replace (a <=? 127) with true by lia. reflexivity.
  - replace (a <=? 127) with false by lia.
    replace ((194 <=? a) && (a <=? 223)) with true by lia. rewrite (cont_true b) by auto. reflexivity.
  - replace (a <=? 127) with false by lia.
    replace ((194 <=? a) && (a <=? 223)) with false by lia.
    replace ((224 <=? a) && (a <=? 239)) with true by lia.
    rewrite (cont_true b), (cont_true d) by auto. cbn [orb].
    replace ((a =? 224) && (b <? 160)) with false by lia.
    replace ((a =? 237) && (159 <? b)) with false by lia. reflexivity.
  - replace (a <=? 127) with false by lia.
    replace ((194 <=? a) && (a <=? 223)) with false by lia.
    replace ((224 <=? a) && (a <=? 239)) with false by lia.
    replace ((240 <=? a) && (a <=? 244)) with true by lia.
    rewrite (cont_true b), (cont_true d), (cont_true e) by auto. cbn [orb].
    replace ((a =? 240) && (b <? 144)) with false by lia.
    replace ((a =? 244) && (143 <? b)) with false by lia. reflexivity.
Qed.

Lemma encode_length : forall c, (1 <= length (utf8_encode c) <= 4)%nat.
Proof. intros. unfold utf8_encode. repeat destruct (_ <? _); cbn; lia. Qed.

Lemma skipn_app_eq : forall (s : str) i a t, skipn i s = a ++ t -> skipn (i + length a) s = t.
Proof.
  intros. rewrite Nat.add_comm, <- skipn_skipn, H, skipn_app, skipn_all, Nat.sub_diag. reflexivity.
Qed.

Lemma validate_loop_total : forall fuel s i, is_bytes s -> (length s - i < fuel)%nat ->
  validate_loop fuel s i = Ok tt \/ validate_loop fuel s i = Throw.
Proof.
  induction fuel; intros s i Hb Hf; [lia|]. rewrite validate_loop_step.
  destruct (Nat.ltb_spec i (length s)); auto. destruct (step (skipn i s)) eqn:E; auto.
  destruct (step_sound (skipn i s) n) as (c & t & Hc & E1 & ->); auto.
  - unfold is_bytes in *. rewrite <- (firstn_skipn i s), Forall_app in Hb. tauto.
  - intros E1. apply (f_equal (@length _)) in E1. rewrite skipn_length in E1. cbn in E1. lia.
  - apply IHfuel; auto. pose proof (encode_length c). lia.
Qed.

Lemma validate_loop_sound : forall fuel s i, is_bytes s -> validate_loop fuel s i = Ok tt ->
  exists cs, utf8_text (skipn i s) cs.
Proof.
  induction fuel; intros s i Hb Hv; [discriminate|]. rewrite validate_loop_step in Hv.
  destruct (Nat.ltb_spec i (length s)).
  - destruct (step (skipn i s)) eqn:E; [|discriminate].
    destruct (step_sound (skipn i s) n) as (c & t & Hc & E1 & ->); auto.
    + unfold is_bytes in *. rewrite <- (firstn_skipn i s), Forall_app in Hb. tauto.
    + intros E1. apply (f_equal (@length _)) in E1. rewrite skipn_length in E1. cbn in E1. lia.
    + destruct (IHfuel s _ Hb Hv) as (cs & H1 & H2). rewrite (skipn_app_eq _ _ _ _ E1) in H2.
      exists (c :: cs). split; [constructor; auto|]. rewrite E1, H2. reflexivity.
  - exists []. split; [constructor|]. rewrite skipn_all2 by lia. reflexivity.
Qed.

Lemma validate_loop_complete : forall fuel s i cs, (length s - i < fuel)%nat ->
  utf8_text (skipn i s) cs -> validate_loop fuel s i = Ok tt.
Proof.
  induction fuel; intros s i cs Hf [H1 H2]; [lia|]. rewrite validate_loop_step.
  destruct (Nat.ltb_spec i (length s)); auto.
  destruct cs as [|c cs].
  - apply (f_equal (@length _)) in H2. rewrite skipn_length in H2. cbn in H2. lia.
  - apply Forall_cons_iff in H1 as [Hc H1]. cbn in H2.
    rewrite H2, step_complete by auto.
    apply IHfuel with cs; [pose proof (encode_length c); lia|].
    split; auto. now apply skipn_app_eq.
Qed.

Lemma validate_spec : forall s, is_bytes s ->
  (validate_utf8 s = Ok tt \/ validate_utf8 s = Throw) /\
  (validate_utf8 s = Ok tt <-> exists cs, utf8_text s cs).
Proof.
  intros s Hb. split; [apply validate_loop_total; auto; lia|]. split.
  - intros H. now apply validate_loop_sound in H.
  - intros (cs & H). apply (validate_loop_complete _ s 0 cs); auto. lia.
Qed.

(** ** Runes *)

Lemma rune_loops : forall fuel s i n rs, (length s - i < fuel)%nat -> (i <= length s)%nat -> n = length rs ->
  concat rs = firstn i s -> Forall (fun r => r <> []) rs ->
  exists rs', rune_chunks_loop fuel s i rs = Ok rs' /\ rune_length_loop fuel s i n = Ok (length rs') /\
    concat rs' = s /\ Forall (fun r => r <> []) rs'.
Proof.
  induction fuel; intros s i n rs Hf Hi Hn Hc Hne; [lia|]. cbn [rune_chunks_loop rune_length_loop].
  destruct (Nat.ltb_spec i (length s)).
  - pose proof (rune_width_pos (char_at s i)) as Hw.
    destruct (Nat.le_gt_cases (i + rune_width (char_at s i)) (length s)) as [Hle|Hgt].
    + apply IHfuel; try lia.
      * rewrite app_length, Hn. reflexivity.
      * rewrite concat_app, Hc. cbn. rewrite app_nil_r. symmetry. apply firstn_substr.
      * apply Forall_app; split; auto. constructor; auto.
        intros E. apply (f_equal (@length _)) in E. rewrite substr_length in E. cbn in E. lia.
    + (* the last rune is cut off: one more round ends the loop *)
      exists (rs ++ [substr s i (rune_width (char_at s i))]).
      destruct fuel; [lia|]. cbn [rune_chunks_loop rune_length_loop].
      destruct (Nat.ltb_spec (i + rune_width (char_at s i)) (length s)); [lia|].
      split; auto. split; [rewrite app_length, Hn; reflexivity|]. split.
      * rewrite concat_app, Hc. cbn. rewrite app_nil_r, <- firstn_substr. apply firstn_all2. lia.
      * apply Forall_app; split; auto. constructor; auto.
        intros E. apply (f_equal (@length _)) in E. rewrite substr_length in E. cbn in E. lia.
  - exists rs. split; auto. split; [now rewrite Hn|]. split; auto. rewrite Hc. apply firstn_all2. lia.
Qed.

Lemma rune_chunks_spec : forall s, exists rs, rune_chunks s = Ok rs /\ rune_length s = Ok (length rs) /\
  concat rs = s /\ Forall (fun r => r <> []) rs.
Proof. intros. unfold rune_chunks, rune_length. apply rune_loops; auto; lia. Qed.

Lemma rune_width_encode : forall c t, scalar c ->
  rune_width (char_at (utf8_encode c ++ t) 0) = length (utf8_encode c).
Proof.
  intros c t Hc. destruct (encode_cases c Hc) as [(a & -> & H)|[(a & b & -> & H & H1)|[(a & b & d & -> & H & H1 & H2 & H3 & H4)|(a & b & d & e & -> & H & H1 & H2 & H3 & H4 & H5)]]];
  unfold char_at; cbn [app nth length]; rewrite rune_width_byte by lia; unfold width_table.
  - now replace (a <? 192) with true by lia.
  - replace (a <? 192) with false by lia. now replace (a <? 224) with true by lia.
  - replace (a <? 192) with false by lia. replace (a <? 224) with false by lia.
    now replace (a <? 240) with true by lia.
  - replace (a <? 192) with false by lia. replace (a <? 224) with false by lia.
    replace (a <? 240) with false by lia. now replace (a <? 248) with true by lia.
Qed.

Lemma encode_conts : forall c, scalar c -> length (filter (fun b => negb (is_cont b)) (utf8_encode c)) = 1%nat.
Proof.
  intros c Hc. destruct (encode_cases c Hc) as [(a & -> & H)|[(a & b & -> & H & H1)|[(a & b & d & -> & H & H1 & H2 & H3 & H4)|(a & b & d & e & -> & H & H1 & H2 & H3 & H4 & H5)]]];
  cbn [filter]; rewrite ?(cont_true b), ?(cont_true d), ?(cont_true e) by auto;
  rewrite (is_cont_byte a) by lia; replace ((128 <=? a) && (a <? 192)) with false by lia; reflexivity.
Qed.

Lemma rune_chunks_text_loop : forall fuel s i rs cs, (length s - i < fuel)%nat -> (i <= length s)%nat ->
  utf8_text (skipn i s) cs -> rune_chunks_loop fuel s i rs = Ok (rs ++ map utf8_encode cs).
Proof.
  induction fuel; intros s i rs cs Hf Hi [H1 H2]; [lia|]. cbn [rune_chunks_loop].
  destruct (Nat.ltb_spec i (length s)).
  - destruct cs as [|c cs].
    + apply (f_equal (@length _)) in H2. rewrite skipn_length in H2. cbn in H2. lia.
    + apply Forall_cons_iff in H1 as [Hc H1]. cbn in H2.
      assert (Ew : rune_width (char_at s i) = length (utf8_encode c)).
      { rewrite <- (rune_width_encode c (flat_map utf8_encode cs) Hc), <- H2, char_at_skipn. do 2 f_equal. lia. }
      rewrite Ew. pose proof (encode_length c).
      assert (Hlen : (i + length (utf8_encode c) <= length s)%nat).
      { pose proof (skipn_length i s) as L. rewrite H2, app_length in L. lia. }
      rewrite (IHfuel _ _ _ cs); try lia.
      * f_equal. rewrite <- app_assoc. f_equal. cbn. f_equal.
        unfold substr. rewrite H2, firstn_app, firstn_all, Nat.sub_diag. cbn. apply app_nil_r.
      * split; auto. now apply skipn_app_eq.
  - destruct cs as [|c cs]; [cbn; now rewrite app_nil_r|].
    cbn in H2. rewrite skipn_all2 in H2 by lia. pose proof (encode_length c).
    apply (f_equal (@length _)) in H2. rewrite app_length in H2. cbn in H2. lia.
Qed.

Lemma rune_chunks_text : forall s cs, utf8_text s cs ->
  rune_chunks s = Ok (map utf8_encode cs) /\ rune_length s = Ok (length cs) /\
  length (filter (fun b => negb (is_cont b)) s) = length cs.
Proof.
  intros s cs H. assert (E : rune_chunks s = Ok (map utf8_encode cs)).
  { unfold rune_chunks. rewrite (rune_chunks_text_loop _ s 0 [] cs); auto; lia. }
  split; auto. split.
  - destruct (rune_chunks_spec s) as (rs & A & B & _ & _). rewrite B. rewrite E in A. inversion A.
    now rewrite map_length.
  - destruct H as [H1 ->]. clear E. induction cs; auto.
    apply Forall_cons_iff in H1 as [Hc H1]. cbn. rewrite filter_app, app_length, encode_conts by auto.
    cbn. f_equal. auto.
Qed.

Ltac nths E :=
  pose proof (f_equal (fun l => nth 0 l 0) E); pose proof (f_equal (fun l => nth 1 l 0) E);
  pose proof (f_equal (fun l => nth 2 l 0) E); pose proof (f_equal (fun l => nth 3 l 0) E);
  cbn [nth] in *; clear E.

(** Two texts with the same bytes have the same characters. *)
Lemma encode_inj_app : forall c d t u, scalar c -> scalar d -> utf8_encode c ++ t = utf8_encode d ++ u -> c = d /\ t = u.
Proof.
  intros c d t u Hc Hd E.
  pose proof (step_complete c t Hc) as A. pose proof (step_complete d u Hd) as B.
  rewrite E, B in A. inversion A as [L]. destruct (app_len_inj _ _ _ _ (eq_sym L) E) as [E1 ->]. split; auto.
  clear - Hc Hd E1. unfold scalar in *. revert E1. unfold utf8_encode.
  destruct (Z.ltb_spec c 128); destruct (Z.ltb_spec d 128); try (repeat destruct (_ <? _); discriminate).
  { intros E; now inversion E. }
  destruct (Z.ltb_spec c 2048); destruct (Z.ltb_spec d 2048); try (repeat destruct (_ <? _); discriminate).
  { intros E; nths E. Z.to_euclidean_division_equations; lia. }
  destruct (Z.ltb_spec c 65536); destruct (Z.ltb_spec d 65536); try discriminate.
  { intros E; nths E. Z.to_euclidean_division_equations; lia. }
  intros E; nths E. Z.to_euclidean_division_equations; lia.
Qed.

Lemma utf8_text_inj : forall s cs ds, utf8_text s cs -> utf8_text s ds -> cs = ds.
Proof.
  intros s cs ds [H1 ->] [H2 E]. revert ds H2 E. induction cs as [|c cs IH]; intros [|d ds] H2 E; auto.
  - cbn in E. pose proof (encode_length d). destruct (utf8_encode d); [cbn in *; lia|discriminate].
  - cbn in E. pose proof (encode_length c). destruct (utf8_encode c); [cbn in *; lia|discriminate].
  - apply Forall_cons_iff in H1 as [Hc H1]. apply Forall_cons_iff in H2 as [Hd H2]. cbn in E.
    destruct (encode_inj_app _ _ _ _ Hc Hd E) as [-> E']. f_equal. now apply IH.
Qed.

(** ** Escaping *)

Lemma unescape_escape : forall s q, ~ In 92 s -> unescape (escape_body s q) = s.
Proof.
  induction s as [|c s IH]; intros q H; auto. cbn [escape_body].
  assert (Hc : c <> 92) by (intros ->; apply H; cbn; auto).
  assert (Hs : ~ In 92 s) by (intros ?; apply H; cbn; auto).
  destruct (Z.eqb_spec c 9); [subst; cbn; now rewrite IH|].
  destruct (Z.eqb_spec c 10); [subst; cbn; now rewrite IH|].
  destruct (Z.eqb_spec c 34); [destruct q; subst; cbn; now rewrite IH|].
  cbn [andb app].
  assert (E : forall t, unescape (c :: t) = c :: unescape t).
  { intros t. cbn [unescape]. destruct c as [|p|p]; auto.
    destruct p as [p|p|]; auto. destruct p as [p|p|]; auto. destruct p as [p|p|]; auto.
    destruct p as [p|p|]; auto. destruct p as [p|p|]; auto. destruct p as [p|p|]; auto.
    destruct p as [p|p|]; auto. congruence. }
  rewrite E. f_equal. auto.
Qed.

Lemma read_escape : forall s rest, ~ In 92 s ->
  read_quoted (escape_for_write s true ++ rest) = Some (s, rest).
Proof.
  intros s rest Hs. unfold escape_for_write. cbn [app read_quoted]. rewrite <- app_assoc. cbn [app].
  induction s as [|c s IH]; [reflexivity|]. cbn [escape_body].
  assert (Hc : c <> 92) by (intros ->; apply Hs; cbn; auto).
  assert (Hs' : ~ In 92 s) by (intros ?; apply Hs; cbn; auto). specialize (IH Hs').
  destruct (Z.eqb_spec c 9); [subst; cbn [app read_body]; now rewrite IH|].
  destruct (Z.eqb_spec c 10); [subst; cbn [app read_body]; now rewrite IH|].
  destruct (Z.eqb_spec c 34); [subst; cbn [andb app read_body]; now rewrite IH|].
  cbn [andb app].
  assert (E : forall t, read_body (c :: t) = option_map (fun '(u, r) => (c :: u, r)) (read_body t)).
  { intros t. cbn [read_body]. destruct c as [|p|p]; auto.
    do 7 (try (destruct p as [p|p|]; auto; try congruence)). }
  rewrite E, IH. reflexivity.
Qed.

Lemma escape_clean : forall s q, ~ In 9 (escape_for_write s q) /\ ~ In 10 (escape_for_write s q).
Proof.
  intros s q.
  assert (H : forall s, ~ In 9 (escape_body s q) /\ ~ In 10 (escape_body s q)).
  { clear. induction s as [|c s [A B]]; [cbn; auto|]. cbn [escape_body]. rewrite !in_app_iff.
    destruct (Z.eqb_spec c 9); [subst; cbn; split; intuition lia|].
    destruct (Z.eqb_spec c 10); [subst; cbn; split; intuition lia|].
    destruct ((c =? 34) && q); cbn; split; intuition lia. }
  unfold escape_for_write. rewrite !in_app_iff. destruct (H s). destruct q; cbn; split; intuition lia.
Qed.

Lemma escape_quote_inj : forall s t q, escape_for_write s q = escape_for_write t q -> escape_body s q = escape_body t q.
Proof.
  intros s t q E. unfold escape_for_write in E. apply app_inv_head in E. destruct q.
  - now apply app_inv_tail in E.
  - now rewrite !app_nil_r in E.
Qed.

Lemma escape_inj : forall s t q, ~ In 92 s -> ~ In 92 t -> escape_for_write s q = escape_for_write t q -> s = t.
Proof.
  intros s t q Hs Ht E. apply escape_quote_inj in E.
  rewrite <- (unescape_escape s q), <- (unescape_escape t q) by auto. congruence.
Qed.

Fixpoint unescape_lit (s : str) : str :=
  match s with
  | 226 :: 144 :: 164 :: s' => 10 :: unescape_lit s'
  | c :: s' => c :: unescape_lit s'
  | [] => []
  end.

Lemma escape_lit_inj_body : forall s t, ~ In 226 s -> ~ In 226 t -> escape_lit_body s = escape_lit_body t -> s = t.
Proof.
  induction s as [|c s IH]; intros [|d t] Hs Ht E; auto.
  - cbn [escape_lit_body] in E. destruct (d =? 10); discriminate.
  - cbn [escape_lit_body] in E. destruct (c =? 10); discriminate.
  - cbn [escape_lit_body] in E.
    assert (c <> 226) by (intros ->; apply Hs; cbn; auto).
    assert (d <> 226) by (intros ->; apply Ht; cbn; auto).
    assert (Hs' : ~ In 226 s) by (intros ?; apply Hs; cbn; auto).
    assert (Ht' : ~ In 226 t) by (intros ?; apply Ht; cbn; auto).
    destruct (Z.eqb_spec c 10); destruct (Z.eqb_spec d 10); cbn [app] in E; injection E; intros.
    + subst. f_equal. auto.
    + congruence.
    + congruence.
    + subst. f_equal. auto.
Qed.

Lemma escape_lit_inj : forall s t, ~ In 226 s -> ~ In 226 t -> escape_literal s = escape_literal t -> s = t.
Proof.
  intros s t Hs Ht E. unfold escape_literal in E. apply app_inv_head in E. apply app_inv_tail in E.
  now apply escape_lit_inj_body.
Qed.

(** ** Alignment *)

Lemma repeat_str_single : forall c n, repeat_str [c] n = repeat c n.
Proof. induction n; cbn; auto. rewrite IHn. change [c] with (repeat c 1). rewrite <- repeat_app, Nat.add_1_r. reflexivity. Qed.

Lemma ascii_width : forall c, 0 <= c <= 127 -> rune_width c = 1%nat.
Proof. intros. unfold rune_width. now replace (c <=? 127) with true by lia. Qed.

Lemma utf8_text_app : forall s cs t ds, utf8_text s cs -> utf8_text t ds -> utf8_text (s ++ t) (cs ++ ds).
Proof. intros s cs t ds [A ->] [B ->]. split; [apply Forall_app; auto|]. symmetry. apply flat_map_app. Qed.

Lemma utf8_text_ascii : forall c n, 0 <= c <= 127 -> utf8_text (repeat c n) (repeat c n).
Proof.
  intros c n Hc. destruct (enc1 c Hc) as [A B]. split.
  - apply Forall_forall. intros x Hx. apply repeat_spec in Hx. now subst.
  - induction n; cbn; auto. rewrite B. cbn. f_equal. exact IHn.
Qed.

Lemma left_aligned_text : forall s cs n c, utf8_text s cs -> 0 <= c <= 127 ->
  exists r, left_aligned s n c = Ok r /\
    r = s ++ repeat c (Z.to_nat (n - Z.of_nat (length cs))) /\
    rune_length r = Ok (Z.to_nat (Z.max n (Z.of_nat (length cs)))).
Proof.
  intros s cs n c Hs Hc. unfold left_aligned. destruct (rune_chunks_text s cs Hs) as (_ & E & _).
  rewrite E. cbn [omap obind]. eexists. split; [reflexivity|].
  assert (X : (if Z.of_nat (length cs) <? n then s ++ repeat_str [c] (Z.to_nat (n - Z.of_nat (length cs))) else s)
    = s ++ repeat c (Z.to_nat (n - Z.of_nat (length cs)))).
  { destruct (Z.ltb_spec (Z.of_nat (length cs)) n); [now rewrite repeat_str_single|].
    replace (Z.to_nat (n - Z.of_nat (length cs))) with 0%nat by lia. cbn. now rewrite app_nil_r. }
  rewrite X. split; auto.
  destruct (rune_chunks_text _ _ (utf8_text_app _ _ _ _ Hs (utf8_text_ascii c (Z.to_nat (n - Z.of_nat (length cs))) Hc)))
    as (_ & -> & _).
  f_equal. rewrite app_length, repeat_length. lia.
Qed.

Lemma rune_length_shift : forall fuel s t i k n, 
  (forall j, (j < length s)%nat -> char_at (t ++ s) (length t + j) = char_at s j) ->
  rune_length_loop fuel (t ++ s) (length t + i) (n + k) = omap (fun r => (r + k)%nat) (rune_length_loop fuel s i n).
Proof.
  induction fuel; intros s t i k n H; auto. cbn [rune_length_loop]. rewrite app_length.
  destruct (Nat.ltb_spec i (length s)).
  - destruct (Nat.ltb_spec (length t + i) (length t + length s)); [|lia]. rewrite H by auto.
    rewrite <- (IHfuel s t _ k) by auto. f_equal; lia.
  - destruct (Nat.ltb_spec (length t + i) (length t + length s)); [lia|]. reflexivity.
Qed.

Lemma char_at_app : forall (t s : str) j, char_at (t ++ s) (length t + j) = char_at s j.
Proof. intros. unfold char_at. rewrite app_nth2 by lia. f_equal. lia. Qed.

Lemma rune_length_fuel : forall fuel fuel' s i n, (length s - i < fuel)%nat -> (length s - i < fuel')%nat ->
  rune_length_loop fuel s i n = rune_length_loop fuel' s i n.
Proof.
  induction fuel; intros fuel' s i n H1 H2; [lia|]. destruct fuel'; [lia|]. cbn [rune_length_loop].
  destruct (Nat.ltb_spec i (length s)); auto. pose proof (rune_width_pos (char_at s i)). apply IHfuel; lia.
Qed.

Lemma rune_length_pad : forall m c s r, 0 <= c <= 127 -> rune_length s = Ok r ->
  rune_length (repeat c m ++ s) = Ok (m + r)%nat.
Proof.
  intros m c s r Hc. revert s r. induction m; intros s r H; auto.
  cbn [repeat]. rewrite <- app_comm_cons.
  specialize (IHm s r H). set (t := repeat c m ++ s) in *. clearbody t.
  unfold rune_length in *. cbn [length]. 
  change (rune_length_loop (S (S (length t))) (c :: t) 0 0) with
    (rune_length_loop (S (length t)) (c :: t) (0 + rune_width c) 1).
  rewrite ascii_width by auto.
  pose proof (rune_length_shift (S (length t)) t [c] 0 1 0 (fun j _ => char_at_app [c] t j)) as E.
  cbn [app length Nat.add] in E. cbn [Nat.add]. rewrite E, IHm. cbn. f_equal. lia.
Qed.

Lemma right_aligned_any : forall s n c, 0 <= c <= 127 ->
  exists k r, rune_length s = Ok k /\ right_aligned s n c = Ok r /\
    r = repeat c (Z.to_nat (n - Z.of_nat k)) ++ s /\
    rune_length r = Ok (Z.to_nat (Z.max n (Z.of_nat k))).
Proof.
  intros s n c Hc. destruct (rune_chunks_spec s) as (rs & _ & E & _). exists (length rs).
  unfold right_aligned. rewrite E. cbn [omap obind].
  eexists. split; auto. split; [reflexivity|].
  assert (X : (if Z.of_nat (length rs) <? n then repeat_str [c] (Z.to_nat (n - Z.of_nat (length rs))) else [])
    = repeat c (Z.to_nat (n - Z.of_nat (length rs)))).
  { destruct (Z.ltb_spec (Z.of_nat (length rs)) n); [now rewrite repeat_str_single|].
    replace (Z.to_nat (n - Z.of_nat (length rs))) with 0%nat by lia. reflexivity. }
  rewrite X. split; auto. rewrite (rune_length_pad _ _ _ _ Hc E). f_equal. lia.
Qed.

(** ** Normalisation *)

Lemma normalize_folded : forall s, normalize s = folded_alnum s.
Proof.
  unfold folded_alnum. induction s as [|c s IH]; auto. cbn [normalize filter]. rewrite IH.
  unfold is_alnum, is_lower, is_upper, is_digit.
  destruct ((c =? 95) || (c =? 45)) eqn:E1; cbn [negb].
  { replace ((97 <=? c) && (c <=? 122) || (65 <=? c) && (c <=? 90) || (48 <=? c) && (c <=? 57)) with false by lia.
    reflexivity. }
  destruct ((97 <=? c) && (c <=? 122) || (48 <=? c) && (c <=? 57)) eqn:E2.
  { replace ((97 <=? c) && (c <=? 122) || (65 <=? c) && (c <=? 90) || (48 <=? c) && (c <=? 57)) with true by lia.
    cbn. f_equal. unfold to_lower, is_upper. now replace ((65 <=? c) && (c <=? 90)) with false by lia. }
  destruct ((65 <=? c) && (c <=? 90)) eqn:E3.
  { replace ((97 <=? c) && (c <=? 122) || true || (48 <=? c) && (c <=? 57)) with true by lia. reflexivity. }
  { replace ((97 <=? c) && (c <=? 122) || false || (48 <=? c) && (c <=? 57)) with false by lia. reflexivity. }
Qed.

Lemma to_lower_idem : forall c, to_lower (to_lower c) = to_lower c.
Proof.
  intros. unfold to_lower, is_upper. destruct ((65 <=? c) && (c <=? 90)) eqn:E.
  - now replace ((65 <=? c + 32) && (c + 32 <=? 90)) with false by lia.
  - now rewrite E.
Qed.

Lemma to_lower_alnum : forall c, is_alnum (to_lower c) = is_alnum c.
Proof.
  intros. unfold is_alnum, to_lower, is_lower, is_upper, is_digit.
  destruct ((65 <=? c) && (c <=? 90)) eqn:E; [|now rewrite E]. lia.
Qed.

Lemma filter_map_lower : forall s, filter is_alnum (map to_lower s) = map to_lower (filter is_alnum s).
Proof.
  induction s; auto. cbn. rewrite to_lower_alnum. destruct (is_alnum a); cbn; congruence.
Qed.

Lemma normalize_idem : forall s, normalize (normalize s) = normalize s.
Proof.
  intros. rewrite !normalize_folded. unfold folded_alnum. rewrite filter_map_lower, map_map.
  rewrite (map_ext _ to_lower to_lower_idem). f_equal.
  induction s; auto. cbn. destruct (is_alnum a) eqn:E; auto. cbn. rewrite E. congruence.
Qed.

Lemma normalize_case : forall s, normalize (map to_lower s) = normalize s.
Proof.
  intros. rewrite !normalize_folded. unfold folded_alnum. rewrite filter_map_lower, map_map.
  now rewrite (map_ext _ to_lower to_lower_idem).
Qed.

Lemma normalize_insert : forall a b c, is_alnum c = false -> normalize (a ++ c :: b) = normalize (a ++ b).
Proof.
  intros. rewrite !normalize_folded. unfold folded_alnum. rewrite !filter_app. cbn. now rewrite H.
Qed.

Lemma iequals_spec : forall a b, iequals a b = true <-> map to_lower a = map to_lower b.
Proof.
  intros a b. unfold iequals.
  assert (H : forall a b, iequals_loop a b = true <-> map to_lower a = map to_lower b).
  { clear. induction a; destruct b; cbn; split; try discriminate; auto.
    - rewrite andb_true_iff, Z.eqb_eq, IHa. intros [-> ->]; auto.
    - intros E; injection E; intros. rewrite andb_true_iff, Z.eqb_eq, IHa. auto. }
  destruct (Nat.eqb_spec (length a) (length b)); auto.
  split; [discriminate|]. intros E. apply (f_equal (@length _)) in E. rewrite !map_length in E. congruence.
Qed.
