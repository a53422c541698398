(** The lexer on plain text. *)
From Coq Require Import String.
From Verif Require Import Base StrModel TokKind TokModel TokSpec TokProofs TokRun.
Local Open Scope nat_scope.

Definition letter (c : byte) : Prop := is_alpha c = true.
Definition prose_char (c : byte) : Prop := letter c \/ c = 32%Z \/ c = 10%Z.
Lemma letter_range : forall c, letter c -> (65 <= c <= 90 \/ 97 <= c <= 122)%Z.
Proof. intros c H. unfold letter, is_alpha, is_lower, is_upper in H. lia. Qed.
Lemma letter_neq : forall c k, letter c -> is_alpha k = false -> (c =? k)%Z = false.
Proof. intros c k H K. apply Z.eqb_neq. intros ->. congruence. Qed.
Lemma letter_alnum : forall c, letter c -> is_alnum c = true.
Proof. intros c H. unfold is_alnum. now rewrite H. Qed.

Section Prose.
Variable txt : str.
Hypothesis PC : Forall prose_char txt.

Lemma peek_skip : forall p l k off, peek txt (Cu p l k) off = nth_error (skipn p txt) off.
Proof. intros. unfold peek. cbn [pos]. now rewrite nth_skip. Qed.
Lemma skip_step : forall p x r, skipn p txt = x :: r -> skipn (S p) txt = r.
Proof. intros p x r H. replace (S p) with (p + 1) by lia. rewrite <- skipn_add. now rewrite H. Qed.
Lemma skip_more : forall w p r, skipn p txt = w ++ r -> skipn (p + length w) txt = r.
Proof. intros w p r H. rewrite <- skipn_add, H. rewrite skipn_app, skipn_all, Nat.sub_diag. reflexivity. Qed.
Lemma len_left : forall p w r l k, skipn p txt = w ++ r -> length w <= left txt (Cu p l k).
Proof. intros p w r l k H. unfold left. cbn [pos]. rewrite <- skipn_length, H, app_length. lia. Qed.

Lemma run_n_exact : forall w f n p l k r, skipn p txt = w ++ r -> Forall (fun c => f c = true /\ c <> 10%Z) w ->
  (forall c, hd_error r = Some c -> f c = false) -> length w <= n ->
  run_n txt n f (Cu p l k) = Cu (p + length w) l (k + length w).
Proof.
  induction w as [|c w IH]; intros f n p l k r E F H L; cbn [app length] in *.
  - rewrite !Nat.add_0_r. destruct n; [reflexivity|]. cbn [run_n]. unfold is_pred. rewrite peek_skip, E.
    destruct r as [|x r]; [reflexivity|]. cbn. now rewrite (H x eq_refl).
  - destruct n; [lia|]. cbn [run_n]. inversion F as [|? ? [F1 F2] F']; subst. unfold is_pred. rewrite peek_skip, E. cbn [nth_error]. rewrite F1.
    unfold next. rewrite peek_skip, E. cbn [nth_error]. destruct (c =? 10)%Z eqn:N; [apply Z.eqb_eq in N; congruence|]. cbn [pos line col].
    rewrite (IH f n (S p) l (S k) r); auto; [f_equal; lia| |lia]. now apply skip_step in E.
Qed.
Lemma run_exact : forall w f p l k r, skipn p txt = w ++ r -> Forall (fun c => f c = true /\ c <> 10%Z) w ->
  (forall c, hd_error r = Some c -> f c = false) -> run txt f (Cu p l k) = Cu (p + length w) l (k + length w).
Proof. intros. unfold run. eapply run_n_exact; eauto. eapply len_left; eauto. Qed.

Lemma advance_word_exact : forall w d r p l k, skipn p txt = w ++ d :: r -> Forall letter w -> d = 32%Z \/ d = 10%Z ->
  advance_word txt (Cu p l k) = Cu (p + length w) l (k + length w).
Proof.
  intros w d r p l k E F D. unfold advance_word. cbv zeta.
  assert (R : run txt is_alnum (Cu p l k) = Cu (p + length w) l (k + length w)).
  { eapply run_exact; [exact E| |].
    - eapply Forall_impl; [|exact F]. intros c C. split; [now apply letter_alnum|]. apply letter_range in C. lia.
    - intros c C. injection C as <-. destruct D; subst; reflexivity. }
  rewrite R. apply skip_more in E. set (p' := p + length w) in *. set (k' := k + length w) in *.
  assert (J : at_joint txt (Cu p' l k') = false).
  { unfold at_joint, is_any, is_pred. rewrite peek_skip, E. cbn. destruct D; subst; reflexivity. }
  assert (JJ : forall n, joints txt n (Cu p' l k') = Cu p' l k').
  { destruct n; [reflexivity|]. cbn [joints]. now rewrite J. }
  rewrite JJ. unfold opt_next, is_at, is_pred. rewrite peek_skip, E. cbn [nth_error].
  assert (Q : (d =? 39)%Z = false) by (destruct D; subst; reflexivity). rewrite Q.
  rewrite (run_exact [] is_alnum p' l k' (d :: r)); auto.
  - cbn. f_equal; lia.
  - intros c C. injection C as <-. destruct D; subst; reflexivity.
Qed.

Lemma iat_none : forall s w d r p l k off, skipn (p + off) txt = w ++ d :: r -> d = 32%Z \/ d = 10%Z ->
  Forall (fun c => is_lower c = true) s -> map to_lower (firstn (length s) w) <> s ->
  is_iat txt (Cu p l k) off s = Ok false.
Proof.
  induction s as [|x s IH]; intros w d r p l k off E D L N; [now cbn in N|]. inversion L; subst.
  assert (LX : to_lower x = x). { unfold to_lower. destruct (is_upper x) eqn:X; [|reflexivity]. unfold is_lower, is_upper in *. lia. }
  cbn [is_iat]. rewrite LX. unfold peek. cbn [pos]. rewrite <- (Nat.add_0_r (p + off)), <- nth_skip, E.
  destruct w as [|c w]; cbn [app nth_error].
  - assert (X : (to_lower d =? x)%Z = false); [|now rewrite X]. unfold is_lower in *. destruct D; subst; apply Z.eqb_neq; cbn; lia.
  - destruct (to_lower c =? x)%Z eqn:C; [|reflexivity]. apply Z.eqb_eq in C. apply IH with (w := w) (d := d) (r := r); auto.
    + apply skip_step in E. now rewrite Nat.add_succ_r.
    + cbn [length firstn map] in N. congruence.
Qed.
Lemma ilit_inv : forall l s n, p_ilit l s = Some n -> n = length l /\ map to_lower (firstn (length l) s) = map to_lower l /\ length l <= length s.
Proof.
  unfold p_ilit. induction l as [|x l IH]; intros s n H; cbn in H; [injection H as <-; cbn; auto with arith|].
  destruct s as [|c s]; [discriminate|]. destruct (_ =? _)%Z eqn:C; [|discriminate]. apply Z.eqb_eq in C.
  destruct (p_fold _ l s) as [k|] eqn:E; [|discriminate]. injection H as <-. apply IH in E. destruct E as (-> & E & L). cbn. rewrite E, C. auto with arith.
Qed.
(** A literal with a character that is neither a letter nor white space is not found *)
Lemma ilit_none : forall l p off c, In 58%Z l -> patt txt (p_ilit l) (Cu p 0 c) off = None.
Proof.
  intros l p off c I. unfold patt. destruct (p_ilit l _) as [n|] eqn:E; [|reflexivity]. exfalso.
  apply ilit_inv in E. destruct E as (_ & E & _). assert (J : In 58%Z (map to_lower l)) by (apply (in_map to_lower) in I; exact I).
  rewrite <- E in J. apply in_map_iff in J. destruct J as (x & X & J). cbn [pos] in J.
  assert (K : In x txt). { rewrite <- (firstn_skipn (p + off) txt). apply in_or_app. right. rewrite <- (firstn_skipn (length l) (skipn (p + off) txt)). apply in_or_app. now left. }
  rewrite Forall_forall in PC. apply PC in K. destruct K as [K|[->| ->]]; try discriminate X. apply letter_range in K.
  unfold to_lower in X. destruct (is_upper x); lia.
Qed.

Lemma word_plain : forall w d r p l k o, skipn p txt = w ++ d :: r -> plain_word w -> d = 32%Z \/ d = 10%Z ->
  switch_word txt (St (Cu p l k) o) = Ok (St (Cu (p + length w) l (k + length w)) (o ++ [Token kWord w p k 0])).
Proof.
  intros w d r p l k o E (N & F & H & S3) D. unfold switch_word. cbv zeta. cbn [cur].
  assert (WORD : tokt txt kWord (advance_word txt) (St (Cu p l k) o) = Ok (St (Cu (p + length w) l (k + length w)) (o ++ [Token kWord w p k 0]))).
  { unfold tokt, tok. cbn [cur out obind]. rewrite (advance_word_exact w d r); auto. unfold mk. cbn [pos col]. do 4 f_equal.
    unfold sub, substr. rewrite E. replace (p + length w - p) with (length w) by lia. now rewrite firstn_app, firstn_all, Nat.sub_diag, app_nil_r. }
  destruct w as [|x w]; [congruence|]. unfold get. rewrite peek_skip, E. cbn [app nth_error obind].
  destruct (one_of (lit "hH") x).
  - rewrite (iat_none (lit "http") (x :: w) d r); [exact WORD|now rewrite Nat.add_0_r|auto|repeat constructor|exact H].
  - inversion F as [|? ? FX FW]; subst. destruct (one_of (lit "sS") x).
    + assert (NS : is_str txt (Cu p l k) 0 (lit "SCHEDULED:") = false).
      { destruct (is_str _ _ _ _) eqn:Z; [|reflexivity]. exfalso. unfold lit in Z. cbn [is_str AttrModel.lit] in Z.
        repeat (apply andb_prop in Z; destruct Z as [? Z]).
        match goal with H : is_at txt _ 9 _ = true |- _ => rename H into C end.
        unfold is_at, is_pred in C. destruct (peek txt (Cu p l k) 9) as [y|] eqn:P; [|discriminate].
        apply Z.eqb_eq in C. subst y. unfold peek in P. apply nth_error_In in P. rewrite Forall_forall in PC. apply PC in P.
        destruct P as [P|[P|P]]; discriminate P. }
      rewrite NS. unfold patt. cbn [pos]. rewrite Nat.add_0_r, E.
      destruct (p_seq (p_ilit (lit "src")) _ _) as [n|] eqn:P; [|exact WORD]. exfalso.
      apply seq_inv in P. destruct P as (a & b & P1 & P2 & _). apply ilit_inv in P1. destruct P1 as (-> & P1 & _).
      change (length (lit "src")) with 3 in *.
      assert (LL : length (x :: w) = 3).
      { destruct (le_lt_dec 3 (length (x :: w))) as [GE|LT].
        - apply S3. rewrite firstn_app in P1. replace (3 - length (x :: w)) with 0 in P1 by lia. cbn [firstn] in P1. rewrite app_nil_r in P1. exact P1.
        - exfalso. change (lit "src") with [115; 114; 99]%Z in P1. destruct w as [|a1 [|a2 w]]; [| |cbn [length] in LT; lia]; cbn [app firstn map] in P1.
          + injection P1 as _ P1. destruct D; subst d; cbn in P1; try discriminate; destruct (firstn 1 r); discriminate.
          + injection P1 as _ _ P1. destruct D; subst d; discriminate. }
      rewrite <- LL in P2. rewrite skipn_app, skipn_all, Nat.sub_diag in P2. cbn [app skipn] in P2.
      apply seq_inv in P2. destruct P2 as (a & b' & P2 & P3 & _). unfold p_opt, p_chr, p_cls in P2.
      destruct D; subst d; cbn in P2; injection P2 as <-; cbn in P3; discriminate.
    + assert (COL : forall q s, nth_error s q = Some 58%Z -> is_str txt (Cu p l k) 0 s = false).
      { intros q s. generalize 0 as off. revert q. induction s as [|y s IH]; intros q off Q; [destruct q; discriminate|]. cbn [is_str].
        destruct q.
        - injection Q as ->. unfold is_at at 1. unfold is_pred. destruct (peek txt (Cu p l k) off) as [y|] eqn:P; [|reflexivity].
          destruct (y =? 58)%Z eqn:Y; [|reflexivity]. apply Z.eqb_eq in Y. subst y. exfalso. unfold peek in P. apply nth_error_In in P. rewrite Forall_forall in PC. apply PC in P.
          destruct P as [P|[P|P]]; discriminate P.
        - rewrite (IH q (S off) Q). apply Bool.andb_false_r. }
      destruct (x =? 68)%Z; [rewrite (COL 8 (lit "DEADLINE:") eq_refl); exact WORD|].
      destruct (x =? 67)%Z; [rewrite (COL 6 (lit "CLOSED:") eq_refl); exact WORD|exact WORD].
Qed.

Lemma char_word : forall w d r p l k o, skipn p txt = w ++ d :: r -> plain_word w -> d = 32%Z \/ d = 10%Z ->
  switch_char txt (St (Cu p l k) o) = Ok (St (Cu (p + length w) l (k + length w)) (o ++ [Token kWord w p k 0])).
Proof.
  intros w d r p l k o E W D. pose proof (word_plain _ _ _ p l k o E W D) as R. destruct W as (N & F & _).
  destruct w as [|x w]; [congruence|]. inversion F as [|? ? FX _]; subst. fold (letter x) in FX.
  unfold switch_char. cbv zeta. cbn [cur]. unfold get. rewrite peek_skip, E. cbn [app nth_error obind].
  repeat match goal with |- context [(x =? ?q)%Z] => rewrite (letter_neq x q FX eq_refl) end. unfold letter in FX. rewrite FX. exact R.
Qed.
Lemma char_space : forall x r p l k o, skipn p txt = 32%Z :: x :: r -> letter x ->
  switch_char txt (St (Cu p l k) o) = Ok (St (Cu (p + 1) l (k + 1)) (o ++ [Token kWhitespace [32%Z] p k 0])).
Proof.
  intros x r p l k o E X. unfold switch_char. cbv zeta. cbn [cur]. unfold get. rewrite peek_skip, E. cbn [nth_error obind].
  change (tokt txt kWhitespace (run txt (Z.eqb 32)) (St (Cu p l k) o) = Ok (St (Cu (p + 1) l (k + 1)) (o ++ [Token kWhitespace [32%Z] p k 0]))).
  unfold tokt, tok. cbn [cur out obind]. rewrite (run_exact [32%Z] (Z.eqb 32) p l k (x :: r)); auto.
  - cbn [length]. unfold mk. cbn [pos col]. do 4 f_equal. unfold sub, substr. rewrite E. replace (p + 1 - p) with 1 by lia. reflexivity.
  - repeat constructor. discriminate.
  - intros c C. injection C as <-. rewrite Z.eqb_sym. now apply letter_neq.
Qed.
Lemma char_newline : forall r p l k o, skipn p txt = 10%Z :: r -> (forall c, hd_error r = Some c -> letter c) ->
  switch_char txt (St (Cu p l k) o) = Ok (St (Cu (p + 1) (S l) 0) (o ++ [Token kNewline [10%Z] p 0 (S l)])).
Proof.
  intros r p l k o E X. unfold switch_char. cbv zeta. cbn [cur]. unfold get. rewrite peek_skip, E. cbn [nth_error obind].
  change (newline_token txt (St (Cu p l k) o) = Ok (St (Cu (p + 1) (S l) 0) (o ++ [Token kNewline [10%Z] p 0 (S l)]))).
  unfold newline_token. cbn [cur]. assert (LL := len_left p [10%Z] r l k E). cbn [length] in LL.
  destruct (left txt (Cu p l k)) as [|m]; [lia|]. cbn [newlines]. unfold is_at at 1, is_pred at 1. rewrite peek_skip, E. cbn [nth_error]. change (10 =? 10)%Z with true. cbv iota.
  assert (NX : next txt (Cu p l k) = Cu (S p) (S l) 0) by (unfold next; rewrite peek_skip, E; reflexivity). rewrite NX.
  pose proof (skip_step _ _ _ E) as E'. rewrite (run_exact [] (Z.eqb 32) (S p) (S l) 0 r); [|exact E'|constructor|].
  - cbn [length]. rewrite !Nat.add_0_r. unfold is_at, is_pred. rewrite peek_skip, E'.
    assert (Z : match nth_error r 0 with Some x => (x =? 10)%Z | None => false end = false).
    { destruct r as [|c r]; [reflexivity|]. cbn. apply letter_neq; [now apply X|reflexivity]. }
    rewrite Z. cbn [pos col line out]. replace (p + 1) with (S p) by lia. do 5 f_equal. unfold sub, substr. rewrite E. replace (S p - p) with 1 by lia. reflexivity.
  - intros c C. rewrite Z.eqb_sym. apply letter_neq; [now apply X|reflexivity].
Qed.
Lemma start_none : forall x r self n p l o, skipn p txt = x :: r -> letter x -> line_start txt self n (St (Cu p l 0) o) = None.
Proof.
  intros x r self n p l o E X. unfold line_start. cbv zeta. cbn [cur].
  assert (CA : forall f, f x = false -> count_at txt f (Cu p l 0) 0 = 0).
  { intros f H. unfold count_at. cbn [pos]. rewrite Nat.add_0_r, E. cbn. now rewrite H. }
  rewrite (CA (Z.eqb 32)) by (rewrite Z.eqb_sym; now apply letter_neq).
  assert (IA : forall ch, is_alpha ch = false -> is_at txt (Cu p l 0) 0 ch = false).
  { intros ch H. unfold is_at, is_pred. rewrite peek_skip, E. cbn [nth_error]. now apply letter_neq. }
  assert (CL : forall ch, is_alpha ch = false -> check_leading txt (Cu p l 0) ch 0 = false) by (intros; unfold check_leading; rewrite IA; auto).
  rewrite !CL by reflexivity.
  assert (TS : table_separator txt (Cu p l 0) 0 = None).
  { unfold table_separator. rewrite IA by reflexivity. destruct (left txt (Cu p l 0)); cbn [sep_columns]; [reflexivity|]. now rewrite IA by reflexivity. }
  rewrite TS.
  assert (IL : forall q, In 58%Z q -> patt txt (p_ilit q) (Cu p l 0) 0 = None) by (intros q Q; apply (ilit_none q p 0 0 Q)).
  rewrite !IL by (cbn; tauto).
  assert (DG : forall q, patt txt (p_seq p_digits q) (Cu p l 0) 0 = None).
  { intros q. unfold patt. cbn [pos]. rewrite Nat.add_0_r, E. unfold p_seq, p_digits, p_many1. cbn [run_len].
    assert (Z : is_digit x = false). { apply letter_range in X. unfold is_digit. lia. } now rewrite Z. }
  rewrite DG.
  assert (CO : forall q, patt txt (p_seq (p_chr 58%Z) q) (Cu p l 0) 0 = None).
  { intros q. unfold patt. cbn [pos]. rewrite Nat.add_0_r, E. unfold p_seq, p_chr, p_cls. rewrite Z.eqb_sym, (letter_neq x 58%Z X eq_refl). reflexivity. }
  rewrite !CO. cbn [is_str]. unfold lit. cbn [AttrModel.lit is_str]. now rewrite IA by reflexivity.
Qed.

Lemma step_word : forall w d r n p l k o, skipn p txt = w ++ d :: r -> plain_word w -> d = 32%Z \/ d = 10%Z ->
  guard (regular txt (S n)) (St (Cu p l k) o) = Ok (St (Cu (p + length w) l (k + length w)) (o ++ [Token kWord w p k 0])).
Proof.
  intros w d r n p l k o E W D. unfold guard. cbn [regular]. unfold regular_body. cbn [cur col].
  pose proof (char_word _ _ _ p l k o E W D) as R. destruct W as (N & F & _). destruct w as [|x w]; [congruence|].
  inversion F; subst. destruct (k =? 0) eqn:K.
  - apply Nat.eqb_eq in K. subst k. rewrite (start_none x (w ++ d :: r)) by auto. rewrite R. cbn [obind cur pos].
    destruct (_ =? p) eqn:Z; [apply Nat.eqb_eq in Z; cbn in Z; lia|reflexivity].
  - rewrite R. cbn [obind cur pos]. destruct (_ =? p) eqn:Z; [apply Nat.eqb_eq in Z; cbn in Z; lia|reflexivity].
Qed.
Lemma step_other : forall n p l k o s, k <> 0 -> switch_char txt (St (Cu p l k) o) = Ok s -> pos (cur s) <> p ->
  guard (regular txt (S n)) (St (Cu p l k) o) = Ok s.
Proof.
  intros n p l k o s K R P. unfold guard. cbn [regular]. unfold regular_body. cbn [cur col].
  destruct (k =? 0) eqn:Z; [apply Nat.eqb_eq in Z; congruence|]. rewrite R. cbn [obind pos].
  destruct (_ =? p) eqn:Y; [apply Nat.eqb_eq in Y; congruence|reflexivity].
Qed.

Definition shown (t : token) : tk * str := (kind t, text t).
Lemma has : forall p l k x r, skipn p txt = x :: r -> has_text txt (Cu p l k) = true.
Proof. intros p l k x r H. unfold has_text, has_pos. cbn [pos]. apply Nat.ltb_lt. assert (L : length (skipn p txt) = S (length r)) by now rewrite H. rewrite skipn_length in L. lia. Qed.

Lemma lines_prose : forall f ws n p l k o r, ws <> [] -> Forall plain_word ws -> skipn p txt = line_text ws ++ r ->
  (forall c, hd_error r = Some c -> letter c) -> length (line_text ws) <= n ->
  exists m l' ts, n - length (line_text ws) <= m /\ map shown ts = line_tokens ws /\
    loop n (has_text txt) (guard (regular txt (S f))) (St (Cu p l k) o) =
    loop m (has_text txt) (guard (regular txt (S f))) (St (Cu (p + length (line_text ws)) l' 0) (o ++ ts)).
Proof.
  induction ws as [|w ws IH]; intros n p l k o r N F E H L; [congruence|]. inversion F as [|? ? FW FS]; subst.
  pose proof FW as (NW & FL & _). destruct w as [|x w]; [congruence|].
  assert (KK : k + length (x :: w) <> 0) by (cbn [length]; lia). destruct ws as [|w2 ws].
  - cbn [line_text] in *. rewrite <- app_assoc in E. cbn [app] in E. rewrite app_length in *. cbn [length] in *.
    destruct n as [|[|n]]; try lia. cbn [loop cur]. rewrite (has _ _ _ _ _ E).
    rewrite (step_word (x :: w) 10%Z r) by auto. cbn [obind loop cur].
    pose proof (skip_more (x :: w) p (10%Z :: r) E) as E'. rewrite (has _ _ _ _ _ E').
    rewrite (step_other _ _ _ _ _ _ KK (char_newline r _ _ _ _ E' H)) by (cbn [cur pos]; lia).
    cbn [obind]. exists n. exists (S l), [Token kWord (x :: w) p k 0; Token kNewline [10%Z] (p + length (x :: w)) 0 (S l)]. split; [lia|]. split; [reflexivity|]. rewrite <- app_assoc. cbn [app length]. f_equal. f_equal. f_equal. lia.
  - assert (LT : line_text ((x :: w) :: w2 :: ws) = (x :: w) ++ 32%Z :: line_text (w2 :: ws)) by reflexivity. rewrite LT in *.
    rewrite <- app_assoc in E. cbn [app] in E. rewrite app_length in *. cbn [length] in L.
    destruct n as [|[|n]]; try (cbn [length] in L; lia). cbn [loop cur]. rewrite (has _ _ _ _ _ E).
    rewrite (step_word (x :: w) 32%Z (line_text (w2 :: ws) ++ r)) by auto. cbn [obind loop cur].
    pose proof (skip_more (x :: w) p (32%Z :: line_text (w2 :: ws) ++ r) E) as E'. rewrite (has _ _ _ _ _ E').
    assert (HD : exists y q, line_text (w2 :: ws) ++ r = y :: q /\ letter y).
    { inversion FS as [|? ? (N2 & F2 & _) _]; subst. destruct w2 as [|y w2]; [congruence|]. inversion F2; subst.
      destruct ws; cbn; eauto. }
    destruct HD as (y & q & HQ & LY). rewrite HQ in E'.
    rewrite (step_other _ _ _ _ _ _ KK (char_space y q _ _ _ _ E' LY)) by (cbn [cur pos]; lia).
    cbn [obind]. rewrite <- HQ in E'. apply skip_step in E'. replace (S (p + length (x :: w))) with (p + length (x :: w) + 1) in E' by lia.
    destruct (IH n (p + length (x :: w) + 1) l (k + length (x :: w) + 1) ((o ++ [Token kWord (x :: w) p k 0]) ++ [Token kWhitespace [32%Z] (p + length (x :: w)) (k + length (x :: w)) 0]) r ltac:(discriminate) FS E' H ltac:(lia)) as (m & l' & ts & M & TS & EQ).
    rewrite EQ. exists m, l', (Token kWord (x :: w) p k 0 :: Token kWhitespace [32%Z] (p + length (x :: w)) (k + length (x :: w)) 0 :: ts).
    split; [cbn [length]; lia|]. split; [cbn [map line_tokens]; rewrite TS; reflexivity|].
    rewrite <- !app_assoc. cbn [app]. f_equal. f_equal. f_equal. cbn [length]. lia.
Qed.
Lemma all_prose : forall f lines n p l o, Forall (fun ws => ws <> [] /\ Forall plain_word ws) lines ->
  skipn p txt = concat (map line_text lines) -> length (concat (map line_text lines)) < n ->
  exists l' ts, map shown ts = concat (map line_tokens lines) /\
    loop n (has_text txt) (guard (regular txt (S f))) (St (Cu p l 0) o) = Ok (St (Cu (p + length (concat (map line_text lines))) l' 0) (o ++ ts)).
Proof.
  induction lines as [|ws lines IH]; intros n p l o F E L.
  - destruct n; [cbn in L; lia|]. exists l, []. split; [reflexivity|]. cbn [loop cur map concat] in *.
    assert (Z : has_text txt (Cu p l 0) = false). { unfold has_text, has_pos. cbn [pos]. apply Nat.ltb_ge. apply (f_equal (@length byte)) in E. rewrite skipn_length in E. cbn in E. lia. }
    rewrite Z. now rewrite app_nil_r, Nat.add_0_r.
  - inversion F as [|? ? [N W] F']; subst. cbn [map concat] in *. rewrite app_length in L.
    destruct (lines_prose f ws n p l 0 o _ N W E) as (m & l' & ts & M & TS & EQ); [|lia|].
    { destruct lines as [|ws2 lines]; [discriminate|]. inversion F' as [|? ? [N2 W2] _]; subst. destruct ws2 as [|w2 ws2]; [congruence|].
      inversion W2 as [|? ? (NN & F2 & _) _]; subst. destruct w2 as [|y w2]; [congruence|]. inversion F2; subst. intros c C.
      destruct ws2; cbn in C; injection C as <-; auto. }
    apply skip_more in E. destruct (IH m _ l' (o ++ ts) F' E ltac:(lia)) as (l2 & ts2 & TS2 & EQ2).
    rewrite EQ, EQ2. exists l2, (ts ++ ts2). split; [now rewrite map_app, TS, TS2|]. rewrite app_length, <- app_assoc. do 3 f_equal. lia.
Qed.
End Prose.

Lemma line_chars : forall ws, Forall plain_word ws -> Forall prose_char (line_text ws).
Proof.
  induction 1 as [|w ws (N & F & _) _ IH]; [constructor|]. assert (X : Forall prose_char w) by (eapply Forall_impl; [|exact F]; intros; now left).
  destruct ws as [|w2 ws]; cbn [line_text] in *; apply Forall_app; split; auto; constructor; auto; unfold prose_char; auto.
Qed.
Lemma tokenize_prose : forall lines fuel, lines <> [] -> Forall (fun ws => ws <> [] /\ Forall plain_word ws) lines ->
  length (concat (map line_text lines)) < fuel ->
  exists ts, tokenize (concat (map line_text lines)) fuel = Ok ts /\ map shown ts = concat (map line_tokens lines).
Proof.
  intros lines fuel N F L. destruct fuel as [|f]; [lia|].
  assert (PC : Forall prose_char (concat (map line_text lines))).
  { clear - F. induction F as [|ws lines [_ W] _ IH]; [constructor|]. cbn. apply Forall_app. split; [now apply line_chars|auto]. }
  destruct (all_prose _ PC f lines (S f) 0 0 [] F eq_refl L) as (l' & ts & TS & EQ). exists ts. split; [|exact TS].
  unfold tokenize. destruct (concat (map line_text lines)) eqn:Z.
  - exfalso. destruct lines as [|ws lines]; [congruence|]. inversion F as [|? ? [N2 W2] _]; subst. destruct ws as [|w2 ws]; [congruence|].
    cbn [map concat] in Z. destruct ws; cbn in Z; rewrite <- ?app_assoc in Z; apply app_eq_nil in Z; destruct Z as [_ Z]; discriminate Z.
  - rewrite EQ. reflexivity.
Qed.
