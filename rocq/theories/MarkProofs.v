(** The tokenizer on words with markup. *)
From Coq Require Import String.
From Verif Require Import Base StrModel TokKind TokModel TokSpec TokProofs TokRun TokProse RegroupModel RegroupSpec RegroupProofs RecombSpec.
Local Open Scope nat_scope.

Definition shown (t : token) : tk * str := (kind t, text t).
Definition bol (b : bool) (c : nat) : Prop := if b then c = 0 else c <> 0.

(** ** Chains of lexemes *)
Section Chain.
Variable txt : str.
(** At the beginning of a line or not, the lexer takes one token from the text, whatever came before. *)
Definition lexeme (b : bool) (k : tk) (w rest : str) (b' : bool) : Prop :=
  forall f p l c o, skipn p txt = w ++ rest -> bol b c ->
  exists l' c' t, guard (regular txt (S f)) (St (Cu p l c) o) = Ok (St (Cu (p + length w) l' c') (o ++ [t])) /\
    shown t = (k, w) /\ bol b' c'.
Inductive chain : bool -> list (tk * str) -> Prop :=
| chain_nil : forall b, chain b []
| chain_cons : forall b k w b' r, w <> [] -> lexeme b k w (concat (map snd r)) b' -> chain b' r -> chain b ((k, w) :: r).

Lemma chain_loop : forall f b r, chain b r -> forall n p l c o, skipn p txt = concat (map snd r) -> bol b c -> length r < n ->
  exists l' c' ts, loop n (has_text txt) (guard (regular txt (S f))) (St (Cu p l c) o) = Ok (St (Cu (p + length (concat (map snd r))) l' c') (o ++ ts)) /\ map shown ts = r.
Proof.
  intros f b r C. induction C as [b|b k w b' r N X _ IH]; intros n p l c o E B L; (destruct n; [lia|]); cbn [map concat snd length] in *.
  - exists l, c, []. split; [|reflexivity]. cbn [loop cur].
    assert (Z : has_text txt (Cu p l c) = false). { unfold has_text, has_pos. cbn [pos]. apply Nat.ltb_ge. apply (f_equal (@length byte)) in E. rewrite skipn_length in E. cbn in E. lia. }
    rewrite Z. now rewrite app_nil_r, Nat.add_0_r.
  - cbn [loop cur]. destruct (X f p l c o E B) as (l1 & c1 & t & G & S & B1). destruct w as [|x w]; [congruence|].
    rewrite (has _ _ _ _ _ _ E), G. cbn [obind]. destruct (IH n (p + length (x :: w)) l1 c1 (o ++ [t])) as (l2 & c2 & ts & G2 & S2); auto; [now apply skip_more in E|lia|].
    rewrite G2. exists l2, c2, (t :: ts). cbn [map]. rewrite S, S2, <- app_assoc, app_length. split; [|auto]. cbn [app]. do 3 f_equal. lia.
Qed.
End Chain.
Lemma chain_tokenize : forall r fuel, r <> [] -> chain (concat (map snd r)) true r -> length (concat (map snd r)) < fuel ->
  exists ts, tokenize (concat (map snd r)) fuel = Ok ts /\ map shown ts = r.
Proof.
  intros r fuel N C L. set (txt := concat (map snd r)) in *. destruct fuel as [|f]; [lia|].
  assert (LR : length r <= length txt).
  { clear - C. subst txt. revert C. generalize (concat (map snd r)) at 1 as txt. generalize true. induction r as [|[k w] r IH]; intros b txt C; cbn; [lia|].
    inversion C as [|? ? ? b' ? NW _ C']; subst. apply IH in C'. rewrite app_length. destruct w; [congruence|]. cbn. lia. }
  destruct (chain_loop txt f true r C (S f) 0 0 0 []) as (l' & c' & ts & G & S); [reflexivity|reflexivity|lia|].
  exists ts. split; [|exact S]. unfold tokenize. destruct txt eqn:Z; [cbn in LR; destruct r; [congruence|cbn in LR; lia]|]. rewrite G. reflexivity.
Qed.

(** ** The lexemes *)
Definition marker (c : byte) : Prop := In c [42; 47; 95; 43; 61]%Z.
Definition text_char (c : byte) : Prop := letter c \/ c = 32%Z \/ c = 10%Z \/ marker c.
Definition stop (c : byte) : Prop := c = 32%Z \/ c = 10%Z \/ marker c.
Lemma stop_cases : forall c, stop c -> In c [32; 10; 42; 47; 95; 43; 61]%Z.
Proof. intros c [->|[->|H]]; cbn in *; tauto. Qed.

Section Lexemes.
Variable txt : str.
Hypothesis PC : Forall text_char txt.

Lemma no_colon : ~ In 58%Z txt.
Proof. intros I. rewrite Forall_forall in PC. apply PC in I. destruct I as [I|[I|[I|I]]]; try discriminate. cbn in I. intuition discriminate. Qed.
Lemma word_end : forall w d r p l k, skipn p txt = w ++ d :: r -> Forall letter w -> stop d -> (d = 95%Z -> exists e r', r = e :: r' /\ is_alnum e = false) ->
  advance_word txt (Cu p l k) = Cu (p + length w) l (k + length w).
Proof.
  intros w d r p l k E F D U. unfold advance_word. cbv zeta. apply stop_cases in D.
  assert (A : is_alnum d = false) by (cbn in D; intuition subst; reflexivity).
  assert (R : run txt is_alnum (Cu p l k) = Cu (p + length w) l (k + length w)).
  { eapply run_exact; [exact E| |].
    - eapply Forall_impl; [|exact F]. intros c C. split; [now apply letter_alnum|]. apply letter_range in C. lia.
    - intros c C. injection C as <-. exact A. }
  rewrite R. apply skip_more in E. set (p' := p + length w) in *. set (k' := k + length w) in *.
  assert (J : at_joint txt (Cu p' l k') = false).
  { unfold at_joint, is_any, is_pred. rewrite !peek_skip, E. cbn [nth_error]. destruct (Z.eq_dec d 95) as [->|N].
    - destruct (U eq_refl) as (e & r' & -> & X). cbn. now rewrite X.
    - cbn in D. intuition subst; try congruence; reflexivity. }
  assert (JJ : forall n, joints txt n (Cu p' l k') = Cu p' l k').
  { destruct n; [reflexivity|]. cbn [joints]. now rewrite J. }
  rewrite JJ. unfold opt_next, is_at, is_pred. rewrite peek_skip, E. cbn [nth_error].
  assert (Q : (d =? 39)%Z = false) by (cbn in D; intuition subst; reflexivity). rewrite Q.
  rewrite (run_exact txt [] is_alnum p' l k' (d :: r)); auto.
  - cbn. f_equal; lia.
  - intros c C. injection C as <-. exact A.
Qed.
Lemma no_iat : forall s w d r p l k off, skipn (p + off) txt = w ++ d :: r -> stop d ->
  Forall (fun c => is_lower c = true) s -> map to_lower (firstn (length s) w) <> s ->
  is_iat txt (Cu p l k) off s = Ok false.
Proof.
  induction s as [|x s IH]; intros w d r p l k off E D L N; [now cbn in N|]. inversion L; subst.
  assert (LX : to_lower x = x). { unfold to_lower. destruct (is_upper x) eqn:X; [|reflexivity]. unfold is_lower, is_upper in *. lia. }
  cbn [is_iat]. rewrite LX. unfold peek. cbn [pos]. rewrite <- (Nat.add_0_r (p + off)), <- nth_skip, E.
  destruct w as [|c w]; cbn [app nth_error].
  - assert (X : (to_lower d =? x)%Z = false); [|now rewrite X]. apply stop_cases in D. unfold is_lower in *. cbn in D. intuition subst; apply Z.eqb_neq; cbn; lia.
  - destruct (to_lower c =? x)%Z eqn:C; [|reflexivity]. apply Z.eqb_eq in C. apply IH with (w := w) (d := d) (r := r); auto.
    + apply skip_step in E. now rewrite Nat.add_succ_r.
    + cbn [length firstn map] in N. congruence.
Qed.
Lemma no_ilit : forall l p ln c off, In 58%Z l -> patt txt (p_ilit l) (Cu p ln c) off = None.
Proof.
  intros l p ln c off I. unfold patt. destruct (p_ilit l _) as [n|] eqn:E; [|reflexivity]. exfalso.
  apply ilit_inv in E. destruct E as (_ & E & _). assert (J : In 58%Z (map to_lower l)) by (apply (in_map to_lower) in I; exact I).
  rewrite <- E in J. apply in_map_iff in J. destruct J as (x & X & J). cbn [pos] in J.
  assert (K : In x txt). { rewrite <- (firstn_skipn (p + off) txt). apply in_or_app. right. rewrite <- (firstn_skipn (length l) (skipn (p + off) txt)). apply in_or_app. now left. }
  assert (x <> 58%Z) by (intros ->; now apply no_colon). unfold to_lower in X. destruct (is_upper x) eqn:U; [|congruence]. unfold is_upper in U. lia.
Qed.
Lemma no_str : forall p l k s q, nth_error s q = Some 58%Z -> is_str txt (Cu p l k) 0 s = false.
Proof.
  intros p l k s q. generalize 0 as off. revert q. induction s as [|y s IH]; intros q off Q; [destruct q; discriminate|]. cbn [is_str].
  destruct q.
  - injection Q as ->. unfold is_at at 1. unfold is_pred. destruct (peek txt (Cu p l k) off) as [y|] eqn:P; [|reflexivity].
    destruct (y =? 58)%Z eqn:Y; [|reflexivity]. apply Z.eqb_eq in Y. subst y. exfalso. unfold peek in P. apply nth_error_In in P. now apply no_colon.
  - rewrite (IH q (S off) Q). apply Bool.andb_false_r.
Qed.
Lemma char_plain : forall w d r p l k o, skipn p txt = w ++ d :: r -> plain_word w -> stop d -> (d = 95%Z -> exists e r', r = e :: r' /\ is_word e = false) ->
  switch_char txt (St (Cu p l k) o) = Ok (St (Cu (p + length w) l (k + length w)) (o ++ [Token kWord w p k 0])).
Proof.
  intros w d r p l k o E (N & F & H & S3) D U.
  assert (WORD : tokt txt kWord (advance_word txt) (St (Cu p l k) o) = Ok (St (Cu (p + length w) l (k + length w)) (o ++ [Token kWord w p k 0]))).
  { unfold tokt, tok. cbn [cur out obind]. rewrite (word_end w d r); auto.
    - unfold mk. cbn [pos col]. do 4 f_equal.
      unfold sub, substr. rewrite E. replace (p + length w - p) with (length w) by lia. now rewrite firstn_app, firstn_all, Nat.sub_diag, app_nil_r.
    - intros Q. destruct (U Q) as (e & r' & R & X). exists e, r'. split; [auto|]. unfold is_word in X. destruct (is_alnum e); [discriminate|auto]. }
  destruct w as [|x w]; [congruence|]. inversion F as [|? ? FX FW]; subst. fold (letter x) in FX.
  unfold switch_char. cbv zeta. cbn [cur]. unfold get at 1. rewrite peek_skip, E. cbn [app nth_error obind].
  repeat match goal with |- context [(x =? ?q)%Z] => rewrite (letter_neq x q FX eq_refl) end. unfold letter in FX. rewrite FX.
  unfold switch_word. cbv zeta. cbn [cur]. unfold get. rewrite peek_skip, E. cbn [app nth_error obind].
  destruct (one_of (lit "hH") x).
  - rewrite (no_iat (lit "http") (x :: w) d r); [exact WORD|now rewrite Nat.add_0_r|auto|repeat constructor|exact H].
  - destruct (one_of (lit "sS") x).
    + rewrite (no_str p l k (lit "SCHEDULED:") 9 eq_refl). unfold patt. cbn [pos]. rewrite Nat.add_0_r, E.
      destruct (p_seq (p_ilit (lit "src")) _ _) as [n|] eqn:P; [|exact WORD]. exfalso.
      apply seq_inv in P. destruct P as (a & b & P1 & P2 & _). apply ilit_inv in P1. destruct P1 as (-> & P1 & _).
      change (length (lit "src")) with 3 in *. apply stop_cases in D.
      assert (LL : length (x :: w) = 3).
      { destruct (le_lt_dec 3 (length (x :: w))) as [GE|LT].
        - apply S3. rewrite firstn_app in P1. replace (3 - length (x :: w)) with 0 in P1 by lia. cbn [firstn] in P1. rewrite app_nil_r in P1. exact P1.
        - exfalso. change (lit "src") with [115; 114; 99]%Z in P1. destruct w as [|a1 [|a2 w]]; [| |cbn [length] in LT; lia]; cbn [app firstn map] in P1.
          + injection P1 as _ P1. cbn in D. intuition subst; cbn in P1; try discriminate; destruct (firstn 1 r); discriminate.
          + injection P1 as _ _ P1. cbn in D. intuition subst; discriminate. }
      rewrite <- LL in P2. rewrite skipn_app, skipn_all, Nat.sub_diag in P2. cbn [app skipn] in P2.
      apply seq_inv in P2. destruct P2 as (a & b' & P2 & P3 & _). unfold p_opt, p_chr, p_cls in P2.
      destruct (Z.eq_dec d 95) as [->|ND].
      * cbn in P2. injection P2 as <-. destruct (U eq_refl) as (e & r' & -> & X). cbn [skipn] in P3. unfold p_many1 in P3. cbn [run_len] in P3. rewrite X in P3. discriminate.
      * assert (Q : (95 =? d)%Z = false) by (apply Z.eqb_neq; congruence).
        assert (Q' : (d =? 95)%Z = false) by (apply Z.eqb_neq; congruence). rewrite ?Q, ?Q' in P2. injection P2 as <-. cbn [skipn] in P3. unfold p_many1 in P3. cbn [run_len] in P3.
        assert (X : is_word d = false) by (cbn in D; intuition subst; try congruence; reflexivity). rewrite X in P3. discriminate.
    + destruct (x =? 68)%Z; [rewrite (no_str p l k (lit "DEADLINE:") 8 eq_refl); exact WORD|].
      destruct (x =? 67)%Z; [rewrite (no_str p l k (lit "CLOSED:") 6 eq_refl); exact WORD|exact WORD].
Qed.
(** Nothing special begins with a letter or a mark in front of one *)
Lemma no_start : forall x r self n p l o, skipn p txt = x :: r -> letter x \/ marker x /\ (exists y r', r = y :: r' /\ y <> 32%Z /\ y <> 10%Z) ->
  line_start txt self n (St (Cu p l 0) o) = None.
Proof.
  intros x r self n p l o E X. unfold line_start. cbv zeta. cbn [cur].
  assert (CA : forall f, f x = false -> count_at txt f (Cu p l 0) 0 = 0).
  { intros f H. unfold count_at. cbn [pos]. rewrite Nat.add_0_r, E. cbn. now rewrite H. }
  assert (NE : forall ch, is_alpha ch = false -> ~ marker ch -> (x =? ch)%Z = false).
  { intros ch H M. destruct X as [X|[X _]]; [now apply letter_neq|]. apply Z.eqb_neq. intros ->. auto. }
  rewrite (CA (Z.eqb 32)) by (rewrite Z.eqb_sym; apply NE; [reflexivity|cbn; intuition discriminate]).
  assert (IA : forall ch, is_alpha ch = false -> ~ marker ch -> is_at txt (Cu p l 0) 0 ch = false).
  { intros ch H M. unfold is_at, is_pred. rewrite peek_skip, E. cbn [nth_error]. now apply NE. }
  assert (CL : forall ch, is_alpha ch = false -> check_leading txt (Cu p l 0) ch 0 = false).
  { intros ch H. unfold check_leading. destruct X as [X|(M & y & r' & -> & Y1 & Y2)].
    - unfold is_at, is_pred at 1. rewrite peek_skip, E. cbn [nth_error]. now rewrite letter_neq.
    - unfold is_any, is_pred. rewrite peek_skip, E. cbn [Nat.add nth_error one_of existsb]. apply Z.eqb_neq in Y1, Y2. unfold one_of. cbn [existsb].
      rewrite ?(Z.eqb_sym _ y), ?Y1, ?Y2. now rewrite Bool.andb_false_r. }
  rewrite !CL by reflexivity.
  assert (TS : table_separator txt (Cu p l 0) 0 = None).
  { unfold table_separator. rewrite IA by (try reflexivity; cbn; intuition discriminate). destruct (left txt (Cu p l 0)); cbn [sep_columns]; [reflexivity|]. now rewrite IA by (try reflexivity; cbn; intuition discriminate). }
  rewrite TS. rewrite !no_ilit by (cbn; tauto).
  assert (DG : forall q, patt txt (p_seq p_digits q) (Cu p l 0) 0 = None).
  { intros q. unfold patt. cbn [pos]. rewrite Nat.add_0_r, E. unfold p_seq, p_digits, p_many1. cbn [run_len].
    assert (Z : is_digit x = false). { destruct X as [X|[X _]]; [apply letter_range in X; unfold is_digit; lia|]. cbn in X. intuition subst; reflexivity. } now rewrite Z. }
  rewrite DG.
  assert (CO : forall q, patt txt (p_seq (p_chr 58%Z) q) (Cu p l 0) 0 = None).
  { intros q. unfold patt. cbn [pos]. rewrite Nat.add_0_r, E. unfold p_seq, p_chr, p_cls. rewrite Z.eqb_sym, NE; [reflexivity|reflexivity|cbn; intuition discriminate]. }
  rewrite !CO. cbn [is_str]. unfold lit. cbn [AttrModel.lit is_str]. now rewrite IA by (try reflexivity; cbn; intuition discriminate).
Qed.
Lemma go : forall n p l k o s, switch_char txt (St (Cu p l k) o) = Ok s -> pos (cur s) <> p ->
  k <> 0 \/ (forall self n, line_start txt self n (St (Cu p l k) o) = None) -> guard (regular txt (S n)) (St (Cu p l k) o) = Ok s.
Proof.
  intros n p l k o s R P K. unfold guard. cbn [regular]. unfold regular_body. cbn [cur col].
  destruct (k =? 0) eqn:Z.
  - destruct K as [K|K]; [apply Nat.eqb_eq in Z; congruence|]. rewrite K, R. cbn [obind pos]. destruct (_ =? p) eqn:Y; [apply Nat.eqb_eq in Y; congruence|reflexivity].
  - rewrite R. cbn [obind pos]. destruct (_ =? p) eqn:Y; [apply Nat.eqb_eq in Y; congruence|reflexivity].
Qed.

Lemma l_word : forall b w d r, plain_word w -> stop d -> (d = 95%Z -> exists e r', r = e :: r' /\ is_word e = false) ->
  lexeme txt b kWord w (d :: r) false.
Proof.
  intros b w d r W D U f p l c o E B. eexists l, (c + length w), _. pose proof W as (N & F & _). destruct w as [|x w]; [congruence|]. inversion F; subst. split; [|split].
  - apply go; [apply (char_plain (x :: w) d r); auto|cbn; lia|]. destruct b; cbn in B; [|auto]. subst c. right. intros. eapply no_start; [exact E|]. left. auto.
  - reflexivity.
  - cbn. lia.
Qed.
Lemma l_space : forall x r, x <> 32%Z -> lexeme txt false kWhitespace [32%Z] (x :: r) false.
Proof.
  intros x r X f p l c o E B. exists l, (c + 1), (Token kWhitespace [32%Z] p c 0). split; [|split].
  - apply go; [|cbn; lia|auto]. unfold switch_char. cbv zeta. cbn [cur]. unfold get. rewrite peek_skip, E. cbn [app nth_error obind].
    change (tokt txt kWhitespace (run txt (Z.eqb 32)) (St (Cu p l c) o) = Ok (St (Cu (p + 1) l (c + 1)) (o ++ [Token kWhitespace [32%Z] p c 0]))).
    unfold tokt, tok. cbn [cur out obind]. rewrite (run_exact txt [32%Z] (Z.eqb 32) p l c (x :: r)); auto.
    + cbn [length]. unfold mk. cbn [pos col]. do 4 f_equal. unfold sub, substr. rewrite E. replace (p + 1 - p) with 1 by lia. reflexivity.
    + repeat constructor. discriminate.
    + intros y C. injection C as <-. rewrite Z.eqb_sym. now apply Z.eqb_neq.
  - reflexivity.
  - cbn. lia.
Qed.
Lemma l_newline : forall r, (forall c, hd_error r = Some c -> c <> 32%Z /\ c <> 10%Z) -> lexeme txt false kNewline [10%Z] r true.
Proof.
  intros r X f p l k o E B. exists (S l), 0, (Token kNewline [10%Z] p 0 (S l)). split; [|split].
  - apply go; [|cbn; lia|auto]. cbn [app] in E. unfold switch_char. cbv zeta. cbn [cur]. unfold get. rewrite peek_skip, E. cbn [nth_error obind].
    change (newline_token txt (St (Cu p l k) o) = Ok (St (Cu (p + 1) (S l) 0) (o ++ [Token kNewline [10%Z] p 0 (S l)]))).
    unfold newline_token. cbn [cur]. assert (LL := len_left txt p [10%Z] r l k E). cbn [length] in LL.
    destruct (left txt (Cu p l k)) as [|m]; [lia|]. cbn [newlines]. unfold is_at at 1, is_pred at 1. rewrite peek_skip, E. cbn [nth_error]. change (10 =? 10)%Z with true. cbv iota.
    assert (NX : next txt (Cu p l k) = Cu (S p) (S l) 0) by (unfold next; rewrite peek_skip, E; reflexivity). rewrite NX.
    pose proof (skip_step _ _ _ _ E) as E'. rewrite (run_exact txt [] (Z.eqb 32) (S p) (S l) 0 r); [|exact E'|constructor|].
    + cbn [length]. rewrite !Nat.add_0_r. unfold is_at, is_pred. rewrite peek_skip, E'.
      assert (Z : match nth_error r 0 with Some x => (x =? 10)%Z | None => false end = false).
      { destruct r as [|c r]; [reflexivity|]. cbn. apply Z.eqb_neq. now apply X. }
      rewrite Z. cbn [pos col line out]. replace (p + 1) with (S p) by lia. do 5 f_equal. unfold sub, substr. rewrite E. replace (S p - p) with 1 by lia. reflexivity.
    + intros c C. rewrite Z.eqb_sym. apply Z.eqb_neq. now apply X.
  - reflexivity.
  - reflexivity.
Qed.
Definition mark_base (c : byte) : tk :=
  if Z.eqb c 42 then kAsterisk else if Z.eqb c 47 then kForwardSlash else if Z.eqb c 95 then kUnderline else if Z.eqb c 43 then kPlus else kEquals.
Lemma tok1_ok : forall k c r p l col o, skipn p txt = c :: r -> c <> 10%Z ->
  tok1 txt k (St (Cu p l col) o) = Ok (St (Cu (p + 1) l (col + 1)) (o ++ [Token k [c] p col 0])).
Proof.
  intros k c r p l col o E N. unfold tok1, tok_adv, tokt, tok. cbn [cur out obind].
  assert (A : advance txt 1 (Cu p l col) = Cu (p + 1) l (col + 1)).
  { cbn [advance]. unfold next. rewrite peek_skip, E. cbn [nth_error]. apply Z.eqb_neq in N. rewrite N. cbn. f_equal; lia. }
  rewrite A. unfold mk. cbn [pos TokModel.col]. do 4 f_equal. unfold sub, substr. rewrite E. replace (p + 1 - p) with 1 by lia. reflexivity.
Qed.
Lemma l_mark : forall b c x r, marker c -> letter x \/ b = false /\ (x = 32%Z \/ x = 10%Z) -> lexeme txt b (mark_base c) [c] (x :: r) false.
Proof.
  intros b c x r M X f p l k o E B. cbn [app] in E. exists l, (k + 1), (Token (mark_base c) [c] p k 0). split; [|split].
  - apply go; [|cbn; lia|].
    + pose proof (tok1_ok (mark_base c) c (x :: r) p l k o E) as T.
      assert (N : c <> 10%Z) by (cbn in M; intuition subst; discriminate). specialize (T N).
      unfold switch_char. cbv zeta. cbn [cur]. unfold get. rewrite peek_skip, E. cbn [nth_error obind].
      assert (IS : forall y s, (x =? y)%Z = false -> is_str txt (Cu p l k) 1 (y :: s) = false).
      { intros y s H. cbn [is_str]. unfold is_at, is_pred. rewrite peek_skip, E. cbn [nth_error]. now rewrite H. }
      assert (XN : forall y, is_alpha y = false -> y <> 32%Z -> y <> 10%Z -> (x =? y)%Z = false).
      { intros y A Y1 Y2. destruct X as [X|[_ [->| ->]]]; [now apply letter_neq|apply Z.eqb_neq; congruence|apply Z.eqb_neq; congruence]. }
      destruct M as [<-|[<-|[<-|[<-|[<-|[]]]]]];
        repeat match goal with |- context [(?a =? ?b)%Z] => let v := eval vm_compute in (a =? b)%Z in change (a =? b)%Z with v end; cbv iota; try exact T.
      * (* star *) assert (P : (if col (Cu p l k) =? 0 then patt txt (p_seq (p_many1 (Z.eqb 42)) (p_chr 32%Z)) (Cu p l k) 0 else None) = None).
        { cbn [col]. destruct (k =? 0) eqn:Z; [|reflexivity]. destruct b; cbn in B; [|apply Nat.eqb_eq in Z; congruence].
          destruct X as [X|[X _]]; [|discriminate]. unfold patt. cbn [pos]. rewrite Nat.add_0_r, E. unfold p_seq, p_many1. cbn [run_len].
          change (42 =? 42)%Z with true. cbv iota. rewrite (Z.eqb_sym 42 x), XN by (try reflexivity; discriminate). cbn [skipn]. unfold p_chr, p_cls.
          rewrite Z.eqb_sym, (letter_neq x 32%Z X eq_refl). reflexivity. }
        rewrite P. exact T.
      * (* plus *) unfold lit. cbn [AttrModel.lit]. rewrite IS by (apply XN; [reflexivity|discriminate|discriminate]).
        assert (P : patt txt p_repeater (Cu p l k) 0 = None).
        { unfold patt. cbn [pos]. rewrite Nat.add_0_r, E. unfold p_repeater, p_seq at 1. destruct (p_alt _ _ _) as [n|] eqn:A; [|reflexivity].
          assert (n = 1).
          { pose proof (XN 43%Z eq_refl ltac:(discriminate) ltac:(discriminate)) as Q. unfold p_alt, p_lit in A.
            change (lit ".+") with [46; 43]%Z in A. change (lit "++") with [43; 43]%Z in A. change (lit "+") with [43%Z] in A. cbn [p_fold] in A.
            rewrite ?(Z.eqb_sym 43 x), ?Q in A. cbn in A. congruence. }
          subst n. cbn [skipn]. assert (Dx : is_digit x = false).
          { destruct X as [X|[_ [->| ->]]]; [apply letter_range in X; unfold is_digit; lia|reflexivity|reflexivity]. }
          unfold p_while_one, p_seq, p_digits, p_many1. cbn [run_len]. now rewrite Dx. }
        rewrite P. exact T.
      * (* equals *) unfold lit. cbn [AttrModel.lit]. rewrite IS by (apply XN; [reflexivity|discriminate|discriminate]).
        assert (G : is_at txt (Cu p l k) 1 62%Z = false). { unfold is_at, is_pred. rewrite peek_skip, E. cbn [nth_error]. apply XN; [reflexivity|discriminate|discriminate]. }
        rewrite G. exact T.
    + destruct b; cbn in B; [|auto]. right. intros. subst k. eapply no_start; [exact E|]. right. split; [auto|]. exists x, r. destruct X as [X|[X _]]; [|discriminate].
      apply letter_range in X. repeat split; lia.
  - reflexivity.
  - cbn. lia.
Qed.
End Lexemes.

(** ** Lines of marked words *)
Definition base_of (m : option (byte * (tk * tk))) : list (tk * str) := match m with Some (c, _) => [(mark_base c, [c])] | None => [] end.
Definition raw_piece (p : piece) : list (tk * str) := base_of (opening p) ++ (kWord, body p) :: base_of (closing p).
Fixpoint raw_line (ps : list piece) : list (tk * str) :=
  match ps with
  | [] => []
  | [p] => raw_piece p ++ [(kNewline, [10%Z])]
  | p :: r => raw_piece p ++ (kWhitespace, [32%Z]) :: raw_line r
  end.
Lemma mark_marker : forall m, In m mark_kinds -> marker (fst m).
Proof. intros m H. cbn in H. intuition subst; cbn; tauto. Qed.
Lemma base_text : forall m, concat (map snd (base_of m)) = mark_text m.
Proof. intros [[c k]|]; reflexivity. Qed.
Lemma raw_piece_text : forall p, concat (map snd (raw_piece p)) = piece_text p.
Proof. intros p. unfold raw_piece, piece_text. rewrite map_app, concat_app, base_text. cbn [map concat snd]. now rewrite base_text. Qed.
Lemma raw_line_text : forall ps, concat (map snd (raw_line ps)) = marked_line ps.
Proof.
  unfold marked_line. induction ps as [|p ps IH]; [reflexivity|]. destruct ps as [|q ps].
  - cbn [raw_line map line_text]. rewrite map_app, concat_app, raw_piece_text. reflexivity.
  - cbn [raw_line map line_text] in *. rewrite map_app, concat_app, raw_piece_text. cbn [map concat snd]. rewrite IH. reflexivity.
Qed.
Lemma piece_head : forall p, plain_piece p -> exists x r, piece_text p = x :: r /\ x <> 32%Z /\ x <> 10%Z.
Proof.
  intros p ((N & F & _) & O & _). unfold piece_text. destruct (opening p) as [[c k]|] eqn:E.
  - exists c. eexists. split; [reflexivity|]. specialize (O _ eq_refl). apply mark_marker in O. cbn in O. intuition (subst; discriminate).
  - destruct (body p) as [|x w]; [congruence|]. inversion F; subst. exists x. eexists. split; [reflexivity|].
    match goal with H : is_alpha x = true |- _ => apply letter_range in H end. lia.
Qed.

Lemma chain_piece : forall txt p b d r, Forall text_char txt -> plain_piece p -> (d = 32%Z \/ d = 10%Z) -> (exists s, concat (map snd r) = d :: s) ->
  chain txt false r -> chain txt b (raw_piece p ++ r).
Proof.
  intros txt p b d r PC (W & O & C) D (s & E) CH. unfold raw_piece.
  assert (SD : stop d) by (unfold stop; tauto).
  assert (TAIL : forall b, chain txt b ((kWord, body p) :: base_of (closing p) ++ r)).
  { intros b'. destruct (closing p) as [[c k]|] eqn:K; cbn [base_of app].
    - specialize (C _ eq_refl). apply mark_marker in C. cbn [fst] in C. apply chain_cons with (b' := false).
      + apply W.
      + cbn [map concat snd app]. rewrite E. apply l_word; auto; [unfold stop; auto|]. intros ->. exists d, s. split; [auto|]. destruct D; subst; reflexivity.
      + apply chain_cons with (b' := false); [discriminate| |exact CH]. rewrite E. apply l_mark; auto.
    - apply chain_cons with (b' := false); [apply W| |exact CH]. rewrite E. apply l_word; auto. intros ->. destruct D; discriminate. }
  destruct (opening p) as [[c k]|] eqn:K; cbn [base_of app]; [|apply TAIL].
  specialize (O _ eq_refl). apply mark_marker in O. cbn [fst] in O. pose proof W as (N & F & _). destruct (body p) as [|x w] eqn:B; [congruence|].
  apply chain_cons with (b' := false); [discriminate| |apply TAIL]. cbn [map concat snd app]. apply l_mark; auto. left. now inversion F.
Qed.
Lemma chain_line : forall txt ps r, Forall text_char txt -> ps <> [] -> Forall plain_piece ps ->
  (forall c, hd_error (concat (map snd r)) = Some c -> c <> 32%Z /\ c <> 10%Z) -> chain txt true r -> forall b, chain txt b (raw_line ps ++ r).
Proof.
  intros txt ps r PC N F H C. induction F as [|p ps P F IH]; [congruence|]. intros b. destruct ps as [|q ps].
  - cbn [raw_line]. rewrite <- app_assoc. apply chain_piece with (d := 10%Z); auto; [eexists; reflexivity|].
    cbn [app]. apply chain_cons with (b' := true); [discriminate| |exact C]. now apply l_newline.
  - change (raw_line (p :: q :: ps)) with (raw_piece p ++ (kWhitespace, [32%Z]) :: raw_line (q :: ps)). rewrite <- app_assoc. apply chain_piece with (d := 32%Z); auto; [eexists; reflexivity|].
    cbn [app]. apply chain_cons with (b' := false); [discriminate| |apply (IH ltac:(discriminate))].
    rewrite map_app, concat_app, raw_line_text. inversion F as [|? ? Q _]; subst. destruct (piece_head q Q) as (x & s & E & X1 & X2).
    assert (HD : exists s', marked_line (q :: ps) ++ concat (map snd r) = x :: s').
    { unfold marked_line. destruct ps; cbn [map line_text]; rewrite E; cbn [app]; eauto. }
    destruct HD as (s' & ->). now apply l_space.
Qed.
Lemma chain_lines : forall txt lines, Forall text_char txt -> Forall (fun ps => ps <> [] /\ Forall plain_piece ps) lines ->
  chain txt true (concat (map raw_line lines)).
Proof.
  intros txt lines PC F. induction F as [|ps lines [N P] F IH]; cbn [map concat]; [constructor|]. apply chain_line; auto.
  intros c H. destruct F as [|qs lines [N2 P2] _]; [discriminate|]. destruct qs as [|q qs]; [congruence|]. inversion P2; subst.
  cbn [map concat] in H. rewrite map_app, concat_app, raw_line_text in H. destruct (piece_head q ltac:(auto)) as (x & s & E & X1 & X2).
  unfold marked_line in H. destruct qs; cbn [map line_text] in H; rewrite E in H; cbn in H; injection H as <-; auto.
Qed.
Lemma raw_text : forall lines, concat (map snd (concat (map raw_line lines))) = concat (map marked_line lines).
Proof. induction lines as [|ps lines IH]; [reflexivity|]. cbn [map concat]. now rewrite map_app, concat_app, raw_line_text, IH. Qed.
Lemma piece_chars : forall p, plain_piece p -> Forall text_char (piece_text p).
Proof.
  intros p ((N & F & _) & O & C). unfold piece_text. rewrite !Forall_app. split; [|split].
  - destruct (opening p) as [[c k]|]; [|constructor]. constructor; [|constructor]. right. right. right. apply (mark_marker _ (O _ eq_refl)).
  - eapply Forall_impl; [|exact F]. intros c H. now left.
  - destruct (closing p) as [[c k]|]; [|constructor]. constructor; [|constructor]. right. right. right. apply (mark_marker _ (C _ eq_refl)).
Qed.
Lemma marked_chars : forall ps, Forall plain_piece ps -> Forall text_char (marked_line ps).
Proof.
  unfold marked_line. induction 1 as [|p ps P F IH]; [constructor|]. apply piece_chars in P. destruct ps as [|q ps]; cbn [map line_text] in *; apply Forall_app; split; auto.
  - constructor; [unfold text_char; auto|constructor].
  - constructor; [unfold text_char; auto|auto].
Qed.
Lemma raw_nil : forall lines, lines <> [] -> Forall (fun ps => ps <> [] /\ Forall plain_piece ps) lines -> concat (map raw_line lines) <> [].
Proof.
  intros lines N F. destruct F as [|ps lines [N2 P] _]; [congruence|]. destruct ps as [|p ps]; [congruence|]. cbn [map concat].
  destruct ps; cbn [raw_line]; unfold raw_piece; destruct (opening p) as [[c k]|]; discriminate.
Qed.
Lemma tokenize_marked : forall lines fuel, lines <> [] -> Forall (fun ps => ps <> [] /\ Forall plain_piece ps) lines ->
  length (concat (map marked_line lines)) < fuel ->
  exists ts, tokenize (concat (map marked_line lines)) fuel = Ok ts /\ map shown ts = concat (map raw_line lines).
Proof.
  intros lines fuel N F L. rewrite <- raw_text in *. apply chain_tokenize; auto; [now apply raw_nil|]. apply chain_lines; auto.
  rewrite raw_text. clear - F. induction F as [|ps lines [_ P] _ IH]; [constructor|]. cbn [map concat]. apply Forall_app. split; [now apply marked_chars|auto].
Qed.

(** ** Regrouping of text without lists and blocks *)
Definition is_tk (t : token) : Prop := text_kind (kind t) = true.
Lemma text_line : forall t ts, is_tk t -> mk_line (t :: ts) = Ok (Lin (t :: ts) 0 LLine).
Proof. intros t ts T. unfold is_tk in T. unfold mk_line, line_indent, line_kind. destruct (kind t); try discriminate; reflexivity. Qed.
Definition text_lin (l : lin) : Prop := indent l = 0 /\ lk l = LLine /\ Forall is_tk (ltoks l) /\ ltoks l <> [].
Lemma text_lines : forall ts start, Forall is_tk start -> Forall is_tk ts -> exists ls, to_lines start ts = Ok ls /\ Forall text_lin ls /\ concat (map ltoks ls) = start ++ ts.
Proof.
  assert (MK : forall x, Forall is_tk x -> x <> [] -> exists l, mk_line x = Ok l /\ text_lin l /\ ltoks l = x).
  { intros [|t x] F N; [congruence|]. rewrite text_line by now inversion F. eexists. split; [reflexivity|]. split; [|reflexivity]. repeat split; auto. }
  induction ts as [|t ts IH]; intros start S F; cbn [to_lines].
  - destruct start as [|u start]; [exists []; auto|]. destruct (MK (u :: start) S ltac:(discriminate)) as (l & -> & L1 & L2). exists [l]. cbn. rewrite L2. auto.
  - inversion F; subst. destruct (line_end (kind t)).
    + destruct (MK (start ++ [t])) as (l & E & L1 & L2); [apply Forall_app; auto|destruct start; discriminate|]. rewrite E. cbn [obind].
      destruct (IH [] ltac:(constructor) ltac:(auto)) as (ls & E2 & F2 & C2). rewrite E2. exists (l :: ls). cbn. rewrite L2, C2, <- app_assoc. auto.
    + destruct (IH (start ++ [t])) as (ls & E2 & F2 & C2); [apply Forall_app; auto|auto|]. rewrite E2. exists ls. rewrite C2, <- app_assoc. auto.
Qed.
Lemma text_add : forall ig ts b, Forall is_tk ts -> add_line ig b ts = Ok (map Base ts).
Proof.
  induction ts as [|t ts IH]; intros b F; [reflexivity|]. inversion F as [|? ? T]; subst. cbn [add_line]. unfold is_tk in T.
  assert (D : dash_kind (kind t) = false) by (destruct (kind t); try discriminate; reflexivity).
  assert (L : leading_kind (kind t) = false) by (destruct (kind t); try discriminate; reflexivity). rewrite D, L, IH; auto.
Qed.
Lemma text_adds : forall ls, Forall text_lin ls -> add_lines false ls = Ok (map Base (concat (map ltoks ls))).
Proof.
  induction 1 as [|l ls (_ & _ & F & _) _ IH]; [reflexivity|]. cbn [add_lines]. rewrite text_add by auto. cbn [obind]. rewrite IH. cbn [omap obind map concat]. now rewrite map_app.
Qed.
Lemma regroup_text : forall ts, Forall is_tk ts -> regroup ts = Ok (map Base ts).
Proof.
  intros ts F. destruct (text_lines ts [] ltac:(constructor) F) as (ls & E & L & C). unfold regroup. rewrite E. cbn [obind]. cbn [app] in C. subst ts.
  destruct ls as [|l ls]; [reflexivity|].
  assert (TW : forall ls, Forall text_lin ls -> take_while (fun x => is_text x && (indent l <=? indent x)) ls = (ls, [])).
  { inversion L as [|? ? (I & _) _]; subst. rewrite I. induction 1 as [|x xs (IX & KX & _) _ IH]; [reflexivity|]. cbn [take_while].
    assert (Q : is_text x && (0 <=? indent x) = true) by (unfold is_text; now rewrite KX, IX). now rewrite Q, IH. }
  unfold to_groups. cbn [length Nat.mul Nat.add root_groups]. rewrite !Nat.add_succ_r. cbn [root_groups rec_group].
  inversion L as [|? ? (I & K & _) _]; subst. rewrite K. rewrite (TW (l :: ls) L). cbn [obind root_groups omap convert group_indent]. rewrite I.
  cbn [markers is_item dedent convert_group]. rewrite (text_adds _ L). cbn [obind omap]. now rewrite !app_nil_r.
Qed.

(** ** Roles *)
Definition simple (k : tk) : bool :=
  match k with
  | kWord | kWhitespace | kNewline | kAsterisk | kForwardSlash | kUnderline | kPlus | kEquals => true
  | _ => false
  end.
Definition role_of (prev : bool) (k : tk) (w : str) (next : bool) : tk :=
  match k with
  | kWord => if is_big w then kBigIdent else kWord
  | k => match markup_kinds k with Some ks => markup_kind k ks prev next | None => k end
  end.
Definition nempty (l : list (tk * str)) : bool := match l with (k, _) :: _ => empty_token k | [] => true end.
Fixpoint assign_roles (prev : bool) (l : list (tk * str)) : list (tk * str) :=
  match l with
  | [] => []
  | (k, w) :: r => (role_of prev k w (nempty r), w) :: assign_roles (empty_token k) r
  end.
Definition oshown (t : otok) : tk * str := (okind t, otext t).
Lemma recombine_simple : forall l fuel p d, Forall (fun t => simple (okind t) = true) l -> length l < fuel ->
  exists p' o, recombine_loop fuel (Rs p l d) = Ok (Rs p' [] (d ++ o)) /\ map oshown o = assign_roles (empty_at p) (map oshown l).
Proof.
  induction l as [|t l IH]; intros fuel p d F L; (destruct fuel; [cbn in L; lia|]).
  - exists p, []. cbn. rewrite app_nil_r. auto.
  - inversion F as [|? ? T F']; subst. cbn [length] in L.
    assert (NX : empty_at (next_tok (Rs p (t :: l) d)) = nempty (map oshown l)) by (unfold next_tok; cbn [rest]; destruct l as [|[]]; reflexivity).
    assert (ST : map_token (2 * length (t :: l) + 2) (Rs p (t :: l) d) =
      Ok (Rs (Some t) l (d ++ [OTok (role_of (empty_at p) (okind t) (otext t) (nempty (map oshown l))) (otext t) (opos t)]))).
    { rewrite Nat.add_comm. cbn [Nat.add map_token rest]. rewrite <- NX. destruct t as [k w q]. cbn [okind otext opos] in *. destruct k; try discriminate T; reflexivity. }
    cbn [recombine_loop rest]. rewrite ST. cbn [obind rest].
    destruct (length l =? length (t :: l)) eqn:Z; [apply Nat.eqb_eq in Z; cbn in Z; lia|].
    destruct (IH fuel (Some t) (d ++ [OTok (role_of (empty_at p) (okind t) (otext t) (nempty (map oshown l))) (otext t) (opos t)]) F' ltac:(lia)) as (p' & o & E & S).
    rewrite E. eexists p', (_ :: o). rewrite <- app_assoc. split; [reflexivity|]. cbn [map]. rewrite S. destruct t. reflexivity.
Qed.

Lemma role_mark : forall m prev next, In m mark_kinds -> role_of prev (mark_base (fst m)) [fst m] next =
  if prev && negb next then fst (snd m) else if negb prev && next then snd (snd m) else role_of prev (mark_base (fst m)) [fst m] next.
Proof. intros m prev next H. cbn in H. intuition subst; destruct prev, next; reflexivity. Qed.
Lemma word_nempty : forall w r, nempty ((kWord, w) :: r) = false.
Proof. reflexivity. Qed.
Lemma roles_piece : forall p r, plain_piece p -> nempty r = true -> assign_roles true (raw_piece p ++ r) = piece_tokens p ++ assign_roles (match closing p with Some m => empty_token (mark_base (fst m)) | None => false end) r.
Proof.
  intros p r (W & O & C) N. unfold raw_piece, piece_tokens. change upper_word with is_big.
  assert (TAIL : forall b, assign_roles b ((kWord, body p) :: base_of (closing p) ++ r) =
    (if is_big (body p) then kBigIdent else kWord, body p) :: match closing p with Some (c, (_, e)) => [(e, [c])] | None => [] end ++ assign_roles (match closing p with Some m => empty_token (mark_base (fst m)) | None => false end) r).
  { intros b. destruct (closing p) as [m|]; [|reflexivity]. specialize (C _ eq_refl). destruct m as [c [bk ek]]. cbn [base_of app assign_roles fst].
    change (empty_token kWord) with false. rewrite N. pose proof (role_mark _ false true C) as R. cbn [fst snd andb negb] in R. rewrite R. reflexivity. }
  destruct (opening p) as [m|].
  - specialize (O _ eq_refl). destruct m as [c [bk ek]]. cbn [base_of app]. cbn [assign_roles]. cbn [assign_roles] in TAIL. rewrite TAIL. rewrite word_nempty.
    pose proof (role_mark _ true false O) as R. cbn [fst snd andb negb] in R. rewrite R. cbn [app]. rewrite <- ?app_assoc. reflexivity.
  - cbn [base_of app]. rewrite TAIL. cbn [app]. rewrite <- ?app_assoc. reflexivity.
Qed.
Lemma roles_line : forall ps r, Forall plain_piece ps -> ps <> [] -> assign_roles true (raw_line ps ++ r) = marked_tokens ps ++ assign_roles true r.
Proof.
  intros ps r F N. induction F as [|p ps P F IH]; [congruence|]. destruct ps as [|q ps].
  - cbn [raw_line marked_tokens]. rewrite <- !app_assoc, roles_piece by auto. reflexivity.
  - change (raw_line (p :: q :: ps)) with (raw_piece p ++ (kWhitespace, [32%Z]) :: raw_line (q :: ps)).
    change (marked_tokens (p :: q :: ps)) with (piece_tokens p ++ (kWhitespace, [32%Z]) :: marked_tokens (q :: ps)).
    rewrite <- !app_assoc. cbn [app]. rewrite roles_piece by auto. cbn [assign_roles]. change (empty_token kWhitespace) with true. rewrite IH by discriminate. reflexivity.
Qed.
Lemma roles_lines : forall lines, Forall (fun ps => ps <> [] /\ Forall plain_piece ps) lines ->
  assign_roles true (concat (map raw_line lines)) = concat (map marked_tokens lines).
Proof. induction 1 as [|ps lines [N P] _ IH]; [reflexivity|]. cbn [map concat]. now rewrite roles_line, IH. Qed.
Lemma mark_simple : forall c, simple (mark_base c) = true.
Proof. intros c. unfold mark_base. repeat match goal with |- context [if ?b then _ else _] => destruct b end; reflexivity. Qed.
Lemma raw_simple : forall ps, Forall (fun x => simple (fst x) = true) (raw_line ps).
Proof.
  assert (B : forall m, Forall (fun x => simple (fst x) = true) (base_of m)) by (intros [[c k]|]; constructor; [apply mark_simple|constructor]).
  assert (R : forall p, Forall (fun x => simple (fst x) = true) (raw_piece p)) by (intros p; apply Forall_app; split; [apply B|constructor; [reflexivity|apply B]]).
  induction ps as [|p ps IH]; [constructor|]. destruct ps as [|q ps].
  - apply Forall_app. split; [apply R|constructor; [reflexivity|constructor]].
  - change (raw_line (p :: q :: ps)) with (raw_piece p ++ (kWhitespace, [32%Z]) :: raw_line (q :: ps)).
    apply Forall_app. split; [apply R|]. constructor; [reflexivity|exact IH].
Qed.
Lemma convert_simple : forall ts, Forall (fun t => simple (kind t) = true) ts -> exists o, convert_tokens ts = Ok o /\ map oshown o = assign_roles true (map shown ts).
Proof.
  intros ts F. unfold convert_tokens. rewrite regroup_text.
  - cbn [obind]. unfold recombine. destruct (recombine_simple (map otok_of (map Base ts)) (S (length (map Base ts))) None []) as (p & o & E & S).
    + rewrite map_map. apply Forall_map. exact F.
    + rewrite map_length. lia.
    + rewrite E. exists o. split; [reflexivity|]. rewrite S, !map_map. reflexivity.
  - eapply Forall_impl; [|exact F]. intros t H. cbv beta in H. unfold is_tk. destruct (kind t); try discriminate H; reflexivity.
Qed.
Lemma markup_lines : forall lines fuel, lines <> [] -> Forall (fun ps => ps <> [] /\ Forall plain_piece ps) lines ->
  length (concat (map marked_line lines)) < fuel ->
  exists ts o, tokenize (concat (map marked_line lines)) fuel = Ok ts /\ convert_tokens ts = Ok o /\
    map (fun t => (okind t, otext t)) o = concat (map marked_tokens lines).
Proof.
  intros lines fuel N F L. destruct (tokenize_marked lines fuel N F L) as (ts & T & S).
  destruct (convert_simple ts) as (o & C & R).
  - assert (X : Forall (fun x => simple (fst x) = true) (map shown ts)).
    { rewrite S. clear. induction lines; cbn; [constructor|]. apply Forall_app. split; [apply raw_simple|auto]. }
    rewrite Forall_map in X. exact X.
  - exists ts, o. split; [auto|]. split; [auto|]. change (map oshown o = concat (map marked_tokens lines)). now rewrite R, S, roles_lines.
Qed.
