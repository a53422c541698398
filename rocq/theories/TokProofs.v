From Coq Require Import String.
From Verif Require Import Base StrModel TokKind TokModel TokSpec.
From Verif Require AttrModel.
Local Open Scope nat_scope.

Ltac break :=
  match goal with
  | |- context [match ?x with _ => _ end] =>
      lazymatch x with
      | context [match _ with _ => _ end] => fail
      | _ => let E := fresh "E" in destruct x eqn:E
      end
  end.

Lemma since_app : forall a n b, since_newline n (a ++ b) = since_newline (since_newline n a) b.
Proof. induction a; intros; cbn; auto. Qed.

Section Walk.
Variable txt : str.
Notation len := (length txt).
Notation ascii := (Forall (fun c => c < 192)%Z txt).

Definition colok (c : cu) : Prop := col c = column_of txt (pos c).
(** Column zero is only ever reached at the beginning of a line. *)
Definition lineok (c : cu) : Prop := col c = 0 -> line_begin txt (pos c).
Definition adv (c c' : cu) : Prop :=
  pos c <= len -> pos c <= pos c' <= len /\ (ascii -> colok c -> colok c') /\ (lineok c -> lineok c').

Lemma adv_refl : forall c, adv c c.
Proof. unfold adv. intros. split; auto. Qed.
Lemma adv_trans : forall a b c, adv a b -> adv b c -> adv a c.
Proof.
  unfold adv. intros a b c H H0 P. destruct (H P) as (A & A' & A''). destruct (H0 (proj2 A)) as (B & B' & B'').
  split; [lia|]. auto.
Qed.

Lemma firstn_next : forall (l : str) p x, nth_error l p = Some x -> firstn (S p) l = firstn p l ++ [x].
Proof.
  induction l; intros p x H; destruct p; cbn in *; try discriminate.
  - injection H as ->. reflexivity.
  - f_equal. auto.
Qed.
Lemma column_next : forall p x, nth_error txt p = Some x ->
  column_of txt (S p) = if Z.eqb x 10 then 0 else S (column_of txt p).
Proof. intros. unfold column_of. rewrite (firstn_next _ _ _ H), since_app. reflexivity. Qed.

Lemma adv_next : forall c, adv c (next txt c).
Proof.
  unfold adv, next. intros c P. destruct (peek txt c 0) as [x|] eqn:E; [|split; auto].
  unfold peek in E. rewrite Nat.add_0_r in E.
  assert (pos c < len) by (apply nth_error_Some; congruence).
  destruct (Z.eqb x 10) eqn:N; cbn [pos col]; (split; [lia|]); unfold colok, lineok; cbn [pos col]; (split;
    [intros _ C; rewrite (column_next _ _ E), N; congruence|]); intros _ C; [|discriminate].
  right. cbn. rewrite Nat.sub_0_r. apply Z.eqb_eq in N. now subst.
Qed.

Lemma adv_next_unicode : forall c, (forall x, peek txt c 0 = Some x -> Z.eqb x 10 = false) -> adv c (next_unicode txt c).
Proof.
  unfold adv, next_unicode. intros c NN P. destruct (peek txt c 0) as [x|] eqn:E; [|split; auto].
  pose proof (NN x eq_refl) as N. rewrite N. clear NN.
  unfold peek in E. rewrite Nat.add_0_r in E.
  assert (pos c < len) by (apply nth_error_Some; congruence).
  cbn [pos]. split; [repeat break; lia|]. split; [|unfold lineok; cbn; discriminate].
  intros A C. assert (X : (x < 192)%Z) by (rewrite Forall_forall in A; apply A; eapply nth_error_In; eauto).
  replace (240 <=? x)%Z with false by lia. replace (224 <=? x)%Z with false by lia.
  replace (192 <=? x)%Z with false by lia.
  replace (Nat.min (pos c + 1) len) with (S (pos c)) by lia.
  unfold colok in *. cbn [pos col]. rewrite (column_next _ _ E), N. congruence.
Qed.

Lemma adv_advance : forall n c, adv c (advance txt n c).
Proof. induction n; intros; cbn; [apply adv_refl|]. eapply adv_trans; [apply adv_next|auto]. Qed.
Lemma adv_run_n : forall n f c, adv c (run_n txt n f c).
Proof.
  induction n; intros; cbn; [apply adv_refl|]. destruct (is_pred txt c 0 f); [|apply adv_refl].
  eapply adv_trans; [apply adv_next|auto].
Qed.
Lemma adv_run : forall f c, adv c (run txt f c).
Proof. intros. apply adv_run_n. Qed.
Lemma adv_opt : forall ch c, adv c (opt_next txt ch c).
Proof. intros. unfold opt_next. break; [apply adv_next|apply adv_refl]. Qed.
Lemma adv_skip : forall ch c c', skip txt ch c = Ok c' -> adv c c'.
Proof.
  unfold skip, get. intros ch c c' H. destruct (peek txt c 0) as [b|]; cbn in H; [|discriminate].
  destruct (Z.eqb b ch); [|discriminate]. injection H as <-. apply adv_next.
Qed.
Lemma adv_inner : forall n c, adv c (joints_inner txt n c).
Proof. induction n; intros; cbn; [apply adv_refl|]. break; [|apply adv_refl]. eapply adv_trans; [apply adv_next|auto]. Qed.
Lemma adv_joints : forall n c, adv c (joints txt n c).
Proof.
  induction n; intros; cbn; [apply adv_refl|]. break; [|apply adv_refl].
  eapply adv_trans; [apply adv_inner|]. eapply adv_trans; [apply adv_run|auto].
Qed.
Lemma adv_word : forall c, adv c (advance_word txt c).
Proof.
  intros. unfold advance_word. eapply adv_trans; [apply adv_run|]. eapply adv_trans; [apply adv_joints|].
  eapply adv_trans; [apply adv_opt|apply adv_run].
Qed.
Lemma adv_number : forall c, adv c (advance_number txt c).
Proof. intros. unfold advance_number. eapply adv_trans; [apply adv_opt|apply adv_run]. Qed.
Lemma adv_ident : forall c, adv c (advance_ident txt c).
Proof. intros. apply adv_run. Qed.
Lemma adv_eol : forall c, adv c (to_eol txt c).
Proof. intros. apply adv_run. Qed.
Lemma adv_quoted : forall n c, adv c (quoted txt n c).
Proof.
  induction n; intros; cbn [quoted]; [apply adv_refl|]. repeat break; try apply adv_refl.
  - eapply adv_trans; [apply adv_next|]. eapply adv_trans; [apply adv_next|auto].
  - eapply adv_trans; [apply adv_next|auto].
Qed.
Lemma adv_src_run : forall n c, adv c (src_run txt n c).
Proof.
  induction n; intros; cbn [src_run]; [apply adv_refl|]. break; try apply adv_refl.
  eapply adv_trans; [apply adv_next|auto].
Qed.
Lemma adv_braces : forall n o c, adv c (braces txt n o c).
Proof.
  induction n; intros; cbn [braces]; [apply adv_refl|].
  repeat break; try apply adv_refl; repeat first [ apply IHn | eapply adv_trans; [apply adv_next|] ].
Qed.
Lemma adv_durations : forall n c, adv c (durations txt n c).
Proof.
  induction n; intros; cbn [durations]; [apply adv_refl|]. break; [|apply adv_refl].
  eapply adv_trans; [apply adv_number|]. eapply adv_trans; [apply adv_ident|auto].
Qed.
Lemma adv_newlines : forall n c k, adv c (fst (newlines txt n c k)).
Proof.
  induction n; intros; cbn [newlines]; [apply adv_refl|]. break; [|apply adv_refl]. break.
  - eapply adv_trans; [apply adv_next|]. eapply adv_trans; [apply adv_run|auto].
  - apply adv_next.
Qed.
Lemma adv_at_at : forall n c c', to_at_at txt n c = Ok c' -> adv c c'.
Proof.
  induction n; intros c c' H; cbn [to_at_at] in H; [discriminate|]. destruct (is_str txt c 0 _).
  - injection H as <-. apply adv_refl.
  - eapply adv_trans; [apply adv_next|eauto].
Qed.
Lemma adv_unicode : forall n c c', unicode_run txt n c = Ok c' -> adv c c'.
Proof.
  induction n; intros c c' H; cbn [unicode_run] in H; [discriminate|]. unfold get in H.
  destruct (peek txt c 0) as [x|] eqn:E; cbn in H; [|discriminate]. destruct (240 <=? x)%Z eqn:X.
  - eapply adv_trans; [apply adv_next_unicode|eauto]. intros y Y. rewrite E in Y. injection Y as <-. lia.
  - injection H as <-. apply adv_refl.
Qed.

(** The tokens produced between two states *)
Definition tcolok (t : token) : Prop := is_newline_kind (kind t) = true \/ tcol t = column_of txt (tpos t).
Definition ext (s s' : st) : Prop :=
  adv (cur s) (cur s') /\
  (pos (cur s) <= len ->
   exists ts, out s' = out s ++ ts /\ laid_out (pos (cur s)) ts /\
     concat (map text ts) = sub txt (pos (cur s)) (pos (cur s')) /\
     (ascii -> colok (cur s) -> Forall tcolok ts)).
Definition cov (s : st) (o : outcome st) : Prop := forall s', o = Ok s' -> ext s s'.

Lemma sub_nil : forall a, sub txt a a = [].
Proof. intros. unfold sub, substr. rewrite Nat.sub_diag. reflexivity. Qed.
Lemma sub_len : forall a b, a <= b <= len -> length (sub txt a b) = b - a.
Proof. intros. unfold sub, substr. rewrite firstn_length, skipn_length. lia. Qed.
Lemma firstn_split : forall {A} (l : list A) n m, firstn (n + m) l = firstn n l ++ firstn m (skipn n l).
Proof. induction l; intros; destruct n; cbn; rewrite ?firstn_nil; auto. f_equal. auto. Qed.
Lemma skipn_add : forall {A} (l : list A) n m, skipn n (skipn m l) = skipn (m + n) l.
Proof. induction l; intros; destruct m; cbn; rewrite ?skipn_nil; auto. Qed.
Lemma sub_app : forall a b c, a <= b <= c -> sub txt a b ++ sub txt b c = sub txt a c.
Proof.
  intros a b c H. unfold sub, substr. replace (c - a) with ((b - a) + (c - b)) by lia.
  rewrite firstn_split, skipn_add. replace (a + (b - a)) with b by lia. reflexivity.
Qed.

Lemma laid_app : forall a p b, laid_out p a -> laid_out (p + length (concat (map text a))) b -> laid_out p (a ++ b).
Proof.
  induction a; intros p b H H0; cbn in *; [now rewrite Nat.add_0_r in H0|].
  destruct H. split; auto. apply IHa; auto. rewrite app_length in H0. now rewrite <- Nat.add_assoc.
Qed.

Lemma ext_refl : forall s, ext s s.
Proof.
  intros. split; [apply adv_refl|]. intros _. exists []. rewrite app_nil_r. cbn. rewrite sub_nil. auto.
Qed.
Lemma ext_trans : forall a b c, ext a b -> ext b c -> ext a c.
Proof.
  intros a b c [A A'] [B B']. split; [eapply adv_trans; eauto|]. intros P.
  destruct (A P) as (P1 & C1 & _). destruct (B (proj2 P1)) as (P2 & C2 & _).
  destruct (A' P) as (t1 & O1 & L1 & T1 & K1). destruct (B' (proj2 P1)) as (t2 & O2 & L2 & T2 & K2).
  exists (t1 ++ t2). rewrite O2, O1, app_assoc. split; [auto|]. split; [|split].
  - apply laid_app; auto. rewrite T1, sub_len by lia. now replace (pos (cur a) + (pos (cur b) - pos (cur a))) with (pos (cur b)) by lia.
  - rewrite map_app, concat_app, T1, T2. apply sub_app. lia.
  - intros X Y. apply Forall_app. auto.
Qed.

Lemma cov_ok : forall s, cov s (Ok s).
Proof. intros s s' H. injection H as <-. apply ext_refl. Qed.
Lemma cov_bad : forall s, cov s Throw /\ cov s UB /\ cov s Fuel.
Proof. repeat split; discriminate. Qed.
Lemma cov_bind : forall s o f, cov s o -> (forall s', o = Ok s' -> cov s' (f s')) -> cov s (obind o f).
Proof.
  intros s o f H H0 s' E. destruct o; cbn in E; try discriminate. eapply ext_trans; [apply H; reflexivity|].
  eapply H0; [reflexivity|exact E].
Qed.
Lemma cov_any : forall {A} s (o : outcome A) f, (forall x, o = Ok x -> cov s (f x)) -> cov s (obind o f).
Proof. intros A s o f H s' E. destruct o; cbn in E; try discriminate. eapply H; [reflexivity|exact E]. Qed.

Lemma cov_tok : forall k a s, (forall c', a (cur s) = Ok c' -> adv (cur s) c') -> cov s (tok txt k a s).
Proof.
  intros k a s H s' E. unfold tok in E. destruct (a (cur s)) as [c'| | |] eqn:X; cbn in E; try discriminate.
  injection E as <-. specialize (H c' eq_refl). split; [auto|]. intros P. destruct (H P) as (P' & C & _).
  exists [mk txt k (cur s) c']. cbn. rewrite app_nil_r. split; [auto|]. split; [auto|]. split; [auto|].
  intros A K. constructor; [|auto]. right. exact K.
Qed.
Lemma cov_tokt : forall k a s, (forall c, adv c (a c)) -> cov s (tokt txt k a s).
Proof. intros. apply cov_tok. intros c' E. injection E as <-. auto. Qed.
Lemma cov_tok_adv : forall k n s, cov s (tok_adv txt k n s).
Proof. intros. apply cov_tokt. apply adv_advance. Qed.
Lemma cov_tok1 : forall k s, cov s (tok1 txt k s).
Proof. intros. apply cov_tok_adv. Qed.
Lemma cov_then : forall f g s, cov s (f s) -> (forall s', cov s' (g s')) -> cov s (andthen f g s).
Proof. intros. apply cov_bind; auto. Qed.
Lemma cov_guard : forall f s, cov s (f s) -> cov s (guard f s).
Proof.
  intros f s H s' E. unfold guard in E. destruct (f s) as [x| | |] eqn:X; cbn in E; try discriminate.
  destruct (pos (cur x) =? pos (cur s)); [discriminate|]. injection E as <-. apply H. reflexivity.
Qed.
Lemma cov_loop : forall n cond body, (forall s, cov s (body s)) -> forall s, cov s (loop n cond body s).
Proof.
  induction n; intros cond body H s; cbn; [apply cov_bad|]. destruct (cond (cur s)); [|apply cov_ok].
  apply cov_bind; auto.
Qed.
Lemma cov_block : forall n name body fin, (forall s, cov s (body s)) -> forall s, cov s (block txt n name body fin s).
Proof.
  induction n; intros name body fin H s; cbn [block]; [apply cov_bad|]. apply cov_any. intros [k|] _.
  - apply cov_tok_adv.
  - apply cov_bind; [apply cov_guard; auto|auto].
Qed.

Create HintDb adv discriminated.
Hint Constants Opaque : adv.
Create HintDb cov discriminated.
Hint Constants Opaque : cov.
Hint Resolve adv_next adv_advance adv_run adv_opt adv_word adv_number adv_ident adv_eol adv_quoted
  adv_src_run adv_braces adv_durations : adv.
Hint Resolve cov_ok cov_tok_adv cov_tok1 : cov.

Ltac advs := repeat first [ exact (adv_refl _) | eapply adv_trans; [|solve [auto with adv]] ].
Ltac walk :=
  repeat first
    [ solve [auto with cov]
    | match goal with
      | |- cov _ Throw => apply cov_bad
      | |- cov _ UB => apply cov_bad
      | |- cov _ Fuel => apply cov_bad
      | |- cov ?s (andthen _ _ ?s) => apply cov_then; [|intros]
      | |- cov _ (tokt _ _ _ _) => apply cov_tokt; intros; cbv beta; repeat break; advs
      | |- cov ?s (obind (get _ _ _) _) => apply cov_any; intros
      | |- cov ?s (obind (is_iat _ _ _ _) _) => apply cov_any; intros
      | |- cov ?s (obind (am_pm _ _ _) _) => apply cov_any; intros
      | |- cov _ (match ?x with _ => _ end) => destruct x eqn:?
      | |- cov _ ((match ?x with _ => _ end) _) => destruct x eqn:?
      end ].

Lemma cov_argument : forall s, cov s (cmd_argument txt s).
Proof.
  intros. unfold cmd_argument. walk.
  - apply cov_tok. intros c' E. unfold omap in E. destruct (skip txt 58 (cur s)) eqn:K; cbn in E; try discriminate.
    injection E as <-. eapply adv_trans; [eapply adv_skip; eauto|apply adv_run].
  - apply cov_tok. intros c' E. cbv zeta in E.
    destruct (has_text _ _); [|discriminate]. injection E as <-. eapply adv_trans; [apply adv_next|apply adv_run].
Qed.
Lemma cov_opt_newline : forall s, cov s (opt_newline txt s).
Proof. intros. unfold opt_newline. walk. Qed.
Lemma cov_raw_line : forall k s, cov s (raw_line txt k s).
Proof. intros. unfold raw_line. walk. apply cov_opt_newline. Qed.
Lemma cov_src_line : forall s, cov s (src_line txt s).
Proof. intros. unfold src_line. apply cov_then; [walk|apply cov_opt_newline]. Qed.

Lemma ext_head : forall k c' s s', adv (cur s) c' ->
  ext (put k (mk txt kWord (cur s) c') (St c' (out s))) s' -> ext s s'.
Proof.
  intros k c' s s' A H. eapply ext_trans; [|exact H]. split; [exact A|]. intros P. destruct (A P) as (P' & C & _).
  exists [mk txt k (cur s) c']. cbn. rewrite app_nil_r. split; [auto|]. split; [auto|]. split; [auto|].
  intros Z K. constructor; [|auto]. right. exact K.
Qed.

Lemma cov_newline : forall s, cov s (newline_token txt s).
Proof.
  intros s s' E. unfold newline_token in E. destruct (newlines txt (left txt (cur s)) (cur s) 0) as [c' k] eqn:N.
  injection E as <-. assert (A : adv (cur s) c') by (replace c' with (fst (newlines txt (left txt (cur s)) (cur s) 0)) by (now rewrite N); apply adv_newlines).
  split; [exact A|]. intros P. destruct (A P) as (P' & C & _). cbn [cur out]. eexists. split; [reflexivity|]. cbn.
  rewrite app_nil_r. split; [auto|]. split; [auto|]. intros _ _. constructor; [|auto]. left. cbn.
  destruct (k =? 1); auto. destruct (k =? 2); auto.
Qed.
Hint Resolve cov_argument cov_opt_newline cov_raw_line cov_src_line cov_newline : cov.

Lemma cov_inline_src : forall s, cov s (inline_src txt s).
Proof. intros. unfold inline_src. walk. Qed.
Hint Resolve cov_inline_src : cov.
Lemma cov_word : forall s, cov s (switch_word txt s).
Proof. intros. unfold switch_word. cbv zeta. walk. Qed.
Lemma cov_repeater : forall s, cov s (time_repeater txt s).
Proof. intros. unfold time_repeater. walk. Qed.
Lemma cov_tilda : forall s, cov s (tilda txt s).
Proof.
  intros. unfold tilda. cbv zeta. walk. apply cov_bind; [walk|]. intros. walk.
Qed.
Lemma cov_until : forall k s, cov s (until_end txt k s).
Proof. intros. unfold until_end. walk. Qed.
Lemma cov_internal : forall s, cov s (link_internal txt s).
Proof. intros. unfold link_internal. walk. Qed.
Hint Resolve cov_word cov_repeater cov_tilda cov_until cov_internal : cov.
Lemma cov_protocol : forall s, cov s (link_protocol txt s).
Proof. intros. unfold link_protocol. cbv zeta. walk. Qed.
Lemma cov_plain : forall s, cov s (link_plain txt s).
Proof. intros. unfold link_plain. walk. Qed.
Hint Resolve cov_protocol cov_plain : cov.
Lemma cov_bracket : forall s, cov s (bracket txt s).
Proof. intros. unfold bracket. cbv zeta. walk. Qed.
Lemma cov_at : forall s, cov s (at_sign txt s).
Proof.
  intros. unfold at_sign. cbv zeta. walk.
  - apply cov_tok. intros c' E. unfold omap in E. destruct (skip txt 64 (cur s)) eqn:K; cbn [obind] in E; try discriminate.
    destruct (skip txt 64 a) eqn:K'; cbn [obind] in E; try discriminate. injection E as <-.
    eapply adv_trans; [eapply adv_skip; eauto|]. eapply adv_trans; [eapply adv_skip; eauto|apply adv_ident].
  - apply cov_tok. intros c' E.
    destruct (skip txt 58 (cur s')) eqn:K; cbn [obind] in E; try discriminate.
    destruct (to_at_at txt (S (left txt a)) a) eqn:K0; cbn [obind] in E; try discriminate.
    destruct (skip txt 64 a0) eqn:K1; cbn [obind] in E; try discriminate.
    eapply adv_trans; [eapply adv_skip; eauto|]. eapply adv_trans; [eapply adv_at_at; eauto|].
    eapply adv_trans; [eapply adv_skip; eauto|eapply adv_skip; eauto].
Qed.
Lemma cov_number : forall s, cov s (number txt s).
Proof. intros. unfold number. cbv zeta. walk. Qed.
Hint Resolve cov_bracket cov_at cov_number : cov.

Lemma cov_skip_word : forall k ch s, cov s (tok txt k (fun c => omap (advance_word txt) (skip txt ch c)) s).
Proof.
  intros. apply cov_tok. intros c' E. unfold omap in E. destruct (skip txt ch (cur s)) eqn:K; cbn in E; try discriminate.
  injection E as <-. eapply adv_trans; [eapply adv_skip; eauto|apply adv_word].
Qed.
Hint Resolve cov_skip_word : cov.

Lemma cov_char : forall s, cov s (switch_char txt s).
Proof.
  intros. unfold switch_char. cbv zeta. apply cov_any. intros x X.
  repeat match goal with
  | |- cov _ (if Z.eqb ?a ?b then _ else _) => destruct (Z.eqb a b) eqn:?; [solve [walk]|]
  end.
  destruct (is_alpha x); [walk|]. destruct (is_digit x); [walk|]. destruct (240 <=? x)%Z.
  - apply cov_tok. intros c'. apply adv_unicode.
  - apply cov_tok. intros c' E. injection E as <-. apply adv_next_unicode. intros y Y. unfold get in X. rewrite Y in X.
    injection X as ->. assumption.
Qed.

Section Rec.
Variable self : st -> outcome st.
Variable n : nat.
Hypothesis self_cov : forall s, cov s (self s).

Lemma cov_head : forall f k c' s, adv (cur s) c' ->
  (forall s1, cov s1 (f s1)) -> cov s (f (put k (mk txt kWord (cur s) c') (St c' (out s)))).
Proof. intros f k c' s A H s' E. eapply ext_head; [exact A|]. apply H. exact E. Qed.
Lemma cov_head_args : forall k c' s, adv (cur s) c' ->
  cov s (head_args txt n k (mk txt kWord (cur s) c') (St c' (out s))).
Proof.
  intros. unfold head_args. apply (cov_head (loop n (in_line txt) (guard (cmd_argument txt)))); auto. apply cov_loop.
  intros. apply cov_guard. apply cov_argument.
Qed.
Lemma cov_head_text : forall k c' s, adv (cur s) c' ->
  cov s (head_text txt self n k (mk txt kWord (cur s) c') (St c' (out s))).
Proof.
  intros. unfold head_text. apply (cov_head (loop n (in_line txt) (guard self))); auto. apply cov_loop.
  intros. apply cov_guard. apply self_cov.
Qed.
Lemma cov_head_raw : forall k c' s, adv (cur s) c' ->
  cov s (head_raw txt k (mk txt kWord (cur s) c') (St c' (out s))).
Proof.
  intros. unfold head_raw. apply (cov_head (tokt txt kRawText (to_eol txt))); auto. intros. walk.
Qed.
Lemma cov_args_block : forall k c' s g, adv (cur s) c' -> (forall s1, cov s1 (g s1)) ->
  cov s (andthen (andthen (head_args txt n k (mk txt kWord (cur s) c')) (tok1 txt kNewline)) g (St c' (out s))).
Proof.
  intros k c' s g A H. unfold andthen. apply cov_bind.
  - apply cov_bind; [apply cov_head_args; auto|]. intros. walk.
  - auto.
Qed.

Lemma cov_command : forall s, cov s (switch_command txt self n s).
Proof.
  intros. unfold switch_command. apply cov_bind; [walk|]. intros s1 _. cbv zeta.
  assert (A : adv (cur s1) (opt_next txt 58 (advance_ident txt (cur s1)))) by advs.
  repeat match goal with
  | |- cov _ (head_args _ _ _ _ _) => apply cov_head_args; exact A
  | |- cov _ (head_raw _ _ _ _) => apply cov_head_raw; exact A
  | |- cov _ (head_text _ _ _ _ _ _) => apply cov_head_text; exact A
  | |- cov _ (andthen _ _ _) => apply cov_args_block; [exact A|]; intros; apply cov_block; intros; solve [auto with cov]
  | |- cov _ (match ?x with _ => _ end) => destruct x eqn:?
  end.
Qed.

Lemma cov_line_start : forall s o, line_start txt self n s = Some o -> cov s o.
Proof.
  intros s o. unfold line_start. cbv zeta.
  assert (SP : forall s k, cov s (if 0 <? k then tok_adv txt kLeadingSpace k s else Ok s)) by (intros; walk).
  repeat match goal with
  | |- Some _ = Some _ -> _ => let H := fresh in intros H; injection H as <-
  | |- None = Some _ -> _ => discriminate
  | |- (match ?x with _ => _ end) = Some _ -> _ => destruct x eqn:?
  end; try solve [walk]; try solve [apply cov_then; [walk|]; intros; apply cov_loop; auto with cov];
    try solve [auto].
  all: apply cov_bind; [apply SP|]; intros; try apply cov_command; walk.
Qed.

Lemma cov_body : forall s, cov s (regular_body txt self n s).
Proof.
  intros. unfold regular_body. destruct (col (cur s) =? 0); [|apply cov_char].
  destruct (line_start txt self n s) eqn:E; [eapply cov_line_start; eauto|apply cov_char].
Qed.
End Rec.

Lemma cov_regular : forall n s, cov s (regular txt n s).
Proof. induction n; intros; cbn; [apply cov_bad|]. apply cov_body. auto. Qed.

Lemma loop_exit : forall n cond body s s', loop n cond body s = Ok s' -> cond (cur s') = false.
Proof.
  induction n; intros cond body s s' E; cbn in E; [discriminate|]. destruct (cond (cur s)) eqn:C.
  - destruct (body s) eqn:B; cbn in E; try discriminate. eauto.
  - injection E as <-. auto.
Qed.

Lemma tokenize_spec : forall fuel ts, tokenize txt fuel = Ok ts ->
  concat (map text ts) = txt /\ laid_out 0 ts /\ (ascii -> Forall tcolok ts).
Proof.
  intros fuel ts E. unfold tokenize in E. destruct txt as [|b r] eqn:T.
  { injection E as <-. cbn. repeat split; auto. }
  rewrite <- T in *. unfold omap in E.
  destruct (loop fuel (has_text txt) (guard (regular txt fuel)) (St (Cu 0 0 0) [])) as [s'| | |] eqn:L; cbn in E; try discriminate.
  injection E as <-.
  assert (X : ext (St (Cu 0 0 0) []) s').
  { eapply cov_loop; [|exact L]. intros. apply cov_guard. apply cov_regular. }
  apply loop_exit in L. unfold has_text, has_pos in L. rewrite Nat.add_0_r in L.
  destruct X as [A B]. destruct (A ltac:(cbn; lia)) as (P & C & _). destruct (B ltac:(cbn; lia)) as (l & O & LO & TX & K).
  cbn in O, LO. rewrite O. split; [|split].
  - rewrite TX. cbn [cur pos]. replace (pos (cur s')) with len by lia. unfold sub, substr. rewrite Nat.sub_0_r. cbn [skipn].
    apply firstn_all.
  - exact LO.
  - intros Y. apply K; auto. reflexivity.
Qed.
End Walk.
