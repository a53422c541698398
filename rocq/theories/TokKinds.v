(** Every token looks like its kind, commands are followed by their name, and source blocks end at a line. *)
From Coq Require Import String.
From Verif Require Import Base StrModel TokKind TokModel TokSpec TokProofs TokRun RegroupModel.
From Verif Require AttrModel AttrProofs.
Local Open Scope nat_scope.

(** ** Patterns *)
Lemma fold_inv : forall eq l s n, p_fold eq l s = Some n ->
  n = length l /\ n <= length s /\ Forall2 (fun a b => eq a b = true) l (firstn n s).
Proof.
  induction l; intros s n H; cbn in H.
  - injection H as <-. cbn. repeat split; [lia|constructor].
  - destruct s; [discriminate|]. destruct (eq a z) eqn:E; [|discriminate]. destruct (p_fold eq l s) eqn:F; [|discriminate].
    injection H as <-. destruct (IHl _ _ F) as (-> & L & X). cbn. repeat split; [lia|constructor; auto].
Qed.
Lemma ilit_inv : forall l s n, map to_lower l = l -> p_ilit l s = Some n ->
  n = length l /\ map to_lower (firstn n s) = l.
Proof.
  intros l s n I H. apply fold_inv in H. destruct H as (E & _ & F). split; [auto|]. rewrite <- I at 1. clear - F.
  induction F; [auto|]. cbn. f_equal; [|auto]. apply Z.eqb_eq in H. auto.
Qed.
Lemma cls_inv : forall f s n, p_cls f s = Some n -> n = 1 /\ exists c r, s = c :: r /\ f c = true.
Proof. intros f s n H. unfold p_cls in H. destruct s; [discriminate|]. destruct (f z) eqn:E; [|discriminate]. injection H as <-. eauto. Qed.
Lemma run_only : forall f s, Forall (fun c => f c = true) (firstn (run_len f s) s).
Proof. induction s; cbn; [auto|]. destruct (f a) eqn:E; cbn; auto. Qed.
Lemma run_le : forall f s, run_len f s <= length s.
Proof. induction s; cbn; [auto|]. destruct (f a); lia. Qed.
Lemma many_only : forall f s n, p_many1 f s = Some n -> only f (firstn n s) /\ n <= length s.
Proof.
  intros f s n H. apply many_inv in H. destruct H as [-> P]. pose proof (run_le f s). split; [|lia]. split; [|apply run_only].
  intros N. apply (f_equal (@length _)) in N. rewrite firstn_length in N. cbn in N. lia.
Qed.
(** A pattern gives texts with a property. *)
Definition gives (p : pat) (Q : str -> Prop) : Prop := forall s n, p s = Some n -> Q (firstn n s).
Definition both (P Q : str -> Prop) (s : str) : Prop := exists u v, s = u ++ v /\ P u /\ Q v.
Lemma gives_seq : forall p q P Q, gives p P -> gives q Q -> gives (p_seq p q) (both P Q).
Proof.
  intros p q P Q A B s n H. apply seq_inv in H. destruct H as (a & b & E & F & ->). rewrite firstn_split.
  exists (firstn a s), (firstn b (skipn a s)). auto.
Qed.
Lemma gives_chr : forall c, gives (p_chr c) (eq [c]).
Proof. intros c s n H. apply chr_inv in H. destruct H as (-> & r & ->). reflexivity. Qed.
Lemma gives_lit : forall l, gives (p_lit l) (eq l).
Proof. intros l s n H. apply lit_inv in H. destruct H as (-> & r & ->). now rewrite firstn_app, Nat.sub_diag, firstn_all, app_nil_r. Qed.
Lemma gives_ilit : forall l, map to_lower l = l -> gives (p_ilit l) (folded l).
Proof. intros l I s n H. apply ilit_inv in H; auto. apply H. Qed.
Lemma gives_cls : forall f, gives (p_cls f) (fun s => exists c, s = [c] /\ f c = true).
Proof. intros f s n H. apply cls_inv in H. destruct H as (-> & c & r & -> & F). exists c. auto. Qed.
Lemma gives_many : forall f, gives (p_many1 f) (only f).
Proof. intros f s n H. apply many_only in H. apply H. Qed.
Lemma gives_int : gives p_int (only is_digit).
Proof.
  intros s n H. unfold p_int in H. destruct (p_many1 is_digit s) eqn:E; [|discriminate]. destruct (_ <=? _)%Z; [|discriminate].
  injection H as <-. eapply gives_many; eauto.
Qed.
Lemma gives_times : forall n f, gives (p_times n (p_cls f)) (fun s => Forall (fun c => f c = true) s /\ length s = n).
Proof.
  induction n; intros f; cbn.
  - intros s k H. injection H as <-. cbn. split; [constructor|reflexivity].
  - intros s k H. apply (gives_seq _ _ _ _ (gives_cls f) (IHn f)) in H. destruct H as (u & v & -> & (c & -> & F) & G & <-).
    split; [constructor; auto|auto].
Qed.
Lemma gives_alt : forall p q P, gives p P -> gives q P -> gives (p_alt p q) P.
Proof. intros p q P A B s n H. unfold p_alt in H. destruct (p s) eqn:E; [injection H as <-; auto|auto]. Qed.
Lemma gives_imp : forall p (P Q : str -> Prop), (forall s, P s -> Q s) -> gives p P -> gives p Q.
Proof. intros p P Q I H s n E. auto. Qed.

(** ** Chunks of tokens *)
Fixpoint cmds (ts : list token) : Prop :=
  match ts with
  | t :: r => (kind t = kLineCommand -> exists u r', r = u :: r' /\ which_block_line (kind u) <> None) /\ cmds r
  | [] => True
  end.
(** Where a token is with respect to the source blocks: outside, at the beginning of a line, inside a line *)
Inductive vst := VOut | VIn | VMid.
Definition content (k : tk) : bool := match k with kSrcContent | kCmdExampleLine => true | _ => false end.
Definition angle (k : tk) : bool := match k with kDoubleAngleBegin | kDoubleAngleEnd => true | _ => false end.
Definition closing (k : tk) : bool := match k with kCmdSrcEnd | kCmdExampleEnd => true | _ => false end.
Definition vstep (q : vst) (k : tk) : option vst :=
  match q with
  | VOut => Some (if content k then VMid else VOut)
  | VIn => if content k || angle k then Some VMid else if closing k then Some VOut else None
  | VMid => if content k || angle k then Some VMid else match k with kNewline => Some VIn | _ => None end
  end.
Fixpoint vrun (q : vst) (ts : list token) : option vst :=
  match ts with [] => Some q | t :: r => match vstep q (kind t) with Some q' => vrun q' r | None => None end end.
Lemma vrun_app : forall a b q, vrun q (a ++ b) = match vrun q a with Some q' => vrun q' b | None => None end.
Proof. induction a; intros; cbn; auto. destruct (vstep q (kind a)); auto. Qed.
Lemma cmds_app : forall a b, cmds a -> cmds b -> cmds (a ++ b).
Proof.
  induction a; intros b A B; cbn in *; auto. destruct A as [X A]. split; [|auto]. intros K. destruct (X K) as (u & r & -> & N).
  exists u, (r ++ b). auto.
Qed.

Section Kinds.
Variable txt : str.
Notation len := (length txt).
Notation here c := (skipn (pos c) txt).

Definition good (t : token) : Prop :=
  looks_like (kind t) (text t) /\ (leading_kind (kind t) = true -> tpos t + length (text t) < len).
Definition chunk (l : list token) : Prop :=
  Forall good l /\ cmds l /\ (angles_before_text txt -> vrun VOut l = Some VOut).
Lemma chunk_nil : chunk [].
Proof. repeat split; auto. Qed.
Lemma chunk_app : forall a b, chunk a -> chunk b -> chunk (a ++ b).
Proof.
  intros a b (A1 & A2 & A3) (B1 & B2 & B3). split; [apply Forall_app; auto|]. split; [apply cmds_app; auto|].
  intros N. rewrite vrun_app, A3; auto.
Qed.
Definition plain_kind (k : tk) : bool := negb (content k || leading_kind k || match k with kLineCommand => true | _ => false end).
Lemma chunk_one : forall t, plain_kind (kind t) = true -> looks_like (kind t) (text t) -> chunk [t].
Proof.
  intros t P L. unfold plain_kind in P. split; [|split].
  - constructor; [|auto]. split; [auto|]. intros K. rewrite K, orb_true_r in P. discriminate.
  - cbn. split; [|auto]. intros K. rewrite K in P. discriminate.
  - intros _. cbn. destruct (content (kind t)); [discriminate|auto].
Qed.

Definition gr (s : st) (o : outcome st) : Prop := forall s', o = Ok s' -> exists l, out s' = out s ++ l /\ chunk l.
Lemma gr_ok : forall s, gr s (Ok s).
Proof. intros s s' H. injection H as <-. exists []. rewrite app_nil_r. split; [auto|apply chunk_nil]. Qed.
Lemma gr_bad : forall s, gr s Throw /\ gr s UB /\ gr s Fuel.
Proof. repeat split; discriminate. Qed.
Lemma gr_bind : forall s o f, gr s o -> (forall s', o = Ok s' -> gr s' (f s')) -> gr s (obind o f).
Proof.
  intros s o f H H0 s' E. destruct o as [s1| | |]; cbn in E; try discriminate. destruct (H s1 eq_refl) as (a & A & CA).
  destruct (H0 s1 eq_refl s' E) as (b & B & CB). exists (a ++ b). rewrite B, A, app_assoc. split; [auto|apply chunk_app; auto].
Qed.
Lemma gr_any : forall {A} s (o : outcome A) f, (forall x, o = Ok x -> gr s (f x)) -> gr s (obind o f).
Proof. intros A s o f H s' E. destruct o; cbn in E; try discriminate. eapply H; [reflexivity|exact E]. Qed.
Lemma gr_then : forall f g s, gr s (f s) -> (forall s', f s = Ok s' -> gr s' (g s')) -> gr s (andthen f g s).
Proof. intros. apply gr_bind; auto. Qed.
Lemma gr_guard : forall f s, gr s (f s) -> gr s (guard f s).
Proof.
  intros f s H s' E. unfold guard in E. destruct (f s) as [x| | |] eqn:X; cbn in E; try discriminate.
  destruct (pos (cur x) =? pos (cur s)); [discriminate|]. injection E as <-. apply H. reflexivity.
Qed.
Lemma gr_loop : forall n cond body, (forall s, gr s (body s)) -> forall s, gr s (loop n cond body s).
Proof.
  induction n; intros cond body H s; cbn; [apply gr_bad|]. destruct (cond (cur s)); [|apply gr_ok].
  apply gr_bind; auto.
Qed.
Lemma gr_put : forall k a s, (forall c', a (cur s) = Ok c' -> chunk [mk txt k (cur s) c']) -> gr s (tok txt k a s).
Proof.
  intros k a s H s' E. unfold tok in E. destruct (a (cur s)) as [c'| | |] eqn:X; cbn in E; try discriminate.
  injection E as <-. exists [mk txt k (cur s) c']. auto.
Qed.
Lemma gr_tok : forall k a s, plain_kind k = true ->
  (forall c', a (cur s) = Ok c' -> looks_like k (sub txt (pos (cur s)) (pos c'))) -> gr s (tok txt k a s).
Proof. intros k a s P H. apply gr_put. intros c' E. apply chunk_one; cbn [kind text mk]; auto. Qed.

(** The text of a token *)
Lemma sub_here : forall a b, sub txt a b = firstn (b - a) (skipn a txt).
Proof. reflexivity. Qed.
Lemma adv_text : forall n c, sub txt (pos c) (pos (advance txt n c)) = firstn n (here c).
Proof.
  intros n c. rewrite sub_here. destruct (Nat.le_gt_cases (pos c) len).
  - rewrite advance_pos by auto. destruct (Nat.le_gt_cases (pos c + n) len).
    + now replace (Nat.min (pos c + n) len - pos c) with n by lia.
    + rewrite !firstn_all2; auto; rewrite skipn_length; lia.
  - rewrite skipn_all2 by lia. now rewrite !firstn_nil.
Qed.
Lemma run_text : forall f c, sub txt (pos c) (pos (run txt f c)) = firstn (run_len f (here c)) (here c).
Proof.
  intros f c. rewrite sub_here. destruct (Nat.le_gt_cases (pos c) len).
  - rewrite run_pos by auto. f_equal. lia.
  - rewrite (skipn_all2 txt) by lia. now rewrite !firstn_nil.
Qed.
Lemma gr_adv : forall k n s, plain_kind k = true -> looks_like k (firstn n (here (cur s))) -> gr s (tok_adv txt k n s).
Proof. intros k n s P H. apply gr_tok; auto. intros c' E. injection E as <-. now rewrite adv_text. Qed.
Lemma gr_1 : forall k x s, plain_kind k = true -> peek txt (cur s) 0 = Some x -> looks_like k [x] -> gr s (tok1 txt k s).
Proof.
  intros k x s P X H. apply gr_adv; auto. unfold peek in X. rewrite Nat.add_0_r in X. now rewrite (skip_cons _ _ _ X).
Qed.
Lemma gr_run : forall k f s, plain_kind k = true -> looks_like k (firstn (run_len f (here (cur s))) (here (cur s))) ->
  gr s (tokt txt k (run txt f) s).
Proof. intros k f s P H. apply gr_tok; auto. intros c' E. injection E as <-. now rewrite run_text. Qed.
Lemma run_some : forall f c x, peek txt c 0 = Some x -> f x = true -> only f (firstn (run_len f (here c)) (here c)).
Proof.
  intros f c x X F. unfold peek in X. rewrite Nat.add_0_r in X. rewrite (skip_cons _ _ _ X). split; [|apply run_only].
  cbn. rewrite F. discriminate.
Qed.
Lemma is_at_inv : forall c off x, is_at txt c off x = true -> exists r, skipn (pos c + off) txt = x :: r.
Proof.
  intros c off x H. unfold is_at, is_pred, peek in H. destruct (nth_error txt (pos c + off)) eqn:E; [|discriminate].
  apply Z.eqb_eq in H. subst. rewrite (skip_cons _ _ _ E). eauto.
Qed.
Lemma is_str_inv : forall s c off, is_str txt c off s = true -> exists r, skipn (pos c + off) txt = s ++ r.
Proof.
  induction s; intros c off H; cbn in H; [exists (skipn (pos c + off) txt); auto|]. apply andb_true_iff in H. destruct H as [A B].
  apply is_at_inv in A. destruct A as [r A]. destruct (IHs _ _ B) as [r' B']. exists r'.
  rewrite A. cbn. f_equal. rewrite <- B'. replace (pos c + S off) with (pos c + off + 1) by lia. rewrite <- skipn_add, A. reflexivity.
Qed.
Lemma is_str_0 : forall s c, is_str txt c 0 s = true -> firstn (length s) (here c) = s.
Proof.
  intros s c H. apply is_str_inv in H. destruct H as [r H]. rewrite Nat.add_0_r in H. rewrite H.
  now rewrite firstn_app, Nat.sub_diag, firstn_all, app_nil_r.
Qed.
Lemma is_str_1 : forall s c x, peek txt c 0 = Some x -> is_str txt c 1 s = true -> firstn (S (length s)) (here c) = x :: s.
Proof.
  intros s c x X H. apply is_str_inv in H. destruct H as [r H]. unfold peek in X. rewrite Nat.add_0_r in X. rewrite (skip_cons _ _ _ X).
  cbn [firstn]. f_equal. replace (pos c + 1) with (S (pos c)) in H by lia. rewrite H.
  now rewrite firstn_app, Nat.sub_diag, firstn_all, app_nil_r.
Qed.
Lemma is_at_1 : forall c x y, peek txt c 0 = Some x -> is_at txt c 1 y = true -> firstn 2 (here c) = [x; y].
Proof. intros c x y X H. apply (is_str_1 [y] c x X). cbn. now rewrite H. Qed.
Lemma patt_0 : forall p c n Q, gives p Q -> patt txt p c 0 = Some n -> Q (firstn n (here c)).
Proof. intros p c n Q G H. unfold patt in H. rewrite Nat.add_0_r in H. auto. Qed.

Lemma get_peek : forall c off x, get txt c off = Ok x -> peek txt c off = Some x.
Proof. intros c off x H. unfold get in H. destruct (peek txt c off); [congruence|discriminate]. Qed.
Lemma here_cons : forall c x, peek txt c 0 = Some x -> here c = x :: skipn (S (pos c)) txt.
Proof. intros c x X. unfold peek in X. rewrite Nat.add_0_r in X. apply skip_cons. auto. Qed.
Lemma next_here : forall c x, peek txt c 0 = Some x -> pos (next txt c) = S (pos c).
Proof.
  intros c x X. apply next_pos. unfold peek in X. rewrite Nat.add_0_r in X. apply nth_error_Some. congruence.
Qed.
Lemma skip_inv : forall ch c c', skip txt ch c = Ok c' -> peek txt c 0 = Some ch /\ c' = next txt c.
Proof.
  intros ch c c' H. unfold skip in H. destruct (get txt c 0) as [x| | |] eqn:G; cbn in H; try discriminate.
  apply get_peek in G. destruct (Z.eqb_spec x ch); [|discriminate]. injection H as <-. subst. auto.
Qed.
(** A character, then a run *)
Lemma next_run : forall c x f, peek txt c 0 = Some x ->
  sub txt (pos c) (pos (run txt f (next txt c))) =
  x :: firstn (run_len f (skipn (S (pos c)) txt)) (skipn (S (pos c)) txt).
Proof.
  intros c x f X. pose proof (next_here _ _ X) as N. pose proof (adv_run txt f (next txt c)) as A.
  assert (L : pos (next txt c) <= len). { rewrite N. unfold peek in X. rewrite Nat.add_0_r in X. apply nth_error_Some. congruence. }
  destruct (A L) as ((B & _) & _). rewrite <- (sub_app txt (pos c) (pos (next txt c))) by (rewrite N in *; lia).
  rewrite run_text, N. rewrite sub_here, (here_cons _ _ X). replace (S (pos c) - pos c) with 1 by lia. reflexivity.
Qed.
Lemma peek_1 : forall c x, peek txt c 0 = Some x -> peek txt (next txt c) 0 = peek txt c 1.
Proof. intros c x X. unfold peek. rewrite (next_here _ _ X). f_equal. lia. Qed.
(** A token that starts with a character *)
Lemma sub_starts : forall c c' x, peek txt c 0 = Some x -> pos c < pos c' -> exists r, sub txt (pos c) (pos c') = x :: r.
Proof.
  intros c c' x X L. rewrite sub_here, (here_cons _ _ X). destruct (pos c' - pos c) eqn:E; [lia|]. cbn [firstn]. eauto.
Qed.

Ltac leaf :=
  first
    [ exact I
    | reflexivity
    | solve [left; reflexivity | right; left; reflexivity | right; right; reflexivity | right; right; left; reflexivity
            | right; right; right; reflexivity]
    | match goal with
      | H : is_str _ ?c 0 ?l = true |- looks_like ?k (firstn ?n (skipn (pos ?c) _)) =>
          change n with (length l); rewrite (is_str_0 _ _ H); leaf
      | X : peek _ ?c 0 = Some _, H : is_str _ ?c 1 ?l = true |- looks_like ?k (firstn ?n (skipn (pos ?c) _)) =>
          change n with (S (length l)); rewrite (is_str_1 _ _ _ X H); leaf
      | X : peek _ ?c 0 = Some _, H : is_at _ ?c 1 ?l = true |- looks_like ?k (firstn 2 (skipn (pos ?c) _)) =>
          rewrite (is_at_1 _ _ _ X H); leaf
      end ].
Ltac grow :=
  repeat first
    [ match goal with
      | |- gr _ Throw => apply gr_bad
      | |- gr _ UB => apply gr_bad
      | |- gr _ Fuel => apply gr_bad
      | |- gr ?s (Ok ?s) => apply gr_ok
      | X : peek _ (cur ?s) 0 = Some _ |- gr ?s (tok1 _ _ ?s) => eapply gr_1; [reflexivity|exact X|leaf]
      | |- gr ?s (tok1 _ _ ?s) => apply gr_adv; [reflexivity|leaf]
      | |- gr ?s (tok_adv _ _ _ ?s) => apply gr_adv; [reflexivity|leaf]
      | X : peek _ (cur ?s) 0 = Some _ |- gr ?s (tokt _ _ (run _ _) ?s) =>
          apply gr_run; [reflexivity|]; first [exact I | exact (run_some _ _ _ X eq_refl)]
      | |- gr ?s (tokt _ _ (run _ _) ?s) => apply gr_run; [reflexivity|exact I]
      | |- gr ?s (tokt _ _ _ ?s) => apply gr_tok; [reflexivity|intros; exact I]
      | |- gr ?s (tok _ _ _ ?s) => apply gr_tok; [reflexivity|intros; exact I]
      | |- gr ?s (andthen _ _ ?s) => apply gr_then; [|intros]
      | |- gr ?s (obind (get _ _ _) _) => let X := fresh "X" in apply gr_any; intros ? X; apply get_peek in X
      | |- gr ?s (obind (is_iat _ _ _ _) _) => apply gr_any; intros
      | |- gr ?s (obind (am_pm _ _ _) _) => apply gr_any; intros
      | |- gr _ (if Z.eqb ?x ?y then _ else _) => destruct (Z.eqb_spec x y); [subst x|]
      | |- gr _ (match ?x with _ => _ end) => destruct x eqn:?
      | |- gr _ ((match ?x with _ => _ end) _) => destruct x eqn:?
      end ].

Lemma gr_argument : forall s, gr s (cmd_argument txt s).
Proof.
  intros. unfold cmd_argument. grow.
  apply gr_tok; [reflexivity|]. intros c' E. unfold omap in E. destruct (skip txt 58 (cur s)) eqn:K; cbn [obind] in E; try discriminate.
  injection E as <-. apply skip_inv in K. destruct K as [_ ->]. cbn [looks_like]. rewrite (next_run _ _ _ X). eexists. split; [reflexivity|].
  assert (F : forall y, (is_alnum y || (y =? 95)%Z || (y =? 45)%Z) = ident_char y) by reflexivity.
  unfold is_pred in Heqb. destruct (peek txt (cur s) 1) as [y|] eqn:P; [|discriminate].
  rewrite <- (peek_1 _ _ X) in P. pose proof (run_some (fun y : Z => is_alnum y || (y =? 95)%Z || (y =? 45)%Z) _ _ P) as R.
  rewrite (next_here _ _ X) in R. apply R. now rewrite Heqb.
Qed.
Lemma at_nl : forall c, is_at txt c 0 10 = true -> peek txt c 0 = Some 10%Z.
Proof.
  intros c H. unfold is_at, is_pred in H. destruct (peek txt c 0); [|discriminate]. apply Z.eqb_eq in H. congruence.
Qed.
Lemma gr_opt_newline : forall s, gr s (opt_newline txt s).
Proof.
  intros. unfold opt_newline. destruct (is_at txt (cur s) 0 10) eqn:E; [|apply gr_ok]. apply at_nl in E. grow.
Qed.
Lemma gr_inline_src : forall s, gr s (inline_src txt s).
Proof. intros. unfold inline_src. grow; (apply gr_adv; [reflexivity|]; cbn [looks_like]; rewrite firstn_length; lia). Qed.

(** ** Words *)
Lemma iat_text : forall l c off, map to_lower l = l -> is_iat txt c off l = Ok true ->
  folded l (firstn (length l) (skipn (pos c + off) txt)).
Proof.
  unfold folded. induction l; intros c off I H; [reflexivity|]. cbn [is_iat] in H. destruct (peek txt c off) as [y|] eqn:P; [|discriminate].
  destruct (Z.eqb_spec (to_lower y) (to_lower a)); [|discriminate]. injection I as I1 I2.
  unfold peek in P. rewrite (skip_cons _ _ _ P). cbn [length firstn map]. f_equal; [congruence|].
  specialize (IHl c (S off) I2 H). now replace (pos c + S off) with (S (pos c + off)) in IHl by lia.
Qed.
Lemma word_starts : forall c x, peek txt c 0 = Some x -> is_alnum x = true -> pos c < pos (advance_word txt c).
Proof.
  intros c x X A. assert (L : pos c <= len). { unfold peek in X. rewrite Nat.add_0_r in X. assert (pos c < len) by (apply nth_error_Some; congruence). lia. }
  pose proof (run_gt txt is_alnum c x L X A) as G. unfold advance_word. cbv zeta.
  pose proof (adv_run txt is_alnum c L) as ((_ & L1) & _).
  pose proof (adv_joints txt (left txt c) (run txt is_alnum c) L1) as ((G2 & L2) & _).
  pose proof (adv_opt txt 39 _ L2) as ((G3 & L3) & _). pose proof (adv_run txt is_alnum _ L3) as ((G4 & _) & _). lia.
Qed.
Lemma gr_plain_word : forall s x, peek txt (cur s) 0 = Some x -> is_alnum x = true -> gr s (tokt txt kWord (advance_word txt) s).
Proof.
  intros s x X A. apply gr_tok; [reflexivity|]. intros c' E. injection E as <-. pose proof (word_starts _ _ X A) as L.
  destruct (sub_starts _ _ _ X L) as [r ->]. exists x, r. split; [auto|]. now rewrite A.
Qed.
Lemma alpha_alnum : forall x, is_alpha x = true -> is_alnum x = true.
Proof. intros x H. unfold is_alnum. now rewrite H. Qed.
Lemma gr_word : forall s x, peek txt (cur s) 0 = Some x -> is_alpha x = true -> gr s (switch_word txt s).
Proof.
  intros s x X A. apply alpha_alnum in A. unfold switch_word. cbv zeta. pose proof (gr_plain_word s x X A) as W.
  apply gr_any. intros y Y. apply get_peek in Y. assert (y = x) by congruence. subst y. clear Y.
  destruct (one_of (lit "hH") x).
  { apply gr_any. intros [] I; [|exact W]. apply gr_then; [|intros; grow].
    apply gr_tok; [reflexivity|]. intros c' E.
    assert (E' : c' = if is_any txt (advance txt 4 (cur s)) 0 (lit "sS") then next txt (advance txt 4 (cur s)) else advance txt 4 (cur s))
      by (symmetry; now injection E). subst c'. clear E. apply (iat_text (lit "http")) in I; [|reflexivity].
    rewrite Nat.add_0_r in I. change (length (lit "http")) with 4 in I. cbn [looks_like]. set (c4 := advance txt 4 (cur s)).
    destruct (is_any txt c4 0 (lit "sS")) eqn:S; [|left; unfold c4; now rewrite adv_text].
    right. unfold is_any, is_pred in S. destruct (peek txt c4 0) as [y|] eqn:P; [|discriminate].
    assert (L4 : pos (next txt c4) = pos (advance txt 5 (cur s))).
    { change 5 with (4 + 1). unfold c4. clear. generalize 4 as n. generalize (cur s) as c. intros c n. revert c. induction n; intros c; cbn [advance Nat.add]; auto. }
    rewrite L4, adv_text. change 5 with (4 + 1). rewrite firstn_split. unfold folded in *. rewrite map_app, I.
    assert (L : pos c4 = pos (cur s) + 4).
    { unfold c4. assert (pos c4 < len) by (unfold peek in P; rewrite Nat.add_0_r in P; apply nth_error_Some; congruence).
      unfold peek in X. rewrite Nat.add_0_r in X. assert (pos (cur s) < len) by (apply nth_error_Some; congruence).
      unfold c4 in *. rewrite advance_pos in * by lia. lia. }
    rewrite skipn_add, <- L, (here_cons _ _ P). cbn [firstn map]. unfold one_of in S. cbn in S.
    assert (y = 115 \/ y = 83)%Z by lia. destruct H; subst y; reflexivity. }
  destruct (one_of (lit "sS") x).
  { destruct (is_str txt (cur s) 0 (lit "SCHEDULED:")) eqn:S; [grow|]. destruct (patt _ _ _ _) eqn:P; [|exact W].
    apply gr_then; [|intros; apply gr_inline_src]. apply gr_adv; [reflexivity|]. revert P. apply patt_0. clear.
    eapply gives_imp; [|apply gives_seq; [apply (gives_ilit (lit "src")); reflexivity|apply gives_seq; [|apply gives_many]]].
    - intros s (u & v & -> & F & (a & b & -> & A & B)). exists u, (a ++ b). split; [auto|]. split; [exact F|].
      destruct B as [B0 B]. split; [destruct a; [exact B0|discriminate]|]. apply Forall_app. split; [exact A|exact B].
    - intros s n H. unfold p_opt in H. destruct (p_chr 95 s) eqn:E.
      + injection H as <-. apply gives_chr in E. rewrite <- E. constructor; [reflexivity|constructor].
      + injection H as <-. constructor. }
  destruct (Z.eqb_spec x 68); [destruct (is_str txt (cur s) 0 (lit "DEADLINE:")) eqn:S; [grow|exact W]|].
  destruct (Z.eqb_spec x 67); [destruct (is_str txt (cur s) 0 (lit "CLOSED:")) eqn:S; [grow|exact W]|exact W].
Qed.

Lemma peek_lt : forall c off x, peek txt c off = Some x -> pos c + off < len.
Proof. intros c off x X. apply nth_error_Some. unfold peek in X. congruence. Qed.
Lemma gr_repeater : forall s x, peek txt (cur s) 0 = Some x -> x = 43%Z \/ x = 46%Z -> gr s (time_repeater txt s).
Proof.
  intros s x X D. unfold time_repeater. apply gr_then; [|intros; grow]. apply gr_tok; [reflexivity|]. intros c' E. injection E as <-.
  cbn [looks_like]. unfold opt_next. destruct (is_at txt (cur s) 0 46) eqn:A.
  - rewrite (next_run _ _ _ X). split; [discriminate|]. constructor; [lia|]. eapply Forall_impl; [|apply run_only].
    intros a H. cbv beta in H. lia.
  - unfold is_at, is_pred in A. rewrite X in A. destruct D as [->| ->]; [|discriminate].
    rewrite run_text. destruct (run_some (Z.eqb 43) _ _ X eq_refl) as [N F]. split; [exact N|]. eapply Forall_impl; [|exact F].
    intros a H. cbv beta in H. lia.
Qed.
Lemma gr_tilda : forall s, peek txt (cur s) 0 = Some 126%Z -> gr s (tilda txt s).
Proof.
  intros s X. unfold tilda. cbv zeta. grow. apply gr_bind; [grow|]. intros s1 _. set (off := tilda_end _ _ _ _). clearbody off.
  destruct (is_at txt (cur s1) off 126) eqn:A; [|apply gr_ok]. apply gr_then; [grow|]. intros s2 E.
  unfold tok_adv, tokt, tok in E. cbn [obind] in E. injection E as <-. cbn [cur].
  unfold is_at, is_pred in A. destruct (peek txt (cur s1) off) eqn:P; [|discriminate]. apply Z.eqb_eq in A. subst z.
  eapply (gr_1 _ 126%Z); [reflexivity| |reflexivity]. cbn [cur]. unfold peek in *. pose proof (peek_lt (cur s1) off _ P).
  rewrite advance_pos by lia. replace (Nat.min (pos (cur s1) + off) len + 0) with (pos (cur s1) + off) by lia. exact P.
Qed.
Lemma gr_until : forall k s, looks_like k = looks_like kRawText -> plain_kind k = true -> gr s (until_end txt k s).
Proof. intros k s K P. unfold until_end. destruct (patt txt p_link_end (cur s) 0); [|apply gr_bad]. apply gr_adv; [auto|]. rewrite K. exact I. Qed.
Lemma gr_internal : forall s, gr s (link_internal txt s).
Proof.
  intros. unfold link_internal, link_name, count_at. rewrite Nat.add_0_r.
  set (f := fun x : Z => negb (one_of [93; 58; 10]%Z x)). set (h := here (cur s)).
  assert (F : Forall (fun c => c <> 93%Z /\ c <> 58%Z /\ c <> 10%Z) (firstn (run_len f h) h)).
  { eapply Forall_impl; [|apply run_only]. unfold f, one_of. intros a H. cbn in H. lia. }
  destruct (is_at txt (cur s) (run_len f h) 58) eqn:E.
  - apply gr_adv; [reflexivity|]. cbn [looks_like]. fold h. rewrite firstn_split. exists (firstn (run_len f h) h). split; [|auto]. f_equal.
    apply is_at_inv in E. destruct E as [r E]. unfold h at 2. rewrite skipn_add, E. reflexivity.
  - apply gr_adv; [reflexivity|]. exact F.
Qed.
Lemma folded_word : forall l s, map to_lower l = l -> forallb is_alpha l = true -> folded l (firstn (length l) s) ->
  length l <= run_len is_word s.
Proof.
  unfold folded. induction l; intros s I A F; [cbn; lia|]. destruct s as [|y s]; [discriminate|]. cbn [length firstn map] in F.
  injection F as F1 F2. injection I as I1 I2. cbn [forallb] in A. apply andb_true_iff in A. destruct A as [A1 A2]. cbn [run_len].
  replace (is_word y) with true; [cbn [length]; specialize (IHl s I2 A2 F2); lia|]. symmetry. unfold is_word.
  replace (is_alnum y) with true; [reflexivity|]. symmetry. apply alpha_alnum.
  clear - F1 A1. unfold is_alpha, to_lower, is_upper, is_lower in *.
  destruct ((65 <=? y)%Z && (y <=? 90)%Z) eqn:U; [apply orb_true_r|]. subst. rewrite U in A1. exact A1.
Qed.
Lemma gr_ident : forall k l s, map to_lower l = l -> forallb is_alpha l = true -> is_iat txt (cur s) 0 l = Ok true ->
  plain_kind k = true ->
  (looks_like k = fun s => exists f m, s = f ++ m /\ folded l f /\ Forall (fun c => is_word c = true) m) ->
  gr s (tokt txt k (advance_ident txt) s).
Proof.
  intros k l s L A H P K. apply gr_run; auto. apply iat_text in H; auto. rewrite Nat.add_0_r in H.
  pose proof (folded_word _ _ L A H) as N. rewrite K. set (h := here (cur s)) in *.
  exists (firstn (length l) h), (firstn (run_len is_word h - length l) (skipn (length l) h)).
  replace (run_len is_word h) with (length l + (run_len is_word h - length l)) at 1 by lia. rewrite firstn_split. split; [auto|]. split; [auto|].
  pose proof (run_only is_word h) as R. replace (run_len is_word h) with (length l + (run_len is_word h - length l)) in R at 1 by lia.
  rewrite firstn_split in R. apply Forall_app in R. apply R.
Qed.
Lemma gr_protocol : forall s, gr s (link_protocol txt s).
Proof.
  intros. unfold link_protocol. cbv zeta. apply gr_any. intros [] H.
  { apply (iat_text (lit "http")) in H; [|reflexivity]. rewrite Nat.add_0_r in H. unfold folded in H.
    change (lit "http") with [104; 116; 116; 112]%Z in H. cbn [length] in H.
    destruct (peek txt (cur s) 0) as [y|] eqn:P.
    2: { unfold peek in P. apply nth_error_None in P. rewrite skipn_all2 in H by lia. discriminate. }
    rewrite (here_cons _ _ P) in H. cbn [firstn map] in H. injection H as e _.
    eapply gr_word; eauto. clear - e. unfold is_alpha, to_lower, is_lower, is_upper in *.
    destruct ((65 <=? y)%Z && (y <=? 90)%Z) eqn:U; [apply orb_true_r|]. subst. reflexivity. }
  clear H. apply gr_any. intros [] H.
  { apply gr_then; [|intros; apply gr_until; reflexivity]. apply gr_adv; [reflexivity|]. apply (iat_text (lit "file")) in H; [|reflexivity].
    rewrite Nat.add_0_r in H. exact H. }
  clear H. apply gr_any. intros [] H.
  { apply gr_then; [|intros; apply gr_until; reflexivity]. eapply (gr_ident _ (lit "attachment")); auto. }
  clear H. apply gr_any. intros [] H; [|apply gr_internal].
  apply gr_then; [|intros; apply gr_until; reflexivity]. eapply (gr_ident _ (lit "id")); auto.
Qed.
Lemma gr_plain : forall s, gr s (link_plain txt s).
Proof. intros. unfold link_plain. grow; try (apply gr_until; reflexivity). apply gr_internal. Qed.

Ltac pattern_text E := apply gr_adv; [reflexivity|]; revert E; apply patt_0.
Lemma gr_bracket : forall s, peek txt (cur s) 0 = Some 91%Z -> gr s (bracket txt s).
Proof.
  intros s X. unfold bracket. cbv zeta.
  destruct (patt _ _ _ _) eqn:E.
  { pattern_text E. eapply gives_imp; [|repeat apply gives_seq; try apply gives_chr; apply gives_many].
    intros ? (? & ? & -> & <- & u & ? & -> & [U0 U] & ? & ? & -> & <- & <-). exists (u ++ [37%Z]). rewrite <- app_assoc. split; [auto|].
    split; [now destruct u|]. apply Forall_app. split; [|repeat constructor]. eapply Forall_impl; [|exact U]. intros a ->. reflexivity. }
  clear E. destruct (patt _ _ _ _) eqn:E.
  { pattern_text E. eapply gives_imp; [|repeat apply gives_seq; try apply gives_chr; apply gives_many].
    intros ? (? & ? & -> & <- & u & ? & -> & [U0 U] & ? & ? & -> & <- & v & ? & -> & [V0 V] & <-). exists (u ++ [47%Z] ++ v).
    rewrite <- !app_assoc. split; [auto|]. split; [now destruct u|].
    repeat (apply Forall_app; split); [|repeat constructor|]; (eapply Forall_impl; [|eassumption]); intros a ->; reflexivity. }
  clear E. destruct (is_str txt (cur s) 0 (lit "[%%")) eqn:E; [grow|]. clear E.
  destruct (patt _ _ _ _) eqn:E.
  { pattern_text E. eapply gives_imp; [|repeat apply gives_seq; [apply gives_lit|apply gives_cls|apply gives_chr]].
    intros ? (? & ? & -> & <- & ? & ? & -> & (c & -> & C) & <-). exists c. auto. }
  clear E. destruct (patt _ _ _ _) eqn:E.
  { pattern_text E. eapply gives_imp; [|repeat apply gives_seq; [apply gives_chr|apply gives_cls|apply gives_chr]].
    intros ? (? & ? & -> & <- & ? & ? & -> & (c & -> & C) & <-). cbn [looks_like]. unfold one_of in C.
    change (lit "xX -") with [120; 88; 32; 45]%Z in C. cbn in C. assert (D : (c = 120 \/ c = 88 \/ c = 32 \/ c = 45)%Z) by lia.
    destruct D as [->|[->|[->| ->]]]; leaf. }
  clear E. destruct (patt _ _ _ _) eqn:E.
  { pattern_text E. eapply gives_imp; [|apply gives_seq; [|apply gives_seq; [apply gives_many|apply gives_chr]]].
    - intros ? (f & ? & -> & F & m & ? & -> & M & <-). exists f, m. split; [auto|]. split; [exact F|exact M].
    - intros r m H. destruct (p_ilit (lit "[fn:") r) as [q|] eqn:P; [|discriminate]. destruct (p_chr 58 (skipn q r)); [discriminate|].
      injection H as <-. apply (gives_ilit (lit "[fn:")) in P; [exact P|reflexivity]. }
  clear E. destruct (patt _ _ _ _) eqn:E.
  { pattern_text E. apply (gives_ilit (lit "[fn::")). reflexivity. }
  clear E. destruct (patt _ _ _ _) eqn:E.
  { apply gr_then; [|intros; apply gr_protocol]. apply gr_adv; [reflexivity|]. unfold patt in E. rewrite Nat.add_0_r in E.
    apply seq_inv in E. destruct E as (a & b & E & _). apply lit_inv in E. destruct E as (_ & r & E). rewrite E. reflexivity. }
  clear E. destruct (patt _ _ _ _) eqn:E; [|grow].
  apply gr_then; [|intros; apply gr_plain]. apply gr_adv; [reflexivity|]. unfold patt in E. rewrite Nat.add_0_r in E.
  apply seq_inv in E. destruct E as (a & b & E & _). apply lit_inv in E. destruct E as (_ & r & E). rewrite E. reflexivity.
Qed.

Lemma pos_le : forall c x, peek txt c 0 = Some x -> pos c <= len.
Proof. intros c x X. apply peek_lt in X. lia. Qed.
Lemma gr_at : forall s, peek txt (cur s) 0 = Some 64%Z -> gr s (at_sign txt s).
Proof.
  intros s X. unfold at_sign. cbv zeta. destruct (is_pred txt (cur s) 1 is_alpha) eqn:A.
  { unfold is_pred in A. destruct (peek txt (cur s) 1) as [y|] eqn:P; [|discriminate].
    rewrite <- (peek_1 _ _ X) in P. apply gr_tok; [reflexivity|]. intros c' E. injection E as <-.
    pose proof (word_starts _ _ P (alpha_alnum _ A)) as L. destruct (sub_starts _ _ _ P L) as [r R].
    exists (y :: r). split; [|exists y, r; auto]. rewrite <- (sub_app txt _ (pos (next txt (cur s)))).
    - rewrite R, sub_here, (next_here _ _ X), (here_cons _ _ X). replace (S (pos (cur s)) - pos (cur s)) with 1 by lia. reflexivity.
    - rewrite (next_here _ _ X) in *. lia. }
  clear A. destruct (patt _ _ _ _) eqn:P; [|grow]. apply gr_then.
  - apply gr_tok; [reflexivity|]. intros c' E. unfold omap in E.
    destruct (skip txt 64 (cur s)) as [c1| | |] eqn:K1; cbn [obind] in E; try discriminate.
    destruct (skip txt 64 c1) as [c2| | |] eqn:K2; cbn [obind] in E; try discriminate. injection E as <-.
    apply skip_inv in K1. destruct K1 as [_ ->]. apply skip_inv in K2. destruct K2 as [X1 ->].
    pose proof (next_here _ _ X) as N1. pose proof (next_here _ _ X1) as N2. rewrite N1 in N2.
    assert (L : pos (next txt (next txt (cur s))) <= len). { apply peek_lt in X1. lia. }
    destruct (adv_ident txt (next txt (next txt (cur s))) L) as ((G & _) & _).
    cbn [looks_like]. rewrite <- (sub_app txt _ (pos (next txt (next txt (cur s))))) by lia.
    unfold advance_ident. rewrite run_text. rewrite N2, sub_here. replace (S (S (pos (cur s))) - pos (cur s)) with 2 by lia.
    unfold patt in P. rewrite Nat.add_0_r in P. apply seq_inv in P. destruct P as (a & b & P1 & P2 & _). apply lit_inv in P1.
    destruct P1 as (-> & r & P1). rewrite P1 in P2. change (skipn (length (lit "@@")) (lit "@@" ++ r)) with r in P2.
    apply seq_inv in P2. destruct P2 as (a' & b' & P2 & _).
    assert (H2 : skipn (S (S (pos (cur s)))) txt = r).
    { replace (S (S (pos (cur s)))) with (pos (cur s) + 2) by lia. rewrite <- skipn_add, P1. reflexivity. }
    rewrite H2, P1. eexists. split; [reflexivity|]. apply many_inv in P2. destruct P2 as [E P2]. subst a'. split; [|apply run_only].
    intros Z. apply (f_equal (@length _)) in Z. rewrite firstn_length in Z. pose proof (run_le is_word r). cbn in Z. lia.
  - intros s1 _. apply gr_tok; [reflexivity|]. intros c' E.
    destruct (skip txt 58 (cur s1)) as [c1| | |] eqn:K1; cbn [obind] in E; try discriminate.
    destruct (to_at_at txt (S (left txt c1)) c1) as [c2| | |] eqn:K2; cbn [obind] in E; try discriminate.
    destruct (skip txt 64 c2) as [c3| | |] eqn:K3; cbn [obind] in E; try discriminate. apply skip_inv in K1. destruct K1 as [X1 ->].
    apply skip_inv in K3. destruct K3 as [X3 ->]. apply skip_inv in E. destruct E as [X4 ->].
    pose proof (next_here _ _ X1) as N1. pose proof (next_here _ _ X3) as N3. pose proof (next_here _ _ X4) as N4. rewrite N3 in N4.
    assert (L : pos (next txt (cur s1)) <= len) by (apply peek_lt in X1; lia).
    destruct (adv_at_at txt _ _ _ K2 L) as ((G & _) & _). cbn [looks_like].
    rewrite <- (sub_app txt _ (pos (next txt (cur s1)))) by lia. rewrite <- (sub_app txt (pos (next txt (cur s1))) (pos c2)) by lia.
    exists (sub txt (pos (next txt (cur s1))) (pos c2)). f_equal; [|f_equal].
    + rewrite sub_here, N1, (here_cons _ _ X1). replace (S (pos (cur s1)) - pos (cur s1)) with 1 by lia. reflexivity.
    + rewrite sub_here, N4, (here_cons _ _ X3). replace (S (S (pos c2)) - pos c2) with 2 by lia. cbn [firstn].
      rewrite <- N3, (here_cons _ _ X4). reflexivity.
Qed.

Lemma am_pm_inv : forall c p q, am_pm txt c p = Ok q -> q = p + (q - p).
Proof.
  intros c p q H. unfold am_pm in H. destruct (is_iat txt c p (lit "am")) as [[]| | |]; cbn [obind] in H; try discriminate.
  - injection H as <-. lia.
  - destruct (is_iat txt c p (lit "pm")) as [[]| | |]; cbn [obind] in H; try discriminate; injection H as <-; lia.
Qed.
Lemma two_digits : forall s, Forall (fun c => is_digit c = true) s /\ length s = 2 -> only is_digit s.
Proof. intros s [F L]. split; [intros ->; discriminate|auto]. Qed.
Lemma time_longer : forall h p q m, q = p + m -> looks_like kTime (firstn p h) -> looks_like kTime (firstn q h).
Proof.
  intros h p q m -> (d & x & E & D). rewrite firstn_split, E. exists d, (x ++ firstn m (skipn p h)). rewrite <- !app_assoc. auto.
Qed.
Lemma gr_number : forall s x, peek txt (cur s) 0 = Some x -> is_digit x = true -> gr s (number txt s).
Proof.
  intros s x X D. unfold number. cbv zeta. destruct (patt _ _ _ _) eqn:E.
  { apply gr_any. intros p A. apply am_pm_inv in A. apply gr_adv; [reflexivity|]. apply (time_longer _ _ _ _ A). clear A. revert E. apply patt_0.
    eapply gives_imp; [|apply gives_seq; [apply gives_times|apply gives_seq; [apply gives_chr|apply gives_seq; [apply gives_times|apply gives_seq; [apply gives_chr|apply gives_times]]]]].
    intros ? (d & ? & -> & U & ? & m & -> & <- & _). exists d, m. split; [auto|apply two_digits; auto]. }
  clear E. destruct (patt _ _ _ _) eqn:E.
  { apply gr_any. intros p A. apply am_pm_inv in A. apply gr_adv; [reflexivity|]. apply (time_longer _ _ _ _ A). clear A. revert E. apply patt_0.
    eapply gives_imp; [|apply gives_seq; [apply gives_many|apply gives_seq; [apply gives_chr|apply gives_times]]].
    intros ? (d & ? & -> & U & ? & m & -> & <- & _). exists d, m. auto. }
  clear E. destruct (patt _ _ _ _) eqn:E.
  { pattern_text E. eapply gives_imp;
      [|apply gives_seq; [apply gives_times|apply gives_seq; [apply gives_chr|apply gives_seq; [apply gives_times|apply gives_seq; [apply gives_chr|apply gives_times]]]]].
    intros ? (y & ? & -> & [Y Y'] & ? & ? & -> & <- & m & ? & -> & M & ? & d & -> & <- & D'). exists y, m, d. split; [auto|].
    split; [split; [intros ->; discriminate|exact Y]|]. split; [apply two_digits; auto|]. split; [apply two_digits; auto|]. tauto. }
  assert (W : forall n, 0 < n -> looks_like kWord (firstn n (here (cur s)))).
  { intros n N. rewrite (here_cons _ _ X). destruct n; [lia|]. exists x. eexists. split; [reflexivity|]. unfold is_alnum. now rewrite D, orb_true_r. }
  clear E. destruct (patt _ _ _ _) eqn:E.
  { apply gr_adv; [reflexivity|]. apply W. unfold patt in E. apply seq_inv in E. destruct E as (a & b & E & _ & ->). apply atl_int in E. lia. }
  clear E. destruct (patt _ _ _ _) eqn:E.
  { apply gr_adv; [reflexivity|]. apply W. unfold patt in E. apply seq_inv in E. destruct E as (a & b & E & _ & ->). apply atl_int in E. lia. }
  apply gr_run; [reflexivity|]. exact (run_some _ _ _ X D).
Qed.

Lemma gr_unicode : forall s x, peek txt (cur s) 0 = Some x -> (240 <=? x)%Z = true ->
  gr s (tok txt kWord (fun c => unicode_run txt (S (left txt c)) c) s).
Proof.
  intros s x X H. apply gr_tok; [reflexivity|]. intros c' E. cbn [unicode_run] in E. unfold get in E. rewrite X in E. cbn [obind] in E.
  rewrite H in E. assert (L : pos (cur s) < pos (next_unicode txt (cur s)) <= len).
  { pose proof (peek_lt _ _ _ X). unfold next_unicode. rewrite X. replace (x =? 10)%Z with false by lia. cbn [pos]. rewrite H. lia. }
  apply adv_unicode in E. destruct (E ltac:(lia)) as ((G & _) & _). destruct (sub_starts (cur s) c' x X ltac:(lia)) as [r ->].
  exists x, r. split; [auto|]. now rewrite H, orb_true_r.
Qed.
Lemma gr_punct : forall s x, peek txt (cur s) 0 = Some x -> is_alpha x = false -> is_digit x = false -> (240 <=? x)%Z = false ->
  x <> 32%Z -> x <> 10%Z -> gr s (tokt txt kAnyPunct (next_unicode txt) s).
Proof.
  intros s x X A D U S N. apply gr_tok; [reflexivity|]. intros c' E. injection E as <-.
  assert (L : pos (cur s) < pos (next_unicode txt (cur s))).
  { pose proof (peek_lt _ _ _ X). unfold next_unicode. rewrite X. replace (x =? 10)%Z with false by lia. cbn [pos]. rewrite U.
    repeat match goal with |- context [if ?b then _ else _] => destruct b end; lia. }
  destruct (sub_starts _ _ _ X L) as [r ->]. exists x, r. split; [auto|]. unfold is_alnum. rewrite A, D, U.
  replace (x =? 32)%Z with false by lia. replace (x =? 10)%Z with false by lia. reflexivity.
Qed.

(** ** Newlines *)
Lemma newlines_spec : forall m c k c' k', left txt c <= m -> is_at txt c 0 10 = true -> newlines txt m c k = (c', k') ->
  exists j, k' = k + S j /\ newline_run (sub txt (pos c) (pos c')) /\ newlines_in (sub txt (pos c) (pos c')) = S j /\ pos c' <= len.
Proof.
  unfold left. induction m; intros c k c' k' M A H.
  - apply at_nl in A. apply peek_lt in A. lia.
  - cbn [newlines] in H. rewrite A in H. apply at_nl in A. pose proof (next_here _ _ A) as N. pose proof (peek_lt _ _ _ A) as PL.
    destruct (is_at txt (run txt (Z.eqb 32) (next txt c)) 0 10) eqn:B.
    + assert (L1 : pos (next txt c) <= len) by lia. pose proof (adv_run txt (Z.eqb 32) (next txt c) L1) as ((G & L2) & _).
      set (c2 := run txt (Z.eqb 32) (next txt c)) in *.
      destruct (IHm c2 (S k) c' k') as (j & K & (R1 & R2 & R3) & R4 & R5); auto; [lia|].
      exists (S j). split; [lia|].
      assert (LE : pos c2 <= pos c').
      { assert (Y : adv txt c2 (fst (newlines txt m c2 (S k)))) by apply adv_newlines. rewrite H in Y. destruct (Y L2) as ((Y1 & _) & _). exact Y1. }
      rewrite <- (sub_app txt (pos c) (pos c2)) by lia.
      assert (SP : Forall (fun c => c = 32%Z) (firstn (run_len (Z.eqb 32) (skipn (S (pos c)) txt)) (skipn (S (pos c)) txt))).
      { eapply Forall_impl; [|apply run_only]. intros a Q. cbv beta in Q. lia. }
      unfold c2. rewrite (next_run _ _ _ A). fold c2. set (sp := firstn _ _) in *. split; [split; [|split]|split; [|exact R5]].
      * apply Forall_app. split; [|exact R1]. constructor; [auto|]. eapply Forall_impl; [|exact SP]. intros a Q. auto.
      * eexists. reflexivity.
      * destruct R3 as [r R3]. rewrite R3. exists ((10%Z :: sp) ++ r). now rewrite app_assoc.
      * unfold newlines_in in *. rewrite filter_app, app_length, R4. cbn [filter Z.eqb Pos.eqb length]. f_equal. 
        replace (filter (Z.eqb 10) sp) with (@nil Z); [reflexivity|]. clear - SP. induction SP; [auto|]. subst. exact IHSP.
    + injection H as <- <-. exists 0. split; [lia|]. rewrite sub_here, N, (here_cons _ _ A). replace (S (pos c) - pos c) with 1 by lia.
      cbn [firstn]. split; [split; [|split]|split; [reflexivity|lia]]; [constructor; [right; reflexivity|constructor]|eexists; reflexivity|exists []; reflexivity].
Qed.
Lemma gr_newline : forall s, peek txt (cur s) 0 = Some 10%Z -> gr s (newline_token txt s).
Proof.
  intros s X s' E. unfold newline_token in E. destruct (newlines txt (left txt (cur s)) (cur s) 0) as [c' k] eqn:N.
  injection E as <-. eexists. split; [reflexivity|]. apply newlines_spec in N; [|auto|unfold is_at, is_pred; now rewrite X].
  destruct N as (j & K & R & C & _). cbn in K. subst k. apply chunk_one; cbn [kind text].
  - destruct j as [|[|j]]; reflexivity.
  - destruct j as [|[|j]]; cbn [Nat.eqb]; [|split; auto|split; [auto|lia]].
    destruct R as (_ & [r Q] & [r' Q']). cbn [looks_like]. destruct r' as [|z r']; [exact Q'|exfalso]. rewrite Q in Q'.
    injection Q' as _ Q'. unfold newlines_in in C. rewrite Q, Q' in C. cbn [filter Z.eqb Pos.eqb length] in C.
    rewrite filter_app, app_length in C. cbn in C. lia.
Qed.

Lemma gr_skip_word : forall k ch s x, peek txt (cur s) 0 = Some ch -> peek txt (cur s) 1 = Some x -> is_alpha x = true -> plain_kind k = true ->
  (looks_like k = fun s => exists r, s = ch :: r /\ starts is_alpha r) ->
  gr s (tok txt k (fun c => omap (advance_word txt) (skip txt ch c)) s).
Proof.
  intros k ch s y X P A PK K. apply gr_tok; auto. intros c' E. unfold omap in E.
  destruct (skip txt ch (cur s)) as [c1| | |] eqn:K1; cbn [obind] in E; try discriminate. injection E as <-. apply skip_inv in K1. destruct K1 as [_ ->].
  rewrite <- (peek_1 _ _ X) in P. pose proof (word_starts _ _ P (alpha_alnum _ A)) as L. destruct (sub_starts _ _ _ P L) as [r R].
  rewrite K. exists (y :: r). split; [|exists y, r; auto]. rewrite <- (sub_app txt _ (pos (next txt (cur s)))).
  - rewrite R, sub_here, (next_here _ _ X), (here_cons _ _ X). replace (S (pos (cur s)) - pos (cur s)) with 1 by lia. reflexivity.
  - rewrite (next_here _ _ X) in *. lia.
Qed.

Lemma gr_char : forall s, gr s (switch_char txt s).
Proof.
  intros. unfold switch_char. cbv zeta. apply gr_any. intros x X. apply get_peek in X.
  repeat match goal with
  | |- gr _ (if Z.eqb x ?y then _ else _) => destruct (Z.eqb_spec x y); [subst x; try solve [grow]; grow|]
  end.
  - eapply gr_repeater; eauto.
  - unfold is_pred in Heqb. destruct (peek txt (cur s) 1) eqn:P; [|discriminate]. eapply gr_skip_word; eauto.
  - apply gr_adv; [reflexivity|]. rewrite (here_cons _ _ X). split; [eexists; eexists; split; [reflexivity|reflexivity]|].
    rewrite firstn_length. lia.
  - apply gr_bracket; auto.
  - eapply gr_repeater; eauto.
  - match goal with E : patt _ _ _ _ = Some ?m |- gr s (tok_adv _ _ ?m _) => pattern_text E end.
    eapply gives_imp; [|repeat apply gives_seq; [apply gives_chr|apply gives_many|apply gives_chr]].
    intros ? (? & ? & -> & <- & m & ? & -> & M & <-). exists m. split; [auto|exact M].
  - apply gr_run; [reflexivity|]. pose proof (is_at_1 _ _ _ X Heqb0) as E. rewrite (here_cons _ _ X) in *. cbn [firstn] in E.
    split.
    + cbn [run_len firstn Z.eqb Pos.eqb negb]. destruct (skipn (S (pos (cur s))) txt) as [|y r]; [discriminate|].
      injection E as ->. cbn [run_len firstn Z.eqb Pos.eqb negb]. eexists. reflexivity.
    + eapply Forall_impl; [|apply run_only]. intros a A. cbv beta in A. lia.
  - unfold is_pred in Heqb1. destruct (peek txt (cur s) 1) eqn:P; [|discriminate]. eapply gr_skip_word; eauto.
  - apply gr_at; auto.
  - apply gr_tilda; auto.
  - apply gr_run; [reflexivity|]. split; [exact (run_some _ _ _ X eq_refl)|].
    apply is_str_inv in Heqb. destruct Heqb as [r E]. rewrite Nat.add_0_r in E. rewrite E.
    change (lit "-----") with [45; 45; 45; 45; 45]%Z. cbn. lia.
  - match goal with E : patt _ _ _ _ = Some ?m |- gr s (tok_adv _ _ ?m _) => pattern_text E end.
    eapply gives_imp; [|repeat apply gives_seq; [apply gives_chr|apply gives_many|apply gives_many]].
    intros ? (? & ? & -> & <- & d & a & -> & D & A). exists d, a. auto.
  - apply gr_newline; auto.
  - destruct (is_alpha x) eqn:A; [eapply gr_word; eauto|]. destruct (is_digit x) eqn:D; [eapply gr_number; eauto|].
    destruct (240 <=? x)%Z eqn:U; [eapply gr_unicode; eauto|eapply gr_punct; eauto].
Qed.

(** ** Verbatim blocks *)
Notation angles := (angles_before_text txt).
Definition stuck (c : cu) : Prop := forall name k, end_offset txt name c <> Ok (Some k).
Lemma end_offset_inv : forall name c k, end_offset txt name c = Ok (Some k) ->
  let p := run_len (Z.eqb 32) (here c) in
  is_at txt c p 35 = true /\ is_at txt c (p + 1) 43 = true /\ is_iat txt c (p + 2) (lit "end") = Ok true /\
  exists u, (u = 0 \/ u = 1 /\ is_at txt c (p + 5) 95 = true) /\ is_iat txt c (p + 5 + u) name = Ok true /\
    k = p + 5 + u + length name.
Proof.
  intros name c k H. unfold end_offset, count_at in H. rewrite Nat.add_0_r in H. cbv zeta in *. set (p := run_len _ _) in *.
  destruct (is_at txt c p 35) eqn:A; [|discriminate]. destruct (is_at txt c (p + 1) 43) eqn:B; [|discriminate].
  destruct (is_iat txt c (p + 2) (lit "end")) as [[]| | |] eqn:E; cbn [obind] in H; try discriminate.
  split; [auto|]. split; [auto|]. split; [auto|]. destruct (is_at txt c (p + 5) 95) eqn:U.
  - exists 1. split; [auto|]. destruct (is_iat txt c (p + 6) name) as [[]| | |] eqn:F; cbn [obind] in H; try discriminate.
    replace (p + 5 + 1) with (p + 6) by lia. split; [auto|]. injection H as <-. lia.
  - exists 0. split; [auto|]. destruct (is_iat txt c (p + 5) name) as [[]| | |] eqn:F; cbn [obind] in H; try discriminate.
    rewrite Nat.add_0_r. split; [auto|]. injection H as <-. lia.
Qed.
Lemma spaces_run : forall s, firstn (run_len (Z.eqb 32) s) s = repeat 32%Z (run_len (Z.eqb 32) s).
Proof.
  induction s; [reflexivity|]. cbn [run_len]. destruct (Z.eqb_spec 32 a); [|reflexivity]. cbn. subst a. now f_equal.
Qed.
Lemma spaces_here : forall c off r, let p := run_len (Z.eqb 32) (here c) in skipn (pos c + p + off) txt = r ->
  here c = repeat 32%Z p ++ firstn off (skipn (pos c + p) txt) ++ r.
Proof.
  intros c off r p H. rewrite <- (firstn_skipn p (here c)) at 1. unfold p at 1 2. rewrite spaces_run. fold p. f_equal.
  rewrite skipn_add. rewrite <- (firstn_skipn off (skipn (pos c + p) txt)) at 1. now rewrite skipn_add, H.
Qed.
Lemma folded_app : forall a b s t, folded a s -> folded b t -> folded (a ++ b) (s ++ t).
Proof. unfold folded. intros. rewrite map_app. now f_equal. Qed.
Lemma end_text : forall name c k, map to_lower name = name -> end_offset txt name c = Ok (Some k) -> end_of name (firstn k (here c)).
Proof.
  intros name c k N H. apply end_offset_inv in H. cbv zeta in H. set (p := run_len _ _) in *. destruct H as (A & B & E & u & U & F & ->).
  apply is_at_inv in A. destruct A as [ra A]. apply is_at_inv in B. destruct B as [rb B].
  apply iat_text in E; [|reflexivity]. apply iat_text in F; [|auto]. change (length (lit "end")) with 3 in E.
  assert (S : firstn (p + 5 + u + length name) (here c) =
    repeat 32%Z p ++ ([35; 43]%Z ++ firstn 3 (skipn (pos c + (p + 2)) txt) ++ firstn u (skipn (pos c + (p + 5)) txt)) ++
    firstn (length name) (skipn (pos c + (p + 5 + u)) txt)).
  { replace (p + 5 + u + length name) with (p + (2 + (3 + (u + length name)))) by lia. rewrite !firstn_split, !skipn_add.
    unfold p at 1. rewrite spaces_run. fold p. f_equal. rewrite <- !app_assoc. f_equal.
    - rewrite A. replace (pos c + (p + 1)) with (pos c + p + 1) in B by lia. rewrite <- skipn_add, A in B. cbn [skipn] in B. rewrite B. reflexivity.
    - replace (pos c + p + 2) with (pos c + (p + 2)) by lia. replace (pos c + (p + 2) + 3) with (pos c + (p + 5)) by lia.
      replace (pos c + (p + 5) + u) with (pos c + (p + 5 + u)) by lia. reflexivity. }
  rewrite S. exists p. eexists. split; [reflexivity|]. destruct U as [->|[-> U]].
  - left. cbn [firstn]. rewrite app_nil_r. apply folded_app; auto. change (lit "#+end") with (lit "#+" ++ lit "end"). apply folded_app; [reflexivity|exact E].
  - right. apply folded_app; auto. change (lit "#+end_") with (lit "#+" ++ lit "end" ++ [95%Z]). apply folded_app; [reflexivity|].
    apply folded_app; [exact E|]. apply is_at_inv in U. destruct U as [ru U]. rewrite U. reflexivity.
Qed.
Lemma stuck_hash : forall c, (forall p, is_at txt c p 35 = true -> p <> run_len (Z.eqb 32) (here c)) -> stuck c.
Proof. intros c H name k E. apply end_offset_inv in E. cbv zeta in E. destruct E as (A & _). exact (H _ A eq_refl). Qed.
Lemma stuck_at : forall c x, peek txt c 0 = Some x -> x <> 32%Z -> x <> 35%Z -> stuck c.
Proof.
  intros c x X A B. apply stuck_hash. intros p P E. rewrite (here_cons _ _ X) in E. cbn [run_len] in E.
  destruct (Z.eqb_spec 32 x); [congruence|]. subst p. unfold is_at, is_pred in P. rewrite X in P. apply Z.eqb_eq in P. congruence.
Qed.
Lemma stuck_end : forall c, has_text txt c = false -> stuck c.
Proof.
  intros c H. apply stuck_hash. intros p P _. unfold is_at, is_pred in P. destruct (peek txt c p) eqn:E; [|discriminate].
  apply peek_lt in E. unfold has_text, has_pos in H. lia.
Qed.
Lemma stuck_angles : forall c, angles -> forall p, pos c = p + 2 -> at_ txt p (lit "<<") \/ at_ txt p (lit ">>") -> stuck c.
Proof.
  intros c N p P A name k E. apply end_offset_inv in E. cbv zeta in E. destruct E as (X & Y & _).
  eapply (N p (run_len (Z.eqb 32) (here c)) A). rewrite <- P. set (q := run_len _ _) in *.
  apply is_at_inv in X. destruct X as [rx X]. apply is_at_inv in Y. destruct Y as [ry Y]. exists ry.
  rewrite <- (firstn_skipn q (here c)) at 1. unfold q at 1. rewrite spaces_run. fold q. rewrite <- app_assoc. f_equal. rewrite skipn_add, X.
  replace (pos c + (q + 1)) with (pos c + q + 1) in Y by lia. rewrite <- skipn_add, X in Y. cbn [skipn] in Y. rewrite Y. reflexivity.
Qed.

Definition piece (Q : vst -> Prop) (q : vst) (s s' : st) : Prop := exists l q',
  out s' = out s ++ l /\ Forall good l /\ cmds l /\ Q q' /\ vrun q l = Some q' /\ (angles -> q' = VMid -> stuck (cur s')).

Lemma block_text : forall name body fin (Q : vst -> Prop), map to_lower name = name ->
  (forall q s s', Q q -> body s = Ok s' -> piece Q q s s') ->
  (forall q, Q q -> q <> VMid -> vstep q fin = Some VOut) -> plain_kind fin = true -> looks_like fin = end_of name ->
  forall n q s s', Q q -> (angles -> q = VMid -> stuck (cur s)) -> block txt n name body fin s = Ok s' ->
  exists l, out s' = out s ++ l /\ Forall good l /\ cmds l /\ (angles -> vrun q l = Some VOut).
Proof.
  intros name body fin Q N B F P K. induction n; intros q s s' HQ M H; [discriminate|]. cbn [block] in H.
  destruct (end_offset txt name (cur s)) as [[k|]| | |] eqn:E; cbn [obind] in H; try discriminate.
  - assert (G : gr s (tok_adv txt fin k s)). { apply gr_adv; auto. rewrite K. apply end_text; auto. }
    unfold tok_adv, tokt, tok in *. cbn [obind] in *. injection H as <-. destruct (G _ eq_refl) as (l & L & C1 & C2 & _). cbn [out] in L.
    apply app_inv_head in L. subst l. eexists. split; [reflexivity|]. split; [auto|]. split; [auto|]. intros A. cbn [vrun kind mk].
    rewrite F; auto. intros X. exact (M A X _ _ E).
  - destruct (guard body s) as [s1| | |] eqn:G; cbn [obind] in H; try discriminate. apply guard_inv in G.
    destruct (B _ _ _ HQ G) as (l1 & q' & O1 & G1 & C1 & HQ' & V1 & M1). destruct (IHn _ _ _ HQ' M1 H) as (l2 & O2 & G2 & C2 & V2).
    exists (l1 ++ l2). rewrite O2, O1, app_assoc. split; [auto|]. split; [apply Forall_app; auto|]. split; [apply cmds_app; auto|].
    intros A. rewrite vrun_app, V1. auto.
Qed.

Lemma one_line_run : forall c, in_one_line (sub txt (pos c) (pos (to_eol txt c))).
Proof. intros. unfold to_eol. rewrite run_text. eapply Forall_impl; [|apply run_only]. intros a A. cbv beta in A. lia. Qed.
Lemma in_line_end : forall c, in_line txt c = false -> has_text txt c = false \/ is_at txt c 0 10 = true.
Proof. intros c H. unfold in_line, can_search in H. unfold has_text. destruct (has_pos txt c 0); [right|auto]. now destruct (is_at txt c 0 10). Qed.
Lemma opt_newline_inv : forall s s', opt_newline txt s = Ok s' ->
  (is_at txt (cur s) 0 10 = true /\ exists t, kind t = kNewline /\ good t /\ out s' = out s ++ [t]) \/
  (is_at txt (cur s) 0 10 = false /\ s' = s).
Proof.
  intros s s' H. pose proof (gr_opt_newline s _ H) as (l & O & G & _). unfold opt_newline in H. destruct (is_at txt (cur s) 0 10); [left|right].
  - split; [auto|]. unfold tok1, tok_adv, tokt, tok in H. cbn [obind] in H. injection H as <-. cbn [out] in *. apply app_inv_head in O. subst l.
    eexists. split; [|split; [inversion G; eauto|reflexivity]]. reflexivity.
  - split; [auto|congruence].
Qed.

Lemma cmds_no : forall ts, Forall (fun t => kind t <> kLineCommand) ts -> cmds ts.
Proof. induction 1; cbn; auto. split; [congruence|auto]. Qed.
Lemma raw_piece : forall k s s' q, looks_like k = in_one_line -> leading_kind k = false -> k <> kLineCommand -> vstep q k <> None ->
  (content k = true \/ q = VOut) ->
  raw_line txt k s = Ok s' -> piece (fun q => content k = true \/ q = VOut) q s s'.
Proof.
  intros k s s' q K L NC V HQ H. unfold raw_line, andthen, tokt, tok in H. cbn [obind] in H.
  set (c1 := to_eol txt (cur s)) in *. set (t := mk txt k (cur s) c1) in *.
  assert (G : good t). { split; [|unfold t; cbn [kind mk]; congruence]. unfold t; cbn [kind text mk]. rewrite K. apply one_line_run. }
  assert (E1 : vstep q k = Some (if content k then VMid else VOut)).
  { destruct (content k) eqn:C; [destruct q; cbn; rewrite C; reflexivity|]. destruct HQ as [D|D]; [discriminate|subst q; cbn; now rewrite C]. }
  apply opt_newline_inv in H. cbn [cur out] in H. destruct H as [(A & u & U & GU & O)|(A & ->)].
  - exists [t; u], (if content k then VIn else VOut). rewrite O, <- app_assoc. split; [reflexivity|]. split; [apply Forall_cons; auto|].
    split; [apply cmds_no; apply Forall_cons; [exact NC|apply Forall_cons; [congruence|auto]]|]. split; [destruct (content k); auto|]. split; [|destruct (content k); discriminate].
    cbn [vrun]. unfold t at 1. cbn [kind mk]. rewrite E1, U. destruct (content k); reflexivity.
  - exists [t], (if content k then VMid else VOut). split; [reflexivity|]. split; [apply Forall_cons; auto|].
    split; [apply cmds_no; apply Forall_cons; [exact NC|auto]|]. split; [destruct (content k); auto|]. split; [cbn [vrun]; unfold t; cbn [kind mk]; now rewrite E1|].
    intros _ _. cbn [cur]. apply stuck_end. destruct (has_text txt c1) eqn:T; [|auto]. exfalso.
    unfold has_text, has_pos in T. rewrite Nat.add_0_r in T. apply Nat.ltb_lt in T.
    destruct (nth_error txt (pos c1)) as [x|] eqn:X; [|apply nth_error_None in X; lia].
    unfold is_at, is_pred, peek in A. rewrite Nat.add_0_r, X in A.
    assert (L0 : pos (cur s) <= len).
    { destruct (Nat.le_gt_cases (pos (cur s)) len); auto. exfalso. unfold c1, to_eol, run, left in T.
      replace (len - pos (cur s)) with 0 in T by lia. cbn in T. lia. }
    unfold c1, to_eol in X. rewrite run_pos in X by auto. rewrite <- nth_skip in X. revert X. clear - A.
    induction (here (cur s)) as [|a h IH]; cbn; [discriminate|]. destruct (a =? 10)%Z eqn:E; cbn; [intros Y; injection Y as ->; congruence|auto].
Qed.
Lemma src_run_text : forall n c, in_one_line (sub txt (pos c) (pos (src_run txt n c))).
Proof.
  intros n c. destruct (Nat.le_gt_cases (pos c) len) as [L|L].
  - pose proof (src_run_spec txt n c L) as N. destruct (adv_src_run txt n c L) as ((G & G2) & _).
    unfold in_one_line. rewrite Forall_forall. intros x X Y. subst x. apply In_nth_error in X. destruct X as [i X]. rewrite sub_here in X.
    assert (I : i < pos (src_run txt n c) - pos c).
    { assert (i < length (firstn (pos (src_run txt n c) - pos c) (skipn (pos c) txt))) by (apply nth_error_Some; congruence).
      rewrite firstn_length in H. lia. }
    apply (N (pos c + i)); [lia|]. rewrite <- nth_skip.
    rewrite <- (firstn_skipn (pos (src_run txt n c) - pos c) (skipn (pos c) txt)). rewrite nth_error_app1; [exact X|]. apply nth_error_Some. congruence.
  - rewrite sub_here, skipn_all2, firstn_nil by lia. constructor.
Qed.
Lemma src_run_exit : forall n c, left txt c <= n -> let c' := src_run txt n c in
  has_text txt c' = false \/ is_at txt c' 0 10 = true \/ is_str txt c' 0 [62; 62]%Z = true \/ is_str txt c' 0 [60; 60]%Z = true.
Proof.
  cbv zeta. unfold left. induction n; intros c N; cbn [src_run].
  - left. unfold has_text, has_pos. apply Nat.ltb_ge. lia.
  - destruct (has_text txt c) eqn:T; [|auto]. cbn [andb].
    destruct (is_at txt c 0 10) eqn:A; [auto|]. destruct (is_str txt c 0 [62; 62]%Z) eqn:B; [auto|].
    destruct (is_str txt c 0 [60; 60]%Z) eqn:C; [auto|]. cbn [orb negb]. apply IHn.
    unfold has_text, has_pos in T. rewrite next_pos by (apply Nat.ltb_lt in T; lia). apply Nat.ltb_lt in T. lia.
Qed.
Lemma str_peek : forall c x y, is_str txt c 0 [x; y]%Z = true -> peek txt c 0 = Some x /\ at_ txt (pos c) [x; y] /\ pos c + 2 <= len.
Proof.
  intros c x y H. pose proof H as H'. apply is_str_inv in H'. destruct H' as [r E]. rewrite Nat.add_0_r in E. cbn [is_str] in H. apply andb_true_iff in H. destruct H as [A B].
  unfold is_at, is_pred in A. destruct (peek txt c 0) eqn:P; [|discriminate]. apply Z.eqb_eq in A. subst z.
  split; [auto|]. split; [exists r; auto|]. apply (f_equal (@length _)) in E. rewrite skipn_length in E. cbn in E. lia.
Qed.

Lemma angle_piece : forall k x s s' q, angle k = true -> looks_like k [x; x] -> at_ txt (pos (cur s)) (lit "<<") \/ at_ txt (pos (cur s)) (lit ">>") ->
  firstn 2 (here (cur s)) = [x; x] -> pos (cur s) + 2 <= len ->
  andthen (tok_adv txt k 2) (opt_newline txt) s = Ok s' -> piece (fun _ => True) q s s'.
Proof.
  intros k x s s' q A K AT TX L H. unfold andthen, tok_adv, tokt, tok in H. cbn [obind] in H.
  set (c1 := advance txt 2 (cur s)) in *. set (t := mk txt k (cur s) c1) in *.
  assert (G : good t). { split; [|unfold t; cbn [kind mk]; now destruct k]. unfold t; cbn [kind text mk]. unfold c1. now rewrite adv_text, TX. }
  assert (NC : k <> kLineCommand) by (intros ->; discriminate).
  assert (CK : content k = false) by (now destruct k).
  assert (E1 : vstep q k = Some (match q with VOut => VOut | _ => VMid end)) by (destruct q; cbn; rewrite ?CK, ?A, ?orb_true_r; reflexivity).
  apply opt_newline_inv in H. cbn [cur out] in H. destruct H as [(B & u & U & GU & O)|(B & ->)].
  - exists [t; u], (match q with VOut => VOut | _ => VIn end). rewrite O, <- app_assoc. split; [reflexivity|]. split; [apply Forall_cons; auto|].
    split; [apply cmds_no; apply Forall_cons; [exact NC|apply Forall_cons; [congruence|auto]]|]. split; [auto|]. split; [|destruct q; discriminate].
    cbn [vrun]. unfold t at 1. cbn [kind mk]. rewrite E1, U. destruct q; reflexivity.
  - eexists [t], _. split; [reflexivity|]. split; [apply Forall_cons; auto|]. split; [apply cmds_no; apply Forall_cons; auto|]. split; [auto|].
    split; [cbn [vrun]; unfold t; cbn [kind mk]; rewrite E1; reflexivity|].
    intros N _. cbn [cur]. eapply stuck_angles; eauto. unfold c1. rewrite advance_pos by lia. lia.
Qed.
Lemma src_piece : forall s s' q, TokModel.src_line txt s = Ok s' -> piece (fun _ => True) q s s'.
Proof.
  intros s s' q H. unfold TokModel.src_line in H. cbv zeta in H. destruct (is_str txt (cur s) 0 [60; 60]%Z) eqn:A.
  { destruct (str_peek _ _ _ A) as (_ & X & L). eapply angle_piece; [| | | |exact L|exact H]; [reflexivity|reflexivity|left; exact X|]. apply (is_str_0 _ _ A). }
  destruct (is_str txt (cur s) 0 [62; 62]%Z) eqn:B.
  { destruct (str_peek _ _ _ B) as (_ & X & L). eapply angle_piece; [| | | |exact L|exact H]; [reflexivity|reflexivity|right; exact X|]. apply (is_str_0 _ _ B). }
  clear A B. unfold andthen, tokt, tok in H. cbn [obind] in H. set (c1 := src_run txt (left txt (cur s)) (cur s)) in *. set (t := mk txt kSrcContent (cur s) c1) in *.
  assert (G : good t). { split; [|discriminate]. unfold t; cbn [kind text mk]. apply src_run_text. }
  assert (E1 : vstep q kSrcContent = Some VMid) by (now destruct q).
  apply opt_newline_inv in H. cbn [cur out] in H. destruct H as [(B & u & U & GU & O)|(B & ->)].
  - exists [t; u], VIn. rewrite O, <- app_assoc. split; [reflexivity|]. split; [apply Forall_cons; auto|].
    split; [apply cmds_no; apply Forall_cons; [discriminate|apply Forall_cons; [congruence|auto]]|]. split; [auto|]. split; [|discriminate].
    cbn [vrun]. unfold t at 1. cbn [kind mk]. rewrite E1, U. reflexivity.
  - exists [t], VMid. split; [reflexivity|]. split; [apply Forall_cons; auto|]. split; [apply cmds_no; apply Forall_cons; [discriminate|auto]|]. split; [auto|].
    split; [cbn [vrun]; unfold t; cbn [kind mk]; rewrite E1; reflexivity|].
    intros _ _. cbn [cur]. destruct (src_run_exit (left txt (cur s)) (cur s) (le_n _)) as [X|[X|[X|X]]]; fold c1 in X.
    + apply stuck_end; auto.
    + congruence.
    + apply str_peek in X. eapply stuck_at; [apply X| |]; discriminate.
    + apply str_peek in X. eapply stuck_at; [apply X| |]; discriminate.
Qed.

Lemma no_text_pos : forall c, has_text txt c = false -> next txt c = c.
Proof. intros c H. unfold has_text, has_pos in H. apply next_end. apply Nat.ltb_ge in H. lia. Qed.
Lemma no_text_pred : forall c off f, has_text txt c = false -> is_pred txt c off f = false.
Proof.
  intros c off f H. unfold is_pred. destruct (peek txt c off) eqn:E; [|auto]. apply peek_lt in E. unfold has_text, has_pos in H. apply Nat.ltb_ge in H. lia.
Qed.
Lemma no_text_run : forall f c, has_text txt c = false -> run txt f c = c.
Proof. intros f c H. unfold run. destruct (left txt c); cbn; auto. now rewrite no_text_pred. Qed.
Lemma no_text_src : forall n c, has_text txt c = false -> src_run txt n c = c.
Proof. intros n c H. destruct n; cbn [src_run]; auto. now rewrite H. Qed.

Lemma block_at_end : forall n name body fin s, (forall s, has_text txt (cur s) = false -> forall s', body s = Ok s' -> pos (cur s') = pos (cur s)) ->
  has_text txt (cur s) = false -> forall s', block txt n name body fin s <> Ok s'.
Proof.
  intros n name body fin s B T s' H. destruct n; [discriminate|]. cbn [block] in H.
  destruct (end_offset txt name (cur s)) as [[k|]| | |] eqn:E; cbn [obind] in H; try discriminate.
  - exact (stuck_end _ T _ _ E).
  - unfold guard in H. destruct (body s) eqn:Y; cbn [obind] in H; try discriminate. apply B in Y; auto. rewrite Y, Nat.eqb_refl in H. discriminate.
Qed.
Lemma raw_at_end : forall k s, has_text txt (cur s) = false -> forall s', raw_line txt k s = Ok s' -> pos (cur s') = pos (cur s).
Proof.
  intros k s T s' H. unfold raw_line, andthen, tokt, tok in H. cbn [obind] in H. unfold opt_newline in H. cbn [cur] in H.
  unfold to_eol in H. rewrite no_text_run in H by auto. unfold is_at in H. rewrite no_text_pred in H by auto. injection H as <-. reflexivity.
Qed.
Lemma src_at_end : forall s, has_text txt (cur s) = false -> forall s', TokModel.src_line txt s = Ok s' -> pos (cur s') = pos (cur s).
Proof.
  intros s T s' H. unfold TokModel.src_line in H. cbn [is_str] in H. unfold is_at in H. rewrite !no_text_pred in H by auto. cbn [andb] in H.
  unfold andthen, tokt, tok in H. cbn [obind] in H. rewrite no_text_src in H by auto. unfold opt_newline in H. cbn [cur] in H.
  unfold is_at in H. rewrite no_text_pred in H by auto. injection H as <-. reflexivity.
Qed.

Section RecK.
Variable self : st -> outcome st.
Variable n : nat.
Hypothesis self_gr : forall s, gr s (self s).

Lemma gr_args_loop : forall s, gr s (loop n (in_line txt) (guard (cmd_argument txt)) s).
Proof. apply gr_loop. intros. apply gr_guard. apply gr_argument. Qed.
Lemma gr_text_loop : forall s, gr s (loop n (in_line txt) (guard self) s).
Proof. apply gr_loop. intros. apply gr_guard. apply self_gr. Qed.
Lemma gr_raw : forall s, gr s (tokt txt kRawText (to_eol txt) s).
Proof. intros. grow. Qed.

(** A block after its first line *)
Definition body_ok (name : str) (body : st -> outcome st) (fin : tk) : Prop :=
  (forall s s', block txt n name body fin s = Ok s' -> exists l, out s' = out s ++ l /\ chunk l) /\
  (forall s, has_text txt (cur s) = false -> forall s', block txt n name body fin s <> Ok s').
Lemma export_ok : body_ok (lit "export") (raw_line txt kCmdExportLine) kCmdExportEnd.
Proof.
  split; [|intros s T; apply block_at_end; auto; apply raw_at_end]. intros s s' H.
  eapply (block_text _ _ _ (fun q => content kCmdExportLine = true \/ q = VOut)) in H; eauto; try reflexivity; try discriminate.
  - intros q s0 s1 Q H0. eapply raw_piece; eauto; try reflexivity; try discriminate. destruct Q as [Q| ->]; discriminate.
  - intros q [Q| ->] _; [discriminate|reflexivity].
Qed.
Lemma example_ok : body_ok (lit "example") (raw_line txt kCmdExampleLine) kCmdExampleEnd.
Proof.
  split; [|intros s T; apply block_at_end; auto; apply raw_at_end]. intros s s' H.
  eapply (block_text _ _ _ (fun q => content kCmdExampleLine = true \/ q = VOut)) in H; eauto; try reflexivity; try discriminate.
  - intros q s0 s1 Q H0. eapply raw_piece; eauto; try reflexivity; try discriminate. destruct q; discriminate.
  - intros q _ Q. destruct q; [reflexivity|reflexivity|congruence].
Qed.
Lemma src_ok : body_ok (lit "src") (TokModel.src_line txt) kCmdSrcEnd.
Proof.
  split; [|intros s T; apply block_at_end; auto; apply src_at_end]. intros s s' H.
  eapply (block_text _ _ _ (fun q => True) eq_refl) in H; eauto; try reflexivity; try discriminate.
  - intros q s0 s1 Q H0. apply src_piece; auto.
  - intros q _ Q. destruct q; [reflexivity|reflexivity|congruence].
Qed.
Lemma gr_block_args : forall name body fin s, body_ok name body fin ->
  gr s (obind (obind (loop n (in_line txt) (guard (cmd_argument txt)) s) (tok1 txt kNewline)) (block txt n name body fin)).
Proof.
  intros name body fin s [B1 B2] s' H. destruct (loop n (in_line txt) (guard (cmd_argument txt)) s) as [s1| | |] eqn:L; cbn [obind] in H; try discriminate.
  pose proof (loop_exit _ _ _ _ _ L) as X. apply gr_args_loop in L. destruct L as (l1 & O1 & C1).
  destruct (tok1 txt kNewline s1) as [s2| | |] eqn:T; cbn [obind] in H; try discriminate.
  apply in_line_end in X. destruct X as [X|X].
  - exfalso. unfold tok1, tok_adv, tokt, tok in T. cbn [obind advance] in T. injection T as <-. revert H. apply B2. cbn [cur]. now rewrite no_text_pos.
  - apply at_nl in X. assert (G : gr s1 (tok1 txt kNewline s1)) by grow. destruct (G _ T) as (l2 & O2 & C2). destruct (B1 _ _ H) as (l3 & O3 & C3).
    exists (l1 ++ l2 ++ l3). rewrite O3, O2, O1, !app_assoc. split; [auto|]. repeat apply chunk_app; auto.
Qed.

(** ** Commands *)
Definition form (w : str) : Prop := exists u, Forall (fun c => is_word c = true) u /\ (w = u \/ w = u ++ [58%Z]).
Definition hg (s : st) (o : outcome st) : Prop := forall s', o = Ok s' ->
  exists t r, out s' = out s ++ t :: r /\ which_block_line (kind t) <> None /\ chunk (t :: r).
Definition head_kind (k : tk) (w : str) : Prop := which_block_line k <> None /\ plain_kind k = true /\ looks_like k w.
Lemma hg_head : forall f k head s, head_kind k (text head) -> (forall s1, gr s1 (f s1)) -> hg s (f (put k head s)).
Proof.
  intros f k head s (W & P & L) G s' H. destruct (G _ _ H) as (l & O & C). cbn [put out] in O. rewrite <- app_assoc in O. cbn [app] in O.
  eexists _, l. split; [exact O|]. split; [exact W|]. match goal with |- chunk (?t :: l) => change (chunk ([t] ++ l)) end.
  apply chunk_app; auto. apply chunk_one; auto.
Qed.
Lemma hg_args : forall k head s, head_kind k (text head) -> hg s (head_args txt n k head s).
Proof. intros. unfold head_args. apply (hg_head (loop n (in_line txt) (guard (cmd_argument txt)))); auto. apply gr_args_loop. Qed.
Lemma hg_text : forall k head s, head_kind k (text head) -> hg s (head_text txt self n k head s).
Proof. intros. unfold head_text. apply (hg_head (loop n (in_line txt) (guard self))); auto. apply gr_text_loop. Qed.
Lemma hg_raw : forall k head s, head_kind k (text head) -> hg s (head_raw txt k head s).
Proof. intros. unfold head_raw. apply (hg_head (tokt txt kRawText (to_eol txt))); auto. apply gr_raw. Qed.
Lemma hg_block : forall k head s name body fin, head_kind k (text head) -> body_ok name body fin ->
  hg s (andthen (andthen (head_args txt n k head) (tok1 txt kNewline)) (block txt n name body fin) s).
Proof.
  intros k head s name body fin K B. unfold andthen, head_args.
  apply (hg_head (fun s => obind (obind (loop n (in_line txt) (guard (cmd_argument txt)) s) (tok1 txt kNewline)) (block txt n name body fin))); auto.
  intros. apply gr_block_args. auto.
Qed.

Lemma no_underscore : forall s, ~ In 95%Z (normalize s).
Proof.
  induction s as [|c s IH]; cbn [normalize]; [auto|]. intros H. apply in_app_or in H. destruct H as [H|H]; [|auto].
  destruct (negb ((c =? 95)%Z || (c =? 45)%Z)) eqn:E; [|destruct H].
  destruct (is_lower c || is_digit c); [destruct H as [H|H]; [lia|destruct H]|].
  destruct (is_upper c) eqn:U; [|destruct H]. destruct H as [H|H]; [|destruct H]. unfold to_lower in H. rewrite U in H. unfold is_upper in U. lia.
Qed.
Ltac spec_case F E :=
  let H := fresh "H" in
  intros H; injection H as <- <-; apply AttrProofs.str_eqb_eq in E; symmetry in E;
  split; [discriminate|split; [reflexivity|]];
  first [ split; [exact E|exact F]
        | exfalso; refine (no_underscore _ (eq_ind_r (fun l => In 95%Z l) _ E)); cbn; tauto ].
Lemma spec_head : forall w k ty, form w -> AttrModel.lookup cmd_spec (normalize w) = Some (k, ty) -> head_kind k w.
Proof.
  intros w k ty F. unfold cmd_spec. set (m := normalize w).
  repeat match goal with
  | |- AttrModel.lookup ((?nm, ?v) :: ?r) m = _ -> _ =>
      change (AttrModel.lookup ((nm, v) :: r) m) with (if AttrModel.str_eqb nm m then Some v else AttrModel.lookup r m);
      let E := fresh "E" in destruct (AttrModel.str_eqb nm m) eqn:E; [unfold m in *; clear m; spec_case F E|clear E]
  end.
  discriminate.
Qed.
Lemma begins_inv : forall s p, begins s p = true -> s = p ++ skipn (length p) s.
Proof. intros s p H. unfold begins in H. apply AttrProofs.str_eqb_eq in H. rewrite <- H at 1. symmetry. apply firstn_skipn. Qed.
Lemma begin_head : forall w name, form w -> normalize w = lit "begin" ++ name -> head_kind (begin_kind name) w.
Proof.
  intros w name F H. unfold begin_kind.
  repeat match goal with |- head_kind (if AttrModel.str_eqb name ?l then _ else _) _ =>
    let E := fresh "E" in destruct (AttrModel.str_eqb name l) eqn:E;
      [apply AttrProofs.str_eqb_eq in E; subst name; split; [discriminate|split; [reflexivity|split; [exact H|exact F]]]|clear E] end.
  split; [discriminate|split; [reflexivity|]]. exists name. split; [exact H|exact F].
Qed.
Lemma end_head : forall w name, form w -> normalize w = lit "end" ++ name -> head_kind (end_kind name) w.
Proof.
  intros w name F H. unfold end_kind.
  repeat match goal with |- head_kind (if AttrModel.str_eqb name ?l then _ else _) _ =>
    let E := fresh "E" in destruct (AttrModel.str_eqb name l) eqn:E;
      [apply AttrProofs.str_eqb_eq in E; subst name; split; [discriminate|split; [reflexivity|split; [exact H|exact F]]]|clear E] end.
  split; [discriminate|split; [reflexivity|]]. exists name. split; [exact H|exact F].
Qed.

Lemma head_form : forall c, form (sub txt (pos c) (pos (opt_next txt 58 (advance_ident txt c)))).
Proof.
  intros c. set (c1 := advance_ident txt c). assert (E : sub txt (pos c) (pos c1) = firstn (run_len is_word (here c)) (here c)) by apply run_text.
  unfold opt_next. destruct (is_at txt c1 0 58) eqn:A.
  - unfold is_at, is_pred in A. destruct (peek txt c1 0) eqn:P; [|discriminate]. apply Z.eqb_eq in A. subst z. pose proof (next_here _ _ P) as N.
    pose proof (peek_lt _ _ _ P) as PL.
    assert (L : pos c <= len). { destruct (Nat.le_gt_cases (pos c) len); auto. exfalso. unfold c1, advance_ident, run, left in PL. replace (len - pos c) with 0 in PL by lia. cbn in PL. lia. }
    destruct (adv_ident txt c L) as ((G & _) & _). fold c1 in G. rewrite <- (sub_app txt (pos c) (pos c1)) by lia.
    exists (sub txt (pos c) (pos c1)). rewrite E. split; [apply run_only|]. right. f_equal.
    rewrite sub_here, N, (here_cons _ _ P). replace (S (pos c1) - pos c1) with 1 by lia. reflexivity.
  - exists (sub txt (pos c) (pos c1)). rewrite E. split; [apply run_only|]. auto.
Qed.

Lemma gr_command : forall s, is_str txt (cur s) 0 (lit "#+") = true -> gr s (switch_command txt self n s).
Proof.
  intros s SH s' H. unfold switch_command in H. unfold tok_adv at 1, tokt at 1, tok at 1 in H. cbn [obind] in H. cbn [cur out] in H.
  set (c1 := advance txt 2 (cur s)) in *. set (lc := mk txt kLineCommand (cur s) c1) in *. cbv zeta in H.
  set (c' := opt_next txt 58 (advance_ident txt c1)) in *. set (head := mk txt kWord c1 c') in *. set (s1 := St c' (out s ++ [lc])) in *.
  assert (F : form (text head)) by apply head_form. set (w := text head) in *.
  assert (X : exists t r, out s' = out s1 ++ t :: r /\ which_block_line (kind t) <> None /\ chunk (t :: r)).
  { revert H. match goal with |- ?o = Ok s' -> _ => enough (Y : hg s1 o) by (exact (Y s')) end.
    destruct (AttrModel.lookup cmd_spec (normalize w)) as [[k ty]|] eqn:LK.
    { apply spec_head in LK; auto. destruct ty; [apply hg_raw|apply hg_text|apply hg_args]; exact LK. }
    clear LK. destruct (begins (normalize w) (lit "attr")) eqn:B.
    { apply begins_inv in B. apply hg_args. split; [discriminate|split; [reflexivity|]]. eexists. split; [exact B|exact F]. }
    clear B. destruct (begins (normalize w) (lit "begin")) eqn:B.
    { apply begins_inv in B. change (length (lit "begin")) with 5 in B. cbv zeta. set (name := skipn 5 (normalize w)) in *.
      destruct (AttrModel.str_eqb name (lit "export")) eqn:E.
      { apply AttrProofs.str_eqb_eq in E. apply hg_block; [|apply export_ok]. rewrite E in B. split; [discriminate|split; [reflexivity|split; [exact B|exact F]]]. }
      clear E. destruct (AttrModel.str_eqb name (lit "example")) eqn:E.
      { apply AttrProofs.str_eqb_eq in E. apply hg_block; [|apply example_ok]. rewrite E in B. split; [discriminate|split; [reflexivity|split; [exact B|exact F]]]. }
      clear E. destruct (AttrModel.str_eqb name (lit "src")) eqn:E.
      { apply AttrProofs.str_eqb_eq in E. apply hg_block; [|apply src_ok]. rewrite E in B. split; [discriminate|split; [reflexivity|split; [exact B|exact F]]]. }
      apply hg_args. apply begin_head; auto. }
    clear B. destruct (begins (normalize w) (lit "end")) eqn:B.
    { apply begins_inv in B. apply hg_args. apply end_head; auto. }
    clear B. assert (CR : head_kind kCmdCustomRaw w).
    { split; [discriminate|split; [reflexivity|]]. exists (normalize w). split; [reflexivity|exact F]. }
    destruct (begins (normalize w) (lit "property")) eqn:B; [|apply hg_raw; exact CR]. apply begins_inv in B.
    destruct (patt _ _ _ _); [|apply hg_raw; exact CR]. cbv zeta.
    destruct (existsb _ _); [apply hg_text; split; [discriminate|split; [reflexivity|]]; eexists; split; [exact B|exact F]|].
    destruct (existsb _ _); [apply hg_args; split; [discriminate|split; [reflexivity|]]; eexists; split; [exact B|exact F]|].
    apply hg_raw; exact CR. }
  destruct X as (t & r & O & W & C1 & C2 & C3). exists (lc :: t :: r). split; [rewrite O; unfold s1; cbn [out]; now rewrite <- app_assoc|].
  split; [|split].
  - constructor; [|auto]. split; [|discriminate]. unfold lc, c1. cbn [kind text mk]. rewrite adv_text. apply (is_str_0 _ _ SH).
  - cbn [cmds]. split; [|exact C2]. intros _. exists t, r. auto.
  - intros A. cbn [vrun]. unfold lc. cbn [kind mk vstep content]. auto.
Qed.

(** ** The beginning of a line *)
Lemma lead_text : forall c m, let sk := run_len (Z.eqb 32) (here c) in
  firstn (m + sk) (here c) = repeat 32%Z sk ++ firstn m (skipn (pos c + sk) txt).
Proof. intros c m sk. rewrite Nat.add_comm, firstn_split, skipn_add. f_equal. apply spaces_run. Qed.
Lemma gr_leading : forall k m s, leading_kind k = true -> pos (cur s) + m < len -> looks_like k (firstn m (here (cur s))) -> gr s (tok_adv txt k m s).
Proof.
  intros k m s K L H. apply gr_put. intros c' E. injection E as <-. split; [|split].
  - constructor; [|auto]. split; cbn [kind text tpos mk]; rewrite adv_text; [auto|]. intros _. rewrite firstn_length. lia.
  - cbn. split; [|auto]. intros ->. discriminate.
  - intros _. cbn. now destruct k.
Qed.
Lemma leading_inv : forall c ch sk, check_leading txt c ch sk = true -> (exists r, skipn (pos c + sk) txt = ch :: r) /\ pos c + (1 + sk) < len.
Proof.
  intros c ch sk H. unfold check_leading in H. apply andb_true_iff in H. destruct H as [A B]. apply is_at_inv in A. split; [auto|].
  unfold is_any, is_pred in B. destruct (peek txt c (1 + sk)) eqn:P; [|discriminate]. apply peek_lt in P. lia.
Qed.
Lemma lead_pattern : forall p Q c m, let sk := run_len (Z.eqb 32) (here c) in
  gives p Q -> patt txt p c sk = Some m -> indented Q (firstn (m + sk) (here c)).
Proof. intros p Q c m sk G H. unfold sk. rewrite lead_text. fold sk. eexists _, _. split; [reflexivity|]. apply G. exact H. Qed.
Lemma ident_lower : forall a b, to_lower a = to_lower b -> ident_char a = true -> ident_char b = true.
Proof. intros a b. unfold ident_char, is_word, is_alnum, is_alpha, to_lower, is_upper, is_lower, is_digit. intros H I.
  destruct ((65 <=? a)%Z && (a <=? 90)%Z) eqn:A, ((65 <=? b)%Z && (b <=? 90)%Z) eqn:B; lia.
Qed.
Lemma gives_property : forall l, l <> [] -> forallb ident_char l = true -> gives (p_ilit l) (only ident_char).
Proof.
  intros l N F s m H. apply fold_inv in H. destruct H as (_ & _ & H). split; [intros E; rewrite E in H; inversion H; congruence|].
  rewrite forallb_forall in F. revert F. clear N. induction H; intros F; constructor.
  - apply Z.eqb_eq in H. eapply ident_lower; [exact H|]. apply F. cbn. auto.
  - apply IHForall2. intros z Z. apply F. cbn. auto.
Qed.
Definition property_form (s : str) : Prop := exists m, s = [58%Z] ++ m ++ [58%Z] /\ only (fun c => ident_char c || Z.eqb c 58) m.
Lemma gives_prop : forall p, gives p (only ident_char) -> gives (p_seq (p_chr 58) (p_seq p (p_chr 58))) property_form.
Proof.
  intros p G. eapply gives_imp; [|apply gives_seq; [apply gives_chr|apply gives_seq; [exact G|apply gives_chr]]].
  intros ? (? & ? & -> & <- & m & ? & -> & [N M] & <-). exists m. split; [auto|]. split; [auto|]. eapply Forall_impl; [|exact M]. intros a ->. reflexivity.
Qed.
Lemma subname_text : forall p c m, let sk := run_len (Z.eqb 32) (here c) in
  gives p property_form -> patt txt p c sk = Some m -> indented property_form (firstn (property_subname txt c (m + sk)) (here c)).
Proof.
  intros p c m sk G H. unfold property_subname. destruct (patt txt (p_seq p_ident (p_chr 58)) c (m + sk)) as [j|] eqn:E; [|eapply lead_pattern; eauto].
  replace (m + sk + j) with ((m + j) + sk) by lia. unfold sk. rewrite lead_text. fold sk. eexists _, _. split; [reflexivity|].
  rewrite firstn_split, skipn_add. unfold patt in *. apply G in H. destruct H as (a & H & [A0 A]). rewrite H.
  replace (pos c + sk + m) with (pos c + (m + sk)) by lia.
  apply (gives_seq _ _ _ _ (gives_many _) (gives_chr 58)) in E. destruct E as (u & v & E & [U0 U] & <-). rewrite E.
  exists (a ++ [58%Z] ++ u). rewrite <- !app_assoc. split; [auto|]. split; [now destruct a|].
  repeat (apply Forall_app; split); [exact A|repeat constructor|]. eapply Forall_impl; [|exact U]. intros x X. unfold ident_char. now rewrite X.
Qed.

Lemma gr_line_start : forall s o, line_start txt self n s = Some o -> gr s o.
Proof.
  intros s o. unfold line_start. cbv zeta. unfold count_at. rewrite Nat.add_0_r. set (sk := run_len (Z.eqb 32) (here (cur s))).
  assert (LS : gr s (if 0 <? sk then tok_adv txt kLeadingSpace sk s else Ok s)).
  { destruct (0 <? sk) eqn:Z; [|apply gr_ok]. apply gr_adv; [reflexivity|]. cbn [looks_like]. unfold sk at 1. split; [|apply run_only].
    intros E. apply (f_equal (@length _)) in E. rewrite firstn_length in E. cbn in E. apply Nat.ltb_lt in Z. unfold sk in Z.
    pose proof (run_le (Z.eqb 32) (here (cur s))). lia. }
  assert (LC : forall k ch, leading_kind k = true -> looks_like k = indented (eq [ch]) -> check_leading txt (cur s) ch sk = true ->
    gr s (tok_adv txt k (1 + sk) s)).
  { intros k ch K L H. apply leading_inv in H. destruct H as [[r H] P]. apply gr_leading; auto. rewrite L. unfold sk. rewrite lead_text. fold sk. rewrite H.
    eexists _, _. split; reflexivity. }
  destruct (check_leading txt (cur s) 45 sk) eqn:E; [intros H; injection H as <-; apply (LC _ 45%Z); [reflexivity|reflexivity|exact E]|]. clear E.
  destruct (check_leading txt (cur s) 43 sk) eqn:E; [intros H; injection H as <-; apply (LC _ 43%Z); [reflexivity|reflexivity|exact E]|]. clear E.
  destruct (check_leading txt (cur s) 124 sk) eqn:E.
  { intros H; injection H as <-. apply gr_adv; [reflexivity|]. apply leading_inv in E. destruct E as [[r H] P]. pose proof (lead_text (cur s) 1) as T. cbv zeta in T. fold sk in T. cbn [Nat.add] in T |- *. rewrite T, H.
    eexists _, _. split; reflexivity. }
  clear E. destruct (table_separator txt (cur s) sk) eqn:E; [intros H; injection H as <-; grow|]. clear E.
  destruct (patt txt (p_ilit (lit "clock:")) (cur s) sk) eqn:E.
  { intros H; injection H as <-. apply gr_then; [|intros; apply gr_loop; auto]. apply gr_adv; [reflexivity|].
    eapply lead_pattern; [|exact E]. apply gives_ilit. reflexivity. }
  clear E. destruct (patt txt (p_ilit (lit ":end:")) (cur s) sk) eqn:E.
  { intros H; injection H as <-. apply gr_adv; [reflexivity|]. eapply lead_pattern; [|exact E]. apply gives_ilit. reflexivity. }
  clear E. destruct (patt txt (p_ilit (lit ":properties:")) (cur s) sk) eqn:E.
  { intros H; injection H as <-. apply gr_adv; [reflexivity|]. eapply lead_pattern; [|exact E]. apply gives_ilit. reflexivity. }
  clear E. destruct (patt txt _ (cur s) sk) eqn:E.
  { intros H; injection H as <-. apply seq_inv in E. destruct E as (a & b & E1 & E2 & ->). apply seq_inv in E2. destruct E2 as (a2 & b2 & E2 & E3 & ->).
    pose proof E2 as E2'. apply cls_inv in E2'. destruct E2' as (-> & e & r & R & EE). apply chr_inv in E3. destruct E3 as (-> & r3 & R3).
    replace (a + (1 + 1) - 1 + sk) with ((a + 1) + sk) by lia. apply gr_leading; [reflexivity| |].
    - rewrite R in R3. rewrite !skipn_add in R. cbn [skipn] in R3. subst r. apply (f_equal (@length _)) in R. rewrite skipn_length in R. cbn in R. lia.
    - unfold sk. rewrite lead_text. fold sk. eexists _, _. split; [reflexivity|]. rewrite firstn_split, R. cbn [firstn].
      eexists _, e. split; [reflexivity|]. split; [apply gives_many; exact E1|]. unfold one_of in EE. change (lit ".)") with [46; 41]%Z in EE. cbn in EE. lia. }
  clear E. destruct (patt txt (p_ilit (lit ":logbook:")) (cur s) sk) eqn:E.
  { intros H; injection H as <-. apply gr_adv; [reflexivity|]. eapply lead_pattern; [|exact E]. apply gives_ilit. reflexivity. }
  clear E. destruct (patt txt _ (cur s) sk) eqn:E.
  { intros H; injection H as <-. apply gr_then; [|intros; apply gr_loop; apply gr_argument]. apply gr_adv; [reflexivity|].
    eapply subname_text; [|exact E]. apply gives_prop. repeat apply gives_alt; apply gives_property; (discriminate || reflexivity). }
  clear E. destruct (patt txt _ (cur s) sk) eqn:E.
  { intros H; injection H as <-. apply gr_then; [|intros; apply gr_loop; apply self_gr]. apply gr_adv; [reflexivity|].
    eapply subname_text; [|exact E]. apply gives_prop. repeat apply gives_alt; apply gives_property; (discriminate || reflexivity). }
  clear E. destruct (patt txt _ (cur s) sk) eqn:E.
  { intros H; injection H as <-. apply gr_then; [|intros; grow]. apply gr_adv; [reflexivity|].
    eapply subname_text; [|exact E]. apply gives_prop. apply gives_many. }
  clear E.
  assert (CUR : forall s1, (if 0 <? sk then tok_adv txt kLeadingSpace sk s else Ok s) = Ok s1 -> pos (cur s1) = Nat.min (pos (cur s) + sk) len \/ (pos (cur s1) = pos (cur s) /\ sk = 0) \/ len < pos (cur s)).
  { intros s1 H. destruct (0 <? sk) eqn:Z; [|injection H as <-; apply Nat.ltb_ge in Z; right; left; split; [auto|lia]].
    destruct (Nat.le_gt_cases (pos (cur s)) len); [|auto]. unfold tok_adv, tokt, tok in H. cbn [obind] in H. injection H as <-. cbn [cur]. left. apply advance_pos. auto. }
  destruct (check_leading txt (cur s) 58 sk) eqn:E.
  { intros H; injection H as <-. apply gr_bind; [exact LS|]. intros s1 H1. apply CUR in H1. apply gr_adv; [reflexivity|].
    apply leading_inv in E. destruct E as [[r E] P]. assert (P1 : pos (cur s1) = pos (cur s) + sk) by lia. rewrite P1, E. split.
    - cbn [Nat.add firstn]. eexists _, _. split; reflexivity.
    - cbn [Nat.add firstn]. constructor; [discriminate|]. replace (pos (cur s) + sk + 1) with ((pos (cur s) + sk) + 1) by lia. rewrite <- skipn_add, E. cbn [skipn].
      eapply Forall_impl; [|apply run_only]. intros a A. cbv beta in A. lia. }
  clear E. destruct (is_str txt (cur s) sk (lit "#+")) eqn:E.
  { intros H; injection H as <-. apply gr_bind; [exact LS|]. intros s1 H1. apply CUR in H1. apply gr_command.
    pose proof E as E'. apply is_str_inv in E'. destruct E' as [r E']. apply (f_equal (@length _)) in E'. rewrite skipn_length, app_length in E'.
    change (length (lit "#+")) with 2 in E'. assert (P1 : pos (cur s1) = pos (cur s) + sk) by lia. revert E. clear - P1.
    change (lit "#+") with [35; 43]%Z. cbn [is_str]. unfold is_at, is_pred, peek. rewrite P1. rewrite Nat.add_0_r.
    replace (pos (cur s) + sk + 1) with (pos (cur s) + S sk) by lia. auto. }
  destruct (0 <? sk); [|discriminate]. intros H; injection H as <-. exact LS.
Qed.
Lemma gr_body : forall s, gr s (regular_body txt self n s).
Proof.
  intros. unfold regular_body. destruct (col (cur s) =? 0); [|apply gr_char].
  destruct (line_start txt self n s) eqn:E; [eapply gr_line_start; eauto|apply gr_char].
Qed.
End RecK.

Lemma gr_regular : forall n s, gr s (regular txt n s).
Proof. induction n; intros; cbn; [apply gr_bad|]. apply gr_body. auto. Qed.

Lemma tokenize_kinds : forall fuel ts, tokenize txt fuel = Ok ts -> chunk ts.
Proof.
  intros fuel ts E. unfold tokenize in E. destruct txt as [|b r] eqn:T.
  { injection E as <-. apply chunk_nil. }
  rewrite <- T in *. unfold omap in E.
  destruct (loop fuel (has_text txt) (guard (regular txt fuel)) (St (Cu 0 0 0) [])) as [s'| | |] eqn:L; cbn in E; try discriminate.
  injection E as <-. eapply gr_loop in L; [|intros; apply gr_guard; apply gr_regular]. destruct L as (l & -> & C). exact C.
Qed.
End Kinds.
