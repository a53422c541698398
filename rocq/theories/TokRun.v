(** The lexer gets through every text that ends with a newline and has its links and verbatim blocks closed. *)
From Coq Require Import String.
From Verif Require Import Base StrModel TokKind TokModel TokSpec TokProofs.
From Verif Require AttrModel.
Local Open Scope nat_scope.

(** ** Patterns *)
Definition atl (k : nat) (p : pat) : Prop := forall s n, p s = Some n -> k <= n.
Definition within (p : pat) : Prop := forall s n, p s = Some n -> n <= length s /\ Forall (fun c => c <> 10%Z) (firstn n s).

Lemma atl_cls : forall f, atl 1 (p_cls f).
Proof. intros f s n H. unfold p_cls in H. destruct s; [discriminate|]. destruct (f z); [|discriminate]. injection H as <-. lia. Qed.
Lemma atl_chr : forall c, atl 1 (p_chr c).
Proof. intros. apply atl_cls. Qed.
Lemma fold_len : forall eq l s n, p_fold eq l s = Some n -> n = length l.
Proof.
  induction l; intros s n H; cbn in H; [now injection H as <-|]. destruct s; [discriminate|].
  destruct (eq a z); [|discriminate]. destruct (p_fold eq l s) eqn:E; [|discriminate]. injection H as <-.
  apply IHl in E. cbn. congruence.
Qed.
Lemma atl_lit : forall l, atl (length l) (p_lit l).
Proof. intros l s n H. apply fold_len in H. lia. Qed.
Lemma atl_ilit : forall l, atl (length l) (p_ilit l).
Proof. intros l s n H. apply fold_len in H. lia. Qed.
Lemma atl_seq : forall a b p q, atl a p -> atl b q -> atl (a + b) (p_seq p q).
Proof.
  intros a b p q A B s n H. unfold p_seq in H. destruct (p s) eqn:E; [|discriminate].
  destruct (q (skipn n0 s)) eqn:F; [|discriminate]. injection H as <-. apply A in E. apply B in F. lia.
Qed.
Lemma atl_many : forall f, atl 1 (p_many1 f).
Proof. intros f s n H. unfold p_many1 in H. destruct (run_len f s); [discriminate|]. injection H as <-. lia. Qed.
Lemma atl_0 : forall p, atl 0 p.
Proof. intros p s n _. lia. Qed.
Lemma atl_int : atl 1 p_int.
Proof.
  intros s n H. unfold p_int in H. destruct (p_many1 is_digit s) eqn:E; [|discriminate]. destruct (_ <=? _)%Z; [|discriminate].
  injection H as <-. eapply atl_many; eauto.
Qed.
Lemma atl_le : forall a b p, b <= a -> atl a p -> atl b p.
Proof. intros a b p L A s n H. apply A in H. lia. Qed.
Lemma atl_seq_l : forall a p q, atl a p -> atl a (p_seq p q).
Proof. intros. eapply atl_le; [|apply atl_seq; [eauto|apply atl_0]]. lia. Qed.

Lemma within_cls : forall f, f 10%Z = false -> within (p_cls f).
Proof.
  intros f F s n H. unfold p_cls in H. destruct s; [discriminate|]. destruct (f z) eqn:E; [|discriminate].
  injection H as <-. cbn. split; [lia|]. constructor; [intros ->; congruence|auto].
Qed.
Lemma within_chr : forall c, c <> 10%Z -> within (p_chr c).
Proof. intros. apply within_cls. now apply Z.eqb_neq. Qed.
Lemma within_many : forall f, f 10%Z = false -> within (p_many1 f).
Proof.
  intros f F s n H. unfold p_many1 in H.
  assert (R : run_len f s <= length s /\ Forall (fun c => c <> 10%Z) (firstn (run_len f s) s)).
  { clear H. induction s; cbn; [auto|]. destruct (f a) eqn:E; cbn; [|split; [lia|auto]].
    destruct IHs. split; [lia|]. constructor; [intros ->; congruence|auto]. }
  destruct (run_len f s) eqn:E; [discriminate|]. injection H as <-. exact R.
Qed.
Lemma within_seq : forall p q, within p -> within q -> within (p_seq p q).
Proof.
  intros p q A B s n H. unfold p_seq in H. destruct (p s) eqn:E; [|discriminate].
  destruct (q (skipn n0 s)) eqn:F; [|discriminate]. injection H as <-. apply A in E. apply B in F.
  rewrite skipn_length in F. split; [lia|]. rewrite firstn_split. apply Forall_app. tauto.
Qed.
Lemma within_times : forall n p, within p -> within (p_times n p).
Proof.
  induction n; intros p H; cbn; [|apply within_seq; auto]. intros s k E. injection E as <-. cbn. split; [lia|auto].
Qed.

Lemma until_some : forall p s q, p (skipn q s) <> None -> exists n, p_until p s = Some n.
Proof.
  induction s; intros q H.
  - rewrite skipn_nil in H. cbn. destruct (p []) eqn:E; [eauto|congruence].
  - cbn [p_until]. destruct (p (a :: s)) eqn:E; [eauto|]. destruct q; [cbn in H; congruence|]. cbn [skipn] in H.
    destruct (IHs _ H) as [n N]. rewrite N. cbn. eauto.
Qed.
Lemma until_inv : forall p s n, p_until p s = Some n -> exists q, p (skipn q s) <> None.
Proof.
  induction s; intros n H; cbn [p_until] in H.
  - destruct (p []) eqn:E; [|discriminate]. exists 0. cbn. congruence.
  - destruct (p (a :: s)) eqn:E; [exists 0; cbn; congruence|]. destruct (p_until p s) eqn:U; [|discriminate].
    destruct (IHs _ eq_refl) as [q Q]. exists (S q). exact Q.
Qed.

Lemma nth_skip : forall {A} (l : list A) n m, nth_error (skipn n l) m = nth_error l (n + m).
Proof. induction l; intros n m; destruct n; cbn; auto. destruct m; auto. Qed.

Section Run.
Variable txt : str.
Notation len := (length txt).
Hypothesis H_nl : ends_with_newline txt.
Hypothesis H_uni : whole_characters txt.
Hypothesis H_link : links_closed txt.
Hypothesis H_block : blocks_closed txt.

Lemma last_nl : 0 < len /\ nth_error txt (len - 1) = Some 10%Z.
Proof.
  destruct H_nl as [b ->]. rewrite app_length. cbn. split; [lia|]. rewrite nth_error_app2 by lia.
  now replace (length b + 1 - 1 - length b) with 0 by lia.
Qed.
Lemma more : forall i x, nth_error txt i = Some x -> x <> 10%Z -> S i < len.
Proof.
  intros i x H N. assert (i < len) by (apply nth_error_Some; congruence). destruct last_nl.
  destruct (Nat.eq_dec i (len - 1)); [|lia]. subst. congruence.
Qed.

(** ** Where the cursor goes *)
Lemma next_pos : forall c, pos c < len -> pos (next txt c) = S (pos c).
Proof.
  intros c L. unfold next, peek. rewrite Nat.add_0_r. destruct (nth_error txt (pos c)) eqn:E.
  - now destruct (z =? 10)%Z.
  - apply nth_error_None in E. lia.
Qed.
Lemma next_end : forall c, len <= pos c -> next txt c = c.
Proof. intros c L. unfold next, peek. rewrite Nat.add_0_r. apply nth_error_None in L. now rewrite L. Qed.
Lemma advance_pos : forall n c, pos c <= len -> pos (advance txt n c) = Nat.min (pos c + n) len.
Proof.
  induction n; intros c L; cbn [advance]; [lia|]. destruct (Nat.eq_dec (pos c) len).
  - rewrite next_end by lia. rewrite IHn; lia.
  - rewrite IHn; rewrite next_pos; lia.
Qed.
Lemma run_n_pos : forall n f c, pos c <= len -> left txt c <= n ->
  pos (run_n txt n f c) = pos c + run_len f (skipn (pos c) txt).
Proof.
  unfold left. induction n; intros f c L N; cbn [run_n].
  - rewrite skipn_all2 by lia. cbn. lia.
  - unfold is_pred, peek. rewrite Nat.add_0_r. destruct (nth_error txt (pos c)) eqn:E.
    + assert (pos c < len) by (apply nth_error_Some; congruence).
      assert (S : skipn (pos c) txt = z :: skipn (S (pos c)) txt).
      { clear - E. revert E. generalize (pos c). induction txt; intros n E; destruct n; cbn in *; try discriminate.
        - now injection E as ->.
        - auto. }
      rewrite S. cbn [run_len]. destruct (f z); [|lia]. rewrite IHn; rewrite next_pos; lia.
    + apply nth_error_None in E. rewrite skipn_all2 by lia. cbn. lia.
Qed.
Lemma run_pos : forall f c, pos c <= len -> pos (run txt f c) = pos c + run_len f (skipn (pos c) txt).
Proof. intros. apply run_n_pos; auto. Qed.

Lemma skip_cons : forall p z, nth_error txt p = Some z -> skipn p txt = z :: skipn (S p) txt.
Proof.
  intros p z E. revert p E. clear. induction txt; intros n E; destruct n; cbn in *; try discriminate.
  - now injection E as ->.
  - auto.
Qed.
Lemma run_gt : forall f c x, pos c <= len -> peek txt c 0 = Some x -> f x = true -> pos c < pos (run txt f c).
Proof.
  intros f c x L P F. rewrite run_pos by auto. unfold peek in P. rewrite Nat.add_0_r in P.
  rewrite (skip_cons _ _ P). cbn. rewrite F. lia.
Qed.

(** No newline is passed between two offsets. *)
Definition no_nl (a b : nat) : Prop := forall i, a <= i < b -> nth_error txt i <> Some 10%Z.
Lemma no_nl_trans : forall a b c, no_nl a b -> no_nl b c -> no_nl a c.
Proof. intros a b c A B i I. destruct (Nat.lt_ge_cases i b); [apply A|apply B]; lia. Qed.
Lemma no_nl_refl : forall a, no_nl a a.
Proof. intros a i. lia. Qed.
Lemma no_nl_next : forall c x, peek txt c 0 = Some x -> x <> 10%Z -> no_nl (pos c) (pos (next txt c)).
Proof.
  intros c x P N i I. unfold peek in P. rewrite Nat.add_0_r in P.
  assert (pos c < len) by (apply nth_error_Some; congruence). rewrite next_pos in I by auto.
  replace i with (pos c) by lia. congruence.
Qed.
Lemma no_nl_run : forall f c, f 10%Z = false -> pos c <= len -> no_nl (pos c) (pos (run txt f c)).
Proof.
  intros f c F L i I X. rewrite run_pos in I by auto. replace i with (pos c + (i - pos c)) in X by lia.
  rewrite <- nth_skip in X. assert (Y : i - pos c < run_len f (skipn (pos c) txt)) by lia.
  revert X Y. generalize (i - pos c). generalize (skipn (pos c) txt). intros l. clear - F.
  induction l; intros n X Y; cbn in *; [lia|]. destruct (f a) eqn:E; [|lia]. destruct n; cbn in X; [congruence|].
  eapply IHl; [eauto|]. lia.
Qed.
Lemma no_nl_end : forall a b, no_nl a b -> a < len -> b <= len -> b < len.
Proof.
  intros a b N A B. destruct last_nl as [_ Z]. destruct (Nat.eq_dec b len); [|lia]. subst b.
  exfalso. apply (N (len - 1)); [lia|auto].
Qed.
Lemma no_nl_line : forall a b q, no_nl a b -> a < q -> line_begin txt q -> b < q \/ b < q.
Proof.
  intros a b q N L [->|B]; [lia|]. destruct (Nat.lt_ge_cases b q); [auto|]. exfalso. apply (N (q - 1)); [lia|auto].
Qed.

(** ** Outcomes *)
Definition wf (s : st) : Prop := pos (cur s) <= len /\ lineok txt (cur s).
Definition fine (s : st) (o : outcome st) : Prop := exists s', o = Ok s' /\ wf s' /\ pos (cur s) <= pos (cur s').
Definition goes (s : st) (o : outcome st) : Prop := exists s', o = Ok s' /\ wf s' /\ pos (cur s) < pos (cur s').

Lemma goes_fine : forall s o, goes s o -> fine s o.
Proof. intros s o (s' & E & W & L). exists s'. split; [auto|]. split; [auto|lia]. Qed.
Lemma wf_adv : forall s c', wf s -> adv txt (cur s) c' -> forall o, wf (St c' o) /\ pos (cur s) <= pos c'.
Proof. intros s c' [W L] A o. destruct (A W) as (P & _ & Q). split; [split; cbn; [lia|auto]|lia]. Qed.
Lemma fine_ok : forall s, wf s -> fine s (Ok s).
Proof. intros s W. exists s. auto. Qed.
Lemma fine_bind : forall s o f, fine s o -> (forall s', wf s' -> pos (cur s) <= pos (cur s') -> o = Ok s' -> fine s' (f s')) ->
  fine s (obind o f).
Proof.
  intros s o f (s1 & -> & W & L) H. cbn. destruct (H s1 W L eq_refl) as (s2 & E & W2 & L2). exists s2.
  split; [auto|]. split; [auto|lia].
Qed.
Lemma goes_bind : forall s o f, goes s o -> (forall s', wf s' -> pos (cur s) < pos (cur s') -> o = Ok s' -> fine s' (f s')) ->
  goes s (obind o f).
Proof.
  intros s o f (s1 & -> & W & L) H. cbn. destruct (H s1 W L eq_refl) as (s2 & E & W2 & L2). exists s2.
  split; [auto|]. split; [auto|lia].
Qed.
Lemma goes_bind' : forall s o f, fine s o -> (forall s', wf s' -> pos (cur s) <= pos (cur s') -> o = Ok s' -> goes s' (f s')) ->
  goes s (obind o f).
Proof.
  intros s o f (s1 & -> & W & L) H. cbn. destruct (H s1 W L eq_refl) as (s2 & E & W2 & L2). exists s2.
  split; [auto|]. split; [auto|lia].
Qed.
Lemma fine_tok : forall k a s c', wf s -> a (cur s) = Ok c' -> adv txt (cur s) c' -> fine s (tok txt k a s).
Proof.
  intros k a s c' W E A. unfold tok. rewrite E. cbn. eexists. split; [reflexivity|]. cbn. eapply wf_adv; eauto.
Qed.
Lemma goes_tok : forall k a s c', wf s -> a (cur s) = Ok c' -> adv txt (cur s) c' -> pos (cur s) < pos c' -> goes s (tok txt k a s).
Proof.
  intros k a s c' W E A L. unfold tok. rewrite E. cbn. eexists. split; [reflexivity|]. cbn. split; [|auto].
  eapply wf_adv; eauto.
Qed.
Lemma fine_tokt : forall k a s, wf s -> adv txt (cur s) (a (cur s)) -> fine s (tokt txt k a s).
Proof. intros. eapply fine_tok; eauto. Qed.
Lemma goes_tokt : forall k a s, wf s -> adv txt (cur s) (a (cur s)) -> pos (cur s) < pos (a (cur s)) -> goes s (tokt txt k a s).
Proof. intros. eapply goes_tok; eauto. Qed.
Lemma fine_tok_adv : forall k n s, wf s -> fine s (tok_adv txt k n s).
Proof. intros. apply fine_tokt; auto. apply adv_advance. Qed.
Lemma goes_tok_adv : forall k n s, wf s -> pos (cur s) < len -> 0 < n -> goes s (tok_adv txt k n s).
Proof. intros k n s [W L] P N. apply goes_tokt; [split; auto|apply adv_advance|]. rewrite advance_pos; lia. Qed.
Lemma tok_adv_cur : forall k n s s', tok_adv txt k n s = Ok s' -> cur s' = advance txt n (cur s).
Proof. intros k n s s' E. unfold tok_adv, tokt, tok in E. cbn [obind] in E. injection E as <-. reflexivity. Qed.
Lemma goes_guard : forall f s, goes s (f s) -> goes s (guard f s).
Proof.
  intros f s (s' & E & W & L). unfold guard. rewrite E. cbn. replace (_ =? _) with false by (symmetry; apply Nat.eqb_neq; lia).
  exists s'. auto.
Qed.
Lemma fine_loop : forall n cond body s, wf s -> left txt (cur s) < n ->
  (forall s', wf s' -> cond (cur s') = true -> left txt (cur s') <= left txt (cur s) -> goes s' (body s')) ->
  fine s (loop n cond body s).
Proof.
  unfold left. induction n; intros cond body s W L H; [lia|]. cbn [loop]. destruct (cond (cur s)) eqn:C; [|now apply fine_ok].
  destruct (H s W C ltac:(lia)) as (s1 & E & W1 & L1). rewrite E. cbn [obind].
  pose proof (proj1 W1). destruct (IHn cond body s1 W1 ltac:(lia)) as (s2 & E2 & W2 & L2).
  - intros s' W' C' LL. apply H; auto. lia.
  - exists s2. split; [auto|]. split; [auto|lia].
Qed.

Lemma peek_some : forall c off, pos c + off < len -> exists x, peek txt c off = Some x.
Proof. intros c off L. unfold peek. destruct (nth_error txt (pos c + off)) eqn:E; [eauto|]. apply nth_error_None in E. lia. Qed.
Lemma peek_lt : forall c off x, peek txt c off = Some x -> pos c + off < len.
Proof. intros c off x H. apply nth_error_Some. unfold peek in H. congruence. Qed.
Lemma get_peek : forall c off x, peek txt c off = Some x -> get txt c off = Ok x.
Proof. intros c off x H. unfold get. now rewrite H. Qed.

(** ** Case-insensitive tests never run off the end *)
Lemma iat_fine : forall s c off, Forall (fun x => to_lower x <> 10%Z) s -> pos c + off < len ->
  exists b, is_iat txt c off s = Ok b /\ (b = true -> pos c + off + length s < len /\
    forall i, i < length s -> exists y x, peek txt c (off + i) = Some y /\ In x s /\ to_lower y = to_lower x).
Proof.
  induction s; intros c off F L; cbn [is_iat].
  - exists true. split; [auto|]. intros _. cbn. split; [lia|]. intros; lia.
  - destruct (peek_some _ _ L) as [y Y]. rewrite Y. inversion F; subst.
    destruct (to_lower y =? to_lower a)%Z eqn:E.
    + apply Z.eqb_eq in E.
      assert (M : S (pos c + off) < len) by (eapply more; [exact Y|]; intros ->; apply H1; rewrite <- E; reflexivity).
      destruct (IHs c (S off) H2 ltac:(lia)) as (b & B & K). exists b. split; [auto|]. intros T. destruct (K T) as [K1 K2].
      cbn [length]. split; [lia|]. intros i I. destruct i.
      * rewrite Nat.add_0_r. exists y, a. split; [auto|]. split; [now left|auto].
      * destruct (K2 i ltac:(lia)) as (y' & x' & P1 & P2 & P3). exists y', x'. split; [now rewrite <- plus_n_Sm|].
        split; [now right|auto].
    + exists false. split; [auto|]. discriminate.
Qed.

Ltac lows := repeat constructor; vm_compute; discriminate.

(** ** Arguments of commands *)
Lemma no_nl_opt : forall ch c, ch <> 10%Z -> no_nl (pos c) (pos (opt_next txt ch c)).
Proof.
  intros ch c N. unfold opt_next, is_at, is_pred. destruct (peek txt c 0) eqn:E; [|apply no_nl_refl].
  destruct (z =? ch)%Z eqn:Z; [|apply no_nl_refl]. eapply no_nl_next; eauto. apply Z.eqb_eq in Z. congruence.
Qed.
Lemma no_nl_quoted : forall n c, no_nl (pos c) (pos (quoted txt n c)).
Proof.
  induction n; intros c; cbn [quoted]; [apply no_nl_refl|].
  unfold can_search. destruct (has_pos txt c 0 && negb (is_at txt c 0 34)) eqn:A; [|apply no_nl_refl].
  destruct (is_at txt c 0 10) eqn:B; [apply no_nl_refl|].
  assert (X : exists x, peek txt c 0 = Some x /\ x <> 10%Z).
  { apply andb_true_iff in A. destruct A as [A _]. unfold has_pos in A. apply Nat.ltb_lt in A.
    destruct (peek_some _ _ A) as [x X]. exists x. split; [auto|]. unfold is_at, is_pred in B. rewrite X in B.
    now apply Z.eqb_neq. }
  destruct X as (x & X & N). destruct (is_str txt c 0 [92; 34]%Z) eqn:C.
  - eapply no_nl_trans; [eapply no_nl_next; eauto|]. eapply no_nl_trans; [|apply IHn].
    cbn [is_str] in C. apply andb_true_iff in C. destruct C as [_ C]. apply andb_true_iff in C. destruct C as [C _].
    unfold is_at, is_pred in C. destruct (peek txt c 1) eqn:P; [|discriminate]. apply Z.eqb_eq in C. subst z.
    eapply (no_nl_next _ 34); [|discriminate]. unfold peek in *. rewrite next_pos; [now rewrite <- P; f_equal; lia|].
    apply peek_lt in X. lia.
  - eapply no_nl_trans; [eapply no_nl_next; eauto|apply IHn].
Qed.

Lemma stop_nl : arg_stop 10 = true. Proof. reflexivity. Qed.

Lemma goes_argument : forall s, wf s -> in_line txt (cur s) = true ->
  goes s (cmd_argument txt s) /\ (forall s', cmd_argument txt s = Ok s' -> no_nl (pos (cur s)) (pos (cur s'))).
Proof.
  intros s W I. unfold in_line, can_search in I. apply andb_true_iff in I. destruct I as [I1 I2].
  unfold has_pos in I1. apply Nat.ltb_lt in I1. destruct (peek_some _ _ I1) as [x X].
  assert (N : x <> 10%Z).
  { unfold is_at, is_pred in I2. rewrite X in I2. intros ->. discriminate. }
  unfold cmd_argument. rewrite (get_peek _ _ _ X). cbn [obind].
  assert (P : pos (cur s) < len) by lia. pose proof (proj1 W) as PL.
  assert (T1 : forall k, goes s (tok1 txt k s) /\ (forall s', tok1 txt k s = Ok s' -> no_nl (pos (cur s)) (pos (cur s')))).
  { intros k. split; [apply goes_tok_adv; auto|]. intros s' E. injection E as <-. cbn [cur advance]. eapply no_nl_next; eauto. }
  assert (TT : forall k a, adv txt (cur s) (a (cur s)) -> pos (cur s) < pos (a (cur s)) -> no_nl (pos (cur s)) (pos (a (cur s))) ->
     goes s (tokt txt k a s) /\ (forall s', tokt txt k a s = Ok s' -> no_nl (pos (cur s)) (pos (cur s')))).
  { intros k a A L NN. split; [apply goes_tokt; auto|]. intros s' E. injection E as <-. exact NN. }
  destruct (x =? 40)%Z eqn:E1; [apply T1|]. destruct (x =? 41)%Z eqn:E2; [apply T1|].
  destruct (x =? 93)%Z eqn:E3; [apply T1|]. destruct (x =? 61)%Z eqn:E4; [apply T1|].
  destruct (x =? 44)%Z eqn:E5; [apply T1|]. destruct (x =? 32)%Z eqn:E6.
  { apply TT; [apply adv_run| |apply no_nl_run; auto]. eapply run_gt; eauto. lia. }
  destruct (x =? 10)%Z eqn:E7; [lia|]. destruct (x =? 91)%Z eqn:E8; [apply T1|].
  destruct (x =? 34)%Z eqn:E9.
  { assert (A : adv txt (next txt (cur s)) (opt_next txt 34 (quoted txt (left txt (next txt (cur s))) (next txt (cur s))))).
    { eapply adv_trans; [apply adv_quoted|apply adv_opt]. }
    apply TT.
    - eapply adv_trans; [apply adv_next|exact A].
    - assert (Q : pos (next txt (cur s)) <= len) by (rewrite next_pos; lia). destruct (A Q) as (B & _). rewrite next_pos in B at 1 by lia. lia.
    - eapply no_nl_trans; [eapply no_nl_next; eauto|]. eapply no_nl_trans; [apply no_nl_quoted|]. now apply no_nl_opt. }
  destruct (x =? 58)%Z eqn:E10.
  { assert (Q : pos (next txt (cur s)) <= len) by (rewrite next_pos; lia).
    destruct (is_pred txt (cur s) 1 is_alnum).
    - set (f := fun y => is_alnum y || (y =? 95)%Z || (y =? 45)%Z).
      assert (E : omap (run txt f) (skip txt 58 (cur s)) = Ok (run txt f (next txt (cur s)))).
      { unfold skip. rewrite (get_peek _ _ _ X). cbn [obind]. rewrite E10. reflexivity. }
      pose proof (adv_run txt f (next txt (cur s)) Q) as (B & _). rewrite next_pos in B at 1 by lia.
      split.
      + eapply goes_tok; eauto; [eapply adv_trans; [apply adv_next|apply adv_run]|lia].
      + intros s' H. unfold tok in H. cbv beta in H. rewrite E in H. cbn [obind] in H. injection H as <-. cbn [cur].
        eapply no_nl_trans; [eapply no_nl_next; eauto|]. apply no_nl_run; auto.
    - set (f := fun y => negb (arg_stop y)). pose proof (adv_run txt f (next txt (cur s)) Q) as (B & _).
      rewrite next_pos in B at 1 by lia.
      assert (NN : no_nl (pos (cur s)) (pos (run txt f (next txt (cur s))))).
      { eapply no_nl_trans; [eapply no_nl_next; eauto|]. apply no_nl_run; auto. }
      assert (T : has_text txt (run txt f (next txt (cur s))) = true).
      { unfold has_text, has_pos. apply Nat.ltb_lt. rewrite Nat.add_0_r. eapply no_nl_end; eauto. lia. }
      cbv zeta. split.
      + eapply goes_tok; [auto|cbv beta; rewrite T; reflexivity| |lia]. eapply adv_trans; [apply adv_next|apply adv_run].
      + intros s' H. unfold tok in H. cbv beta in H. rewrite T in H. cbn [obind] in H. injection H as <-. exact NN. }
  apply TT; [apply adv_run| |apply no_nl_run; auto]. eapply run_gt; eauto. unfold arg_stop, one_of. cbn [existsb].
  rewrite E1, E2, E3, E4, E5, E6, E7, E8. reflexivity.
Qed.

Lemma guard_inv : forall f s s', guard f s = Ok s' -> f s = Ok s'.
Proof.
  intros f s s' H. unfold guard in H. destruct (f s); cbn in H; try discriminate. destruct (_ =? _); [discriminate|auto].
Qed.
Lemma args_no_nl : forall n s s', wf s -> loop n (in_line txt) (guard (cmd_argument txt)) s = Ok s' ->
  no_nl (pos (cur s)) (pos (cur s')).
Proof.
  induction n; intros s s' W H; cbn [loop] in H; [discriminate|]. destruct (in_line txt (cur s)) eqn:I.
  - destruct (guard (cmd_argument txt) s) as [s1| | |] eqn:G; cbn [obind] in H; try discriminate.
    apply guard_inv in G. destruct (goes_argument s W I) as [(s2 & E & W2 & L) K]. rewrite E in G. injection G as <-.
    eapply no_nl_trans; [apply K; eauto|]. eapply IHn; eauto.
  - injection H as <-. apply no_nl_refl.
Qed.

(** ** Verbatim blocks *)
Lemma end_fine : forall name c, Forall (fun x => to_lower x <> 10%Z) name -> pos c < len -> exists o, end_offset txt name c = Ok o.
Proof.
  intros name c F L. unfold end_offset. cbv zeta. set (p := count_at txt (Z.eqb 32) c 0).
  destruct (is_at txt c p 35); [|eauto]. destruct (is_at txt c (p + 1) 43) eqn:B; [|eauto].
  unfold is_at, is_pred in B. destruct (peek txt c (p + 1)) eqn:P; [|discriminate]. apply Z.eqb_eq in B. subst z.
  pose proof (more _ _ P ltac:(discriminate)).
  destruct (iat_fine (lit "end") c (p + 2) ltac:(lows) ltac:(lia)) as (b & E & K). rewrite E. cbn [obind].
  destruct b; [|eauto]. destruct (K eq_refl) as [K1 _]. cbn in K1.
  set (p2 := if is_at txt c (p + 5) 95 then p + 6 else p + 5).
  assert (P2 : pos c + p2 < len).
  { unfold p2. destruct (is_at txt c (p + 5) 95) eqn:U; [|lia]. unfold is_at, is_pred in U.
    destruct (peek txt c (p + 5)) eqn:P5; [|discriminate]. apply Z.eqb_eq in U. subst z.
    pose proof (more _ _ P5 ltac:(discriminate)). lia. }
  destruct (iat_fine name c p2 F P2) as (b & E2 & _). rewrite E2. cbn. destruct b; eauto.
Qed.

Lemma iat_true : forall s c off e r, skipn (pos c + off) txt = e ++ r -> map to_lower e = map to_lower s ->
  is_iat txt c off s = Ok true.
Proof.
  induction s; intros c off e r H M; destruct e; try discriminate; [reflexivity|].
  cbn [is_iat]. injection M as M1 M2.
  assert (P : peek txt c off = Some z).
  { unfold peek. rewrite <- (Nat.add_0_r (pos c + off)), <- nth_skip, H. reflexivity. }
  rewrite P, M1, Z.eqb_refl. apply (IHs c (S off) e r); auto.
  replace (pos c + S off) with (pos c + off + 1) by lia. rewrite <- skipn_add, H. reflexivity.
Qed.

Lemma run_spaces : forall k r, hd_error r <> Some 32%Z -> run_len (Z.eqb 32) (repeat 32%Z k ++ r) = k.
Proof.
  induction k; intros r H; cbn [repeat app run_len].
  - destruct r; cbn [hd_error run_len] in *; auto. destruct (Z.eqb_spec 32 z); auto. congruence.
  - rewrite Z.eqb_refl. now rewrite IHk.
Qed.

Lemma skip_app : forall {A} (a b : list A), skipn (length a) (a ++ b) = b.
Proof. induction a; intros; cbn; auto. Qed.

Lemma at_end : forall name c, closes txt name (pos c) -> (exists x r, name = x :: r /\ x <> 95%Z) -> map to_lower name = name ->
  exists k, end_offset txt name c = Ok (Some k) /\ 0 < k.
Proof.
  intros name c (_ & k & e & u & nm & r & T & E & U & M) (x & r' & N & NX) LN. unfold end_offset. cbv zeta.
  assert (K : count_at txt (Z.eqb 32) c 0 = k).
  { unfold count_at. rewrite Nat.add_0_r, T. apply run_spaces. cbn. congruence. }
  rewrite K.
  assert (T0 : skipn (pos c + k) txt = [35; 43]%Z ++ e ++ u ++ nm ++ r).
  { rewrite <- skipn_add, T. rewrite <- (repeat_length 32%Z k) at 1. apply skip_app. }
  assert (PK : forall i, peek txt c (k + i) = nth_error ([35; 43]%Z ++ e ++ u ++ nm ++ r) i).
  { intros i. unfold peek. rewrite Nat.add_assoc, <- nth_skip, T0. reflexivity. }
  assert (A0 : is_at txt c k 35 = true).
  { unfold is_at, is_pred. rewrite <- (Nat.add_0_r k), PK. reflexivity. }
  assert (A1 : is_at txt c (k + 1) 43 = true).
  { unfold is_at, is_pred. rewrite PK. reflexivity. }
  rewrite A0, A1.
  assert (LE : length e = 3) by (rewrite <- (map_length to_lower e), E; reflexivity).
  assert (T2 : skipn (pos c + (k + 2)) txt = e ++ u ++ nm ++ r).
  { rewrite Nat.add_assoc, <- skipn_add, T0. reflexivity. }
  rewrite (iat_true _ _ _ _ _ T2) by (rewrite E; reflexivity). cbn [obind].
  assert (T5 : skipn (pos c + (k + 5)) txt = u ++ nm ++ r).
  { replace (pos c + (k + 5)) with (pos c + (k + 2) + 3) by lia. rewrite <- skipn_add, T2, <- LE. apply skip_app. }
  assert (P5 : peek txt c (k + 5) = hd_error (u ++ nm ++ r)).
  { unfold peek. rewrite <- (Nat.add_0_r (pos c + (k + 5))), <- nth_skip, T5. destruct (u ++ nm ++ r); reflexivity. }
  destruct U as [-> | ->].
  - assert (B : is_at txt c (k + 5) 95 = false).
    { unfold is_at, is_pred. rewrite P5. destruct nm; [rewrite N in M; discriminate|]. cbn. rewrite N in M. injection M as M _.
      apply Z.eqb_neq. intros ->. apply NX. rewrite <- M. reflexivity. }
    rewrite B. cbn [app] in T5. rewrite (iat_true _ _ _ _ _ T5) by congruence. cbn. eexists. split; [reflexivity|]. lia.
  - assert (B : is_at txt c (k + 5) 95 = true) by (unfold is_at, is_pred; now rewrite P5).
    rewrite B. assert (T6 : skipn (pos c + (k + 6)) txt = nm ++ r).
    { replace (pos c + (k + 6)) with (pos c + (k + 5) + 1) by lia. rewrite <- skipn_add, T5. reflexivity. }
    rewrite (iat_true _ _ _ _ _ T6) by congruence. cbn. eexists. split; [reflexivity|]. lia.
Qed.

Lemma end_pos : forall name c k, end_offset txt name c = Ok (Some k) -> 0 < k.
Proof.
  intros name c k H. unfold end_offset in H. cbv zeta in H. revert H.
  destruct (is_at _ _ _ _); [|discriminate]. destruct (is_at _ _ _ _); [|discriminate].
  destruct (is_iat txt c _ (lit "end")) as [b| | |]; cbn [obind]; try discriminate. destruct b; [|discriminate].
  destruct (is_iat _ _ _ name) as [b| | |]; cbn [obind]; try discriminate. destruct b; [|discriminate].
  intros H. injection H as <-. destruct (is_at _ _ _ _); lia.
Qed.

(** A body that never passes the beginning of a line *)
Definition steps (q : nat) (body : st -> outcome st) : Prop :=
  forall s, wf s -> pos (cur s) < q -> exists s', body s = Ok s' /\ wf s' /\ pos (cur s) < pos (cur s') <= q.

Lemma fine_block : forall n name body fin q s, wf s -> pos (cur s) <= q -> left txt (cur s) < n -> q < len ->
  closes txt name q -> steps q body -> Forall (fun x => to_lower x <> 10%Z) name ->
  (exists x r, name = x :: r /\ x <> 95%Z) -> map to_lower name = name ->
  goes s (block txt n name body fin s).
Proof.
  unfold left. induction n; intros name body fin q s W P L Q C B F N M; [lia|]. cbn [block].
  destruct (end_fine name (cur s) F ltac:(lia)) as [o E]. rewrite E. cbn [obind]. destruct o as [k|].
  - apply goes_tok_adv; [auto|lia|]. eapply end_pos; eauto.
  - destruct (Nat.eq_dec (pos (cur s)) q).
    + subst q. destruct (at_end _ _ C N M) as (k & K & _). congruence.
    + destruct (B s W ltac:(lia)) as (s1 & E1 & W1 & L1). unfold guard. rewrite E1. cbn [obind].
      replace (_ =? _) with false by (symmetry; apply Nat.eqb_neq; lia). cbn [obind].
      destruct (IHn name body fin q s1 W1) as (s2 & E2 & W2 & L2); auto; try lia.
      exists s2. split; [auto|]. split; [auto|lia].
Qed.

Lemma lt_line : forall a q, line_begin txt q -> a < q -> nth_error txt (q - 1) = Some 10%Z.
Proof. intros a q [->|H] L; [lia|auto]. Qed.
(** a position reached without passing a newline, then the newline if there is one *)
Lemma opt_newline_step : forall s q, wf s -> pos (cur s) < q -> q <= len -> nth_error txt (q - 1) = Some 10%Z ->
  exists s', opt_newline txt s = Ok s' /\ wf s' /\ pos (cur s) <= pos (cur s') <= q /\
    (nth_error txt (pos (cur s)) = Some 10%Z -> pos (cur s) < pos (cur s')).
Proof.
  intros s q W L Q N. unfold opt_newline. destruct (is_at txt (cur s) 0 10) eqn:B.
  - destruct (goes_tok_adv kNewline 1 s W ltac:(lia) ltac:(lia)) as (s' & E & W' & L'). exists s'.
    split; [exact E|]. split; [auto|]. injection E as <-. cbn [cur advance] in *. rewrite next_pos in * by lia.
    split; [lia|auto].
  - exists s. split; [auto|]. split; [auto|]. split; [lia|]. intros X. unfold is_at, is_pred, peek in B.
    rewrite Nat.add_0_r, X in B. discriminate.
Qed.
Lemma no_nl_before : forall a b q, no_nl a b -> a < q -> nth_error txt (q - 1) = Some 10%Z -> b < q.
Proof. intros a b q N L H. destruct (Nat.lt_ge_cases b q); auto. exfalso. apply (N (q - 1)); [lia|auto]. Qed.

Lemma steps_raw : forall k q, line_begin txt q -> q < len -> steps q (raw_line txt k).
Proof.
  intros k q B Q s W L. pose proof (lt_line _ _ B L) as NL. unfold raw_line, andthen, tokt, tok. cbn [obind].
  pose proof (adv_eol txt (cur s)) as A. destruct (wf_adv s _ W A (out s ++ [mk txt k (cur s) (to_eol txt (cur s))])) as [W1 L1].
  assert (NN : no_nl (pos (cur s)) (pos (to_eol txt (cur s)))) by (apply no_nl_run; [reflexivity|apply W]).
  pose proof (no_nl_before _ _ _ NN L NL) as LQ.
  destruct (opt_newline_step _ q W1 LQ ltac:(lia) NL) as (s' & E & W' & R & S).
  exists s'. split; [exact E|]. split; [auto|]. cbn [cur] in R, S. split; [|lia].
  destruct (Nat.eq_dec (pos (to_eol txt (cur s))) (pos (cur s))) as [X|X]; [|lia].
  rewrite X in S. rewrite <- X in S at 2. assert (Y : nth_error txt (pos (cur s)) = Some 10%Z); [|specialize (S Y); lia].
  unfold to_eol in X. rewrite run_pos in X by apply W. assert (Z : pos (cur s) < len) by lia.
  destruct (nth_error txt (pos (cur s))) eqn:E0; [|apply nth_error_None in E0; lia].
  rewrite (skip_cons _ _ E0) in X. cbn [run_len] in X. destruct (Z.eqb_spec z 10); [now subst|]. cbn in X. lia.
Qed.

Lemma src_run_spec : forall n c, pos c <= len -> no_nl (pos c) (pos (src_run txt n c)).
Proof.
  induction n; intros c L; cbn [src_run]; [apply no_nl_refl|].
  destruct (has_text txt c && _) eqn:C; [|apply no_nl_refl]. apply andb_true_iff in C. destruct C as [C1 C2].
  unfold has_text, has_pos in C1. apply Nat.ltb_lt in C1. destruct (peek_some _ _ C1) as [x X].
  apply negb_true_iff, orb_false_iff in C2. destruct C2 as [C2 _]. apply orb_false_iff in C2. destruct C2 as [C2 _].
  unfold is_at, is_pred in C2. rewrite X in C2. eapply no_nl_trans; [eapply no_nl_next; eauto; now apply Z.eqb_neq|].
  apply IHn. rewrite next_pos; lia.
Qed.
Lemma src_run_gt : forall n c, pos c < len -> 0 < n -> is_at txt c 0 10 = false -> is_str txt c 0 [62; 62]%Z = false ->
  is_str txt c 0 [60; 60]%Z = false -> pos c < pos (src_run txt n c).
Proof.
  intros n c L N A B C. destruct n; [lia|]. cbn [src_run]. rewrite A, B, C. unfold has_text, has_pos.
  replace (pos c + 0 <? len) with true by (symmetry; apply Nat.ltb_lt; lia). cbn [andb orb negb].
  assert (Q : pos (next txt c) <= len) by (rewrite next_pos; lia).
  destruct (adv_src_run txt n (next txt c) Q) as (D & _). rewrite next_pos in D at 1 by lia. lia.
Qed.

Lemma str_two : forall c x, is_str txt c 0 [x; x] = true -> nth_error txt (pos c) = Some x /\ nth_error txt (S (pos c)) = Some x.
Proof.
  intros c x H. cbn [is_str] in H. rewrite andb_true_r in H. apply andb_true_iff in H. destruct H as [A B].
  unfold is_at, is_pred, peek in A, B. rewrite Nat.add_0_r in A. rewrite Nat.add_1_r in B.
  destruct (nth_error txt (pos c)); [|discriminate]. destruct (nth_error txt (S (pos c))); [|discriminate].
  apply Z.eqb_eq in A, B. now subst.
Qed.
Lemma steps_src : forall q, line_begin txt q -> q < len -> steps q (src_line txt).
Proof.
  intros q B Q s W L. pose proof (lt_line _ _ B L) as NL. unfold src_line. cbv zeta.
  assert (TWO : forall k x, x <> 10%Z -> is_str txt (cur s) 0 [x; x] = true ->
    exists s', andthen (tok_adv txt k 2) (opt_newline txt) s = Ok s' /\ wf s' /\ pos (cur s) < pos (cur s') <= q).
  { intros k x NX H. apply str_two in H. destruct H as [H1 H2]. unfold andthen.
    destruct (goes_tok_adv k 2 s W ltac:(lia) ltac:(lia)) as (s1 & E & W1 & L1). rewrite E. cbn [obind].
    assert (P1 : pos (cur s1) = pos (cur s) + 2).
    { rewrite (tok_adv_cur _ _ _ _ E), advance_pos by apply W. pose proof (more _ _ H2 NX). lia. }
    assert (LQ : pos (cur s1) < q).
    { destruct (Nat.eq_dec (q - 1) (pos (cur s))); [congruence|]. destruct (Nat.eq_dec (q - 1) (S (pos (cur s)))); [congruence|]. lia. }
    destruct (opt_newline_step s1 q W1 LQ ltac:(lia) NL) as (s' & E' & W' & R & _). exists s'. split; [auto|]. split; [auto|lia]. }
  destruct (is_str txt (cur s) 0 [60; 60]%Z) eqn:S1; [apply (TWO _ 60%Z); auto; discriminate|].
  destruct (is_str txt (cur s) 0 [62; 62]%Z) eqn:S2; [apply (TWO _ 62%Z); auto; discriminate|].
  unfold andthen, tokt, tok. cbn [obind]. set (c1 := src_run txt (left txt (cur s)) (cur s)).
  pose proof (adv_src_run txt (left txt (cur s)) (cur s)) as A. destruct (wf_adv s _ W A (out s ++ [mk txt kSrcContent (cur s) c1])) as [W1 L1].
  fold c1 in L1, W1.
  assert (NN : no_nl (pos (cur s)) (pos c1)) by (apply src_run_spec; apply W).
  pose proof (no_nl_before _ _ _ NN L NL) as LQ.
  destruct (opt_newline_step (St c1 (out s ++ [mk txt kSrcContent (cur s) c1])) q W1 LQ ltac:(lia) NL) as (s' & E & W' & R & S).
  exists s'. split; [exact E|]. split; [auto|]. cbn [cur] in R, S. split; [|lia].
  destruct (is_at txt (cur s) 0 10) eqn:S0.
  - destruct (Nat.eq_dec (pos c1) (pos (cur s))) as [X|X]; [|lia]. rewrite X in S.
    assert (Y : nth_error txt (pos (cur s)) = Some 10%Z); [|specialize (S Y); lia].
    unfold is_at, is_pred, peek in S0. rewrite Nat.add_0_r in S0. destruct (nth_error txt (pos (cur s))); [|discriminate].
    apply Z.eqb_eq in S0. now subst.
  - assert (pos (cur s) < pos c1); [|lia]. apply src_run_gt; auto; unfold left; lia.
Qed.

(** ** Everything else *)
Definition ready (s : st) : Prop := wf s /\ pos (cur s) < len.

Lemma goes_tok1 : forall k s, ready s -> goes s (tok1 txt k s).
Proof. intros k s [W L]. apply goes_tok_adv; auto. Qed.
Lemma goes_adv : forall k n s, ready s -> 0 < n -> goes s (tok_adv txt k n s).
Proof. intros k n s [W L] N. apply goes_tok_adv; auto. Qed.
Lemma goes_span : forall k n p c off s j, ready s -> patt txt p c off = Some n -> atl (S j) p -> goes s (tok_adv txt k n s).
Proof. intros k n p c off s j R P A. apply goes_adv; auto. apply A in P. lia. Qed.
Lemma goes_then : forall f g s, goes s (f s) -> (forall s', wf s' -> pos (cur s) < pos (cur s') -> f s = Ok s' -> fine s' (g s')) ->
  goes s (andthen f g s).
Proof. intros. apply goes_bind; auto. Qed.
Lemma fine_then : forall f g s, fine s (f s) -> (forall s', wf s' -> pos (cur s) <= pos (cur s') -> f s = Ok s' -> fine s' (g s')) ->
  fine s (andthen f g s).
Proof. intros. apply fine_bind; auto. Qed.

Lemma adv_le : forall c c', adv txt c c' -> pos c <= len -> pos c <= pos c' <= len.
Proof. intros c c' A L. apply (A L). Qed.
Lemma word_gt : forall c x, pos c <= len -> peek txt c 0 = Some x -> is_alnum x = true -> pos c < pos (advance_word txt c).
Proof.
  intros c x L P A. pose proof (run_gt is_alnum c x L P A) as G. unfold advance_word.
  pose proof (adv_le _ _ (adv_run txt is_alnum c) L) as B.
  assert (C : adv txt (run txt is_alnum c) (run txt is_alnum (opt_next txt 39 (joints txt (left txt c) (run txt is_alnum c))))).
  { eapply adv_trans; [apply adv_joints|]. eapply adv_trans; [apply adv_opt|apply adv_run]. }
  pose proof (adv_le _ _ C ltac:(lia)). lia.
Qed.
Lemma goes_word : forall s x, ready s -> peek txt (cur s) 0 = Some x -> is_alpha x = true -> goes s (tokt txt kWord (advance_word txt) s).
Proof.
  intros s x [W L] P A. apply goes_tokt; [auto|apply adv_word|]. eapply word_gt; [apply W|eauto|]. unfold is_alnum. now rewrite A.
Qed.

Lemma fine_inline : forall s, wf s -> fine s (inline_src txt s).
Proof.
  intros s W. unfold inline_src. apply fine_then; [apply fine_then; [now apply fine_tok_adv|]|]; intros.
  - apply fine_tokt; auto. apply adv_braces.
  - now apply fine_tok_adv.
Qed.

Lemma goes_switch_word : forall s x, ready s -> peek txt (cur s) 0 = Some x -> is_alpha x = true -> goes s (switch_word txt s).
Proof.
  intros s x R P A. unfold switch_word. cbv zeta. rewrite (get_peek _ _ _ P). cbn [obind].
  pose proof (goes_word s x R P A) as GW. destruct R as [W L].
  destruct (one_of (lit "hH") x).
  - destruct (iat_fine (lit "http") (cur s) 0 ltac:(lows) ltac:(lia)) as (b & E & _). rewrite E. cbn [obind]. destruct b; auto.
    apply goes_then.
    + apply goes_tokt; auto; cbv beta.
      * destruct (is_any txt (advance txt 4 (cur s)) 0 (lit "sS")); [eapply adv_trans; [apply adv_advance|apply adv_next]|apply adv_advance].
      * pose proof (advance_pos 4 (cur s) (proj1 W)). destruct (is_any txt (advance txt 4 (cur s)) 0 (lit "sS")); [|lia].
        pose proof (adv_le _ _ (adv_next txt (advance txt 4 (cur s))) ltac:(lia)). lia.
    + intros. apply fine_tokt; auto. apply adv_run.
  - destruct (one_of (lit "sS") x).
    + destruct (is_str txt (cur s) 0 (lit "SCHEDULED:")); [apply goes_adv; [split; auto|lia]|].
      destruct (patt _ _ _ _) as [k|] eqn:E; [|auto]. apply goes_then.
      * eapply goes_span; [split; auto|exact E|]. apply atl_seq_l. apply (atl_ilit (lit "src")).
      * intros. now apply fine_inline.
    + destruct (x =? 68)%Z; [destruct (is_str _ _ _ _); auto; apply goes_adv; [split; auto|lia]|].
      destruct (x =? 67)%Z; [destruct (is_str _ _ _ _); auto; apply goes_adv; [split; auto|lia]|auto].
Qed.

(** Links *)
Definition lend (q : nat) : Prop := p_alt (p_lit (lit "]]")) (p_lit (lit "][")) (skipn q txt) <> None.
Lemma lend_char : forall q, lend q -> nth_error txt q = Some 93%Z.
Proof.
  intros q H. unfold lend in H. assert (E : exists r, skipn q txt = 93%Z :: r).
  { destruct (skipn q txt) as [|z r]; [exfalso; apply H; reflexivity|]. destruct (Z.eqb_spec 93 z); [subst; eauto|].
    exfalso. apply H. unfold p_alt, p_lit. change (AttrModel.lit "]]") with [93; 93]%Z. change (AttrModel.lit "][") with [93; 91]%Z.
    cbn [p_fold]. apply Z.eqb_neq in n. now rewrite n. }
  destruct E as [r E]. rewrite <- (Nat.add_0_r q), <- nth_skip, E. reflexivity.
Qed.
Lemma fine_until : forall k s q, wf s -> pos (cur s) <= q -> lend q -> fine s (until_end txt k s).
Proof.
  intros k s q W L Q. unfold until_end, patt, p_link_end. rewrite Nat.add_0_r.
  destruct (until_some (p_alt (p_lit (lit "]]")) (p_lit (lit "]["))) (skipn (pos (cur s)) txt) (q - pos (cur s))) as [n E].
  - rewrite skipn_add. replace (pos (cur s) + (q - pos (cur s))) with q by lia. exact Q.
  - rewrite E. now apply fine_tok_adv.
Qed.
Lemma fine_internal : forall s, wf s -> fine s (link_internal txt s).
Proof. intros s W. unfold link_internal. cbv zeta. destruct (is_at _ _ _ _); now apply fine_tok_adv. Qed.

Lemma run_stops : forall f c q x, pos c <= len -> pos c <= q -> nth_error txt q = Some x -> f x = false -> pos (run txt f c) <= q.
Proof.
  intros f c q x L P N F. rewrite run_pos by auto. replace q with (pos c + (q - pos c)) in * by lia.
  rewrite <- nth_skip in N. assert (run_len f (skipn (pos c) txt) <= q - pos c); [|lia].
  revert N. replace (pos c + (q - pos c) - pos c) with (q - pos c) in * by lia.
  generalize (q - pos c). generalize (skipn (pos c) txt). clear - F. intros l. induction l; intros n N; cbn; [lia|].
  destruct n; cbn in N; [injection N as ->; rewrite F; lia|]. destruct (f a); [|lia]. apply IHl in N. lia.
Qed.

Lemma fine_protocol : forall s q x, ready s -> pos (cur s) <= q -> lend q -> peek txt (cur s) 0 = Some x -> fine s (link_protocol txt s).
Proof.
  intros s q x R L Q P. pose proof R as [W RL]. unfold link_protocol. cbv zeta.
  assert (SK : forall l, Forall (fun y => to_lower y <> 93%Z) l -> is_iat txt (cur s) 0 l = Ok true ->
    Forall (fun x => to_lower x <> 10%Z) l -> pos (cur s) + length l <= q).
  { intros l F E N. destruct (iat_fine l (cur s) 0 N ltac:(lia)) as (b & E' & K). rewrite E in E'. injection E' as <-.
    destruct (K eq_refl) as [_ K2]. destruct (Nat.lt_ge_cases q (pos (cur s) + length l)) as [X|X]; [|auto]. exfalso.
    destruct (K2 (q - pos (cur s)) ltac:(lia)) as (y & z & P1 & P2 & P3). unfold peek in P1. cbn [Nat.add] in P1.
    replace (pos (cur s) + (q - pos (cur s))) with q in P1 by lia. rewrite (lend_char _ Q) in P1. injection P1 as <-.
    rewrite Forall_forall in F. apply (F z P2). rewrite <- P3. reflexivity. }
  destruct (iat_fine (lit "http") (cur s) 0 ltac:(lows) ltac:(lia)) as (b & E & K). rewrite E. cbn [obind]. destruct b.
  { apply goes_fine. apply (goes_switch_word s x R P). destruct (K eq_refl) as [_ K2].
    destruct (K2 0 ltac:(cbn; lia)) as (y & z & P1 & P2 & P3). cbn [Nat.add] in P1. rewrite P in P1. injection P1 as <-.
    assert (LO : is_lower (to_lower x) = true).
    { rewrite P3. cbn in P2. decompose [or] P2; subst; try reflexivity. contradiction. }
    unfold is_alpha. unfold to_lower in LO. destruct (is_upper x); [apply orb_true_r|]. now rewrite LO. }
  destruct (iat_fine (lit "file") (cur s) 0 ltac:(lows) ltac:(lia)) as (b & E1 & _). rewrite E1. cbn [obind]. destruct b.
  { pose proof (SK (lit "file") ltac:(lows) E1 ltac:(lows)) as X. cbn in X. apply fine_then; [now apply fine_tok_adv|]. intros s' W' L' E'.
    apply (fine_until _ _ q); auto. rewrite (tok_adv_cur _ _ _ _ E'), advance_pos by apply W. lia. }
  assert (ID : forall k, fine s (andthen (tokt txt k (advance_ident txt)) (until_end txt kLinkTarget) s)).
  { intros k. apply fine_then; [apply fine_tokt; [auto|apply adv_ident]|]. intros s' W' L' E'. apply (fine_until _ _ q); auto.
    injection E' as <-. cbn [cur]. eapply run_stops; [apply W|auto|apply lend_char; eauto|reflexivity]. }
  destruct (iat_fine (lit "attachment") (cur s) 0 ltac:(lows) ltac:(lia)) as (b & E2 & _). rewrite E2. cbn [obind].
  destruct b; [apply ID|].
  destruct (iat_fine (lit "id") (cur s) 0 ltac:(lows) ltac:(lia)) as (b & E3 & _). rewrite E3. cbn [obind].
  destruct b; [apply ID|]. now apply fine_internal.
Qed.

Lemma fine_plain : forall s q x, wf s -> pos (cur s) < q -> lend q -> peek txt (cur s) 0 = Some x -> fine s (link_plain txt s).
Proof.
  intros s q x W L Q P. unfold link_plain. rewrite (get_peek _ _ _ P). cbn [obind].
  assert (U : forall k, fine s (until_end txt k s)) by (intros; apply (fine_until _ _ q); auto; lia).
  destruct (x =? 42)%Z; [auto|]. destruct (x =? 35)%Z.
  - apply fine_then; [now apply fine_tok_adv|]. intros s' W' L' E'. apply (fine_until _ _ q); auto.
    rewrite (tok_adv_cur _ _ _ _ E'), advance_pos by apply W. lia.
  - destruct (x =? 47)%Z; [auto|]. destruct (x =? 46)%Z; [auto|]. now apply fine_internal.
Qed.

Lemma run_len_all : forall f s, Forall (fun c => f c = true) (firstn (run_len f s) s).
Proof. induction s; cbn; auto. destruct (f a) eqn:E; cbn; auto. Qed.
Lemma run_len_le : forall f s, run_len f s <= length s.
Proof. induction s; cbn; auto. destruct (f a); lia. Qed.
Lemma seq_inv : forall p q s n, p_seq p q s = Some n -> exists a b, p s = Some a /\ q (skipn a s) = Some b /\ n = a + b.
Proof.
  intros p q s n H. unfold p_seq in H. destruct (p s) eqn:E; [|discriminate]. destruct (q (skipn n0 s)) eqn:F; [|discriminate].
  injection H as <-. eauto.
Qed.
Lemma lit_inv : forall l s n, p_lit l s = Some n -> n = length l /\ exists r, s = l ++ r.
Proof.
  induction l; intros s n H; cbn in H; [injection H as <-; split; [auto|]; now exists s|]. destruct s; [discriminate|].
  destruct (Z.eqb_spec a z); [|discriminate]. destruct (p_fold Z.eqb l s) eqn:E; [|discriminate]. injection H as <-.
  destruct (IHl _ _ E) as [-> [r ->]]. subst. split; [auto|]. now exists r.
Qed.
Lemma chr_inv : forall c s n, p_chr c s = Some n -> n = 1 /\ exists r, s = c :: r.
Proof.
  intros c s n H. unfold p_chr, p_cls in H. destruct s; [discriminate|]. destruct (Z.eqb_spec c z); [|discriminate].
  injection H as <-. subst. eauto.
Qed.
Lemma many_inv : forall f s n, p_many1 f s = Some n -> n = run_len f s /\ 0 < n.
Proof. intros f s n H. unfold p_many1 in H. destruct (run_len f s); [discriminate|]. injection H as <-. split; [auto|lia]. Qed.

Lemma at_lend : forall q, at_ txt q [93; 93]%Z \/ at_ txt q [93; 91]%Z -> lend q.
Proof. intros q [[r H]|[r H]]; unfold lend; rewrite H; vm_compute; discriminate. Qed.

Lemma goes_bracket : forall s, ready s -> goes s (bracket txt s).
Proof.
  intros s R. pose proof R as [W L]. unfold bracket. cbv zeta.
  destruct (patt _ _ _ _) as [k|] eqn:E1; [eapply goes_span; eauto; apply atl_seq_l, atl_chr|].
  destruct (patt _ (p_seq _ (p_seq _ (p_seq (p_chr 47) _))) _ _) as [k|] eqn:E2; [eapply goes_span; eauto; apply atl_seq_l, atl_chr|].
  destruct (is_str _ _ _ _); [apply goes_adv; auto; lia|].
  destruct (patt _ (p_seq (p_lit (lit "[#")) _) _ _) as [k|] eqn:E3; [eapply goes_span; eauto; apply atl_seq_l, (atl_lit (lit "[#"))|].
  destruct (patt _ (p_seq (p_chr 91) (p_seq (p_cls _) _)) _ _) as [k|] eqn:E4; [eapply goes_span; eauto; apply atl_seq_l, atl_chr|].
  destruct (patt _ (p_seq _ (p_seq p_ident (p_chr 93))) _ _) as [k|] eqn:E5.
  { eapply (goes_span _ _ _ _ _ _ 0); eauto. eapply atl_le; [|apply atl_seq; [apply atl_0|apply atl_seq; [apply atl_many|apply atl_0]]]. lia. }
  destruct (patt _ (p_ilit (lit "[fn::")) _ _) as [k|] eqn:E6; [eapply goes_span; eauto; apply (atl_ilit (lit "[fn::"))|].
  destruct (patt _ (p_seq (p_lit (lit "[[")) (p_seq p_ident (p_chr 58))) _ _) as [k|] eqn:E7.
  { apply goes_then; [apply goes_adv; auto|]. intros s' W' L' E'.
    unfold patt in E7. rewrite Nat.add_0_r in E7. apply seq_inv in E7. destruct E7 as (a & b & A & B & ->).
    apply lit_inv in A. destruct A as [-> [r A]]. apply seq_inv in B. destruct B as (c & d & B & D & ->).
    assert (SK : skipn (length (lit "[[")) (skipn (pos (cur s)) txt) = r) by (rewrite A; reflexivity). rewrite SK in *.
    apply many_inv in B. destruct B as [B B0]. apply chr_inv in D. destruct D as [-> [r' D]].
    set (f := fun c => is_word c || (c =? 45)%Z) in *.
    assert (AT : at_ txt (pos (cur s)) ([91; 91]%Z ++ firstn c r ++ [58%Z])).
    { exists r'. rewrite A. change (lit "[[") with [91; 91]%Z. cbn [app]. do 2 f_equal. rewrite <- (firstn_skipn c r) at 1.
      rewrite D. now rewrite <- app_assoc. }
    destruct (H_link (pos (cur s)) (firstn c r)) as (q & Q1 & Q2); [| |exact AT|].
    { intros X. apply (f_equal (@length _)) in X. rewrite firstn_length in X. cbn in X.
      assert (c <= length r) by (rewrite B; apply run_len_le). lia. }
    { rewrite B. apply run_len_all. }
    apply at_lend in Q2. pose proof (lend_char _ Q2) as QC.
    assert (LR : length (skipn (pos (cur s)) txt) = 2 + length r) by (rewrite A; reflexivity). rewrite skipn_length in LR.
    assert (c <= length r) by (rewrite B; apply run_len_le).
    assert (P' : pos (cur s') = pos (cur s) + 2) by (rewrite (tok_adv_cur _ _ _ _ E'), advance_pos by apply W; lia).
    assert (Q3 : pos (cur s') <= q).
    { rewrite P'. destruct (Nat.eq_dec q (S (pos (cur s)))) as [X|X]; [|lia]. exfalso. subst q.
      rewrite <- Nat.add_1_r, <- nth_skip, A in QC. discriminate. }
    destruct (peek_some (cur s') 0 ltac:(lia)) as [y Y].
    eapply fine_protocol; eauto. split; [auto|lia]. }
  destruct (patt _ (p_seq (p_lit (lit "[[")) (p_seq p_link_start p_link_end)) _ _) as [k|] eqn:E8; [|now apply goes_tok1].
  apply goes_then; [apply goes_adv; auto|]. intros s' W' L' E'.
  unfold patt in E8. rewrite Nat.add_0_r in E8. apply seq_inv in E8. destruct E8 as (a & b & A & B & ->).
  apply lit_inv in A. destruct A as [-> [r A]]. apply seq_inv in B. destruct B as (c & d & B & D & ->).
  assert (SK : skipn (length (lit "[[")) (skipn (pos (cur s)) txt) = r) by (rewrite A; reflexivity). rewrite SK in *.
  unfold p_link_start, p_cls in B. destruct r as [|z r]; [discriminate|].
  assert (c = 1) by (destruct (_ || _); [now injection B as <-|discriminate]). subst c. cbn [skipn] in D.
  apply until_inv in D. destruct D as [j J].
  assert (Q : lend (pos (cur s) + 3 + j)).
  { unfold lend. replace (pos (cur s) + 3 + j) with (pos (cur s) + (3 + j)) by lia. rewrite <- skipn_add, A. exact J. }
  assert (LR : length (skipn (pos (cur s)) txt) = 3 + length r) by (rewrite A; reflexivity). rewrite skipn_length in LR.
  assert (P' : pos (cur s') = pos (cur s) + 2) by (rewrite (tok_adv_cur _ _ _ _ E'), advance_pos by apply W; lia).
  destruct (peek_some (cur s') 0 ltac:(lia)) as [y Y].
  eapply fine_plain; [auto| |exact Q|eauto]. lia.
Qed.

Lemma skip_fine : forall ch c r, skipn (pos c) txt = ch :: r -> skip txt ch c = Ok (next txt c) /\ pos (next txt c) = S (pos c) /\ skipn (S (pos c)) txt = r.
Proof.
  intros ch c r H. assert (P : peek txt c 0 = Some ch) by (unfold peek; rewrite <- nth_skip, H; reflexivity).
  unfold skip. rewrite (get_peek _ _ _ P). cbn [obind]. rewrite Z.eqb_refl. split; [auto|]. split.
  - apply next_pos. apply peek_lt in P. lia.
  - rewrite <- Nat.add_1_r, <- skipn_add, H. reflexivity.
Qed.
Lemma at_at_fine : forall m c n, pos c <= len -> left txt c < m -> p_until (p_lit (lit "@@")) (skipn (pos c) txt) = Some n ->
  exists c' r, to_at_at txt m c = Ok c' /\ skipn (pos c') txt = 64%Z :: 64%Z :: r.
Proof.
  unfold left. induction m; intros c n L M U; [lia|]. cbn [to_at_at].
  destruct (is_str txt c 0 (lit "@@")) eqn:S.
  - change (lit "@@") with [64; 64]%Z in S. apply str_two in S. destruct S as [S1 S2]. exists c, (skipn (2 + pos c) txt).
    split; [auto|]. rewrite (skip_cons _ _ S1). f_equal. now apply skip_cons.
  - destruct (skipn (pos c) txt) as [|z r] eqn:E; [discriminate|]. cbn [p_until] in U.
    assert (LL : pos c < len). { apply (f_equal (@length _)) in E. rewrite skipn_length in E. cbn in E. lia. }
    assert (E' : skipn (pos (next txt c)) txt = r) by (rewrite next_pos by auto; rewrite <- Nat.add_1_r, <- skipn_add, E; reflexivity).
    destruct (p_lit (lit "@@") (z :: r)) eqn:PL.
    + exfalso. apply lit_inv in PL. destruct PL as [_ [r' PL]]. change (lit "@@") with [64; 64]%Z in *. rewrite PL in E.
      assert (N0 : nth_error txt (pos c) = Some 64%Z) by (rewrite <- (Nat.add_0_r (pos c)), <- nth_skip, E; reflexivity).
      assert (N1 : nth_error txt (pos c + 1) = Some 64%Z) by (rewrite <- nth_skip, E; reflexivity).
      cbn [is_str] in S. unfold is_at, is_pred, peek in S. rewrite Nat.add_0_r, N0, N1 in S. discriminate.
    + destruct (p_until (p_lit (lit "@@")) r) eqn:U'; [|discriminate].
      apply (IHm (next txt c) n0); [rewrite next_pos; lia|rewrite next_pos; lia|]. now rewrite E'.
Qed.

Lemma goes_at : forall s, ready s -> goes s (at_sign txt s).
Proof.
  intros s R. pose proof R as [W L]. unfold at_sign. cbv zeta. destruct (is_pred txt (cur s) 1 is_alpha).
  { apply goes_tokt; [auto|eapply adv_trans; [apply adv_next|apply adv_word]|].
    pose proof (adv_le _ _ (adv_word txt (next txt (cur s)))) as A. rewrite next_pos in A by auto. specialize (A ltac:(lia)). lia. }
  destruct (patt _ _ _ _) as [k|] eqn:E; [|now apply goes_tok1].
  unfold patt in E. rewrite Nat.add_0_r in E. apply seq_inv in E. destruct E as (a & b & A & B & ->).
  apply lit_inv in A. destruct A as [-> [r A]]. change (lit "@@") with [64; 64]%Z in *. cbn [length] in *.
  assert (SK : skipn 2 (skipn (pos (cur s)) txt) = r) by (rewrite A; reflexivity). rewrite SK in *.
  apply seq_inv in B. destruct B as (c & d & B & D & ->). apply many_inv in B. destruct B as [B B0].
  apply seq_inv in D. destruct D as (e & f & D & F & ->). apply chr_inv in D. destruct D as [-> [r' D]].
  assert (c <= length r) by (rewrite B; apply run_len_le).
  cbn [app] in A. destruct (skip_fine _ _ _ A) as (K1 & K2 & K3).
  rewrite <- K2 in K3. destruct (skip_fine _ _ _ K3) as (J1 & J2 & J3).
  set (c2 := next txt (next txt (cur s))) in *. assert (P2 : pos c2 = pos (cur s) + 2) by lia. rewrite <- J2 in J3.
  assert (L2 : pos c2 <= len). { apply (f_equal (@length _)) in A. rewrite skipn_length in A. cbn in A. lia. }
  assert (L3 : pos (advance_ident txt c2) = pos c2 + c).
  { unfold advance_ident. rewrite run_pos by auto. rewrite J3. now rewrite B. }
  assert (A3 : adv txt (cur s) (advance_ident txt c2)).
  { eapply adv_trans; [apply adv_next|]. eapply adv_trans; [apply adv_next|apply adv_ident]. }
  apply goes_then.
  - eapply goes_tok; [auto| |exact A3|lia]. cbv beta. rewrite K1. cbn [obind]. rewrite J1. reflexivity.
  - intros s' W' L' E'. unfold tok in E'. rewrite K1 in E'. cbn [obind] in E'. rewrite J1 in E'. cbn [omap obind] in E'.
    injection E' as <-. cbn [cur] in *. set (c3 := advance_ident txt c2) in *.
    assert (S3 : skipn (pos c3) txt = 58%Z :: r').
    { rewrite L3, <- skipn_add, J3. exact D. }
    destruct (skip_fine _ _ _ S3) as (M1 & M2 & M3).
    assert (L4 : pos (next txt c3) <= len). { apply (adv_le _ _ (adv_next txt c3)). apply W'. }
    assert (HR : skipn 1 (skipn c r) = r') by (rewrite D; reflexivity). rewrite HR in F.
    rewrite <- M2 in M3. rewrite <- M3 in F.
    destruct (at_at_fine (S (left txt (next txt c3))) (next txt c3) f L4 ltac:(lia) F) as (c4 & r4 & N1 & N2).
    destruct (skip_fine _ _ _ N2) as (N3 & N4 & N5). rewrite <- N4 in N5. destruct (skip_fine _ _ _ N5) as (N6 & N7 & _).
    eapply fine_tok; [auto|cbn [cur]; rewrite M1; cbn [obind]; rewrite N1; cbn [obind]; rewrite N3; cbn [obind]; rewrite N6; reflexivity|].
    cbn [cur]. eapply adv_trans; [apply adv_next|]. eapply adv_trans; [eapply adv_at_at; eauto|]. eapply adv_trans; apply adv_next.
Qed.

Lemma goes_time : forall s p j k, ready s -> within p -> atl (S j) p -> patt txt p (cur s) 0 = Some k ->
  goes s (obind (am_pm txt (cur s) k) (fun p => tok_adv txt kTime p s)).
Proof.
  intros s p j k R WI A E. unfold patt in E. rewrite Nat.add_0_r in E. pose proof (A _ _ E) as AK. apply WI in E. destruct E as [E1 E2].
  rewrite skipn_length in E1. destruct R as [W L].
  assert (K : pos (cur s) + k < len).
  { apply no_nl_end with (a := pos (cur s)); [|lia|lia]. intros i I X. rewrite Forall_forall in E2.
    apply (E2 10%Z); [|auto]. eapply (nth_error_In _ (i - pos (cur s))).
    replace i with (pos (cur s) + (i - pos (cur s))) in X by lia. rewrite <- nth_skip in X.
    rewrite <- X. rewrite <- (firstn_skipn k (skipn (pos (cur s)) txt)) at 2. symmetry. apply nth_error_app1.
    rewrite firstn_length, skipn_length. lia. }
  unfold am_pm. destruct (iat_fine (lit "am") (cur s) k ltac:(lows) K) as (b & B & _). rewrite B. cbn [obind].
  destruct b; [cbn [obind]; apply goes_adv; [split; auto|lia]|].
  destruct (iat_fine (lit "pm") (cur s) k ltac:(lows) K) as (b & B' & _). rewrite B'. cbn [obind].
  apply goes_adv; [split; auto|]. destruct b; lia.
Qed.
Lemma goes_number : forall s x, ready s -> peek txt (cur s) 0 = Some x -> is_digit x = true -> goes s (number txt s).
Proof.
  intros s x R P D. unfold number. cbv zeta.
  assert (D2 : within (p_times 2 p_digit)) by (apply within_times, within_cls; reflexivity).
  assert (C : within (p_chr 58)) by (apply within_chr; discriminate).
  destruct (patt _ _ _ _) as [k|] eqn:E1.
  { eapply (goes_time s _ 0); [auto| | |exact E1]; [repeat (apply within_seq; auto)|]. apply atl_seq_l. cbn [p_times]. apply atl_seq_l. apply atl_cls. }
  destruct (patt _ (p_seq p_digits _) _ _) as [k|] eqn:E2.
  { eapply (goes_time s _ 0); [auto| | |exact E2]; [apply within_seq; [apply within_many; reflexivity|apply within_seq; auto]|].
    apply atl_seq_l, atl_many. }
  destruct (patt _ p_date _ _) as [k|] eqn:E3; [eapply goes_span; eauto; unfold p_date; cbn [p_times]; apply atl_seq_l, atl_seq_l, atl_cls|].
  do 2 match goal with |- goes _ (match ?x with _ => _ end) =>
    let E := fresh in destruct x as [k|] eqn:E; [eapply goes_span; [auto|exact E|apply atl_seq_l, atl_int]|] end.
  destruct R as [W L]. apply goes_tokt; [auto|apply adv_run|]. eapply run_gt; eauto. apply W.
Qed.

Lemma uni_fine : forall m c, pos c < len -> left txt c < m -> exists c', unicode_run txt m c = Ok c' /\
  (forall x, peek txt c 0 = Some x -> (240 <=? x)%Z = true -> pos c < pos c') /\ pos c <= pos c'.
Proof.
  unfold left. induction m; intros c L M; [lia|]. cbn [unicode_run]. destruct (peek_some c 0 ltac:(lia)) as [x X].
  rewrite (get_peek _ _ _ X). cbn [obind]. destruct (240 <=? x)%Z eqn:B.
  - assert (N : pos (next_unicode txt c) = pos c + 4 /\ pos c + 4 < len).
    { assert (XX : nth_error txt (pos c) = Some x) by (unfold peek in X; rewrite <- X; f_equal; lia).
      pose proof (H_uni _ _ XX ltac:(lia)). unfold next_unicode. rewrite X. replace (x =? 10)%Z with false by lia. rewrite B.
      cbn [pos]. lia. }
    destruct (IHm (next_unicode txt c) ltac:(lia) ltac:(lia)) as (c' & E & _ & Q). exists c'. split; [auto|]. split; [intros; lia|lia].
  - exists c. split; [auto|]. split; [|lia]. intros y Y. rewrite X in Y. injection Y as <-. congruence.
Qed.

Lemma newlines_gt : forall m c k, pos c < len -> 0 < m -> is_at txt c 0 10 = true -> pos c < pos (fst (newlines txt m c k)).
Proof.
  intros m c k L M A. destruct m; [lia|]. cbn [newlines]. rewrite A. clear A. cbv zeta. destruct (is_at _ (run _ _ _) _ _).
  - pose proof (adv_newlines txt m (run txt (Z.eqb 32) (next txt c)) (S k)) as B.
    pose proof (adv_trans _ _ _ _ (adv_run txt (Z.eqb 32) (next txt c)) B) as D.
    apply adv_le in D; [|rewrite next_pos; lia]. pose proof (next_pos c L). lia.
  - cbn [fst]. rewrite next_pos; auto.
Qed.
Lemma goes_newline : forall s, ready s -> peek txt (cur s) 0 = Some 10%Z -> goes s (newline_token txt s).
Proof.
  intros s [W L] P. destruct (newline_token txt s) as [s'| | |] eqn:E.
  2-4: exfalso; unfold newline_token in E; destruct (newlines _ _ _ _); discriminate.
  exists s'. split; [auto|]. unfold newline_token in E. destruct (newlines txt (left txt (cur s)) (cur s) 0) as [c' k] eqn:N. injection E as <-.
  pose proof (adv_newlines txt (left txt (cur s)) (cur s) 0) as A. pose proof (newlines_gt (left txt (cur s)) (cur s) 0 L) as G. rewrite N in A, G.
  cbn [fst] in *. split; [eapply wf_adv; eauto|]. cbn [cur]. apply G; [unfold left; lia|]. unfold is_at, is_pred. now rewrite P.
Qed.

Lemma goes_repeater : forall s x, ready s -> peek txt (cur s) 0 = Some x -> x = 43%Z \/ x = 46%Z -> goes s (time_repeater txt s).
Proof.
  intros s x [W L] P X. unfold time_repeater. apply goes_then.
  - apply goes_tokt; [auto|eapply adv_trans; [apply adv_opt|apply adv_run]|]. unfold opt_next, is_at, is_pred. rewrite P.
    destruct X as [-> | ->]; cbn [Z.eqb Pos.eqb].
    + eapply run_gt; eauto. apply W.
    + pose proof (adv_le _ _ (adv_run txt (Z.eqb 43) (next txt (cur s)))) as A. rewrite next_pos in A by auto. specialize (A ltac:(lia)). lia.
  - intros. apply fine_tokt; auto. apply adv_durations.
Qed.

Lemma goes_tilda : forall s, ready s -> goes s (tilda txt s).
Proof.
  intros s R. unfold tilda. cbv zeta. destruct (is_str _ _ _ (lit "~~}")); [apply goes_adv; auto; lia|].
  destruct (is_str _ _ _ _); [apply goes_adv; auto; lia|]. destruct (prev_is _ _ _); [|now apply goes_tok1].
  apply goes_bind; [now apply goes_tok1|]. intros s' W' L' E'. destruct (is_at _ _ _ _); [|now apply fine_ok].
  apply fine_then; [now apply fine_tok_adv|]. intros. now apply fine_tok_adv.
Qed.

Lemma goes_skip_word : forall k ch s, ready s -> peek txt (cur s) 0 = Some ch ->
  goes s (tok txt k (fun c => omap (advance_word txt) (skip txt ch c)) s).
Proof.
  intros k ch s [W L] P. assert (E : skip txt ch (cur s) = Ok (next txt (cur s))).
  { unfold skip. rewrite (get_peek _ _ _ P). cbn [obind]. now rewrite Z.eqb_refl. }
  eapply goes_tok; [auto|cbv beta; rewrite E; reflexivity|eapply adv_trans; [apply adv_next|apply adv_word]|].
  pose proof (adv_le _ _ (adv_word txt (next txt (cur s)))) as A. rewrite next_pos in A by auto. specialize (A ltac:(lia)). lia.
Qed.

Lemma next_unicode_gt : forall c x, peek txt c 0 = Some x -> x <> 10%Z -> pos c < pos (next_unicode txt c).
Proof.
  intros c x X N. pose proof (peek_lt _ _ _ X). unfold next_unicode. rewrite X. apply Z.eqb_neq in N. rewrite N. cbn [pos].
  repeat break; lia.
Qed.

Ltac fly := repeat first
  [ solve [apply goes_tok1; auto] | solve [apply goes_adv; auto; lia] | solve [eapply goes_skip_word; eauto]
  | match goal with |- goes _ (if ?b then _ else _) => destruct b end ].

Lemma goes_char : forall s, ready s -> goes s (switch_char txt s).
Proof.
  intros s R. pose proof R as [W L]. unfold switch_char. cbv zeta.
  destruct (peek_some (cur s) 0 ltac:(lia)) as [x X]. rewrite (get_peek _ _ _ X). cbn [obind].
  destruct (Z.eqb_spec x 42) as [->|].
  { destruct (if col (cur s) =? 0 then _ else _); [|now apply goes_tok1]. apply goes_tokt; [auto|apply adv_run|].
    eapply run_gt; [apply W|eauto|auto]. }
  destruct (Z.eqb_spec x 43) as [->|].
  { destruct (is_str _ _ _ _); [apply goes_adv; auto; lia|]. destruct (patt _ _ _ _); [|now apply goes_tok1].
    eapply goes_repeater; eauto. }
  do 11 match goal with |- goes _ (if (x =? ?k)%Z then _ else _) => destruct (Z.eqb_spec x k) as [->|]; [solve [fly]|] end.
  do 5 match goal with |- goes _ (if (x =? ?k)%Z then _ else _) => destruct (Z.eqb_spec x k) as [->|]; [solve [fly]|] end.
  do 1 match goal with |- goes _ (if (x =? ?k)%Z then _ else _) => destruct (Z.eqb_spec x k) as [->|]; [solve [fly]|] end.
  destruct (Z.eqb_spec x 91) as [->|]; [now apply goes_bracket|].
  do 2 match goal with |- goes _ (if (x =? ?k)%Z then _ else _) => destruct (Z.eqb_spec x k) as [->|]; [solve [fly]|] end.
  destruct (Z.eqb_spec x 46) as [->|].
  { destruct (patt _ _ _ _); [|now apply goes_tok1]. eapply goes_repeater; eauto. }
  destruct (Z.eqb_spec x 60) as [->|].
  { destruct (is_str _ _ _ (lit "<<<")); [fly|]. destruct (is_str _ _ _ (lit "<<}")); [fly|]. destruct (is_str _ _ _ (lit "<<")); [fly|].
    destruct (is_str _ _ _ _); [fly|]. destruct (patt _ (p_seq _ p_date) _ _); [fly|].
    destruct (patt _ _ _ _) eqn:E; [|fly]. eapply goes_span; eauto. apply atl_seq_l, atl_chr. }
  destruct (Z.eqb_spec x 35) as [->|].
  { destruct (is_at _ _ _ _); [fly|]. destruct (is_at _ _ _ _); [|fly]. apply goes_tokt; [auto|apply adv_eol|].
    eapply run_gt; [apply W|eauto|auto]. }
  destruct (Z.eqb_spec x 64) as [->|]; [now apply goes_at|].
  destruct (Z.eqb_spec x 61) as [->|]; [fly|]. destruct (Z.eqb_spec x 126) as [->|]; [now apply goes_tilda|].
  destruct (Z.eqb_spec x 45) as [->|].
  { destruct (is_str _ _ _ (lit "-----")).
    { apply goes_tokt; [auto|apply adv_run|]. eapply run_gt; [apply W|eauto|auto]. }
    destruct (is_str _ _ _ (lit "--}")); [fly|]. destruct (is_str _ _ _ _); [fly|]. destruct (patt _ _ _ _) eqn:E; [|fly].
    eapply goes_span; eauto. apply atl_seq_l, atl_chr. }
  destruct (Z.eqb_spec x 125) as [->|]; [fly|]. destruct (Z.eqb_spec x 123) as [->|]; [fly|].
  destruct (Z.eqb_spec x 10) as [->|]; [now apply goes_newline|].
  destruct (Z.eqb_spec x 32) as [->|].
  { apply goes_tokt; [auto|apply adv_run|]. eapply run_gt; [apply W|eauto|auto]. }
  destruct (is_alpha x) eqn:A; [eapply goes_switch_word; eauto|]. destruct (is_digit x) eqn:D; [eapply goes_number; eauto|].
  destruct (240 <=? x)%Z eqn:U.
  - destruct (uni_fine (S (left txt (cur s))) (cur s) L ltac:(lia)) as (c' & E & G & _). eapply goes_tok; [auto|exact E| |eauto].
    eapply adv_unicode; eauto.
  - apply goes_tokt; [auto| |].
    + apply adv_next_unicode. intros y Y. rewrite X in Y. injection Y as <-. now apply Z.eqb_neq.
    + eapply next_unicode_gt; eauto.
Qed.

Section Rec.
Variable self : st -> outcome st.
Variable n : nat.
Hypothesis self_goes : forall s, ready s -> left txt (cur s) < n -> goes s (self s).

Lemma in_line_ready : forall s, wf s -> in_line txt (cur s) = true -> ready s.
Proof.
  intros s W I. split; [auto|]. unfold in_line, can_search, has_pos in I. apply andb_true_iff in I. destruct I as [I _].
  apply Nat.ltb_lt in I. lia.
Qed.
Lemma fine_args : forall s, wf s -> left txt (cur s) < n -> fine s (loop n (in_line txt) (guard (cmd_argument txt)) s).
Proof. intros s W L. apply fine_loop; auto. intros s' W' I _. apply goes_guard. now apply goes_argument. Qed.
Lemma fine_args' : forall s, wf s -> left txt (cur s) < n -> fine s (loop n (in_line txt) (cmd_argument txt) s).
Proof. intros s W L. apply fine_loop; auto. intros s' W' I _. now apply goes_argument. Qed.
Lemma fine_self : forall s, wf s -> left txt (cur s) < n -> fine s (loop n (in_line txt) (guard self) s).
Proof.
  intros s W L. apply fine_loop; auto. intros s' W' I L'. apply goes_guard. apply self_goes; [now apply in_line_ready|lia].
Qed.
Lemma fine_self' : forall s, wf s -> left txt (cur s) < n -> fine s (loop n (in_line txt) self s).
Proof. intros s W L. apply fine_loop; auto. intros s' W' I L'. apply self_goes; [now apply in_line_ready|lia]. Qed.

Lemma norm_app : forall a b, normalize (a ++ b) = normalize a ++ normalize b.
Proof. induction a; intros; cbn [normalize app]; auto. rewrite IHa. now rewrite app_assoc. Qed.
Lemma str_eqb_true : forall a b, AttrModel.str_eqb a b = true -> a = b.
Proof. intros a b H. unfold AttrModel.str_eqb in H. destruct (AttrModel.str_dec a b); congruence. Qed.

(** The command that starts at [p0], with the cursor after its name *)
Lemma fine_command : forall s p0, wf s -> line_begin txt p0 -> left txt (cur s) <= n ->
  skipn p0 txt = repeat 32%Z (pos (cur s) - p0) ++ skipn (pos (cur s)) txt -> p0 <= pos (cur s) ->
  is_str txt (cur s) 0 (lit "#+") = true -> goes s (switch_command txt self n s).
Proof.
  intros s p0 W LB LN SP P0 HP. change (lit "#+") with [35; 43]%Z in HP.
  assert (ST : exists r, skipn (pos (cur s)) txt = 35%Z :: 43%Z :: r /\ skipn (pos (cur s) + 2) txt = r).
  { cbn [is_str] in HP. rewrite andb_true_r in HP. apply andb_true_iff in HP. destruct HP as [A B].
    unfold is_at, is_pred, peek in A, B. rewrite Nat.add_0_r in A. destruct (nth_error txt (pos (cur s))) eqn:N0; [|discriminate].
    destruct (nth_error txt (pos (cur s) + 1)) eqn:N1; [|discriminate]. apply Z.eqb_eq in A, B. subst.
    exists (skipn (pos (cur s) + 2) txt). split; [|auto]. rewrite (skip_cons _ _ N0). f_equal.
    rewrite <- Nat.add_1_r. rewrite (skip_cons _ _ N1). f_equal. f_equal. lia. }
  destruct ST as (r & ST & ST2).
  assert (LS : pos (cur s) + 2 <= len /\ length r = len - (pos (cur s) + 2)).
  { apply (f_equal (@length _)) in ST. rewrite skipn_length in ST. cbn in ST. lia. }
  assert (NN0 : no_nl p0 (pos (cur s) + 2)).
  { intros i I X. replace i with (p0 + (i - p0)) in X by lia. rewrite <- nth_skip, SP, ST in X.
    destruct (Nat.lt_ge_cases (i - p0) (pos (cur s) - p0)) as [C|C].
    - rewrite nth_error_app1 in X by (rewrite repeat_length; lia). apply nth_error_In, repeat_spec in X. discriminate.
    - rewrite nth_error_app2 in X by (rewrite repeat_length; lia). rewrite repeat_length in X.
      destruct (i - p0 - (pos (cur s) - p0)) as [|[|j]] eqn:J; [discriminate|discriminate|lia]. }
  unfold switch_command.
  assert (G : goes s (tok_adv txt kLineCommand 2 s)) by (apply goes_adv; [split; [auto|lia]|lia]).
  apply goes_bind; [exact G|]. intros s1 W1 L1 E1. cbv zeta.
  assert (P1 : pos (cur s1) = pos (cur s) + 2) by (rewrite (tok_adv_cur _ _ _ _ E1), advance_pos by apply W; lia).
  set (c' := opt_next txt 58 (advance_ident txt (cur s1))).
  assert (AC : adv txt (cur s1) c') by (eapply adv_trans; [apply adv_ident|apply adv_opt]).
  assert (W2 : forall o, wf (St c' o)) by (intros; eapply wf_adv; eauto).
  pose proof (adv_le _ _ AC (proj1 W1)) as LC.
  assert (LF : left txt c' < n) by (unfold left in *; lia).
  assert (NNC : no_nl p0 (pos c')).
  { eapply no_nl_trans; [exact NN0|]. rewrite <- P1. unfold c', advance_ident.
    eapply no_nl_trans; [apply (no_nl_run is_word); [reflexivity|apply W1]|apply no_nl_opt; discriminate]. }
  set (head := mk txt kWord (cur s1) c').
  assert (FA : forall k, fine s1 (head_args txt n k head (St c' (out s1)))).
  { intros k. destruct (fine_args (put k head (St c' (out s1)))) as (s' & E & W' & L'); [apply W2|exact LF|].
    exists s'. split; [exact E|]. split; [auto|]. cbn [put cur] in L'. lia. }
  assert (FT : forall k, fine s1 (head_text txt self n k head (St c' (out s1)))).
  { intros k. destruct (fine_self (put k head (St c' (out s1)))) as (s' & E & W' & L'); [apply W2|exact LF|].
    exists s'. split; [exact E|]. split; [auto|]. cbn [put cur] in L'. lia. }
  assert (FR : forall k, fine s1 (head_raw txt k head (St c' (out s1)))).
  { intros k. destruct (fine_tokt kRawText (to_eol txt) (put k head (St c' (out s1)))) as (s' & E & W' & L'); [apply W2|apply adv_eol|].
    exists s'. split; [exact E|]. split; [auto|]. cbn [put cur] in L'. lia. }
  assert (TH : text head = firstn (run_len is_word r) r \/ text head = firstn (run_len is_word r) r ++ [58%Z]).
  { assert (PI : pos (advance_ident txt (cur s1)) = pos (cur s1) + run_len is_word r).
    { unfold advance_ident. rewrite run_pos by apply W1. now rewrite P1, ST2. }
    unfold head, mk. cbn [text]. unfold sub, substr. rewrite P1, ST2. unfold c', opt_next.
    destruct (is_at txt (advance_ident txt (cur s1)) 0 58) eqn:CO.
    - right. unfold is_at, is_pred in CO. destruct (peek txt (advance_ident txt (cur s1)) 0) eqn:PK; [|discriminate].
      apply Z.eqb_eq in CO. subst z. pose proof (peek_lt _ _ _ PK). rewrite next_pos by lia.
      unfold peek in PK. rewrite Nat.add_0_r, PI, P1, <- nth_skip, ST2 in PK.
      replace (S (pos (advance_ident txt (cur s1))) - (pos (cur s) + 2)) with (S (run_len is_word r)) by lia.
      now apply firstn_next.
    - left. rewrite PI. f_equal. lia. }
  assert (NM : normalize (text head) = normalize (firstn (run_len is_word r) r)).
  { destruct TH as [-> | ->]; auto. rewrite norm_app. change (normalize [58%Z]) with (@nil Z). apply app_nil_r. }
  assert (OP : forall name, normalize (text head) = lit "begin" ++ name -> opens txt name p0).
  { intros name E. split; [auto|]. exists (pos (cur s) - p0), (firstn (run_len is_word r) r), (skipn (run_len is_word r) r).
    rewrite SP, ST. split; [now rewrite firstn_skipn|]. split; [apply run_len_all|]. split; [|now rewrite <- NM].
    clear. induction r; cbn; [discriminate|]. intros c. destruct (is_word a) eqn:E; [apply IHr|]. cbn. intros X. now injection X as <-. }
  assert (BL : forall name body fin k, In name [lit "src"; lit "example"; lit "export"] -> normalize (text head) = lit "begin" ++ name ->
     (forall q, line_begin txt q -> q < len -> steps q body) ->
     fine s1 (andthen (andthen (head_args txt n k head) (tok1 txt kNewline)) (block txt n name body fin) (St c' (out s1)))).
  { intros name body fin k I E B. destruct (H_block name p0 I (OP _ E)) as (q & Q1 & Q2).
    unfold andthen. destruct (FA k) as (s2 & E2 & W3 & L3). rewrite E2. cbn [obind].
    assert (NN2 : no_nl p0 (pos (cur s2))).
    { eapply no_nl_trans; [exact NNC|]. apply (args_no_nl n (put k head (St c' (out s1)))); [apply W2|exact E2]. }
    pose proof (no_nl_end _ _ NN2 ltac:(lia) (proj1 W3)) as LT.
    destruct (goes_tok1 kNewline s2 (conj W3 LT)) as (s3 & E3 & W4 & L4). rewrite E3. cbn [obind].
    assert (P3 : pos (cur s3) = S (pos (cur s2))) by (rewrite (tok_adv_cur _ _ _ _ E3), advance_pos by apply W3; lia).
    destruct Q2 as [QB Q2]. pose proof (no_nl_before _ _ _ NN2 Q1 (lt_line _ _ QB Q1)) as LQ.
    assert (QL : q < len).
    { destruct Q2 as (k' & e & u & nm & r' & T & _). destruct (Nat.lt_ge_cases q len); [auto|]. rewrite skipn_all2 in T by auto.
      apply (f_equal (@length _)) in T. rewrite !app_length in T. cbn in T. lia. }
    apply goes_fine. destruct (fine_block n name body fin q s3) as (s4 & E4 & W5 & L5); auto; try lia.
    - unfold left in *. lia.
    - split; auto.
    - cbn in I. decompose [or] I; subst; try contradiction; lows.
    - cbn in I. decompose [or] I; subst; try contradiction; cbn; eexists; eexists; (split; [reflexivity|discriminate]).
    - cbn in I. decompose [or] I; subst; try contradiction; reflexivity.
    - exists s4. split; [auto|]. split; [auto|lia]. }
  destruct (AttrModel.lookup cmd_spec (normalize (text head))) as [[k [| |]]|]; auto.
  destruct (begins (normalize (text head)) (lit "attr")); auto.
  destruct (begins (normalize (text head)) (lit "begin")) eqn:BG.
  { assert (SPL : normalize (text head) = lit "begin" ++ skipn 5 (normalize (text head))).
    { unfold begins in BG. apply str_eqb_true in BG. change (length (lit "begin")) with 5 in BG. rewrite <- BG. now rewrite firstn_skipn. }
    destruct (AttrModel.str_eqb _ (lit "export")) eqn:N1; [|destruct (AttrModel.str_eqb _ (lit "example")) eqn:N2; [|destruct (AttrModel.str_eqb _ (lit "src")) eqn:N3; auto]].
    - apply str_eqb_true in N1. apply BL; [cbn; tauto|congruence|]. intros. now apply steps_raw.
    - apply str_eqb_true in N2. apply BL; [cbn; tauto|congruence|]. intros. now apply steps_raw.
    - apply str_eqb_true in N3. apply BL; [cbn; tauto|congruence|]. intros. now apply steps_src. }
  destruct (begins (normalize (text head)) (lit "end")); auto.
  destruct (begins (normalize (text head)) (lit "property")); auto.
  destruct (patt _ _ _ _); auto. destruct (existsb _ _); auto. destruct (existsb _ _); auto.
Qed.

Lemma sep_gt : forall m c p k, p <= fst (sep_columns txt m c p k) /\
  (k < snd (sep_columns txt m c p k) -> p < fst (sep_columns txt m c p k)).
Proof.
  induction m; intros c p k; cbn [sep_columns]; [cbn; lia|]. destruct (is_at txt c p 45); [|cbn; lia].
  destruct (is_any txt c _ _); [|cbn; lia]. destruct (IHm c (S (p + count_at txt (Z.eqb 45) c p)) (S k)). lia.
Qed.
Lemma separator_gt : forall c sk p, table_separator txt c sk = Some p -> 0 < p.
Proof.
  intros c sk p H. unfold table_separator in H. cbv zeta in H. set (p0 := if is_at txt c sk 124 then sk + 1 else sk) in *.
  destruct (sep_gt (left txt c) c p0 0) as [_ B]. destruct (sep_columns txt (left txt c) c p0 0) as [p' col]. cbn [fst snd] in B.
  destruct (0 <? col) eqn:C; [|discriminate]. apply Nat.ltb_lt in C. injection H as <-. specialize (B C). lia.
Qed.

Lemma sub_ge : forall c p, p <= property_subname txt c p.
Proof. intros. unfold property_subname. destruct (patt _ _ _ _); lia. Qed.

Lemma spaces_run : forall l, l = repeat 32%Z (run_len (Z.eqb 32) l) ++ skipn (run_len (Z.eqb 32) l) l.
Proof.
  induction l; cbn [run_len]; auto. destruct (Z.eqb_spec 32 a); cbn [repeat skipn app]; auto. subst a. now f_equal.
Qed.

Lemma goes_line_start : forall s o, ready s -> col (cur s) = 0 -> left txt (cur s) <= n ->
  line_start txt self n s = Some o -> goes s o.
Proof.
  intros s o R C0 LN. pose proof R as [W L]. pose proof (proj2 W C0) as LB. unfold line_start. cbv zeta.
  set (sk := count_at txt (Z.eqb 32) (cur s) 0).
  assert (SP : forall s', (if 0 <? sk then tok_adv txt kLeadingSpace sk s else Ok s) = Ok s' -> pos (cur s') = pos (cur s) + sk /\ wf s').
  { intros s' E. assert (F : fine s (if 0 <? sk then tok_adv txt kLeadingSpace sk s else Ok s)) by (destruct (0 <? sk); [now apply fine_tok_adv|now apply fine_ok]).
    destruct F as (s'' & E' & W' & _). rewrite E in E'. injection E' as <-. split; [|auto]. destruct (0 <? sk) eqn:B.
    - rewrite (tok_adv_cur _ _ _ _ E), advance_pos by apply W. assert (sk <= len - pos (cur s)); [|lia].
      unfold sk, count_at. rewrite Nat.add_0_r. pose proof (run_len_le (Z.eqb 32) (skipn (pos (cur s)) txt)) as X. rewrite skipn_length in X. lia.
    - injection E as <-. apply Nat.ltb_ge in B. lia. }
  assert (FS : fine s (if 0 <? sk then tok_adv txt kLeadingSpace sk s else Ok s)) by (destruct (0 <? sk); [now apply fine_tok_adv|now apply fine_ok]).
  assert (TH : forall k m f, 0 < m -> (forall s', wf s' -> pos (cur s) < pos (cur s') -> fine s' (f s')) ->
     goes s (andthen (tok_adv txt k m) f s)).
  { intros k m f M H. apply goes_then; [now apply goes_adv|]. auto. }
  assert (LL : forall s', wf s' -> pos (cur s) < pos (cur s') -> left txt (cur s') < n).
  { intros s' [W' _] X. unfold left in *. lia. }
  destruct (check_leading txt (cur s) 45 sk); [intros E; injection E as <-; apply goes_adv; auto; lia|].
  destruct (check_leading txt (cur s) 43 sk); [intros E; injection E as <-; apply goes_adv; auto; lia|].
  destruct (check_leading txt (cur s) 124 sk); [intros E; injection E as <-; apply goes_adv; auto; lia|].
  destruct (table_separator txt (cur s) sk) eqn:TS; [intros E; injection E as <-; apply goes_adv; auto; apply separator_gt in TS; lia|].
  destruct (patt _ (p_ilit (lit "clock:")) _ _) eqn:E1.
  { intros E; injection E as <-. apply atl_ilit in E1. cbn in E1. apply TH; [lia|]. intros. apply fine_self'; auto. }
  destruct (patt _ (p_ilit (lit ":end:")) _ _) eqn:E2; [intros E; injection E as <-; apply goes_adv; auto; apply atl_ilit in E2; cbn in E2; lia|].
  destruct (patt _ (p_ilit (lit ":properties:")) _ _) eqn:E3; [intros E; injection E as <-; apply goes_adv; auto; apply atl_ilit in E3; cbn in E3; lia|].
  destruct (patt _ (p_seq p_digits _) _ _) eqn:E4.
  { intros E; injection E as <-. apply goes_adv; auto.
    apply (atl_seq 1 2 _ _ (atl_many is_digit) (atl_seq 1 1 _ _ (atl_cls _) (atl_chr _))) in E4. lia. }
  destruct (patt _ (p_ilit (lit ":logbook:")) _ _) eqn:E5; [intros E; injection E as <-; apply goes_adv; auto; apply atl_ilit in E5; cbn in E5; lia|].
  destruct (patt _ (p_seq _ (p_seq p_argument_property _)) _ _) as [k|] eqn:E6.
  { intros E; injection E as <-. apply (atl_seq_l 1) in E6; [|apply atl_chr]. pose proof (sub_ge (cur s) (k + sk)). apply TH; [lia|].
    intros. apply fine_args'; auto. }
  destruct (patt _ (p_seq _ (p_seq p_text_property _)) _ _) as [k|] eqn:E7.
  { intros E; injection E as <-. apply (atl_seq_l 1) in E7; [|apply atl_chr]. pose proof (sub_ge (cur s) (k + sk)). apply TH; [lia|].
    intros. apply fine_self'; auto. }
  destruct (patt _ (p_seq _ (p_seq p_ident _)) _ _) as [k|] eqn:E8.
  { intros E; injection E as <-. apply (atl_seq_l 1) in E8; [|apply atl_chr]. pose proof (sub_ge (cur s) (k + sk)). apply TH; [lia|].
    intros. apply fine_tokt; [auto|apply adv_eol]. }
  destruct (check_leading txt (cur s) 58 sk) eqn:CL.
  { intros E; injection E as <-. apply goes_bind'; [exact FS|]. intros s' W' L' E'. apply goes_adv; [|lia]. split; [auto|].
    destruct (SP s' E') as [P' _]. unfold check_leading, is_at, is_pred in CL. destruct (peek txt (cur s) sk) eqn:PK; [|discriminate].
    apply peek_lt in PK. lia. }
  destruct (is_str txt (cur s) sk (lit "#+")) eqn:IS.
  { intros E; injection E as <-. apply goes_bind'; [exact FS|]. intros s' W' L' E'. destruct (SP s' E') as [P' _].
    apply (fine_command s' (pos (cur s))); auto.
    - unfold left in *. lia.
    - rewrite P'. replace (pos (cur s) + sk - pos (cur s)) with sk by lia. rewrite <- skipn_add. unfold sk, count_at. rewrite Nat.add_0_r.
      apply spaces_run.
    - change (lit "#+") with [35; 43]%Z in *. cbn [is_str] in *. unfold is_at, is_pred, peek in *. rewrite P'. rewrite Nat.add_0_r. replace (pos (cur s) + sk + 1) with (pos (cur s) + S sk) by lia.
      exact IS. }
  destruct (0 <? sk) eqn:B; [|discriminate]. intros E; injection E as <-. apply goes_adv; auto. now apply Nat.ltb_lt in B.
Qed.

Lemma goes_body : forall s, ready s -> left txt (cur s) <= n -> goes s (regular_body txt self n s).
Proof.
  intros s R L. unfold regular_body. destruct (col (cur s) =? 0) eqn:C; [|now apply goes_char]. apply Nat.eqb_eq in C.
  destruct (line_start txt self n s) eqn:E; [eapply goes_line_start; eauto|now apply goes_char].
Qed.
End Rec.

Lemma goes_regular : forall n s, ready s -> left txt (cur s) < n -> goes s (regular txt n s).
Proof. induction n; intros s R L; [lia|]. cbn [regular]. apply goes_body; auto. lia. Qed.

Lemma tokenize_fine : forall fuel, len < fuel -> exists ts, tokenize txt fuel = Ok ts.
Proof.
  intros fuel F. unfold tokenize. destruct txt as [|b r] eqn:T; [eauto|]. rewrite <- T in *.
  destruct (fine_loop fuel (has_text txt) (guard (regular txt fuel)) (St (Cu 0 0 0) [])) as (s & E & _).
  - split; cbn; [lia|]. intros _. now left.
  - unfold left. cbn [cur pos]. lia.
  - intros s' W' H L'. apply goes_guard. apply goes_regular; [|unfold left in *; cbn [cur pos] in L'; lia]. split; [auto|].
    unfold has_text, has_pos in H. apply Nat.ltb_lt in H. lia.
  - rewrite E. cbn. eauto.
Qed.
End Run.
