(** Plain documents from their tokens to the tree of the document. *)
From Coq Require Import String.
From Verif Require Import Base StrModel TokKind TokSpec NodeKind RegroupModel RecombSpec MarkProofs PlainLex.
From Verif Require PlainSpec ParseHead ParseHeadProps.
From Verif Require TreeModel TreeSpec TreeProofs.
From Verif Require Import ParseModel ParseSpec ParseLogic PlainParse.
From Verif Require ConvModel ConvSpec.
Import PlainSpec(mark, span, how, said, par, lines, gap, section, Sec, stars_of, span_ok, line_ok, par_ok, apart, sections_ok, no_sections, one_section,
  leaf, mark_kind, between, word_tree, space_tree, span_tree, line_tree, par_tree, is_comment, title_tree, section_tree, document_tree).
Import ConvModel(sem, Sem, osk, node, skind, text).
Import ConvSpec(means, means_leaf, means_mark, means_paragraph, means_heading, gathered, with_attached, comment_word, titled).
Local Open Scope nat_scope.
Notation tree := (TreeSpec.tree nk (option nat) mono).

(** *** Lists with something between *)
Lemma between_cons : forall A (x : A) l ls, ls <> [] -> between x (l :: ls) = l ++ x :: between x ls.
Proof. intros A x l [|a ls] N; [congruence|reflexivity]. Qed.
Lemma map_between : forall A B (f : A -> B) x ls, map f (between x ls) = between (f x) (map (map f) ls).
Proof.
  intros A B f x. induction ls as [|l ls IH]; [reflexivity|]. destruct ls as [|l2 ls]; [reflexivity|]. rewrite between_cons by discriminate.
  rewrite map_app. cbn [map]. rewrite IH. reflexivity.
Qed.
Lemma between_forall : forall A (P : A -> Prop) x ls, P x -> Forall (Forall P) ls -> Forall P (between x ls).
Proof.
  intros A P x ls X F. induction F as [|l ls L F IH]; [constructor|]. destruct ls as [|l2 ls]; [exact L|]. rewrite between_cons by discriminate.
  apply Forall_app. split; [exact L|]. constructor; auto.
Qed.

(** *** The tokens of words, spans, lines and paragraphs *)
Definition word_token (w : str) : tk * str := (if upper_word w then kBigIdent else kWord, w).
Definition blank_token : tk * str := (kWhitespace, [32%Z]).
Definition words_tokens (ws : list str) : list (tk * str) := between blank_token (map (fun w => [word_token w]) ws).
Definition open_tokens (m : option mark) : list (tk * str) := match entry m with Some (c, (b, _)) => [(b, [c])] | None => [] end.
Definition close_tokens (m : option mark) : list (tk * str) := match entry m with Some (c, (_, e)) => [(e, [c])] | None => [] end.
Definition span_tokens (s : span) : list (tk * str) := open_tokens (how s) ++ words_tokens (said s) ++ close_tokens (how s).
Definition line_toks (l : list span) : list (tk * str) := between blank_token (map span_tokens l).
Definition body_tokens (ls : list (list span)) : list (tk * str) := between (line_break 0) (map line_toks ls).
Lemma piece_words_app : forall a b, a <> [] -> b <> [] -> piece_words (a ++ b) = piece_words a ++ blank_token :: piece_words b.
Proof.
  induction a as [|p a IH]; intros b Na Nb; [congruence|]. destruct a as [|p2 a].
  - cbn [app]. destruct b; [congruence|]. reflexivity.
  - change (piece_words ((p :: p2 :: a) ++ b)) with (piece_tokens p ++ blank_token :: piece_words ((p2 :: a) ++ b)). rewrite IH by (auto; discriminate).
    change (piece_words (p :: p2 :: a)) with (piece_tokens p ++ blank_token :: piece_words (p2 :: a)). rewrite <- app_assoc. reflexivity.
Qed.
Lemma pieces_words : forall ws o c, ws <> [] -> piece_words (pieces_from o c ws) =
  match o with Some (c, (b, _)) => [(b, [c])] | None => [] end ++ words_tokens ws ++ match c with Some (c, (_, e)) => [(e, [c])] | None => [] end.
Proof.
  induction ws as [|w ws IH]; intros o c N; [congruence|]. destruct ws as [|w2 ws]; [reflexivity|].
  change (pieces_from o c (w :: w2 :: ws)) with ([Piece o w None] ++ pieces_from None c (w2 :: ws)). rewrite piece_words_app, IH by (try discriminate; destruct ws; discriminate).
  unfold words_tokens. cbn [map]. rewrite (between_cons _ _ [word_token w]) by discriminate. cbn [piece_words]. unfold piece_tokens. cbn [opening body closing app].
  rewrite <- !app_assoc. reflexivity.
Qed.
Lemma line_tokens_eq : forall l, line_ok l -> piece_words (line_pieces l) = line_toks l.
Proof.
  intros l [N F]. induction F as [|s l S F IH]; [congruence|]. unfold line_pieces, line_toks in *. cbn [flat_map map].
  assert (E : piece_words (pieces s) = span_tokens s) by (unfold pieces; rewrite pieces_words by apply S; reflexivity).
  destruct l as [|s2 l]; [cbn [flat_map map between]; rewrite app_nil_r; exact E|]. rewrite piece_words_app, E, IH; [reflexivity|discriminate|now apply pieces_nil|].
  inversion F; subst. cbn. pose proof (pieces_nil s2 ltac:(auto)). destruct (pieces s2); [congruence|discriminate].
Qed.
Lemma lines_tokens_eq : forall ls g, ls <> [] -> Forall line_ok ls -> lines_with piece_words ls g = body_tokens ls ++ [line_break g].
Proof.
  intros ls g N F. induction F as [|l ls L F IH]; [congruence|]. unfold body_tokens in *. destruct ls as [|l2 ls].
  - cbn [lines_with map between]. now rewrite line_tokens_eq.
  - change (lines_with piece_words (l :: l2 :: ls) g) with (piece_words (line_pieces l) ++ line_break 0 :: lines_with piece_words (l2 :: ls) g).
    rewrite IH by discriminate. cbn [map]. rewrite (between_cons _ _ (line_toks l)) by discriminate. rewrite line_tokens_eq, <- app_assoc by auto. reflexivity.
Qed.

(** Kinds of token inside lines, and at the beginning of them *)
Definition inner (k : tk) : bool :=
  match k with
  | kWord | kBigIdent | kWhitespace | kBoldBegin | kBoldEnd | kItalicBegin | kItalicEnd | kUnderlineBegin | kUnderlineEnd | kStrikeBegin | kStrikeEnd => true
  | _ => false
  end.
Definition opener (k : tk) : bool :=
  match k with kWord | kBigIdent | kBoldBegin | kItalicBegin | kUnderlineBegin | kStrikeBegin => true | _ => false end.
Lemma word_kinds : forall w, fst (word_token w) = kWord \/ fst (word_token w) = kBigIdent.
Proof. intros w. unfold word_token. destruct (upper_word w); auto. Qed.
Lemma words_inner : forall ws, Forall (fun x => inner (fst x) = true) (words_tokens ws).
Proof.
  intros ws. unfold words_tokens. apply between_forall; [reflexivity|]. apply Forall_map. apply Forall_forall. intros w _. constructor; [|constructor].
  destruct (word_kinds w) as [-> | ->]; reflexivity.
Qed.
Lemma line_inner : forall l, Forall (fun x => inner (fst x) = true) (line_toks l).
Proof.
  intros l. unfold line_toks. apply between_forall; [reflexivity|]. apply Forall_map. apply Forall_forall. intros s _. unfold span_tokens.
  rewrite !Forall_app. split; [|split; [apply words_inner|]]; destruct (how s) as [[]|]; repeat constructor.
Qed.
Lemma body_inner : forall ls, Forall (fun x => inner (fst x) = true \/ fst x = kNewline) (body_tokens ls).
Proof.
  intros ls. unfold body_tokens. apply between_forall; [right; reflexivity|]. apply Forall_map. apply Forall_forall. intros l _.
  eapply Forall_impl; [|apply line_inner]. auto.
Qed.
Lemma line_opener : forall l, line_ok l -> exists x r, line_toks l = x :: r /\ opener (fst x) = true.
Proof.
  intros l [N F]. destruct F as [|s l [Ns _] F]; [congruence|]. assert (X : exists x r, span_tokens s = x :: r /\ opener (fst x) = true).
  { unfold span_tokens. destruct (how s) as [[]|]; try (eexists _, _; split; reflexivity). destruct (said s) as [|w ws]; [congruence|]. unfold words_tokens. cbn [map].
    exists (word_token w). destruct ws; [eexists; split; [reflexivity|]|rewrite between_cons by discriminate; eexists; split; [reflexivity|]];
      destruct (word_kinds w) as [-> | ->]; reflexivity. }
  destruct X as (x & r & E & O). unfold line_toks. cbn [map]. destruct l as [|s2 l]; [cbn [map between]; eauto|]. rewrite between_cons, E by discriminate. cbn [app]. eauto.
Qed.
Lemma body_opener : forall ls, ls <> [] -> Forall line_ok ls -> exists x r, body_tokens ls = x :: r /\ opener (fst x) = true.
Proof.
  intros ls N F. destruct F as [|l ls L F]; [congruence|]. destruct (line_opener l L) as (x & r & E & O). unfold body_tokens. cbn [map].
  destruct ls as [|l2 ls]; [cbn [map between]; eauto|]. rewrite between_cons, E by discriminate. cbn [app]. eauto.
Qed.

Section Documents.
Variable toks : list RegroupModel.otok.
Variable time_ok : str -> option Z -> bool.
Notation kd := (PlainParse.kd toks).
Notation inl := (PlainParse.inl toks).
Notation takes := (PlainParse.takes toks).
Notation meant := (Forall2 (means toks time_ok)).
Definition shows (ids : list nat) (L : list (tk * str)) : Prop := Forall2 (fun i x => option_map oshown (nth_error toks i) = Some x) ids L.
Lemma shows_app : forall ids a b, shows ids (a ++ b) -> exists x y, ids = x ++ y /\ shows x a /\ shows y b.
Proof. intros ids a b H. apply Forall2_app_inv_r in H as (x & y & A & B & ->). eauto. Qed.
Lemma shows_cons : forall ids x b, shows ids (x :: b) -> exists i y, ids = i :: y /\ option_map oshown (nth_error toks i) = Some x /\ shows y b.
Proof. intros ids x b H. inversion H; subst. eauto. Qed.
Lemma shown_kd : forall i x, option_map oshown (nth_error toks i) = Some x -> kd i = Some (fst x).
Proof. intros i x E. unfold PlainParse.kd. destruct (nth_error toks i) as [t|]; [|discriminate]. cbn in *. injection E as <-. reflexivity. Qed.
Lemma shows_not : forall ids L f, shows ids L -> Forall (fun x => f (fst x) = false) L -> all_not toks f ids.
Proof.
  intros ids L f H F. induction H as [|i x ids L E H IH]; intros j k I K; [destruct I|]. inversion F; subst. destruct I as [<-|I]; [|eapply IH; eauto].
  rewrite (shown_kd _ _ E) in K. injection K as <-. assumption.
Qed.
Lemma shows_length : forall ids L, shows ids L -> length ids = length L.
Proof. induction 1; cbn; congruence. Qed.
Lemma shown_means : forall i k s c o, option_map oshown (nth_error toks i) = Some (k, s) -> text_class k = CTake c -> ConvSpec.leaf_of c = Some o ->
  takes i (Leaf c (Some i)) /\ means toks time_ok (Leaf c (Some i)) (leaf o s).
Proof.
  intros i k s c o E C L. split; [exists k, c; split; [now apply shown_kd in E|auto]|]. destruct (nth_error toks i) as [t|] eqn:T; [|discriminate]. cbn in E. injection E as <- <-.
  now apply means_leaf.
Qed.

(** Words *)
Definition token_leaf (x : tk * str) : sem := leaf (match fst x with kWhitespace => ConvModel.oSpace | kBigIdent => ConvModel.oBigIdent | _ => ConvModel.oWord end) (snd x).
Lemma words_leaves : forall ws, map token_leaf (words_tokens ws) = between space_tree (map (fun w => [word_tree w]) ws).
Proof.
  intros ws. unfold words_tokens. rewrite map_between, map_map. f_equal. apply map_ext. intros w. cbn [map]. f_equal. unfold token_leaf, word_tree, word_token. destruct (upper_word w); reflexivity.
Qed.
Lemma words_mean : forall ids ws, shows ids (words_tokens ws) -> exists ts, Forall2 takes ids ts /\ meant ts (between space_tree (map (fun w => [word_tree w]) ws)).
Proof.
  intros ids ws H. rewrite <- words_leaves. assert (K : Forall (fun x => fst x = kWord \/ fst x = kBigIdent \/ fst x = kWhitespace) (words_tokens ws)).
  { apply between_forall; [auto|]. apply Forall_map. apply Forall_forall. intros w _. constructor; [|constructor]. destruct (word_kinds w); auto. }
  induction H as [|i [k s] ids L E H IH]; [exists []; split; constructor|]. inversion K as [|? ? K0 K1]; subst. destruct (IH K1) as (ts & T & M). cbn [fst] in K0.
  assert (X : exists t, takes i t /\ means toks time_ok t (token_leaf (k, s))).
  { destruct K0 as [-> | [-> | ->]]; eexists; eapply shown_means; try exact E; reflexivity. }
  destruct X as (t & T0 & M0). exists (t :: ts). cbn [map]. split; constructor; auto.
Qed.
Lemma blank_mean : forall i, option_map oshown (nth_error toks i) = Some blank_token -> exists t, takes i t /\ means toks time_ok t space_tree.
Proof. intros i E. exists (Leaf nSpace (Some i)). eapply shown_means; try exact E; reflexivity. Qed.
Definition mark_node (m : mark) : nk := match m with PlainSpec.Bold => nBold | PlainSpec.Italic => nItalic | PlainSpec.Underline => nUnderline | PlainSpec.Strike => nStrike end.
Lemma mark_tokens : forall m, exists b e c, open_tokens (Some m) = [(b, c)] /\ close_tokens (Some m) = [(e, c)] /\ text_class b = CBegin (mark_node m) /\ text_class e = CEnd (mark_node m).
Proof. intros []; do 3 eexists; repeat split. Qed.
Lemma span_mean : forall ids s, shows ids (span_tokens s) -> exists ts, inl ids ts /\ meant ts (span_tree s).
Proof.
  intros ids s H. unfold span_tokens, span_tree in *. destruct (how s) as [m|].
  - apply shows_app in H as (x & y & -> & A & H). apply shows_app in H as (ws & z & -> & W & B).
    destruct (mark_tokens m) as (b & e & c & Eb & Ee & Cb & Ce). rewrite Eb in A. rewrite Ee in B.
    apply shows_cons in A as (i & x' & -> & Ei & A). inversion A; subst. apply shows_cons in B as (j & z' & -> & Ej & B). inversion B; subst.
    destruct (words_mean _ _ W) as (wt & T & M). apply shown_kd in Ei, Ej.
    exists [Branch (mark_node m) wt]. split.
    + cbn [app]. eapply inl_mark; [exact Ei|exact Cb|exact T|exact Ej|exact Ce|constructor].
    + constructor; [|constructor]. apply means_mark; [destruct m; reflexivity|exact M].
  - unfold open_tokens, close_tokens in H. cbn [entry option_map app] in H. rewrite app_nil_r in H. destruct (words_mean _ _ H) as (ts & T & M). exists ts. split; [now apply inl_takes|exact M].
Qed.
(** Things with a token between them *)
Lemma between_mean : forall A (f : A -> list (tk * str)) (g : A -> list sem) x m,
  (forall i, option_map oshown (nth_error toks i) = Some x -> exists t, takes i t /\ means toks time_ok t m) ->
  (forall ids a, shows ids (f a) -> exists ts, inl ids ts /\ meant ts (g a)) ->
  forall l ids, shows ids (between x (map f l)) -> exists ts, inl ids ts /\ meant ts (between m (map g l)).
Proof.
  intros A f g x m X F. induction l as [|a l IH]; intros ids H; [inversion H; subst; exists []; split; constructor|].
  destruct l as [|b l]; [now apply F|]. change (map f (a :: b :: l)) with (f a :: map f (b :: l)) in H. rewrite between_cons in H by discriminate.
  apply shows_app in H as (u & v & -> & U & V). apply shows_cons in V as (i & w & -> & E & W).
  destruct (F _ _ U) as (t1 & I1 & M1). destruct (X _ E) as (t & T & M). destruct (IH _ W) as (t2 & I2 & M2).
  exists (t1 ++ t :: t2). change (map g (a :: b :: l)) with (g a :: map g (b :: l)). rewrite between_cons by discriminate. split.
  - apply inl_app; [exact I1|]. constructor; auto.
  - apply Forall2_app; [exact M1|]. constructor; auto.
Qed.
Lemma line_mean : forall ids l, shows ids (line_toks l) -> exists ts, inl ids ts /\ meant ts (line_tree l).
Proof. intros ids l. apply between_mean; [apply blank_mean|apply span_mean]. Qed.
Lemma newline_mean : forall i, option_map oshown (nth_error toks i) = Some (line_break 0) -> exists t, takes i t /\ means toks time_ok t (leaf ConvModel.oNewline [10%Z]).
Proof. intros i E. exists (Leaf nNewline (Some i)). eapply shown_means; try exact E; reflexivity. Qed.
Lemma body_mean : forall ids ls, shows ids (body_tokens ls) -> exists ts, inl ids ts /\ meant ts (between (leaf ConvModel.oNewline [10%Z]) (map line_tree ls)).
Proof. intros ids ls. apply between_mean; [apply newline_mean|apply line_mean]. Qed.

(** *** What the last thing of a line is *)
Lemma last_word : forall ws y x, between space_tree (map (fun w => [word_tree w]) ws) = y ++ [x] -> exists w, x = word_tree w.
Proof.
  induction ws as [|w ws IH]; intros y x E; [destruct y; discriminate|]. destruct ws as [|w2 ws].
  - cbn [map between] in E. exists w. change [word_tree w] with ([] ++ [word_tree w]) in E. apply app_inj_tail in E as [_ E]. auto.
  - change (map (fun w => [word_tree w]) (w :: w2 :: ws)) with ([word_tree w] :: map (fun w => [word_tree w]) (w2 :: ws)) in E. rewrite between_cons in E by discriminate.
    set (b := between space_tree (map (fun w => [word_tree w]) (w2 :: ws))) in *. destruct (exists_last (l := b)) as (y' & x' & Eb).
    { unfold b. cbn [map]. destruct ws; discriminate. }
    rewrite Eb in *. assert (x' = x) as ->. { change ([word_tree w] ++ space_tree :: y' ++ [x']) with ((word_tree w :: space_tree :: y') ++ [x']) in E. apply app_inj_tail in E as [_ E]. auto. }
    eapply IH. reflexivity.
Qed.
Definition solid (x : sem) : Prop := skind x <> ConvModel.oSpace /\ skind x <> ConvModel.oNewline.
Lemma last_between : forall A (f : A -> list sem) m (Q : A -> Prop), (forall a, Q a -> f a <> []) -> (forall a y x, Q a -> f a = y ++ [x] -> solid x) ->
  forall l y x, Forall Q l -> between m (map f l) = y ++ [x] -> solid x.
Proof.
  intros A f m Q N F. induction l as [|a l IH]; intros y x G E; [destruct y; discriminate|]. inversion G as [|? ? Ga Gl]; subst. destruct l as [|b l]; [eapply F; eauto|].
  change (map f (a :: b :: l)) with (f a :: map f (b :: l)) in E. rewrite between_cons in E by discriminate. set (c := between m (map f (b :: l))) in *.
  destruct (exists_last (l := c)) as (y' & x' & Ec).
  { unfold c. cbn [map]. inversion Gl; subst. pose proof (N b ltac:(auto)). destruct l; cbn [map between]; [auto|]. destruct (f b); [congruence|discriminate]. }
  rewrite Ec in E. rewrite app_comm_cons, app_assoc in E. apply app_inj_tail in E as [_ <-]. eapply IH; eauto.
Qed.
Lemma span_some : forall s, span_ok s -> span_tree s <> [].
Proof. intros s [N _]. unfold span_tree. destruct (how s); [discriminate|]. destruct (said s) as [|w [|]]; [congruence|discriminate|discriminate]. Qed.
Lemma span_last : forall s y x, span_ok s -> span_tree s = y ++ [x] -> solid x.
Proof.
  intros s y x _ E. unfold span_tree in E. destruct (how s) as [m|].
  - change [node (mark_kind m) (between space_tree (map (fun w => [word_tree w]) (said s)))] with ([] ++ [node (mark_kind m) (between space_tree (map (fun w => [word_tree w]) (said s)))]) in E.
    apply app_inj_tail in E as [_ <-]. destruct m; split; discriminate.
  - apply last_word in E as (w & ->). unfold word_tree. destruct (upper_word w); split; discriminate.
Qed.
Lemma line_some : forall l, line_ok l -> line_tree l <> [].
Proof.
  intros l [N F]. destruct F as [|s l S F]; [congruence|]. unfold line_tree. cbn [map]. pose proof (span_some s S). destruct l; cbn [map between]; [auto|]. destruct (span_tree s); [congruence|discriminate].
Qed.
Lemma line_last : forall l y x, line_ok l -> line_tree l = y ++ [x] -> solid x.
Proof. intros l y x [N F]. eapply last_between; [apply span_some|apply span_last|exact F]. Qed.
Lemma body_last : forall ls y x, Forall line_ok ls -> between (leaf ConvModel.oNewline [10%Z]) (map line_tree ls) = y ++ [x] -> solid x.
Proof. intros ls y x. eapply last_between; [apply line_some|apply line_last]. Qed.
(** no links *)
Definition texty (s : sem) : Prop :=
  match skind s with
  | ConvModel.oWord | ConvModel.oBigIdent | ConvModel.oSpace | ConvModel.oNewline | ConvModel.oBold | ConvModel.oItalic | ConvModel.oUnderline | ConvModel.oStrike => True
  | _ => False
  end.
Lemma line_texty : forall l, Forall texty (line_tree l).
Proof.
  intros l. apply between_forall; [exact I|]. apply Forall_map. apply Forall_forall. intros s _. unfold span_tree. destruct (how s) as [[]|]; try (repeat constructor; fail).
  apply between_forall; [exact I|]. apply Forall_map. apply Forall_forall. intros w _. constructor; [|constructor]. unfold word_tree. destruct (upper_word w); exact I.
Qed.
Lemma body_texty : forall ls, Forall texty (between (leaf ConvModel.oNewline [10%Z]) (map line_tree ls)).
Proof. intros ls. apply between_forall; [exact I|]. apply Forall_map. apply Forall_forall. intros l _. apply line_texty. Qed.
End Documents.
