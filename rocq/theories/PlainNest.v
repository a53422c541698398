(** Plain documents: the statements, their nesting, and the tree of the document. *)
From Coq Require Import String.
From Verif Require Import Base StrModel TokKind TokSpec NodeKind RegroupModel RecombSpec MarkProofs PlainLex.
From Verif Require AttrProofs PlainSpec ParseHead ParseHeadProps.
From Verif Require TreeModel TreeSpec TreeProofs.
From Verif Require Import ParseModel ParseSpec ParseLogic PlainParse PlainConv.
From Verif Require ConvModel ConvSpec.
Import PlainSpec(mark, span, how, said, par, lines, gap, section, Sec, stars_of, span_ok, line_ok, par_ok, apart, sections_ok, no_sections, one_section,
  leaf, mark_kind, between, word_tree, space_tree, span_tree, line_tree, par_tree, is_comment, title_tree, section_tree, document_tree).
Import ConvModel(sem, Sem, osk, node, skind, text).
Import ConvSpec(means, means_leaf, means_mark, means_paragraph, means_heading, gathered, with_attached, comment_word, titled).
Local Open Scope nat_scope.
Notation fsize := TreeSpec.fsize.

Section Nest.
Variable toks : list RegroupModel.otok.
Variable time_ok : str -> option Z -> bool.
Notation kd := (PlainParse.kd toks).
Notation inl := (PlainParse.inl toks).
Notation shows := (PlainConv.shows toks).
Notation gapped := (ParseLogic.gapped toks).
Notation meant := (Forall2 (means toks time_ok)).
Notation level_of := (ParseSpec.level_of toks).
Notation well_nested := (ParseSpec.well_nested toks).

(** *** The statements of an item *)
Definition e : tree := MonoLeaf nEmpty MNone.
Definition headed (s : nat) (ts body : list tree) : tree := Branch nSubtree [Leaf nRawText (Some s); e; e; Branch nParagraph ts; e; e; e; e; Branch nStmtList body].
Definition quiet (t : tree) : Prop := calm t /\ TreeSpec.kind_of t <> nSubtree /\ TreeSpec.kind_of t <> nCmdTblfm.
Definition item_means (i : item) (ts : list tree) : Prop :=
  match i with
  | IHead n t g => exists s x tx, ts = [headed s tx []] /\ nth_error toks s = Some x /\ otext x = repeat 42%Z n /\ meant tx (line_tree t) /\ Forall calm tx
  | IPar p => meant ts (par_tree p) /\ Forall quiet ts
  end.
Lemma shown_at : forall i x, option_map oshown (nth_error toks i) = Some x -> exists t, nth_error toks i = Some t /\ otext t = snd x.
Proof. intros i x E. destruct (nth_error toks i) as [t|]; [|discriminate]. injection E as <-. eauto. Qed.
Lemma line_not : forall l f, (forall k, inner k = true -> f k = false) -> Forall (fun x => f (fst x) = false) (line_toks l).
Proof. intros l f H. eapply Forall_impl; [|apply line_inner]. intros x. apply H. Qed.
Lemma par_quiet : forall ts, Forall calm ts -> quiet (Branch nParagraph ts).
Proof. intros ts F. split; [apply branch_calm; [discriminate|exact F]|]. split; discriminate. Qed.
Lemma break_kind : forall g, newline_kind (fst (line_break g)) = true.
Proof. intros [|[|g]]; reflexivity. Qed.
Lemma par_means : forall ls ts tail, Forall line_ok ls -> meant ts (between (leaf ConvModel.oNewline [10%Z]) (map line_tree ls) ++ tail) -> Forall ConvSpec.blank tail ->
  means toks time_ok (Branch nParagraph ts) (node ConvModel.oParagraph (between (leaf ConvModel.oNewline [10%Z]) (map line_tree ls))).
Proof. intros ls ts tail F M B. eapply means_paragraph; eauto. intros y x E. apply body_last in E; auto. intros [X|X]; apply E in X; exact X. Qed.

Hypothesis PK : Forall (fun t => plain_token (okind t) = true) toks.
(** The first token of what follows *)
Lemma item_first : forall i r, item_ok i -> exists x l, item_with piece_words i ++ r = x :: l /\ (opener (fst x) = true \/ fst x = kSubtreeStars) /\ ((exists p, i = IPar p) \/ fst x = kSubtreeStars).
Proof.
  intros [n t g|p] r O; cbn [item_with].
  - eexists _, _. split; [reflexivity|]. auto.
  - destruct O as [N F]. rewrite lines_tokens_eq by auto. destruct (body_opener _ N F) as (x & l & -> & O). eexists _, _. split; [reflexivity|]. eauto.
Qed.
Lemma items_first : forall is_ ids, items_ok is_ -> shows ids (flat_map (item_with piece_words) is_) -> ids = [] \/
  exists i r k, ids = i :: r /\ kd i = Some k /\ (opener k = true \/ k = kSubtreeStars) /\ (k <> kSubtreeStars -> exists p is', is_ = IPar p :: is').
Proof.
  intros is_ ids O H. destruct O as [|i r Hi Hg O]; [inversion H; auto|]. right. cbn [flat_map] in H. destruct (item_first i (flat_map (item_with piece_words) r) Hi) as (x & l & E & X & Y).
  rewrite E in H. apply shows_cons in H as (j & y & -> & Ej & _). apply shown_kd in Ej. exists j, y, (fst x). split; [reflexivity|]. split; [exact Ej|]. split; [exact X|].
  intros N. destruct Y as [(p & ->)|Y]; [eauto|contradiction].
Qed.

Lemma items_run : forall is_ ids n, items_ok is_ -> gapped ids -> shows ids (flat_map (item_with piece_words) is_) -> length ids + 4 < n ->
  exists tss, runs toks n ids (concat tss) /\ Forall2 item_means is_ tss /\ fsize (concat tss) <= 4 * length ids.
Proof.
  intros is_ ids n O. revert ids. induction O as [|it r Hi Hg O IH]; intros ids G H L.
  - inversion H; subst. exists []. split; [constructor|]. split; [constructor|]. cbn. lia.
  - cbn [flat_map] in H. apply shows_app in H as (a & b & -> & A & B). pose proof (gapped_app toks _ _ G) as [Ga Gb]. rewrite app_length in L.
    destruct (IH b Gb B ltac:(lia)) as (tss & R & M & Sz0). clear IH.
    pose proof (items_first r b O B) as FB.
    destruct it as [m t g|p]; cbn [item_with item_ok] in *.
    + destruct Hi as [Hm Ht]. rewrite lines_tokens_eq in A by (auto; discriminate). unfold body_tokens in A. cbn [map between] in A.
      apply shows_cons in A as (s & a' & -> & Es & A). apply shows_cons in A as (w & a2 & -> & Ew & A). apply shows_app in A as (x & y & -> & X & Y).
      apply shows_cons in Y as (c & y' & -> & Ec & Y). inversion Y; subst y'. clear Y.
      destruct (line_mean toks time_ok x t X) as (tx & I & Mt).
      destruct (line_opener t Ht) as (h & hr & Eh & Oh). pose proof X as X'. rewrite Eh in X'. apply shows_cons in X' as (i & x' & Ex & Ei & _). apply shown_kd in Ei.
      destruct (shown_at _ _ Es) as (st & Est & Tst). pose proof (inl_size _ _ _ I) as Sz.
      exists ([headed s tx []] :: tss). cbn [concat]. split; [|split].
      * replace ((s :: w :: x ++ [c]) ++ b) with (s :: w :: x ++ c :: b) by (cbn [app]; rewrite <- app_assoc; reflexivity).
        eapply runs_step; [|eapply (g_stmt_head toks PK s w x tx i (fst h) c (fst (line_break g)) b n)|exact R].
        -- cbn [length app]. rewrite !app_length. cbn. lia.
        -- exact (shown_kd _ _ _ Es).
        -- exact (shown_kd _ _ _ Ew).
        -- exact I.
        -- change (s :: w :: x ++ [c]) with ([s; w] ++ (x ++ [c])) in Ga. apply gapped_app in Ga as [_ Ga]. now apply gapped_app in Ga as [Ga _].
        -- rewrite Ex. reflexivity.
        -- exact Ei.
        -- destruct (fst h); try discriminate Oh; reflexivity.
        -- eapply shows_not; [exact X|]. apply line_not. intros []; try discriminate; reflexivity.
        -- exact (shown_kd _ _ _ Ec).
        -- apply break_kind.
        -- intros j q k E K. destruct FB as [-> | (j' & q' & k' & -> & K' & Ok & _)]; [discriminate|]. injection E as -> ->. rewrite K in K'. injection K' as ->.
           destruct Ok as [Ok | ->]; [destruct k'; try discriminate Ok; reflexivity|reflexivity].
        -- cbn [length] in L. rewrite app_length in L. lia.
      * constructor; [|exact M]. exists s, st, tx. split; [reflexivity|]. split; [exact Est|]. split; [exact Tst|]. split; [exact Mt|]. eapply inl_calm; exact I.
      * cbn [app]. rewrite TreeProofs.fsize_cons. cbn [length app]. rewrite !app_length. cbn [length].
        assert (X1 : TreeSpec.tsize (headed s tx []) = 10 + fsize tx) by (cbn; unfold fsize; lia). lia.
    + destruct Hi as [N F]. rewrite lines_tokens_eq in A by auto. apply shows_app in A as (x & y & -> & X & Y). apply shows_cons in Y as (c & y' & -> & Ec & Y). inversion Y; subst y'. clear Y.
      destruct (body_mean toks time_ok x _ X) as (tx & I & Mt). pose proof (inl_size _ _ _ I) as Sz.
      destruct (body_opener _ N F) as (h & hr & Eh & Oh). pose proof X as X'. rewrite Eh in X'. apply shows_cons in X' as (i & x' & Ex & Ei & _). apply shown_kd in Ei.
      assert (St : stmt_class (fst h) = SText) by (destruct (fst h); try discriminate Oh; reflexivity).
      assert (NP : all_not toks paragraph_end x).
      { eapply shows_not; [exact X|]. eapply Forall_impl; [|apply body_inner]. intros z [Z|Z]; [destruct (fst z); try discriminate Z; reflexivity|rewrite Z; reflexivity]. }
      rewrite app_length in L. cbn [length] in L. destruct (gap p) as [|g] eqn:Eg.
      * destruct (newline_mean toks time_ok c Ec) as (nl & Tn & Mn).
        assert (I' : inl (x ++ [c]) (tx ++ [nl])) by (apply inl_app; [exact I|constructor; [exact Tn|constructor]]). pose proof (inl_size _ _ _ I') as Sz'.
        exists ([Branch nParagraph (tx ++ [nl])] :: tss). cbn [concat]. split; [|split].
        -- eapply runs_step; [|eapply (g_stmt_par toks (x ++ [c]) (tx ++ [nl]) b n i (fst h)); auto|exact R].
           ++ rewrite !app_length. cbn. lia.
           ++ rewrite Ex. reflexivity.
           ++ intros j k J K. apply in_app_or in J as [J|[<-|[]]]; [eapply NP; eauto|]. rewrite (shown_kd _ _ _ Ec) in K. injection K as <-. reflexivity.
           ++ destruct FB as [-> | (j & q & k & -> & K & Ok & PP)]; [auto|]. right. exists j, q, k. split; [reflexivity|]. split; [exact K|].
              destruct Ok as [Ok | ->]; [|reflexivity]. destruct PP as (p' & is' & ->); [intros ->; discriminate|]. exfalso. eapply Hg; reflexivity || exact Eg.
           ++ rewrite app_length. cbn [length]. lia.
        -- constructor; [|exact M]. cbn [item_means]. unfold par_tree. rewrite Eg. split; [|constructor; [|constructor]].
           ++ constructor; [|constructor]. eapply par_means; [exact F| |].
              ** apply Forall2_app; [exact Mt|]. constructor; [exact Mn|constructor].
              ** constructor; [right; reflexivity|constructor].
           ++ apply par_quiet. eapply inl_calm; exact I'.
        -- cbn [app]. rewrite TreeProofs.fsize_cons, TreeProofs.tsize_sub. cbn [TreeSpec.sub_of]. rewrite !app_length in *. cbn [length] in *. lia.
      * exists ([Branch nParagraph tx; Leaf nNewline (Some c)] :: tss).
        change (concat ([Branch nParagraph tx; Leaf nNewline (Some c)] :: tss)) with ([Branch nParagraph tx] ++ [Leaf nNewline (Some c)] ++ concat tss). rewrite <- app_assoc. cbn [app].
        destruct (shown_at _ _ Ec) as (ct & Ect & Tct). split; [|split].
        -- eapply (runs_step _ _ _ _ [Branch nParagraph tx]); [|eapply (g_stmt_par toks x tx (c :: b) n i (fst h)); auto|eapply (runs_step _ _ _ _ [Leaf nNewline (Some c)]); [|eapply (g_stmt_newline toks c b)|exact R]].
           ++ rewrite app_length. cbn. pose proof (f_equal (@length nat) Ex) as Lx. cbn in Lx. lia.
           ++ now apply gapped_app in Ga as [Ga _].
           ++ rewrite Ex. reflexivity.
           ++ right. exists c, b, (fst (line_break (S g))). split; [reflexivity|]. split; [exact (shown_kd _ _ _ Ec)|]. destruct g; reflexivity.
           ++ lia.
           ++ cbn. lia.
           ++ exact (shown_kd _ _ _ Ec).
           ++ apply break_kind.
           ++ lia.
        -- constructor; [|exact M]. cbn [item_means]. unfold par_tree. rewrite Eg. split; [|constructor; [|constructor; [|constructor]]].
           ++ constructor; [|constructor; [|constructor]].
              ** eapply (par_means _ _ []); [exact F|rewrite app_nil_r; exact Mt|constructor].
              ** unfold leaf. replace (repeat 10%Z (S (S g))) with (otext ct) by exact Tct. now apply means_leaf.
           ++ apply par_quiet. eapply inl_calm; exact I.
           ++ split; [|split; discriminate]. split; [constructor; [discriminate|constructor]|]. cbn. intuition discriminate.
        -- rewrite !TreeProofs.fsize_cons, TreeProofs.tsize_sub. cbn [TreeSpec.sub_of TreeSpec.tsize]. rewrite !app_length in *. cbn [length] in *. lia.
Qed.

(** *** Nesting *)
Lemma quiet_level : forall t, quiet t -> level_of t = None /\ body_of t = [] /\ unnest t = [t].
Proof.
  intros t (_ & N & _). destruct t as [k sub|k x|k x]; cbn in N; [|auto|auto].
  unfold ParseSpec.level_of, ParseSpec.body_of, ParseSpec.unnest. destruct k; try congruence; auto.
Qed.
Lemma quiets_unnest : forall ts, Forall quiet ts -> flat_map unnest ts = ts.
Proof. induction 1 as [|t ts Q _ IH]; [reflexivity|]. cbn. rewrite IH. destruct (quiet_level t Q) as (_ & _ & ->). reflexivity. Qed.
Fixpoint steps (us : list tree) : Prop :=
  match us with
  | [] => True
  | u :: r => (forall l x s, level_of u = Some l -> r = x :: s -> exists lx, level_of x = Some lx /\ lx <= l) /\ steps r
  end.
Lemma steps_adjacent : forall us, steps us -> forall pre h x post lh, us = pre ++ h :: x :: post -> level_of h = Some lh -> exists lx, level_of x = Some lx /\ lx <= lh.
Proof.
  intros us S pre. revert us S. induction pre as [|p pre IH]; intros us S h x post lh -> E; destruct S as [S0 S1]; [eapply S0; eauto|]. eapply IH; eauto.
Qed.
Lemma nest_list : forall outer ps us, Forall quiet ps -> steps us -> (forall u, In u us -> exists l, level_of u = Some l /\ outer < l /\ well_nested l (body_of u)) ->
  well_nested outer (ps ++ us).
Proof.
  intros outer ps us Q S H. rewrite Forall_forall in Q. constructor.
  - intros u l I E. apply in_app_or in I as [I|I]; [destruct (quiet_level u (Q u I)) as (X & _); congruence|]. destruct (H u I) as (l' & E' & X & _). congruence.
  - apply steps_adjacent. assert (Q' : Forall quiet ps) by (apply Forall_forall; exact Q). clear Q. induction Q' as [|p ps Qp _ IH]; [exact S|]. cbn [app steps]. split; [|exact IH].
    intros l x s E. destruct (quiet_level p Qp) as (X & _). congruence.
  - intros u l I E. apply in_app_or in I as [I|I]; [destruct (quiet_level u (Q u I)) as (X & _); congruence|]. destruct (H u I) as (l' & E' & _ & X). congruence.
  - intros u I E. apply in_app_or in I as [I|I]; [apply quiet_level; auto|]. destruct (H u I) as (l' & E' & _). congruence.
Qed.
(** *** Lists of statements *)
Definition stands (s : sem) : Prop := ConvModel.is_attached (skind s) = false /\ with_attached s [] [] = s.
Lemma gather_all : forall (items : list (nk * sem)), Forall (fun p => fst p <> nCmdTblfm /\ stands (snd p)) items -> gathered items (map snd items).
Proof.
  induction 1 as [|[k s] items [Nk [A W]] F IH]; [apply (ConvSpec.gathered_end []); constructor|]. cbn [map fst snd] in *. destruct (ConvModel.is_stmt (skind s)) eqn:E.
  - rewrite <- W at 2. apply (ConvSpec.gathered_statement [] k s [] items); auto. intros p r ->. inversion F as [|? ? [X _] _]; subst. exact X.
  - apply (ConvSpec.gathered_other [] k s items); auto.
Qed.
Lemma par_stands : forall p, Forall stands (par_tree p).
Proof.
  intros p. unfold par_tree. constructor.
  - split; [reflexivity|]. cbn. pose proof (body_texty (lines p)) as T. destruct (between _ _) as [|[k d f s a] [|]]; try reflexivity; destruct k; try reflexivity.
    inversion T as [|? ? X _]; subst. destruct X.
  - destruct (gap p); constructor; [|constructor]. split; reflexivity.
Qed.
Lemma section_stands : forall s, stands (section_tree s).
Proof. intros [n t g ps l]. split; reflexivity. Qed.
Lemma gather_trees : forall (us : list tree) ss, Forall2 (fun u s => TreeSpec.kind_of u <> nCmdTblfm /\ stands s) us ss -> gathered (combine (map (@TreeSpec.kind_of _ _ _) us) ss) ss.
Proof.
  intros us ss F. assert (E : map snd (combine (map (@TreeSpec.kind_of _ _ _) us) ss) = ss) by (induction F; cbn; congruence). rewrite <- E at 2. apply gather_all.
  clear E. induction F as [|u s us ss H _ IH]; constructor; auto.
Qed.
Lemma both : forall A B (P : A -> Prop) (Q : B -> Prop) (R : A -> B -> Prop) l m, Forall2 R l m -> Forall P l -> Forall Q m -> Forall2 (fun a b => P a /\ Q b) l m.
Proof. intros A B P Q R l m H. induction H; intros F G; inversion F; inversion G; subst; constructor; auto. Qed.

(** The title *)
Lemma line_word : forall w w2 ws l, line_tree (PlainSpec.Span None (w :: w2 :: ws) :: l) = word_tree w :: space_tree :: line_tree (PlainSpec.Span None (w2 :: ws) :: l).
Proof. intros w w2 ws [|s l]; destruct ws; reflexivity. Qed.
Lemma line_word_span : forall w s l, line_tree (PlainSpec.Span None [w] :: s :: l) = word_tree w :: space_tree :: line_tree (s :: l).
Proof. reflexivity. Qed.
Lemma line_first : forall l, line_ok l -> exists y z, line_tree l = y :: z /\ skind y <> ConvModel.oSpace /\ (is_comment l = false -> y <> comment_word).
Proof.
  intros l [N F]. destruct F as [|s l [Ns _] F]; [congruence|]. destruct s as [[m|] [|w ws]]; cbn [said] in Ns; try congruence.
  - unfold line_tree. cbn [map]. destruct l as [|s2 l]; cbn [map]; [|rewrite between_cons by discriminate]; eexists _, _; (split; [reflexivity|]); split; destruct m; discriminate.
  - exists (word_tree w). assert (X : exists z, line_tree (PlainSpec.Span None (w :: ws) :: l) = word_tree w :: z).
    { destruct ws as [|w2 ws]; [destruct l as [|s2 l]; [exists []; reflexivity|rewrite line_word_span; eauto]|rewrite line_word; eauto]. }
    destruct X as (z & ->). exists z. split; [reflexivity|]. unfold word_tree. split; [destruct (upper_word w); discriminate|]. intros C E. unfold leaf, comment_word in E. injection E as _ E. subst w. discriminate C.
Qed.
Lemma title_means : forall t, line_ok t -> titled (line_tree t) (is_comment t) (title_tree t).
Proof.
  intros t Ht. unfold title_tree, titled. destruct (is_comment t) eqn:C.
  - right. split; [reflexivity|]. destruct Ht as [N F]. destruct F as [|s l [Ns Ws] F]; [congruence|]. destruct s as [[m|] [|w ws]]; try discriminate C. cbn [said] in *.
    cbn in C. unfold ConvModel.str_is in C. apply AttrProofs.str_eqb_eq in C. subst w.
    destruct ws as [|w2 ws]; [destruct l as [|s2 l]|].
    + exists []. split; [reflexivity|]. split; [constructor|discriminate].
    + rewrite line_word_span. exists [space_tree]. split; [reflexivity|]. split; [repeat constructor|]. intros x r E. cbn [skipn] in E.
      destruct (line_first (s2 :: l)) as (y & z & Ez & Y & _); [split; [discriminate|exact F]|]. rewrite Ez in E. injection E as -> _. exact Y.
    + rewrite line_word. exists [space_tree]. split; [reflexivity|]. split; [repeat constructor|]. intros x r E. cbn [skipn] in E.
      destruct (line_first (PlainSpec.Span None (w2 :: ws) :: l)) as (y & z & Ez & Y & _).
      { split; [discriminate|]. constructor; [|exact F]. split; [discriminate|]. now inversion Ws. }
      rewrite Ez in E. injection E as -> _. exact Y.
  - left. split; [reflexivity|]. split; [reflexivity|]. intros r E. destruct (line_first t Ht) as (y & z & Ez & _ & Y). rewrite E in Ez. injection Ez as <- _. now apply Y.
Qed.
Lemma heading_means : forall s x tx n t g ps l us, nth_error toks s = Some x -> otext x = repeat 42%Z n -> line_ok t -> meant tx (line_tree t) ->
  meant us (flat_map par_tree ps ++ map section_tree l) -> Forall (fun u => TreeSpec.kind_of u <> nCmdTblfm) us ->
  means toks time_ok (headed s tx us) (section_tree (Sec n t g ps l)).
Proof.
  intros s x tx n t g ps l us Ex Tx Ht Mt M K.
  assert (ST : Forall stands (flat_map par_tree ps ++ map section_tree l)).
  { apply Forall_app. split; [|apply Forall_map; apply Forall_forall; intros; apply section_stands]. apply Forall_flat_map. apply Forall_forall. intros. apply par_stands. }
  pose proof (means_heading toks time_ok (Leaf nRawText (Some s)) e e (Branch nParagraph tx) e e e e us (repeat 42%Z n) [] false [] (line_tree t) (is_comment t) (title_tree t) [] [] [] (flat_map par_tree ps ++ map section_tree l) (flat_map par_tree ps ++ map section_tree l)) as X.
  rewrite repeat_length, orb_false_r in X. cbn [existsb app filter map negb] in X. apply X.
  - exists nRawText, s, x. auto.
  - left. repeat split.
  - left. repeat split.
  - right. split; [reflexivity|]. eapply (means_paragraph _ _ tx (line_tree t) []); [rewrite app_nil_r; exact Mt|constructor|]. intros y z E. apply line_last in E; auto. intros [Y|Y]; apply E in Y; exact Y.
  - now apply title_means.
  - left. repeat split.
  - left. repeat split.
  - left. repeat split.
  - reflexivity.
  - exact M.
  - apply gather_trees. eapply both; [exact M|exact K|exact ST].
Qed.

(** *** Sections *)
Lemma pars_nest : forall ps tss, Forall2 item_means (map IPar ps) tss -> meant (concat tss) (flat_map par_tree ps) /\ Forall quiet (concat tss).
Proof.
  induction ps as [|p ps IH]; intros tss H; inversion H as [|? ? ? ? X H']; subst; cbn [concat flat_map]; [split; constructor|]. cbn in X. destruct X as [M Q]. destruct (IH _ H') as [M' Q']. split; [apply Forall2_app; auto|apply Forall_app; auto].
Qed.
Lemma not_formula : forall us, Forall quiet us -> Forall (fun u => TreeSpec.kind_of u <> nCmdTblfm) us.
Proof. intros us. apply Forall_impl. intros u (_ & _ & K). exact K. Qed.
Lemma headed_level : forall s x tx us, nth_error toks s = Some x -> level_of (headed s tx us) = Some (length (otext x)).
Proof. intros s x tx us E. cbn. rewrite E. reflexivity. Qed.
Lemma sections_nest : forall outer ss, sections_ok outer ss -> forall tss, Forall2 item_means (flat_map section_items ss) tss ->
  exists us, flat_map unnest us = concat tss /\ meant us (map section_tree ss) /\ steps us /\
    (forall u, In u us -> exists l, level_of u = Some l /\ outer < l /\ well_nested l (body_of u)) /\
    (forall u r s q, us = u :: r -> ss = s :: q -> level_of u = Some (stars_of s)) /\ Forall (fun u => TreeSpec.kind_of u = nSubtree) us.
Proof.
  intros outer ss S. induction S as [outer|outer n t g ps l rest Ho Ht Hp Ha _ IHl Hr _ IHr]; intros tss H.
  - inversion H; subst. exists []. cbn. repeat split; try constructor; try discriminate; try (intros u []).
  - cbn [flat_map section_items] in H. rewrite <- app_comm_cons, <- app_assoc in H. inversion H as [|? ts0 ? tss' Hh H']; subst. apply Forall2_app_inv_l in H' as (tp & tr & Hps & H'' & ->).
    apply Forall2_app_inv_l in H'' as (tl & tr' & Hl & Hrest & ->). destruct Hh as (s & x & tx & -> & Ex & Tx & Mt & Ct).
    destruct (pars_nest _ _ Hps) as [Mp Qp]. destruct (IHl _ Hl) as (ul & Ul & Ml & Sl & Ll & Fl & Kl). destruct (IHr _ Hrest) as (ur & Ur & Mr & Sr & Lr & Fr & Kr).
    assert (Lev : level_of (headed s tx (concat tp ++ ul)) = Some n) by (rewrite (headed_level s x), Tx, repeat_length by exact Ex; reflexivity).
    exists (headed s tx (concat tp ++ ul) :: ur). split; [|split; [|split; [|split; [|split]]]].
    + cbn [flat_map]. unfold headed at 1. cbn [unnest]. rewrite flat_map_app, quiets_unnest, Ul, Ur by exact Qp. cbn [concat app]. rewrite !concat_app, <- !app_assoc. reflexivity.
    + constructor; [|exact Mr]. eapply heading_means; eauto; [apply Forall2_app; auto|]. apply Forall_app. split; [now apply not_formula|]. eapply Forall_impl; [|exact Kl]. intros u ->. discriminate.
    + cbn [steps]. split; [|exact Sr]. intros lv y q E ->. rewrite Lev in E. injection E as <-. destruct rest as [|s2 rest]; [inversion Mr|].
      rewrite (Fr y q s2 rest eq_refl eq_refl). eexists. split; [reflexivity|]. eapply Hr. reflexivity.
    + intros u [<-|I]; [|apply Lr; exact I]. exists n. split; [exact Lev|]. split; [exact Ho|]. cbn [body_of headed]. apply nest_list; auto.
    + intros u q s2 q2 E E2. injection E as <- <-. injection E2 as <- <-. exact Lev.
    + constructor; [reflexivity|exact Kr].
Qed.
Lemma document_nest : forall ps ss tss, PlainSpec.plain_document ps ss -> Forall2 item_means (items_of ps ss) tss ->
  exists us, flat_map unnest us = concat tss /\ well_nested 0 us /\ meant us (flat_map par_tree ps ++ map section_tree ss) /\ Forall (fun u => TreeSpec.kind_of u <> nCmdTblfm) us.
Proof.
  intros ps ss tss (_ & _ & S) H. apply Forall2_app_inv_l in H as (tp & ts & Hp & Hs & ->). destruct (pars_nest _ _ Hp) as [Mp Qp]. destruct (sections_nest _ _ S _ Hs) as (us & U & M & St & L & _ & K).
  exists (concat tp ++ us). split; [rewrite flat_map_app, quiets_unnest, U, concat_app by exact Qp; reflexivity|]. split; [now apply nest_list|]. split; [apply Forall2_app; auto|].
  apply Forall_app. split; [now apply not_formula|]. eapply Forall_impl; [|exact K]. intros u ->. discriminate.
Qed.
End Nest.
