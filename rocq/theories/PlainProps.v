(** Plain documents are read as they are meant, from the text to the tree of the document. *)
From Coq Require Import String.
From Verif Require Import Base StrModel TokKind TokModel TokSpec NodeKind RegroupModel RecombSpec.
From Verif Require Import MarkProofs PlainLex.
From Verif Require TreeModel TreeSpec TreeProofs ParseHeadProps ParseProps ConvProps PlainParse PlainConv PlainNest.
From Verif Require Import ParseModel ParseSpec ConvModel ConvSpec PlainSpec.
Import PlainParse(calm).
Local Open Scope nat_scope.

(** *** C95 *)
Lemma tokens_plain : forall is_, items_ok is_ -> Forall (fun x => PlainParse.plain_token (fst x) = true /\ snd x <> [] /\ (fst x = kSubtreeStars -> snd x <> [])) (flat_map (item_with piece_words) is_).
Proof.
  assert (L : forall l, line_ok l -> Forall (fun x => PlainParse.plain_token (fst x) = true /\ snd x <> []) (PlainConv.line_toks l)).
  { intros l [_ F]. unfold PlainConv.line_toks. apply PlainConv.between_forall; [split; [reflexivity|discriminate]|]. apply Forall_map. eapply Forall_impl; [|exact F]. intros s [_ Ws].
    unfold PlainConv.span_tokens. rewrite !Forall_app. split; [|split].
    - destruct (how s) as [[]|]; repeat constructor; discriminate.
    - unfold PlainConv.words_tokens. apply PlainConv.between_forall; [split; [reflexivity|discriminate]|]. apply Forall_map. eapply Forall_impl; [|exact Ws]. intros w [Nw _]. constructor; [|constructor].
      split; [destruct (PlainConv.word_kinds w) as [-> | ->]; reflexivity|exact Nw].
    - destruct (how s) as [[]|]; repeat constructor; discriminate. }
  assert (B : forall ls g, ls <> [] -> Forall line_ok ls -> Forall (fun x => PlainParse.plain_token (fst x) = true /\ snd x <> []) (lines_with piece_words ls g)).
  { intros ls g N F. rewrite PlainConv.lines_tokens_eq by auto. apply Forall_app. split.
    - unfold PlainConv.body_tokens. apply PlainConv.between_forall; [split; [reflexivity|discriminate]|]. apply Forall_map. eapply Forall_impl; [|exact F]. exact L.
    - constructor; [|constructor]. split; [destruct g as [|[|g]]; reflexivity|discriminate]. }
  intros is_ O. assert (Forall (fun x => PlainParse.plain_token (fst x) = true /\ snd x <> []) (flat_map (item_with piece_words) is_)) as X.
  { induction O as [|i r Hi _ _ IH]; [constructor|]. cbn [flat_map]. apply Forall_app. split; [|exact IH]. destruct i as [n t g|p]; cbn [item_with item_ok] in *.
    - destruct Hi as [Hn Ht]. constructor; [|constructor; [|apply B; auto; discriminate]]; (split; [reflexivity|]); [destruct n; [lia|discriminate]|discriminate].
    - destruct Hi. now apply B. }
  eapply Forall_impl; [|exact X]. intros x [A C]. auto.
Qed.
Lemma short : forall (l : list (tk * str)), Forall (fun x => snd x <> []) l -> length l <= length (concat (map snd l)).
Proof. induction 1 as [|x l N _ IH]; [cbn; lia|]. cbn. rewrite app_length. destruct (snd x); [congruence|cbn; lia]. Qed.
Lemma same_texts : forall is_, map snd (flat_map (item_with piece_words) is_) = map snd (flat_map (item_with raw_words) is_).
Proof.
  assert (P : forall p, map snd (piece_tokens p) = map snd (raw_piece p)).
  { intros [[[c [a b]]|] w [[d [e f]]|]]; reflexivity. }
  assert (W : forall ps, map snd (piece_words ps) = map snd (raw_words ps)).
  { induction ps as [|p [|q ps] IH]; [reflexivity|apply P|]. change (piece_words (p :: q :: ps)) with (piece_tokens p ++ (kWhitespace, [32%Z]) :: piece_words (q :: ps)).
    change (raw_words (p :: q :: ps)) with (raw_piece p ++ (kWhitespace, [32%Z]) :: raw_words (q :: ps)). rewrite !map_app. cbn [map]. rewrite P, IH. reflexivity. }
  assert (L : forall ls g, map snd (lines_with piece_words ls g) = map snd (lines_with raw_words ls g)).
  { intros ls g. induction ls as [|l [|l2 ls] IH]; [reflexivity|cbn [lines_with]; rewrite !map_app, W; reflexivity|].
    change (lines_with piece_words (l :: l2 :: ls) g) with (piece_words (line_pieces l) ++ line_break 0 :: lines_with piece_words (l2 :: ls) g).
    change (lines_with raw_words (l :: l2 :: ls) g) with (raw_words (line_pieces l) ++ line_break 0 :: lines_with raw_words (l2 :: ls) g). rewrite !map_app. cbn [map]. rewrite W, IH. reflexivity. }
  induction is_ as [|[n t g|p] r IH]; [reflexivity| |]; cbn [flat_map]; rewrite !map_app, IH; f_equal; cbn [item_with]; [cbn [map]; rewrite L; reflexivity|apply L].
Qed.
Lemma unnest_size : forall us : list (TreeSpec.tree nk (option nat) mono), TreeSpec.fsize (flat_map unnest us) = TreeSpec.fsize us.
Proof.
  intros us. remember (TreeSpec.fsize us) as n eqn:E. assert (L : TreeSpec.fsize us <= n) by lia. rewrite E. clear E. revert us L.
  induction n as [|n IH]; intros us L; (destruct us as [|u us]; [reflexivity|]); rewrite TreeProofs.fsize_cons in L; pose proof (TreeProofs.tsize_pos u) as P; [lia|].
  cbn [flat_map]. rewrite TreeProofs.fsize_app, TreeProofs.fsize_cons, (IH us) by lia. f_equal. pose proof (ParseHead.body_size u) as Bs.
  rewrite ParseHead.unnest_parts, TreeProofs.fsize_cons, (IH (body_of u)) by lia. clear.
  destruct u as [k sub|? ?|? ?]; try reflexivity. assert (Z : TreeSpec.fsize (@nil (TreeSpec.tree nk (option nat) mono)) = 0) by reflexivity.
  destruct k; try (cbn [ParseHead.stripped body_of]; rewrite Z; lia).
  do 9 (destruct sub as [|? sub]; [cbn [ParseHead.stripped body_of]; rewrite Z; lia|]).
  destruct t7 as [? b|? ?|? ?]; destruct sub; cbn [ParseHead.stripped body_of]; rewrite ?Z; try lia.
  rewrite !TreeProofs.tsize_sub. cbn [TreeSpec.sub_of]. rewrite !TreeProofs.fsize_cons, !(TreeProofs.tsize_sub (TreeSpec.Branch _ _)). cbn [TreeSpec.sub_of]. rewrite Z. lia.
Qed.

(** A document of headings and paragraphs of words, written down, goes through the lexer, the regrouping, the parser and
    the converter without an error. What comes out is the document. *)
Theorem C95_plain_document : forall ps ss fuel n, plain_document ps ss -> length (document_text ps ss) < fuel -> 4 * length (document_text ps ss) + 4 < n ->
  forall time_ok float_ok tblfm_ok columns_ok log_entry property options,
  exists ts toks us, tokenize (document_text ps ss) fuel = Ok ts /\ convert_tokens ts = Ok toks /\
    parse_full toks n = Ok (preorder (TreeSpec.Branch nStmtList us)) /\
    convert_document toks time_ok float_ok tblfm_ok columns_ok log_entry property options n (TreeSpec.Branch nStmtList us) = Done ([], document_tree ps ss).
Proof.
  intros ps ss fuel n D Lf Ln time_ok float_ok tblfm_ok columns_ok log_entry property options.
  pose proof (document_items ps ss D) as O. rewrite <- items_text in Lf, Ln |- *. destruct (items_tokens _ _ O Lf) as (ts & toks & T & C & S).
  exists ts, toks. pose proof (tokens_plain _ O) as TP.
  assert (PK : Forall (fun t => PlainParse.plain_token (okind t) = true) toks).
  { rewrite <- S, Forall_map in TP. eapply Forall_impl; [|exact TP]. intros t (X & _). exact X. }
  assert (Lt : length toks <= length (concat (map item_text (items_of ps ss)))).
  { rewrite <- (items_raw_text _ O), <- same_texts. rewrite <- (map_length oshown toks), S. apply short. eapply Forall_impl; [|exact TP]. intros x (_ & X & _). exact X. }
  assert (SH : PlainConv.shows toks (seq 0 (length toks)) (flat_map (item_with piece_words) (items_of ps ss))).
  { rewrite <- S. clear. unfold PlainConv.shows. assert (G : forall pre suf, Forall2 (fun i x => option_map oshown (nth_error (pre ++ suf) i) = Some x) (seq (length pre) (length suf)) (map oshown suf)).
    { intros pre suf. revert pre. induction suf as [|t suf IH]; intros pre; cbn; [constructor|]. constructor.
      - rewrite nth_error_app2, Nat.sub_diag by lia. reflexivity.
      - specialize (IH (pre ++ [t])). rewrite <- app_assoc, app_length, Nat.add_1_r in IH. exact IH. }
    exact (G [] toks). }
  assert (Gs : ParseLogic.gapped toks (seq 0 (length toks))) by (apply ParseLogic.gapped_seq; lia).
  destruct (PlainNest.items_run toks time_ok PK (items_of ps ss) (seq 0 (length toks)) n O Gs SH ltac:(rewrite seq_length; lia)) as (tss & R & M & Sz). rewrite seq_length in Sz.
  destruct (PlainNest.document_nest toks time_ok ps ss tss D M) as (us & Un & W & Mu & K). exists us. split; [exact T|]. split; [exact C|]. split.
  - destruct (list_eq_dec Nat.eq_dec (seq 0 (length toks)) []) as [Z|Z].
    + assert (toks = []) as -> by (destruct toks; [reflexivity|discriminate]). cbn [length seq] in R. assert (Ec : concat tss = []) by (inversion R as [Ec|? ? ? ? Lx]; [congruence|cbn in Lx; lia]).
      rewrite Ec in Un. destruct us as [|u us]; [|exfalso; cbn [flat_map] in Un; rewrite ParseHead.unnest_parts in Un; discriminate].
      destruct n; [lia|]. reflexivity.
    + assert (N : toks <> []) by (intros ->; apply Z; reflexivity).
      pose proof (PlainParse.runs_flat toks PK n (concat tss) N R ltac:(lia)) as Fl.
      assert (Q : forall t, In t (concat tss) -> Forall no_heading (TreeSpec.sub_of t) /\ ~ In None (leaf_tokens (preorder t))).
      { intros t I. apply in_concat in I as (tx & Ix & I). assert (X : exists i, PlainNest.item_means toks time_ok i tx).
        { clear - M Ix. induction M as [|i y is_ tss H _ IH]; [destruct Ix|]. destruct Ix as [<-|Ix]; eauto. }
        destruct X as ([m tl g|p] & X).
        - destruct X as (s & x & tt & -> & _ & _ & _ & Ct). destruct I as [<-|[]]. unfold PlainNest.headed, PlainNest.e.
          assert (Cp : calm (TreeSpec.Branch nParagraph tt)) by (apply PlainParse.branch_calm; [discriminate|exact Ct]). destruct Cp as [Cp1 Cp2]. split.
          + cbn [TreeSpec.sub_of]. repeat (constructor; [first [exact Cp1|repeat constructor; discriminate]|]). constructor.
          + intros J. apply Cp2. cbn [preorder flat_map] in J |- *. unfold leaf_tokens in *. cbn [flat_map app TreeModel.value TreeSpec.node_of] in J |- *.
            repeat (rewrite ?flat_map_app, ?app_nil_r in J; cbn [flat_map app TreeModel.value TreeSpec.node_of preorder] in J). destruct J as [J|J]; [discriminate|].
            rewrite ?app_nil_r in J. repeat (apply in_app_or in J as [J|J]; [exact J|]). exact J.
        - destruct X as [_ Qt]. rewrite Forall_forall in Qt. destruct (Qt t I) as ([H1 H2] & _). split; [|exact H2]. unfold no_heading in H1. destruct t as [k sub|? ?|? ?]; [|constructor|constructor].
          cbn [TreeSpec.sub_of]. cbn [preorder] in H1. inversion H1 as [|? ? _ H3]; subst. apply Forall_forall. intros u Iu. apply Forall_forall. intros nd Ind. eapply (proj1 (Forall_forall _ _) H3). apply in_flat_map. eauto. }
      destruct (ParseHeadProps.C79_headings_nest toks n (concat tss) Fl) as (vs & Pf & Uv & Wv).
      * cbn [preorder]. unfold leaf_tokens. cbn [flat_map TreeSpec.node_of TreeModel.value app]. intros I. apply in_flat_map in I as (nd & I & V). apply in_flat_map in I as (t & It & I).
        destruct (Q t It) as [_ Q2]. apply Q2. apply in_flat_map. eauto.
      * intros t It. apply (Q t It).
      * intros t It Kt. rewrite <- S, Forall_map in TP. rewrite Forall_forall in TP. destruct (TP t It) as (_ & X & _). exact X.
      * rewrite (ParseHeadProps.C79_one_nesting toks 0 us vs W Wv); [exact Pf|congruence].
  - apply (ConvProps.C82_document_partial _ _ _ _ _ _ _ _ _ _ _ [] (combine (map (@TreeSpec.kind_of _ _ _) us) (flat_map par_tree ps ++ map section_tree ss))).
    + clear - Mu. induction Mu; constructor; auto.
    + apply PlainNest.gather_trees. eapply PlainNest.both; [exact Mu|exact K|]. apply Forall_app. split; [|apply Forall_map; apply Forall_forall; intros; apply PlainNest.section_stands].
      apply Forall_flat_map. apply Forall_forall. intros. apply PlainNest.par_stands.
    + rewrite TreeProofs.tsize_sub. cbn [TreeSpec.sub_of]. rewrite <- unnest_size, Un. lia.
Qed.
Print Assumptions C95_plain_document.
(** A document *)
Definition ws (l : list string) : span := Span None (map (fun w => lit w) l).
Definition marked (m : PlainSpec.mark) (l : list string) : span := Span (Some m) (map (fun w => lit w) l).
Definition sample_head : list par := [Par [[ws ["Some"; "text"]; marked PlainSpec.Bold ["in"; "bold"]]; [ws ["next"; "line"]]]%string 2; Par [[ws ["more"]]]%string 0].
Definition sample : list section :=
  [Sec 1 [ws ["First"]; marked PlainSpec.Italic ["title"]]%string 0 [Par [[ws ["below"; "it"]]]%string 1]
     [Sec 3 [ws ["COMMENT"; "deeper"]]%string 1 [] []; Sec 2 [ws ["Less"; "deep"]]%string 0 [Par [[marked PlainSpec.Strike ["gone"]]]%string 0] []];
   Sec 1 [ws ["Last"]]%string 0 [] []].
Lemma plain_lit : forall w, negb (match w with [] => true | _ => false end) && forallb is_alpha w && negb (AttrModel.str_eqb (map to_lower (firstn 4 w)) (lit "http")) && negb (AttrModel.str_eqb (map to_lower (firstn 3 w)) (lit "src")) = true -> plain_word w.
Proof.
  intros w H. apply andb_true_iff in H as [H H4]. apply andb_true_iff in H as [H H3]. apply andb_true_iff in H as [H1 H2]. split; [destruct w; [discriminate|congruence]|]. split; [|split].
  - apply Forall_forall. now rewrite forallb_forall in H2.
  - intros E. rewrite E in H3. discriminate H3.
  - intros E. rewrite E in H4. discriminate H4.
Qed.
Example sample_plain : plain_document sample_head sample.
Proof.
  assert (W : forall m l, l <> [] -> forallb (fun w => negb (match lit w with [] => true | _ => false end) && forallb is_alpha (lit w) && negb (AttrModel.str_eqb (map to_lower (firstn 4 (lit w))) (lit "http")) && negb (AttrModel.str_eqb (map to_lower (firstn 3 (lit w))) (lit "src"))) l = true -> span_ok (Span m (map (fun w => lit w) l))).
  { intros m l N F. split; [destruct l; [congruence|discriminate]|]. apply Forall_map. apply Forall_forall. intros w I. apply plain_lit. rewrite forallb_forall in F. now apply F. }
  assert (L : forall l, l <> [] -> Forall span_ok l -> line_ok l) by (intros; split; auto).
  assert (P : forall ls g, ls <> [] -> Forall line_ok ls -> par_ok (Par ls g)) by (intros; split; auto).
  unfold sample_head, sample, ws, marked.
  repeat first [apply L; [discriminate|] | apply P; [discriminate|] | split | apply no_sections | apply one_section | apply Forall_cons | apply Forall_nil | exact I | lia | discriminate
    | intros ? ? Hx; injection Hx as <- <-; cbn; lia | intros ? ? Hx; discriminate Hx];
  (repeat apply Forall_cons; try apply Forall_nil; (apply W; [discriminate|reflexivity])).
Qed.
Example sample_text : document_text sample_head sample =
  ParseProps.ln "Some text *in bold*" ++ ParseProps.ln "next line" ++ ParseProps.ln "" ++ ParseProps.ln "" ++ ParseProps.ln "more" ++
  ParseProps.ln "* First /title/" ++ ParseProps.ln "below it" ++ ParseProps.ln "" ++ ParseProps.ln "*** COMMENT deeper" ++ ParseProps.ln "" ++ ParseProps.ln "** Less deep" ++ ParseProps.ln "+gone+" ++ ParseProps.ln "* Last".
Proof. reflexivity. Qed.

(** *** C96 *)
(** A heading has a keyword only if it has a priority too: without the priority the keyword is a word of the title. *)
Theorem C96_keyword_refuted : forall time_ok,
  (exists s, ConvProps.result time_ok (ParseProps.ln "* TODO buy milk") = [s] /\ nth 0 (dtext (sdata s)) [] = [] /\ words s = [lit "TODO"; lit "buy"; lit "milk"]) /\
  (exists s, ConvProps.result time_ok (ParseProps.ln "* TODO [#A] buy milk") = [s] /\ nth 0 (dtext (sdata s)) [] = lit "TODO" /\ words s = [lit "buy"; lit "milk"]).
Proof.
  intros time_ok. split.
  - remember (ConvProps.result time_ok (ParseProps.ln "* TODO buy milk")) as o eqn:E. vm_compute in E. subst o. eexists. split; [reflexivity|]. split; reflexivity.
  - remember (ConvProps.result time_ok (ParseProps.ln "* TODO [#A] buy milk")) as o eqn:E. vm_compute in E. subst o. eexists. split; [reflexivity|]. split; reflexivity.
Qed.
Print Assumptions C96_keyword_refuted.
(** The theorem on the sample *)
Example sample_read : forall time_ok, exists toks us,
  parse_full toks 1000 = Ok (preorder (TreeSpec.Branch nStmtList us)) /\
  convert_document toks time_ok (fun _ => true) (fun _ => true) (fun _ => true) (fun _ => Thrown) (fun _ => Thrown) (fun _ => Thrown) 1000 (TreeSpec.Branch nStmtList us) = Done ([], document_tree sample_head sample) /\
  length (ssubs (document_tree sample_head sample)) = 5.
Proof.
  intros time_ok. destruct (C95_plain_document sample_head sample 1000 1000 sample_plain ltac:(vm_compute; lia) ltac:(vm_compute; lia) time_ok (fun _ => true) (fun _ => true) (fun _ => true) (fun _ => Thrown) (fun _ => Thrown) (fun _ => Thrown))
    as (ts & toks & us & _ & _ & P & C). exists toks, us. split; [exact P|]. split; [exact C|]. reflexivity.
Qed.
