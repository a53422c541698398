(** C82-C85: from the parse tree to the document. *)
From Coq Require Import String.
From Verif Require Import Base StrModel NodeKind.
From Verif Require StrProofs TreeProofs.
From Verif Require RegroupModel TreeModel TreeSpec ParseModel AttrModel ParseSpec.
From Verif Require Import ConvModel ConvSpec ConvProofs ConvMeans ConvWords ConvAttach ConvDoc.
From Verif Require Import ParseProps ParseHeadProps.
Import TreeSpec.
Local Open Scope nat_scope.

(** *** C82 *)
(** A tree of the forms that [means] describes is converted, and to what it means. The other parts of the converter
    (validity of times, of formulas and of column formats, log entries, properties, options) can be anything. *)
Theorem C82_conversion_partial : forall toks time_ok float_ok tblfm_ok columns_ok log_entry property n a s,
  means toks time_ok a s -> tsize a <= n ->
  convert toks time_ok float_ok tblfm_ok columns_ok log_entry property n a = Done s.
Proof. exact means_convert. Qed.
Print Assumptions C82_conversion_partial.
(** A tree has one meaning. *)
Theorem C82_one_meaning : forall toks time_ok a s s', means toks time_ok a s -> means toks time_ok a s' -> s = s'.
Proof.
  intros toks time_ok a s s' M M'.
  pose proof (means_convert toks time_ok (fun _ => true) (fun _ => true) (fun _ => true) (fun _ => Thrown) (fun _ => Thrown) _ _ _ M (le_n _)) as E.
  pose proof (means_convert toks time_ok (fun _ => true) (fun _ => true) (fun _ => true) (fun _ => Thrown) (fun _ => Thrown) _ _ _ M' (le_n _)) as E'.
  congruence.
Qed.
Print Assumptions C82_one_meaning.
(** A document of such statements and of the commands that [sets] describes has these settings and these statements. *)
Theorem C82_document_partial : forall toks time_ok float_ok tblfm_ok columns_ok log_entry property options n k sub us items l,
  document_means toks time_ok sub us items -> gathered items l -> tsize (Branch k sub) <= n ->
  convert_document toks time_ok float_ok tblfm_ok columns_ok log_entry property options n (Branch k sub) = Done (us, node oDocument l).
Proof. intros. eapply document_ok; eauto. Qed.
Print Assumptions C82_document_partial.
(** Items are gathered in exactly one way. *)
Theorem C82_gathered_once : forall items, exists l, gathered items l /\ forall l', gathered items l' -> l' = l.
Proof. intros items. destruct (gathered_some items) as (l & G). exists l. split; auto. intros l' G'. eapply gathered_once; eauto. Qed.
Print Assumptions C82_gathered_once.

(** A document from its text *)
Definition stages : str :=
  ln "#+title: Doc" ++ ln "* TODO [#A] COMMENT The *title* :a:b:" ++ ln "#+caption: A caption" ++ ln "[[file:pic.png]]" ++ ln "- [X] one" ++ ln "- two [fn:1]" ++
  ln "** Sub" ++ ln "#+begin_quote" ++ ln "said" ++ ln "#+end_quote" ++ ln "| a | b |" ++ ln "#+begin_src c" ++ ln "f();" ++ ln "#+end_src".
Definition stages_tokens := match tokens_of stages with Ok t => t | _ => [] end.
Definition stages_trees := full_trees stages.

Lemma trims_strip : forall lead trail s, strip s (chars lead) (chars trail) <> [] -> trims lead trail s (strip s (chars lead) (chars trail)).
Proof.
  intros lead trail s N. destruct (StrProofs.strip_spec s (chars lead) (chars trail)) as (a & b & E & Fa & Fb & H1 & H2).
  exists a, b. split; [exact E|]. split; [|split; [|split]].
  - eapply Forall_impl; [|exact Fa]. intros c. apply chars_in.
  - eapply Forall_impl; [|exact Fb]. intros c. apply chars_in.
  - destruct (strip s (chars lead) (chars trail)) as [|c m] eqn:Es; [contradiction|]. exists c, m. split; auto. apply chars_notin. eapply H1. reflexivity.
  - destruct (exists_last N) as (m & c & Ec). exists c, m. split; auto. apply chars_notin. eapply H2. exact Ec.
Qed.
Section Derive.
Variable toks : list RegroupModel.otok.
Variable time_ok : str -> option Z -> bool.
Lemma derive_paragraph : forall t sub l r, Forall2 (means toks time_ok) sub l -> rev l = r -> Forall blank (firstn t r) ->
  match skipn t r with x :: _ => ~ blank x | [] => True end -> means toks time_ok (Branch nParagraph sub) (node oParagraph (rev (skipn t r))).
Proof.
  intros t sub l r F <- B N. apply means_paragraph with (rev (firstn t (rev l))).
  - rewrite <- rev_app_distr, firstn_skipn, rev_involutive. exact F.
  - apply Forall_rev. exact B.
  - intros m x E. apply (f_equal (@rev sem)) in E. rewrite rev_involutive, rev_app_distr in E. rewrite E in N. exact N.
Qed.
Lemma derive_gather : forall k s rest l, is_stmt (skind s) = true -> is_attached (skind s) = false ->
  match rest with (j, _) :: _ => j <> nCmdTblfm | [] => True end -> gathered rest l -> gathered ((k, s) :: rest) (with_attached s [] [] :: l).
Proof. intros k s rest l A B C G. apply (gathered_statement [] k s [] rest l); auto. intros p r ->. destruct p. exact C. Qed.
Lemma derive_gather1 : forall j c k s rest l, is_attached (skind c) = true -> is_stmt (skind s) = true -> is_attached (skind s) = false ->
  match rest with (j, _) :: _ => j <> nCmdTblfm | [] => True end -> gathered rest l -> gathered ((j, c) :: (k, s) :: rest) (with_attached s [c] [] :: l).
Proof. intros j c k s rest l A' A B C G. apply (gathered_statement [(j, c)] k s [] rest l); auto. intros p r ->. destruct p. exact C. Qed.
Lemma derive_other : forall k s rest l, is_stmt (skind s) = false -> gathered rest l -> gathered ((k, s) :: rest) (s :: l).
Proof. intros. apply (gathered_other [] k s rest l); auto. Qed.
End Derive.
Lemma derive_named : forall raw, named_by raw (push_args None raw).
Proof. intros raw. split; [apply push_length|]. intros i x E. rewrite (push_at raw None i x E). reflexivity. Qed.
Ltac text := eexists _, _, _; split; [reflexivity|split; [vm_compute; reflexivity|reflexivity]].
Ltac gather := cbn [combine map kind_of]; repeat first
  [ apply (gathered_end []); constructor
  | eapply derive_gather1; [reflexivity|reflexivity|reflexivity|first [exact I|discriminate]|]
  | eapply derive_gather; [reflexivity|reflexivity|first [exact I|discriminate]|]
  | eapply derive_other; [reflexivity|] ].
Ltac trim := match goal with |- trims ?a ?b ?s _ => apply (trims_strip a b s); vm_compute; discriminate end.
Ltac trims_self := apply (trims_strip [42; 32]%Z [] (lit "Head/Sub")); vm_compute; discriminate.
Ltac not_blank := cbn; intros [X|X]; discriminate X.
Ltac num := split; [discriminate|split; [repeat first [apply Forall_nil|apply Forall_cons; [vm_compute; split; discriminate|]]|split; [vm_compute; reflexivity|vm_compute; discriminate]]].
Ltac none := left; split; reflexivity.
Ltac derive := lazymatch goal with
  | |- Forall2 _ [] _ => apply Forall2_nil
  | |- Forall2 _ (_ :: _) _ => eapply Forall2_cons; [derive|derive]
  | |- means _ _ (Leaf nTextSeparator _) _ => apply means_separator
  | |- means _ _ (Leaf _ _) _ => eapply means_leaf; [reflexivity|vm_compute; reflexivity]
  | |- means _ _ (MonoLeaf _ _) _ => apply means_empty; reflexivity
  | |- means _ _ (Branch nParagraph _) _ =>
      first [eapply (derive_paragraph _ _ 0); [derive|reflexivity|constructor|not_blank]
            |eapply (derive_paragraph _ _ 1); [derive|reflexivity|constructor; [cbn; unfold blank; auto|constructor]|first [not_blank|exact I]]]
  | |- means _ _ (Branch nListItem _) _ =>
      eapply means_item; [text|discriminate|reflexivity|trim
        |first [left; split; reflexivity|right; eexists; split; [text|split; [reflexivity|vm_compute; tauto]]]
        |left; split; reflexivity|derive]
  | |- means _ _ (Branch nSubtree _) _ =>
      eapply means_heading;
        [text
        |first [left; repeat split; reflexivity|right; eexists; split; [text|split; [discriminate|right; split; [discriminate|split; reflexivity]]]]
        |first [left; split; reflexivity|right; eexists; split; [text|split; [discriminate|trim]]]
        |right; split; [reflexivity|derive]
        |first [right; split; [reflexivity|]; eexists [_]; split; [reflexivity|split; [repeat constructor|intros ? ? E; injection E as <- <-; discriminate]]
               |left; split; [reflexivity|split; [reflexivity|intros r E; discriminate E]]]
        |first [none|right; eexists; split; [text|split; [discriminate|right; exists (lit "1"), (lit "3"), 1%Z, 3%Z; split; [reflexivity|split; [num|split; [num|reflexivity]]]]]]
        |first [none|right; eexists; split; [reflexivity|derive]]
        |first [none|right; eexists _, _; split; [reflexivity|derive]]
        |reflexivity|derive|gather]
  | |- timed _ _ _ _ => eapply timed_is; [text|first [left; reflexivity|right; reflexivity]|derive|first [left; split; reflexivity|right; left; split; reflexivity|right; right; split; reflexivity]]
  | |- time_means _ _ _ _ =>
      first [eapply time_is with (cs := []); [first [left; reflexivity|right; reflexivity]|text|discriminate|none|derive|reflexivity|derive|none]
            |eapply time_is; [first [left; reflexivity|right; reflexivity]|text|discriminate
                             |right; split; [text|split; [discriminate|split; [discriminate|reflexivity]]]|derive|reflexivity|derive|none]]
  | |- zone _ _ _ =>
      first [none|right; eexists _, [], (lit "01"), 1%Z, (lit "00"), 0%Z; split; [text|split; [discriminate|split; [reflexivity|split; [reflexivity|split; [num|split;
               [right; split; [reflexivity|num]|left; split; [left; reflexivity|reflexivity]]]]]]]]
  | |- (absent _ /\ _ = []) \/ (exists _ _, _ /\ _ /\ Forall2 (repetition _) _ _) => first [none|right; eexists _, _; split; [reflexivity|split; [discriminate|derive]]]
  | |- repetition _ _ _ => eapply repetition_is; [text|text|exists (lit "1"), 119%Z; split; [reflexivity|split; [vm_compute; tauto|left; num]]]
  | |- arguments _ _ _ =>
      first [none|right; eexists _, _; split; [first [left; reflexivity|right; eexists _, _; reflexivity]|split; [derive|apply derive_named]]]
  | |- argument _ _ _ =>
      eapply argument_is; [first [none|right; eexists _, _; split; [text|split; [discriminate|split; [trim|reflexivity]]]]
                          |first [none|right; eexists; split; [text|split; [discriminate|reflexivity]]]|derive|reflexivity]
  | |- value_means _ _ _ _ =>
      first [left; eexists; split; [text|split; [reflexivity|left; split; [reflexivity|split; [reflexivity|split; [vm_compute; intuition discriminate|reflexivity]]]]]
            |left; eexists; split; [text|split; [reflexivity|right; split; [reflexivity|reflexivity]]]
            |right; eexists _, _; split; [reflexivity|split; [derive|split; reflexivity]]]
  | |- text_of _ _ _ => text
  | |- means _ _ (Branch nMacro _) _ => eapply means_macro; [text|derive]
  | |- means _ _ (Branch nTimeRange _) _ => eapply means_range; [derive|derive|reflexivity]
  | |- means _ _ (Branch nStaticActiveTime _) _ => eapply means_time; derive
  | |- means _ _ (Branch nRadioTarget _) _ => eapply means_radio; [derive|match goal with |- Forall2 _ ?l _ => let m := eval vm_compute in l in change l with m end; derive]
  | |- means _ _ (Branch nCriticMarkStructure _) _ =>
      eapply means_critic; [text|first [none|right; eexists; split; [discriminate|split; [derive|reflexivity]]]|derive]
  | |- means _ _ (Branch nSymbol _) _ => eapply means_symbol; [text|derive]
  | |- means _ _ (Branch nColonExample _) _ => eapply means_fixed; [discriminate|repeat constructor|derive]
  | |- means _ _ (Branch nCmdAttr _) _ => eapply means_attr; [text|reflexivity|derive]
  | |- tag_means _ _ _ => eapply tag_is; [text|trim|derive]
  | |- means _ _ (Branch nCmdCaption _) _ => eapply means_caption; [reflexivity|derive]
  | |- means _ _ (Branch nBlockQuote _) _ => eapply means_quote; [reflexivity|reflexivity|derive|gather]
  | |- means _ _ (Branch nTable _) _ => eapply means_table; [reflexivity|discriminate|derive]
  | |- row_means _ _ _ _ => eapply row_is; [reflexivity|reflexivity|derive]
  | |- cell_means _ _ _ _ => eapply cell_is; [reflexivity|derive]
  | |- means _ _ (Branch nBlockCode _) _ => eapply means_code; [text|discriminate|derive|derive|reflexivity]
  | |- line_means _ _ _ _ => eapply line_is; derive
  | |- part_means _ _ _ _ => eapply part_is; [text|reflexivity]
  | |- means _ _ (Branch nFootnote _) _ => eapply means_footnote; [reflexivity|text]
  | |- means _ _ (Branch nLink _) _ =>
      first [eapply means_link; [eexists _, _; split; [text|split; [trim|right; eexists; split; [text|split; [discriminate|right; left; split; reflexivity]]]]|none]
            |eapply means_link; [eexists _, _; split; [text|split; [trim|left; split; [reflexivity|right; right]]];
                                 exists 0, (lit "Head/Sub"), [lit "Head"; lit "Sub"]; split; [reflexivity|split; [intros ? ? X; injection X as <- <-; discriminate|split; [discriminate
                                 |split; [|split; [repeat constructor; vm_compute; intuition discriminate|reflexivity]]]]]; trims_self
                                |right; eexists; split; [reflexivity|split; [derive|reflexivity]]]]
  | |- means _ _ (Branch _ _) _ => eapply means_mark; [reflexivity|derive]
  end.
Example C82_stages : exists l us, tokens_of stages = Ok stages_tokens /\
  ParseModel.parse_full stages_tokens 400 = Ok (ParseSpec.preorder (Branch nStmtList stages_trees)) /\
  exists items, document_means stages_tokens (fun _ _ => true) stages_trees us items /\ gathered items l /\
  length us = 1 /\ headings (node oDocument l) = [Heading 1 [lit "The"; lit "title"] [Heading 2 [lit "Sub"] []]] /\
  words (node oDocument l) = map (fun w => lit w) ["The"; "title"; "A"; "caption"; "one"; "two"; "Sub"; "said"; "a"; "b"]%string.
Proof.
  eexists _, _. split; [vm_compute; reflexivity|]. split; [vm_compute; reflexivity|].
  remember stages_trees as ts eqn:E. vm_compute in E. subst ts. remember stages_tokens as tk eqn:E. vm_compute in E. subst tk.
  eexists. split.
  - eapply document_sets. { eapply (sets_title _ _ _ _ _ []); [rewrite app_nil_r; derive|constructor|].
      intros l x E. destruct l as [|y [|z l]]; try discriminate. injection E as <-. not_blank. }
    repeat first [eapply document_statement; [derive|] | apply document_end].
  - split; [gather|]. split; [reflexivity|]. split; vm_compute; reflexivity.
Qed.

(** A document with a completion, times, a macro, a range of times, a radio target, a replacement, a link to a
    heading, a symbol, fixed text, attributes and source code with arguments *)
Definition details : str :=
  ln "* Head [1/3]" ++ ln "DEADLINE: <2024-01-02 Tue 10:00 +0100 +1w>" ++
  ln "{{{name(x=1,y)}}} <2024-01-02 Tue>--<2024-01-03 Wed> see <<<a b>>> {~~old~>new~~} [[*Head/Sub][x]] \alpha{in}" ++
  ln ": fixed" ++ ln "#+attr_html: :width 30" ++ ln "#+begin_src c :var x=1 output" ++ ln "f();" ++ ln "#+end_src".
Definition details_tokens := match tokens_of details with Ok t => t | _ => [] end.
Definition details_trees := full_trees details.
Example C82_details : exists l us, tokens_of details = Ok details_tokens /\
  ParseModel.parse_full details_tokens 400 = Ok (ParseSpec.preorder (Branch nStmtList details_trees)) /\
  exists items, document_means details_tokens (fun _ _ => true) details_trees us items /\ gathered items l /\
  us = [] /\ headings (node oDocument l) = [Heading 1 [lit "Head"] []] /\
  words (node oDocument l) = map (fun w => lit w) ["Head"; "see"; "old"; "new"; "x"; "in"; "fixed"]%string.
Proof.
  eexists _, _. split; [vm_compute; reflexivity|]. split; [vm_compute; reflexivity|].
  remember details_trees as ts eqn:E. vm_compute in E. subst ts. remember details_tokens as tk eqn:E. vm_compute in E. subst tk.
  eexists. split.
  - repeat first [eapply document_statement; [derive|] | apply document_end].
  - split; [gather|]. split; [reflexivity|]. split; vm_compute; reflexivity.
Qed.

(** *** C83 *)
(** Whatever the statements are, if a list of them is converted then every one of them is, commands go to the
    statement after them and formulas to the one before, and taken apart again the list is the converted statements
    in their order. *)
Definition sound_formulas (l : list ptree) : Prop := forall x, In x l -> kind_of x = nCmdTblfm -> existsb is_error (sub_of x) = false.
Theorem C83_statements : forall toks time_ok float_ok tblfm_ok columns_ok log_entry property n sub s,
  let conv := convert toks time_ok float_ok tblfm_ok columns_ok log_entry property in
  existsb is_error sub = false -> sound_formulas sub -> conv (S n) (Branch nStmtList sub) = Done s ->
  exists ss l, s = node oStmtList l /\ Forall2 (fun x t => conv n x = Done t) sub ss /\ gathered (combine (map kind_of sub) ss) l /\ flat_map opened l = ss.
Proof.
  intros toks time_ok float_ok tblfm_ok columns_ok log_entry property n sub s conv Ne Sf E. unfold conv in E. cbn [convert] in E. unfold step in E.
  cbn [sub_of] in E. rewrite Ne in E. unfold dispatch in E. cbn [kind_of sub_of] in E. destruct (rbind_done _ _ _ E) as (l & El & E1). injection E1 as <-.
  destruct (attached_whole _ _ _ _ _ _ _ _ _ _ Sf El) as (ss & F & G & O). exists ss, l. auto.
Qed.
Print Assumptions C83_statements.
(** The same for the text below a heading; the errors in its drawer come first. *)
Theorem C83_heading : forall toks time_ok float_ok tblfm_ok columns_ok log_entry property n fields k body s,
  let conv := convert toks time_ok float_ok tblfm_ok columns_ok log_entry property in
  length fields = 8 -> sound_formulas body -> conv (S n) (Branch nSubtree (fields ++ [Branch k body])) = Done s -> skind s = oSubtree ->
  exists errors ss l, ssubs s = errors ++ l /\ Forall2 (fun x t => conv n x = Done t) body ss /\ gathered (combine (map kind_of body) ss) l /\ flat_map opened l = ss.
Proof. intros toks time_ok float_ok tblfm_ok columns_ok log_entry property n fields k body s conv Lf Sf E K. exact (heading_attached _ _ _ _ _ _ _ _ _ _ _ Lf Sf s E K). Qed.
Print Assumptions C83_heading.
(** And for a document without the commands that set something in it *)
Theorem C83_document : forall toks time_ok float_ok tblfm_ok columns_ok log_entry property options n a us doc,
  let conv := convert toks time_ok float_ok tblfm_ok columns_ok log_entry property in
  let rest := filter (fun x => negb (setting_kind (kind_of x))) (sub_of a) in
  sound_formulas rest -> convert_document toks time_ok float_ok tblfm_ok columns_ok log_entry property options n a = Done (us, doc) ->
  exists errors ss l, doc = node oDocument (errors ++ l) /\ Forall2 (fun x t => conv n x = Done t) rest ss /\
    gathered (combine (map kind_of rest) ss) l /\ flat_map opened l = ss.
Proof.
  intros toks time_ok float_ok tblfm_ok columns_ok log_entry property options n a us doc conv rest Sf E. unfold convert_document in E.
  destruct (rbind_done _ _ _ E) as (q & Eq & E1). destruct (rbind_done _ _ _ E1) as (l & El & E2). injection E2 as <- <-.
  rewrite (settings_rest _ _ _ _ _ _ _ _ _ _ _ Eq) in El. destruct (attached_whole _ _ _ _ _ _ _ _ _ _ Sf El) as (ss & F & G & O).
  eexists _, ss, l. split; [reflexivity|]. auto.
Qed.
Print Assumptions C83_document.

(** Documents are converted from their text, with any validity checks. *)
Definition run (time_ok : str -> option Z -> bool) (s : str) : res (list setting * sem) :=
  match tokens_of s with
  | Ok toks =>
      match full_trees s with
      | [] => Spent
      | ts => convert_document toks time_ok (fun _ => false) (fun _ => true) (fun _ => true) (fun _ => Thrown) (fun _ => Thrown) (fun _ => Thrown) 100 (Branch nStmtList ts)
      end
  | _ => Spent
  end.
Definition result (time_ok : str -> option Z -> bool) (s : str) : list sem := match run time_ok s with Done (_, d) => ssubs d | _ => [] end.
(** A zone west of Greenwich is not read: in place of the paragraph with the time there is a group of errors, with the
    time without its zone and the zone as text. *)
Theorem C82_zone_refuted : forall time_ok, (forall s z, time_ok s z = true) ->
  (exists t, result time_ok (ln "<2024-01-02 Tue 10:00 +0500>") = [node oParagraph [t]] /\ skind t = oTime) /\
  (exists g, result time_ok (ln "<2024-01-02 Tue 10:00 -0500>") = [g] /\ skind g = oErrorGroup /\ words g = [lit "-"; lit "0500"; lit ">"]).
Proof.
  intros time_ok A. split.
  - unfold result. remember (run time_ok (ln "<2024-01-02 Tue 10:00 +0500>")) as o eqn:E. vm_compute in E. rewrite A in E. subst o. eexists. split; reflexivity.
  - unfold result. remember (run time_ok (ln "<2024-01-02 Tue 10:00 -0500>")) as o eqn:E. vm_compute in E. rewrite A in E. subst o. eexists. split; [reflexivity|]. split; reflexivity.
Qed.
Print Assumptions C82_zone_refuted.
Definition captioned (s : sem) : bool := existsb (fun x => is_a oCmdCaption x) (sattached s).
(** Somewhere in [l] a caption is followed by a paragraph with a link that has no caption. *)
Fixpoint caption_apart (l : list sem) : bool :=
  match l with
  | c :: ((p :: _) as r) =>
      is_a oCmdCaption c && is_a oParagraph p && existsb (is_a oLink) (ssubs p) && forallb (fun x => negb (captioned x)) (p :: ssubs p) || caption_apart r
  | _ => false
  end.
Fixpoint below (s : sem) : list sem := s :: flat_map below (ssubs s).
Example C83_stages : forall time_ok, sound_formulas stages_trees /\
  exists us d h, run time_ok stages = Done (us, d) /\ ssubs d = [h] /\ skind h = oSubtree /\ existsb captioned (below h) = true.
Proof.
  intros time_ok. split.
  - intros x Ix. remember stages_trees as ts eqn:E. vm_compute in E. subst ts. repeat (destruct Ix as [<-|Ix]; [discriminate|]). destruct Ix.
  - eexists _, _, _. split; [vm_compute; reflexivity|]. split; [vm_compute; reflexivity|]. split; vm_compute; reflexivity.
Qed.
(** In a document or in a quote the caption is the link's. *)
Example C83_caption_ex : forall time_ok, Forall (fun s =>
  existsb captioned (flat_map below (result time_ok s)) = true /\ existsb (fun x => caption_apart (ssubs x)) (flat_map below (result time_ok s)) = false)
  [ln "#+caption: x" ++ ln "[[a]]"; ln "#+begin_quote" ++ ln "#+caption: x" ++ ln "[[a]]" ++ ln "#+end_quote"].
Proof. intros time_ok. repeat constructor; vm_compute; reflexivity. Qed.
(** In a center block, in a dynamic block and in a list item it is not. *)
Theorem C83_attached_refuted : forall time_ok, Forall (fun s =>
  existsb captioned (flat_map below (result time_ok s)) = false /\ existsb (fun x => caption_apart (ssubs x)) (flat_map below (result time_ok s)) = true)
  [ln "#+begin_center" ++ ln "#+caption: x" ++ ln "[[a]]" ++ ln "#+end_center";
   ln "#+begin: foo" ++ ln "#+caption: x" ++ ln "[[a]]" ++ ln "#+end:";
   ln "- z" ++ ln "" ++ ln "  #+caption: x" ++ ln "  [[a]]"].
Proof. intros time_ok. repeat constructor; vm_compute; reflexivity. Qed.
Print Assumptions C83_attached_refuted.

(** *** C84 *)
(** The words of the converted tree are the words of the tree, in their order, and its headings are nested as in the tree. *)
Theorem C84_words_partial : forall toks time_ok float_ok tblfm_ok columns_ok log_entry property n a s,
  means toks time_ok a s -> tsize a <= n ->
  exists s', convert toks time_ok float_ok tblfm_ok columns_ok log_entry property n a = Done s' /\ words s' = words_of toks a /\ headings s' = outline_of toks a.
Proof.
  intros toks time_ok float_ok tblfm_ok columns_ok log_entry property n a s M L. exists s. split; [apply means_convert; auto|]. exact (means_same toks time_ok n a s L M).
Qed.
Print Assumptions C84_words_partial.
Theorem C84_document_partial : forall toks time_ok float_ok tblfm_ok columns_ok log_entry property options n k sub us items,
  document_means toks time_ok sub us items -> tsize (Branch k sub) <= n ->
  let rest := filter (fun x => negb (setting_kind (kind_of x))) sub in
  exists doc, convert_document toks time_ok float_ok tblfm_ok columns_ok log_entry property options n (Branch k sub) = Done (us, doc) /\
    words doc = flat_map (words_of toks) rest /\ headings doc = flat_map (outline_of toks) rest.
Proof.
  intros toks time_ok float_ok tblfm_ok columns_ok log_entry property options n k sub us items D L rest.
  destruct (gathered_some items) as (l & G). exists (node oDocument l). split; [eapply document_ok; eauto|].
  rewrite TreeProofs.tsize_sub in L. cbn [sub_of] in L.
  destruct (settings_ok toks time_ok float_ok tblfm_ok columns_ok log_entry property options n sub us items D ltac:(lia)) as (r & ss & E & F & -> & Lr).
  pose proof (settings_rest _ _ _ _ _ _ _ _ _ _ _ E) as R. cbn [snd] in R. fold rest in R. subst r.
  destruct (gathered_same toks time_ok _ _ _ F G (same_kids toks time_ok n (fun a s => means_same toks time_ok n a s) _ _ F Lr)) as (W & H).
  rewrite node_words by (split; discriminate || reflexivity). rewrite node_headings by discriminate. auto.
Qed.
Print Assumptions C84_document_partial.
(** Text in a tree can be missing in the document: a heading with a time that cannot be read is dropped with all its text, a quote with an empty
    example in it loses its text, and a link with an unknown protocol loses its target. *)
Definition tree_words (s : str) : list str := match tokens_of s with Ok toks => flat_map (words_of toks) (full_trees s) | _ => [] end.
Theorem C84_text_refuted : forall time_ok, Forall (fun s => In (lit "body") (tree_words s) /\ exists d, run time_ok s = Done ([], d) /\ words d = [])
  [ln "* A :t:u:" ++ ln "  DEADLINE: <%%(foo)>" ++ ln "  body"; ln "#+begin_quote" ++ ln "body" ++ ln "#+begin_example" ++ ln "#+end_example" ++ ln "#+end_quote"].
Proof. intros time_ok. repeat apply Forall_cons; [| |apply Forall_nil]; (split; [vm_compute; tauto|eexists; split; vm_compute; reflexivity]). Qed.
Print Assumptions C84_text_refuted.

(** *** C85 *)
(** Not all documents that are parsed can be converted. *)
Theorem C85_converted_refuted : forall time_ok, Forall (fun s => full_trees s <> [] /\ (run time_ok s = Thrown \/ run time_ok s = NoField))
  [ln "|---|"; ln "#+begin_example" ++ ln "#+end_example"; ln "#+filetags:"; ln "#+startup: fold"; ln "* A [99999999999/1]";
   ln "* A" ++ ln "SCHEDULED: <2024-01-01>--<2024-01-02>"; ln "#+name:" ++ ln "a"; ln "#+name: fig:one" ++ ln "abc"; ln "#+begin_x" ++ ln "" ++ ln "#+end_x"].
Proof.
  intros time_ok. repeat (apply Forall_cons; [split; [intros X; vm_compute in X; discriminate X|first [left; vm_compute; reflexivity|right; vm_compute; reflexivity]]|]). apply Forall_nil.
Qed.
Print Assumptions C85_converted_refuted.
