(** What the formatter writes for documents. *)
From Coq Require Import String.
From Verif Require Import Base StrModel TokKind TokModel NodeKind RegroupModel LayoutModel LayoutSpec LayoutTextSpec.
From Verif Require TreeModel TreeSpec TreeProofs ParseProps ConvProps PlainProps.
From Verif Require Import ParseModel ParseSpec ConvModel ConvSpec PlainSpec FormatModel FormatSpec FormatBlock FormatPlain FormatWords.
Import ConvProofs(rbind_done).
Local Open Scope nat_scope.

(** *** C98 *)
Lemma lines_some : forall ps ss, plain_document ps ss -> ps <> [] \/ ss <> [] -> document_lines ps (map tidied ss) <> [].
Proof.
  intros ps ss (Hp & _ & _) N E. unfold document_lines in E. apply app_eq_nil in E as [E1 E2]. destruct N as [N|N].
  - destruct ps as [|p ps]; [congruence|]. inversion Hp as [|? ? [Np _] _]; subst. unfold par_lines in E1. cbn [flat_map] in E1. destruct (lines p); [congruence|discriminate].
  - destruct ss as [|[n t g l b] ss]; [congruence|]. discriminate.
Qed.
Lemma tidied_ok : forall outer ss, sections_ok outer ss -> sections_ok outer (map tidied ss).
Proof.
  intros outer ss H. induction H as [outer|outer n t g ps l rest Hn Ht Hp Ha _ IHl Hr _ IHr]; [constructor|]. cbn [map tidied]. constructor; auto.
  intros s r E. destruct rest as [|s0 rest]; [discriminate|]. injection E as <- _. specialize (Hr s0 rest eq_refl). destruct s0. exact Hr.
Qed.
Fixpoint tidied_tree (s : section) : section_tree (tidied s) = section_tree s.
Proof.
  destruct s as [n t g ps l]. cbn [tidied section_tree]. f_equal. f_equal. induction l as [|x l IH]; [reflexivity|]. cbn [map]. rewrite tidied_tree, IH. reflexivity.
Qed.
Fixpoint tidied_again (s : section) : tidied (tidied s) = tidied s.
Proof.
  destruct s as [n t g ps l]. cbn [tidied]. f_equal; [destruct ps, l; reflexivity|]. induction l as [|x l IH]; [reflexivity|]. cbn [map]. rewrite tidied_again, IH. reflexivity.
Qed.

(** A plain document is written as it was meant: paragraphs, marks and headings as they were, one empty line after each
    heading that has something below it. Only the newline at the end is left out. *)
Theorem C98_plain_format : forall ps ss o fuel pretty time_text real_text diagnostic preamble drawers,
  plain_document ps ss -> ps <> [] \/ ss <> [] -> (Z.of_nat (length (document_text ps (map tidied ss))) <= 2 ^ 28)%Z ->
  options_ok o -> (right_margin o <= 4096)%Z -> (0 <= linebreak_cost o)%Z -> Z.to_nat (2 ^ 28) < fuel ->
  exists fuel0, forall fuel', fuel0 <= fuel' ->
    exists s, formatted pretty time_text real_text diagnostic preamble drawers fuel fuel' o [] (document_tree ps ss) = Done s /\
      s ++ [10%Z] = document_text ps (map tidied ss).
Proof.
  intros ps ss o fuel pretty time_text real_text diagnostic preamble drawers D N Sz Ho Hr Hc Hf.
  destruct (fmt_plain_document pretty time_text real_text diagnostic preamble drawers ps ss D N) as (b & E & Fb & Lb & Wb).
  pose proof (lines_some ps ss D N) as Nl. pose proof (size_ended (document_lines ps (map tidied ss))) as Se. rewrite ended_document in Se.
  destruct (block_string_ok o fuel b Ho Hr Hc Hf Fb) as (f0 & G).
  - rewrite Wb. lia.
  - now rewrite Lb.
  - rewrite Lb. destruct D as (Hp & _ & Hs). unfold document_lines. apply Forall_app. split; [|exact (neat_sections 0 ss Hs)].
    apply Forall_flat_map. eapply Forall_impl; [|exact Hp]. exact neat_par.
  - exists f0. intros f' L. exists (in_lines (wlines b)). unfold formatted. rewrite E. cbn [rbind]. split; [now apply G|]. rewrite Lb, in_lines_ended, ended_document by exact Nl. reflexivity.
Qed.
Print Assumptions C98_plain_format.
(** The sample of [PlainProps], formatted *)
Definition nothing (s : str) : str := s.
Definition format_opts : options := mkOpts 0 80 1 2000 100.
Definition format_of (s : list setting * sem) : res str :=
  formatted (fun _ => lit "SIGNATURE") (fun d => concat (dtext d)) nothing (lit "DIAGNOSTIC") (fun _ => []) (fun _ => []) 3000 3000 format_opts (fst s) (snd s).
Example C98_sample : plain_document PlainProps.sample_head PlainProps.sample /\
  format_of ([], document_tree PlainProps.sample_head PlainProps.sample) = Done (removelast (
    ParseProps.ln "Some text *in bold*" ++ ParseProps.ln "next line" ++ ParseProps.ln "" ++ ParseProps.ln "" ++ ParseProps.ln "more" ++
    ParseProps.ln "* First /title/" ++ ParseProps.ln "" ++ ParseProps.ln "below it" ++ ParseProps.ln "" ++ ParseProps.ln "*** COMMENT deeper" ++
    ParseProps.ln "** Less deep" ++ ParseProps.ln "" ++ ParseProps.ln "+gone+" ++ ParseProps.ln "* Last")).
Proof. split; [exact PlainProps.sample_plain|]. vm_compute. reflexivity. Qed.

(** *** C99 *)
(** With the newline put back, what was written is read as the same document. *)
Theorem C99_round_trip : forall ps ss o fuel pretty time_text real_text diagnostic preamble drawers,
  plain_document ps ss -> ps <> [] \/ ss <> [] -> (Z.of_nat (length (document_text ps (map tidied ss))) <= 2 ^ 28)%Z ->
  options_ok o -> (right_margin o <= 4096)%Z -> (0 <= linebreak_cost o)%Z -> Z.to_nat (2 ^ 28) < fuel ->
  exists fuel0, forall fuel', fuel0 <= fuel' ->
    exists s, formatted pretty time_text real_text diagnostic preamble drawers fuel fuel' o [] (document_tree ps ss) = Done s /\
      forall fuel1 n time_ok float_ok tblfm_ok columns_ok log_entry property options, S (length s) < fuel1 -> 4 * S (length s) + 4 < n ->
      exists ts toks us, tokenize (s ++ [10%Z]) fuel1 = Ok ts /\ convert_tokens ts = Ok toks /\
        parse_full toks n = Ok (preorder (TreeSpec.Branch nStmtList us)) /\
        convert_document toks time_ok float_ok tblfm_ok columns_ok log_entry property options n (TreeSpec.Branch nStmtList us) = Done ([], document_tree ps ss).
Proof.
  intros ps ss o fuel pretty time_text real_text diagnostic preamble drawers D N Sz Ho Hr Hc Hf.
  destruct (C98_plain_format ps ss o fuel pretty time_text real_text diagnostic preamble drawers D N Sz Ho Hr Hc Hf) as (f0 & G). exists f0. intros f' L.
  destruct (G f' L) as (s & E & T). exists s. split; [exact E|]. intros fuel1 n time_ok float_ok tblfm_ok columns_ok log_entry property options Lf Ln.
  assert (Ls : length (document_text ps (map tidied ss)) = S (length s)) by (rewrite <- T, app_length; cbn; lia).
  replace (document_tree ps ss) with (document_tree ps (map tidied ss)).
  - rewrite T. apply PlainProps.C95_plain_document; [|now rewrite Ls|now rewrite Ls]. destruct D as (A & B & C). split; [exact A|]. split; [exact B|]. now apply tidied_ok.
  - unfold document_tree. rewrite map_map. do 2 f_equal. apply map_ext. exact tidied_tree.
Qed.
Print Assumptions C99_round_trip.
Definition read (s : str) : res (list setting * sem) := ConvProps.run (fun _ _ => true) s.
Definition rewritten (s : str) : res str := rbind (read s) format_of.
Example C99_sample : plain_document PlainProps.sample_head PlainProps.sample /\
  exists s, format_of ([], document_tree PlainProps.sample_head PlainProps.sample) = Done s /\ read (s ++ [10%Z]) = Done ([], document_tree PlainProps.sample_head PlainProps.sample).
Proof.
  split; [exact PlainProps.sample_plain|]. remember (format_of ([], document_tree PlainProps.sample_head PlainProps.sample)) as o eqn:E. vm_compute in E. subst o. eexists. split; [reflexivity|].
  vm_compute. reflexivity.
Qed.

(** Without it, every document of paragraphs that ends in empty lines loses one of them, *)
Lemma pars_text_app : forall ps qs ss, document_text (ps ++ qs) ss = concat (map par_text ps) ++ document_text qs ss.
Proof. intros. unfold document_text. rewrite map_app, concat_app, app_assoc. reflexivity. Qed.
Lemma apart_last : forall qs ls g g', apart (qs ++ [Par ls g]) -> apart (qs ++ [Par ls g']).
Proof. induction qs as [|q [|r qs] IH]; intros ls g g' A; [exact I|destruct A; split; auto; exact I|]. destruct A as [A B]. split; [exact A|]. exact (IH ls g g' B). Qed.
Theorem C99_last_line_refuted : forall qs ls g o fuel pretty time_text real_text diagnostic preamble drawers,
  plain_document (qs ++ [Par ls (S g)]) [] -> (Z.of_nat (length (document_text (qs ++ [Par ls (S g)]) [])) <= 2 ^ 28)%Z ->
  options_ok o -> (right_margin o <= 4096)%Z -> (0 <= linebreak_cost o)%Z -> Z.to_nat (2 ^ 28) < fuel ->
  exists fuel0, forall fuel', fuel0 <= fuel' ->
    exists s, formatted pretty time_text real_text diagnostic preamble drawers fuel fuel' o [] (document_tree (qs ++ [Par ls (S g)]) []) = Done s /\
      forall fuel1 n time_ok float_ok tblfm_ok columns_ok log_entry property options, length s < fuel1 -> 4 * length s + 4 < n ->
      exists ts toks us doc, tokenize s fuel1 = Ok ts /\ convert_tokens ts = Ok toks /\
        parse_full toks n = Ok (preorder (TreeSpec.Branch nStmtList us)) /\
        convert_document toks time_ok float_ok tblfm_ok columns_ok log_entry property options n (TreeSpec.Branch nStmtList us) = Done ([], doc) /\
        doc = document_tree (qs ++ [Par ls g]) [] /\ doc <> document_tree (qs ++ [Par ls (S g)]) [].
Proof.
  intros qs ls g o fuel pretty time_text real_text diagnostic preamble drawers D Sz Ho Hr Hc Hf.
  destruct (C98_plain_format (qs ++ [Par ls (S g)]) [] o fuel pretty time_text real_text diagnostic preamble drawers D ltac:(left; destruct qs; discriminate) Sz Ho Hr Hc Hf) as (f0 & G).
  exists f0. intros f' L. destruct (G f' L) as (s & E & T). exists s. split; [exact E|]. cbn [map] in T.
  assert (Ts : s = document_text (qs ++ [Par ls g]) []).
  { assert (X : document_text (qs ++ [Par ls (S g)]) [] = document_text (qs ++ [Par ls g]) [] ++ [10%Z]).
    { rewrite !pars_text_app. rewrite <- app_assoc. f_equal. unfold document_text. cbn [map concat]. rewrite !app_nil_r. unfold par_text. cbn [lines gap]. rewrite <- app_assoc. f_equal.
      apply (repeat_cons g 10%Z). }
    rewrite X in T. now apply app_inj_tail in T as [T _]. }
  intros fuel1 n time_ok float_ok tblfm_ok columns_ok log_entry property options Lf Ln. subst s.
  assert (D' : plain_document (qs ++ [Par ls g]) []).
  { destruct D as (A & B & C). split; [|split; [exact (apart_last _ _ _ _ B)|constructor]]. apply Forall_app in A as [A1 A2]. apply Forall_app. split; [exact A1|]. inversion A2 as [|? ? [X Y] _]; subst. constructor; [split; [exact X|exact Y]|constructor]. }
  destruct (PlainProps.C95_plain_document _ [] fuel1 n D' Lf Ln time_ok float_ok tblfm_ok columns_ok log_entry property options) as (ts & toks & us & A1 & A2 & A3 & A4).
  exists ts, toks, us, (document_tree (qs ++ [Par ls g]) []). repeat (split; [assumption|]). split; [reflexivity|].
  unfold document_tree, node. cbn [map]. rewrite !app_nil_r, !flat_map_app. cbn [flat_map]. rewrite !app_nil_r. intros H. injection H as H. apply app_inv_head in H. unfold par_tree in H. cbn [gap lines] in H.
  destruct g as [|g]; [discriminate|]. injection H as H. apply (f_equal (@length Z)) in H. cbn in H. lia.
Qed.
Print Assumptions C99_last_line_refuted.
Example C99_last_line_ex : plain_document ([] ++ [Par [[PlainProps.ws ["word"]%string]] 1]) [] /\ document_text ([] ++ [Par [[PlainProps.ws ["word"]%string]] 1]) [] = ParseProps.ln "word" ++ ParseProps.ln "".
Proof.
  split; [|reflexivity]. split; [|split; [exact I|constructor]]. constructor; [|constructor]. split; [discriminate|]. constructor; [|constructor]. split; [discriminate|]. constructor; [|constructor]. split; [discriminate|].
  constructor; [|constructor]. apply PlainProps.plain_lit. reflexivity.
Qed.
(** and a text may be written that is not a text to be read at all. *)
Theorem C99_unended_refuted : rewritten (ParseProps.ln "* h") = Done (lit "* h") /\ forall fuel, 100 < fuel -> tokenize (lit "* h") fuel = Throw.
Proof.
  split; [vm_compute; reflexivity|]. intros fuel L. replace fuel with (100 + (fuel - 100)) by lia. set (m := fuel - 100). clearbody m. vm_compute. reflexivity.
Qed.
Print Assumptions C99_unended_refuted.

(** *** C100 *)
(** The layout step neither drops nor adds a character that is seen, whatever the blocks and the options. *)
Theorem C100_layout : forall fuel fuel' o b out, block_string fuel fuel' o b = Done out -> visible out = visible (texts b).
Proof. exact block_string_visible. Qed.
Print Assumptions C100_layout.
Example C100_layout_ex : exists out,
  block_string 100 100 (mkOpts 0 3 1 2000 100) (WLine [txt "a "; WStack [txt "bc "; WStack []; WLine [txt "d"; WStack [txt "e"; txt "f"]]]]) = Done out /\ visible out = lit "abcdef".
Proof. remember (block_string 100 100 (mkOpts 0 3 1 2000 100) (WLine [txt "a "; WStack [txt "bc "; WStack []; WLine [txt "d"; WStack [txt "e"; txt "f"]]]])) as o eqn:E. vm_compute in E. subst o. eexists. split; reflexivity. Qed.

(** If a tree of the kinds in [keeps] is written, its words are in the text, in their order. *)
Lemma within_visible : forall l m : str, within l m -> within (visible l) (visible m).
Proof. intros l m H. now apply within_filter. Qed.
Theorem C100_words_partial : forall pretty time_text real_text diagnostic drawers inl s b fuel fuel' o out,
  keeps s -> fmt pretty time_text real_text diagnostic drawers inl s = Done b -> block_string fuel fuel' o b = Done out ->
  within (visible (concat (words s))) (visible out).
Proof.
  intros pretty time_text real_text diagnostic drawers inl s b fuel fuel' o out K E B. rewrite (block_string_visible _ _ _ _ _ B). apply within_visible.
  exact (keeps_kept pretty time_text real_text diagnostic drawers (weight s) s (le_n _) K inl b E).
Qed.
Print Assumptions C100_words_partial.
(** So for documents *)
Theorem C100_document_partial : forall pretty time_text real_text diagnostic preamble drawers d subs fuel fuel' o out,
  Forall keeps subs -> formatted pretty time_text real_text diagnostic preamble drawers fuel fuel' o [] (Sem oDocument d [] subs []) = Done out ->
  within (visible (concat (words (Sem oDocument d [] subs [])))) (visible out).
Proof.
  intros pretty time_text real_text diagnostic preamble drawers d subs fuel fuel' o out K E. unfold formatted in E. destruct (rbind_done _ _ _ E) as (b & Eb & B).
  apply (C100_words_partial pretty time_text real_text diagnostic drawers false _ b fuel fuel' o out); [apply keeps_wrapped; [reflexivity|exact K]|exact Eb|exact B].
Qed.
Print Assumptions C100_document_partial.
Definition mixed_text : str :=
  ParseProps.ln "* Head *two*" ++ ParseProps.ln "" ++ ParseProps.ln "- item one" ++ ParseProps.ln "- term :: more" ++ ParseProps.ln "" ++ ParseProps.ln "#+begin_quote" ++ ParseProps.ln "said [[http://x.y][so]]" ++ ParseProps.ln "#+end_quote" ++
  ParseProps.ln "" ++ ParseProps.ln "| a | b |".
Definition read_tree (s : str) : sem := match read s with Done (_, d) => d | _ => node oErrorGroup [] end.
Example C100_words_ex : keeps (read_tree mixed_text) /\ words (read_tree mixed_text) = map (fun w => lit w) ["Head"; "two"; "item"; "one"; "term"; "more"; "said"; "so"; "a"; "b"]%string /\
  exists out, rewritten mixed_text = Done out.
Proof.
  remember (read_tree mixed_text) as t eqn:E. vm_compute in E. subst t. split; [|split; [reflexivity|]].
  - assert (P : forall d subs, match subs with [x] => is_a oLink x | _ => false end = false -> Forall keeps subs -> keeps (Sem oParagraph d [] subs [])).
    { intros d subs N F. apply keeps_paragraph; auto. intros x -> L. cbn in N. congruence. }
    repeat first [apply Forall_nil | apply Forall_cons | apply keeps_silent; reflexivity | eapply keeps_word; reflexivity | apply P; [reflexivity|] | apply keeps_wrapped; [reflexivity|]
      | apply keeps_described; [solve [auto]| |] | apply keeps_heading; [|discriminate| |] | apply keeps_item | apply keeps_described_item | apply keeps_table | apply row_kept; [reflexivity|] | apply cell_kept; [reflexivity|] | apply keeps_carried; [reflexivity|]].
  - remember (rewritten mixed_text) as o eqn:E. vm_compute in E. subst o. eexists. reflexivity.
Qed.
(** Not so in other trees. A line break between two marks goes and the words beside it become one; *)
Theorem C100_break_refuted : rewritten (ParseProps.ln "x *a" ++ ParseProps.ln "b* y") = Done (lit "x *ab* y").
Proof. vm_compute. reflexivity. Qed.
Print Assumptions C100_break_refuted.
(** what was read as an error is written as the message alone, without the text; *)
Theorem C100_error_refuted : words (read_tree (ParseProps.ln "#+begin_center" ++ ParseProps.ln "foo")) = [lit "foo"] /\ exists out, rewritten (ParseProps.ln "#+begin_center" ++ ParseProps.ln "foo") = Done out /\ ~ within (lit "foo") out.
Proof.
  split; [vm_compute; reflexivity|]. remember (rewritten (ParseProps.ln "#+begin_center" ++ ParseProps.ln "foo")) as o eqn:E. vm_compute in E. subst o. eexists. split; [reflexivity|].
  intros W. cbn in W. repeat match goal with H : within (_ :: _) _ |- _ => inversion H; subst; clear H end.
Qed.
Print Assumptions C100_error_refuted.
(** an include, and the formulas of a table, as the name of a function of the program. *)
Theorem C100_include_refuted : rewritten (ParseProps.ln "#+include: file.org") = Done (lit "SIGNATURE").
Proof. vm_compute. reflexivity. Qed.
Print Assumptions C100_include_refuted.

(** *** C101 *)
(** Formatting again does not change the text: true of plain documents, *)
Theorem C101_plain_partial : forall ps ss o fuel pretty time_text real_text diagnostic preamble drawers,
  plain_document ps ss -> ps <> [] \/ ss <> [] -> (Z.of_nat (length (document_text ps (map tidied ss))) <= 2 ^ 28)%Z ->
  options_ok o -> (right_margin o <= 4096)%Z -> (0 <= linebreak_cost o)%Z -> Z.to_nat (2 ^ 28) < fuel ->
  exists fuel0, forall fuel', fuel0 <= fuel' ->
    exists s, formatted pretty time_text real_text diagnostic preamble drawers fuel fuel' o [] (document_tree ps ss) = Done s /\
      forall fuel1 n time_ok float_ok tblfm_ok columns_ok log_entry property options, S (length s) < fuel1 -> 4 * S (length s) + 4 < n ->
      exists ts toks us sets doc, tokenize (s ++ [10%Z]) fuel1 = Ok ts /\ convert_tokens ts = Ok toks /\
        parse_full toks n = Ok (preorder (TreeSpec.Branch nStmtList us)) /\
        convert_document toks time_ok float_ok tblfm_ok columns_ok log_entry property options n (TreeSpec.Branch nStmtList us) = Done (sets, doc) /\
        formatted pretty time_text real_text diagnostic preamble drawers fuel fuel' o sets doc = Done s.
Proof.
  intros ps ss o fuel pretty time_text real_text diagnostic preamble drawers D N Sz Ho Hr Hc Hf.
  destruct (C99_round_trip ps ss o fuel pretty time_text real_text diagnostic preamble drawers D N Sz Ho Hr Hc Hf) as (f0 & G). exists f0. intros f' L.
  destruct (G f' L) as (s & E & R). exists s. split; [exact E|]. intros fuel1 n time_ok float_ok tblfm_ok columns_ok log_entry property options Lf Ln.
  destruct (R fuel1 n time_ok float_ok tblfm_ok columns_ok log_entry property options Lf Ln) as (ts & toks & us & A & B & C & F). exists ts, toks, us, [], (document_tree ps ss). auto.
Qed.
Print Assumptions C101_plain_partial.
(** not of all. With every formatting an example block has more empty lines, *)
Definition again (s : str) : res str := x <- rewritten s ;; rewritten (x ++ [10%Z]).
Definition breaks (s : res str) : nat := match s with Done s => length (filter (Z.eqb 10) s) | _ => 0 end.
Example C101_sample : exists s, again (document_text PlainProps.sample_head PlainProps.sample) = Done s /\ rewritten (document_text PlainProps.sample_head PlainProps.sample) = Done s.
Proof. remember (rewritten (document_text PlainProps.sample_head PlainProps.sample)) as o eqn:E. vm_compute in E. subst o. eexists. split; [|reflexivity]. vm_compute. reflexivity. Qed.
Theorem C101_example_refuted : let t := ParseProps.ln "#+begin_example" ++ ParseProps.ln "a" ++ ParseProps.ln "b" ++ ParseProps.ln "#+end_example" in
  breaks (Done t) = 4 /\ breaks (rewritten t) = 5 /\ breaks (again t) = 11.
Proof. cbv zeta. split; [reflexivity|]. split; vm_compute; reflexivity. Qed.
Print Assumptions C101_example_refuted.
(** and so has a list with a term and two paragraphs. *)
Theorem C101_term_refuted : let t := ParseProps.ln "- a :: b" ++ ParseProps.ln "" ++ ParseProps.ln "  c" in
  breaks (Done t) = 3 /\ breaks (rewritten t) = 3 /\ breaks (again t) = 4.
Proof. cbv zeta. split; [reflexivity|]. split; vm_compute; reflexivity. Qed.
Print Assumptions C101_term_refuted.
(** A target becomes a radio target, and a heading without a title cannot be written. *)
Theorem C101_target_refuted : rewritten (ParseProps.ln "a <<t>>") = Done (lit "a <<<t>>>").
Proof. vm_compute. reflexivity. Qed.
Print Assumptions C101_target_refuted.
Theorem C101_empty_title_refuted : (exists p, read (ParseProps.ln "* ") = Done p) /\ rewritten (ParseProps.ln "* ") = Thrown.
Proof. split; [|vm_compute; reflexivity]. remember (read (ParseProps.ln "* ")) as o eqn:E. vm_compute in E. subst o. eexists. reflexivity. Qed.
Print Assumptions C101_empty_title_refuted.
