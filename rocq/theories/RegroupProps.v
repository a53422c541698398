(** Theorems about the regrouping of tokens. *)
From Coq Require Import String.
From Verif Require Import Base StrModel TokKind TokModel TokSpec TokProps RegroupModel RegroupSpec RegroupProofs.
From Verif Require RegroupTotal.
Local Open Scope nat_scope.

(** *** C68 *)
(** Regrouping drops no token, adds only markers, changes no order, and changes the text only by removing spaces
    from the beginning of a line of source code. *)
Theorem C68_regroup_keeps_tokens : forall ts x, regroup ts = Ok x -> Forall2 kept ts (base_tokens x).
Proof. exact regroup_kept. Qed.
Print Assumptions C68_regroup_keeps_tokens.
(** Grouping never runs out of steps: once a document is cut into lines they can be grouped. *)
Theorem C68_grouping_finishes : forall ts ls, to_lines [] ts = Ok ls -> exists gs, to_groups ls = Ok gs.
Proof. intros ts ls. apply to_groups_total. Qed.
Print Assumptions C68_grouping_finishes.

(** A document with a list in which there is a source block, as the lexer gives it *)
Definition doc : str :=
  ln "- one" ++ ln "  text" ++ ln "  #+begin_src c" ++ ln "    f();" ++ ln "" ++ ln "   g();" ++ ln "  #+end_src" ++ ln "- two" ++ ln "    - three" ++ ln "end".
Example doc_tokens : exists ts x, tokenize doc 300 = Ok ts /\ regroup ts = Ok x /\
  ts <> base_tokens x /\ length ts = 31 /\
  map (fun i => match i with Mark k => Some k | _ => None end) (filter (fun i => match i with Mark _ => true | _ => false end) x)
    = [Some kIndent; Some kSameIndent; Some kIndent; Some kDedent; Some kDedent].
Proof.
  remember (tokenize doc 300) as o eqn:E. vm_compute in E. subst o. eexists _, _. split; [reflexivity|].
  split; [vm_compute; reflexivity|]. split; [discriminate|]. split; vm_compute; reflexivity.
Qed.

(** *** C69 *)
(** The markers for nesting are balanced whatever the input: a level is never closed that is not open and all are
    closed at the end. *)
Theorem C69_markers_balanced : forall ts x, regroup ts = Ok x -> levels 0 x = Some 0.
Proof. exact regroup_levels. Qed.
Print Assumptions C69_markers_balanced.
(** In a plain list where every item is indented more than all open lists or like one of them, each item comes
    right after a marker and is nested as deeply as there are items before it that it is indented under. *)
Theorem C69_list_nesting_partial : forall ls is, Forall2 item_line ls is -> regular_indents (map (pair true) is) [] ->
  exists x, regroup (concat ls) = Ok x /\
  forall k l, nth_error ls k = Some l -> exists a z, x = a ++ map Base l ++ z /\
    base_tokens a = concat (firstn k ls) /\
    levels 0 a = Some (length (open_lists (map (pair true) (firstn (S k) is)) [])) /\ ends_with_marker a.
Proof. exact list_nesting. Qed.
Print Assumptions C69_list_nesting_partial.

Definition item_tokens (p : nat) (sp : nat) (w : string) : list token :=
  [Token kLeadingMinus (repeat 32%Z sp ++ lit "-") p 0 0; Token kWhitespace (lit " ") (p + sp + 1) 0 0;
   Token kWord (lit w) (p + sp + 2) 0 0; Token kNewline [10%Z] (p + sp + 2 + String.length w) 0 0].
Lemma item_tokens_line : forall p sp w, length (filter (Z.eqb 32) (repeat 32%Z sp ++ lit "-")) = sp -> item_line (item_tokens p sp w) (sp + 2).
Proof. intros p sp w E. eexists _, _, [_], _. split; [reflexivity|]. cbn [kind text]. rewrite E. cbn. repeat split; auto. Qed.
Definition three_levels : list (list token) :=
  [item_tokens 0 0 "a"; item_tokens 10 2 "b"; item_tokens 20 6 "c"; item_tokens 30 2 "d"; item_tokens 40 0 "e"].
Example C69_three_levels : Forall2 item_line three_levels [2; 4; 8; 4; 2] /\
  regular_indents (map (pair true) [2; 4; 8; 4; 2]) [] /\
  map (fun k => length (open_lists (map (pair true) (firstn (S k) [2; 4; 8; 4; 2])) [])) [0; 1; 2; 3; 4] = [1; 2; 3; 2; 1].
Proof.
  split; [repeat (apply Forall2_cons; [exact (item_tokens_line _ _ _ eq_refl)|]); apply Forall2_nil|]. split; [|reflexivity]. cbn. intuition (auto; right; repeat constructor; lia).
Qed.

(** An item that is indented less than the first one of the list, or between two levels, has no marker: it is
    neither a sibling nor a new list. *)
Theorem C69_list_nesting_refuted : ~ (forall ls is x, Forall2 item_line ls is -> regroup (concat ls) = Ok x ->
  forall k l, nth_error ls k = Some l -> exists a z, x = a ++ map Base l ++ z /\ ends_with_marker a).
Proof.
  intro H. specialize (H [item_tokens 0 4 "a"; item_tokens 10 2 "b"] [6; 4]).
  destruct (regroup (concat [item_tokens 0 4 "a"; item_tokens 10 2 "b"])) as [x| | |] eqn:E; try discriminate E.
  specialize (H x). assert (F : Forall2 item_line [item_tokens 0 4 "a"; item_tokens 10 2 "b"] [6; 4]) by (repeat (apply Forall2_cons; [exact (item_tokens_line _ _ _ eq_refl)|]); apply Forall2_nil).
  specialize (H F eq_refl 1 _ eq_refl). revert H. apply not_after_marker. vm_compute in E. injection E as <-. vm_compute. reflexivity.
Qed.
Print Assumptions C69_list_nesting_refuted.
(** The same from the text: the two items are separated by nothing but a closed level. *)
Example C69_outdented_text :
  omap (map (fun i => match i with Mark k => k | Base t => kind t end)) (obind (tokenize (ln "    - a" ++ ln "  - b") 100) regroup)
  = Ok [kIndent; kLeadingMinus; kWhitespace; kWord; kNewline; kDedent; kLeadingMinus; kWhitespace; kWord; kNewline].
Proof. vm_compute. reflexivity. Qed.
Example C69_between_text :
  omap (map (fun i => match i with Mark k => k | Base t => kind t end)) (obind (tokenize (ln "- a" ++ ln "    - b" ++ ln "  - c") 100) regroup)
  = Ok [kIndent; kLeadingMinus; kWhitespace; kWord; kNewline; kIndent; kLeadingMinus; kWhitespace; kWord; kNewline;
        kDedent; kLeadingMinus; kWhitespace; kWord; kNewline; kDedent].
Proof. vm_compute. reflexivity. Qed.

(** *** C70 *)
(** From the lines of a source block exactly the common indentation is removed, the same from every line, and
    nothing else is changed. *)
Theorem C70_source_deindented_partial : forall b i ls e, begin_src b i -> Forall code_line ls -> end_src e ->
  exists n, common_indent n i ls /\ regroup (b ++ concat ls ++ e) = Ok (map Base (b ++ concat (map (strip n) ls) ++ e)).
Proof. exact source_block. Qed.
Print Assumptions C70_source_deindented_partial.
Definition tok1 (k : tk) (s : string) : token := Token k (lit s) 0 0 0.
Definition nl1 : token := Token kNewline [10%Z] 0 0 0.
Definition src_begin : list token := [tok1 kLeadingSpace "  "; tok1 kLineCommand "#+"; tok1 kCmdSrcBegin "begin_src"; nl1].
Definition src_end : list token := [tok1 kCmdSrcEnd "  #+end_src"; nl1].
Definition src_code : list (list token) :=
  [[tok1 kSrcContent "    f();"; nl1]; [tok1 kSrcContent ""; nl1];
   [tok1 kSrcContent "   "; tok1 kDoubleAngleBegin "<<"; tok1 kSrcContent "g"; tok1 kDoubleAngleEnd ">>"; nl1]].
Example C70_sample : begin_src src_begin 2 /\ Forall code_line src_code /\ end_src src_end /\ common_indent 2 2 src_code.
Proof.
  split; [eexists [_], _, _, [], _; split; [reflexivity|]; repeat split; auto; right; eexists; repeat split|].
  split; [|split].
  - constructor; [eexists _, [], _; split; [reflexivity|]; repeat split; auto|]. constructor; [eexists _, [], _; split; [reflexivity|]; repeat split; auto|].
    constructor; [eexists _, [_; _; _], _; split; [reflexivity|]; repeat split; auto|constructor].
  - eexists _, [], _. split; [reflexivity|]. repeat split; auto.
  - split; [auto|]. split; [|now left]. intros l [<-|[<-|[<-|[]]]] H; try discriminate H; vm_compute; lia.
Qed.
(** The end-to-end version from the text *)
Example C70_text :
  omap (fun x => map text (filter (fun t => match kind t with kSrcContent => true | _ => false end) (base_tokens x)))
    (obind (tokenize (ln "  #+begin_src c" ++ ln "    f();" ++ ln "" ++ ln "   g();" ++ ln "  #+end_src") 100) regroup)
  = Ok [lit "  f();"; []; lit " g();"].
Proof. vm_compute. reflexivity. Qed.
(** A line of nothing but spaces counts: one that is shorter than the indentation of the code keeps the code from
    being moved to the left. *)
Theorem C70_blank_line_refuted : ~ (forall b i ls e, begin_src b i -> Forall code_line ls -> end_src e ->
  exists n, common_indent n i (filter (fun l => negb (forallb (fun t => forallb (fun c => orb (c =? 32) (c =? 10))%Z (text t)) l)) ls) /\
    regroup (b ++ concat ls ++ e) = Ok (map Base (b ++ concat (map (strip n) ls) ++ e))).
Proof.
  intro H. specialize (H src_begin 2 [[tok1 kSrcContent "  f();"; nl1]; [tok1 kSrcContent " "; nl1]] src_end).
  destruct C70_sample as (B & _ & E & _). destruct (H B) as (n & (L & C & D) & R); auto.
  { constructor; [eexists _, [], _; split; [reflexivity|]; repeat split; auto|]. constructor; [eexists _, [], _; split; [reflexivity|]; repeat split; auto|constructor]. }
  cbn in D. assert (n = 2) by (destruct D as [D|(l & [<-|[]] & _ & D)]; exact D). subst n. vm_compute in R. discriminate R.
Qed.
Print Assumptions C70_blank_line_refuted.

(** *** C71 *)
(** Between two items with the same indentation the list goes on, unless two empty lines follow the first: then it
    ends and another one begins. *)
Theorem C71_list_break_partial : forall ls is, Forall2 item_line ls is -> regular_indents (map (pair true) is) [] ->
  exists x, regroup (concat ls) = Ok x /\
  forall k l l' i, nth_error ls k = Some l -> nth_error ls (S k) = Some l' -> nth_error is k = Some i -> nth_error is (S k) = Some i ->
    exists a z, x = a ++ map Base l ++ between l ++ map Base l' ++ z.
Proof. exact list_siblings. Qed.
Print Assumptions C71_list_break_partial.
Example C71_text :
  omap (map (fun i => match i with Mark k => k | Base t => kind t end)) (obind (tokenize (ln "- a" ++ ln "" ++ ln "" ++ ln "- b" ++ ln "- c") 100) regroup)
  = Ok [kIndent; kLeadingMinus; kWhitespace; kWord; kLongNewline; kDedent; kIndent; kLeadingMinus; kWhitespace; kWord; kNewline;
        kSameIndent; kLeadingMinus; kWhitespace; kWord; kNewline; kDedent].
Proof. vm_compute. reflexivity. Qed.
(** The two empty lines are overlooked when the item has more than one line. *)
Theorem C71_list_break_refuted : exists s ts x,
  s = ln "- a" ++ ln "  more" ++ ln "" ++ ln "" ++ ln "- b" /\ tokenize s 100 = Ok ts /\ regroup ts = Ok x /\
  (exists t, In t ts /\ kind t = kLongNewline) /\
  In (Mark kSameIndent) x /\ length (filter (fun i => match i with Mark kIndent => true | _ => false end) x) = 1.
Proof.
  eexists _, _, _. split; [reflexivity|]. split; [vm_compute; reflexivity|]. split; [vm_compute; reflexivity|].
  split; [eexists; split; [do 6 right; left; reflexivity|reflexivity]|]. split; [vm_compute; tauto|reflexivity].
Qed.
Print Assumptions C71_list_break_refuted.

(** *** C73 *)
(** Whatever the lexer makes of a text can be regrouped, as long as no source block is closed in the middle of a
    line. *)
Theorem C73_regroup_succeeds_partial : forall txt fuel ts,
  tokenize txt fuel = Ok ts -> angles_before_text txt -> exists x, regroup ts = Ok x.
Proof. intros txt fuel ts H A. eapply RegroupTotal.tokenize_regroup; eauto. Qed.
Print Assumptions C73_regroup_succeeds_partial.
(** Texts for which lexing and regrouping succeed *)
Theorem C73_document_partial : forall txt fuel,
  ends_with_newline txt -> whole_characters txt -> links_closed txt -> blocks_closed txt -> angles_before_text txt ->
  length txt < fuel -> exists ts x, tokenize txt fuel = Ok ts /\ regroup ts = Ok x /\ Forall2 kept ts (base_tokens x) /\ levels 0 x = Some 0.
Proof.
  intros txt fuel A B C D E F. destruct (C66_tokenize_succeeds_partial txt fuel A B C D F) as (ts & T).
  destruct (C73_regroup_succeeds_partial _ _ _ T E) as (x & R). exists ts, x. repeat split; auto using regroup_kept.
  eapply regroup_levels; eauto.
Qed.
Print Assumptions C73_document_partial.
Example C73_sample : angles_before_text sample.
Proof.
  intros p k H [r K].
  assert (L : p < 49). { destruct H as [H|H]; pose proof (at_lt _ _ _ _ H); change (length sample) with 49 in *; lia. }
  destruct H as [[s H]|[s H]]; do 49 (destruct p as [|p]; [try discriminate; destruct k as [|[|k]]; discriminate|]); lia.
Qed.

(** A source block that is closed right after double angle brackets takes the text after it with it; if there is a
    block in that text, an exception leaves the conversion. *)
Theorem C73_regroup_succeeds_refuted : exists txt fuel ts,
  ends_with_newline txt /\ tokenize txt fuel = Ok ts /\ regroup ts = Throw.
Proof.
  exists (ln "#+begin_src c" ++ ln "x" ++ ln "<<#+end_src" ++ ln "#+begin_quote" ++ ln "y" ++ ln "#+end_quote"), 300. eexists.
  split; [exists (lit "#+begin_src c" ++ [10%Z] ++ lit "x" ++ [10%Z] ++ lit "<<#+end_src" ++ [10%Z] ++ lit "#+begin_quote" ++ [10%Z] ++ lit "y" ++ [10%Z] ++ lit "#+end_quote"); reflexivity|].
  split; vm_compute; reflexivity.
Qed.
Print Assumptions C73_regroup_succeeds_refuted.
