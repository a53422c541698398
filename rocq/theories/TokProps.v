(** Theorems about the base lexer. *)
From Coq Require Import String.
From Verif Require Import Base StrModel TokKind TokModel TokSpec TokProofs TokRun.
From Verif Require TokProse TokKinds.
From Verif Require Import RegroupModel.
Local Open Scope nat_scope.

(** A text is given by its lines here; each of them is followed by a newline. *)
Definition ln (s : string) : str := lit s ++ [10%Z].

(** ** C65: the tokens are the text, cut into pieces *)

Theorem C65_tokens_are_the_text : forall txt fuel ts,
  tokenize txt fuel = Ok ts -> concat (map text ts) = txt /\ laid_out 0 ts.
Proof. intros txt fuel ts H. destruct (tokenize_spec _ _ _ H) as (A & B & _). auto. Qed.
Print Assumptions C65_tokens_are_the_text.

Example C65_sample :
  exists ts, tokenize (ln "* head" ++ ln "  - a [[file:x][y]] =z=") 100 = Ok ts /\ length ts = 19.
Proof. eexists. split; vm_compute; reflexivity. Qed.

(** In a text without multi-byte characters the column of every token is the one of its offset; newlines carry the
    position after them instead. *)
Theorem C65_columns : forall txt fuel ts t,
  Forall (fun c => c < 192)%Z txt -> tokenize txt fuel = Ok ts -> In t ts -> is_newline_kind (kind t) = false ->
  tcol t = column_of txt (tpos t).
Proof.
  intros txt fuel ts t A H I N. destruct (tokenize_spec _ _ _ H) as (_ & _ & C). specialize (C A).
  rewrite Forall_forall in C. destruct (C t I); congruence.
Qed.
Print Assumptions C65_columns.

Example C65_columns_sample :
  map (fun t => (tcol t, column_of (ln "* a b" ++ ln "- c") (tpos t)))
      (match tokenize (ln "* a b" ++ ln "- c") 100 with Ok ts => ts | _ => [] end)
  = [(0, 0); (1, 1); (2, 2); (3, 3); (4, 4); (0, 5); (0, 0); (1, 1); (2, 2); (0, 3)].
Proof. vm_compute. reflexivity. Qed.

(** The line of a token is not the line it is on: every token but a newline says line 0. *)
Theorem C65_lines_refuted : exists txt fuel ts t,
  tokenize txt fuel = Ok ts /\ In t ts /\ is_newline_kind (kind t) = false /\ tline t <> line_of txt (tpos t).
Proof.
  exists (ln "a" ++ ln "b"), 100. eexists. exists (Token kWord (lit "b") 2 0 0).
  split; [vm_compute; reflexivity|]. split; [cbn; tauto|]. split; [reflexivity|]. vm_compute. discriminate.
Qed.
Print Assumptions C65_lines_refuted.

(** After a character of several bytes the column is not the number of bytes: punctuation counts as one column
    whatever its size, while comments, raw text and all other tokens count bytes. *)
Theorem C65_columns_bytes_refuted : exists txt fuel ts t,
  tokenize txt fuel = Ok ts /\ In t ts /\ is_newline_kind (kind t) = false /\ tcol t <> column_of txt (tpos t).
Proof.
  exists ([195; 169]%Z ++ ln "b"), 100. eexists. exists (Token kWord (lit "b") 2 1 0).
  split; [vm_compute; reflexivity|]. split; [cbn; tauto|]. split; [reflexivity|]. vm_compute. discriminate.
Qed.
Print Assumptions C65_columns_bytes_refuted.

(** ** C66: the lexer gets through a text *)

(** Every text that ends with a newline, has no cut-off character at the end, and in which links and verbatim
    blocks are closed. *)
Theorem C66_tokenize_succeeds_partial : forall txt fuel,
  ends_with_newline txt -> whole_characters txt -> links_closed txt -> blocks_closed txt ->
  length txt < fuel -> exists ts, tokenize txt fuel = Ok ts.
Proof. intros. now apply tokenize_fine. Qed.
Print Assumptions C66_tokenize_succeeds_partial.

Definition sample : str := ln "* [[file:a][b]]" ++ ln "#+begin_src c" ++ ln " x <<y>>" ++ ln "#+end_src".
Lemma at_lt : forall txt p x s, at_ txt p (x :: s) -> p < length txt.
Proof.
  intros txt p x s [r H]. destruct (Nat.lt_ge_cases p (length txt)); auto. rewrite skipn_all2 in H by auto. discriminate.
Qed.
Example C66_sample_meets :
  ends_with_newline sample /\ whole_characters sample /\ links_closed sample /\ blocks_closed sample /\ length sample = 49.
Proof.
  split; [|split; [|split; [|split; [|reflexivity]]]].
  - exists (removelast sample). reflexivity.
  - intros p c H B. exfalso. apply nth_error_In in H. assert (F : forallb (fun c => c <? 240)%Z sample = true) by reflexivity.
    rewrite forallb_forall in F. apply F in H. lia.
  - intros p w _ _ H. pose proof (at_lt _ _ _ _ H) as L. change (length sample) with 49 in L. destruct H as [r H].
    do 2 (destruct p as [|p]; [discriminate|]). destruct p as [|p].
    { exists 10. split; [lia|]. right. exists (skipn 12 sample). reflexivity. }
    do 49 (destruct p as [|p]; [discriminate|]). lia.
  - intros name p I (B & k & w & r & H & _ & _ & N).
    assert (L : p < 49). { destruct (Nat.lt_ge_cases p 49); auto. rewrite skipn_all2 in H by auto. destruct k; discriminate. }
    assert (SRC : p = 16 \/ (p = 39 /\ w ++ r = skipn 41 sample /\ k = 0) \/ p <> 16 /\ p <> 39) by (destruct (Nat.eq_dec p 16); [auto|];
      destruct (Nat.eq_dec p 39); [|auto]; subst p; right; left; destruct k; [injection H as H; auto|discriminate]).
    destruct SRC as [-> | [(-> & W & _) | [N1 N2]]].
    + exists 39. split; [lia|]. split; [right; reflexivity|]. exists 0, (lit "end"), [95%Z].
      assert (S : name = lit "src").
      { destruct k; [|discriminate]. injection H as H. cbn in I. decompose [or] I; subst; auto; try contradiction; exfalso;
        do 8 (destruct w as [|?c w]; [discriminate N|]; let E := fresh in injection H as E H; subst; try discriminate N). }
      subst name. exists (lit "src"), [10%Z]. split; [reflexivity|]. split; [reflexivity|]. split; [now right|reflexivity].
    + exfalso. destruct w as [|c w]; [discriminate|]. vm_compute in W. injection W as W _. subst c. discriminate N.
    + exfalso. destruct B as [->|B].
      * destruct k; discriminate.
      * do 49 (destruct p as [|p]; [try discriminate; try congruence; destruct k as [|[|k]]; discriminate|]). lia.
Qed.

(** None of the four conditions can be left out. *)
Theorem C66_no_newline_refuted : exists fuel, 100 < fuel /\ tokenize (lit "at 12:30") fuel = Throw.
Proof. exists 200. split; [lia|]. vm_compute. reflexivity. Qed.
Print Assumptions C66_no_newline_refuted.
Theorem C66_no_newline_word_refuted : exists fuel, 100 < fuel /\ tokenize (lit "a h") fuel = Throw.
Proof. exists 200. split; [lia|]. vm_compute. reflexivity. Qed.
Print Assumptions C66_no_newline_word_refuted.
Theorem C66_cut_character_refuted : exists fuel, 100 < fuel /\ tokenize [240; 159; 10]%Z fuel = Throw.
Proof. exists 200. split; [lia|]. vm_compute. reflexivity. Qed.
Print Assumptions C66_cut_character_refuted.
(** An open link is a read through an empty optional, an open block the end of the process. *)
Theorem C66_open_link_refuted : exists fuel, 100 < fuel /\ tokenize (ln "see [[file:a") fuel = UB.
Proof. exists 200. split; [lia|]. vm_compute. reflexivity. Qed.
Print Assumptions C66_open_link_refuted.
Theorem C66_open_block_refuted : exists fuel, 100 < fuel /\ tokenize (ln "#+begin_src c" ++ ln "x") fuel = UB.
Proof. exists 200. split; [lia|]. vm_compute. reflexivity. Qed.
Print Assumptions C66_open_block_refuted.

(** A lone colon at the end of a command on the last line of a text without a final newline: no number of
    steps is enough. *)
Theorem C66_colon_diverges_refuted : forall fuel, tokenize (lit "#+attr_x: :") fuel = Fuel.
Proof.
  intros fuel. do 12 (destruct fuel as [|fuel]; [reflexivity|]). vm_compute. reflexivity.
Qed.
Print Assumptions C66_colon_diverges_refuted.

(** *** C67 *)
(** Lines of words with single spaces between them give a token for every word, space and line end. *)
Theorem C67_plain_text_partial : forall lines fuel, lines <> [] ->
  Forall (fun ws => ws <> [] /\ Forall plain_word ws) lines -> length (concat (map line_text lines)) < fuel ->
  exists ts, tokenize (concat (map line_text lines)) fuel = Ok ts /\
    map (fun t => (kind t, text t)) ts = concat (map line_tokens lines).
Proof. exact TokProse.tokenize_prose. Qed.
Print Assumptions C67_plain_text_partial.
Example C67_sample :
  let lines := [[lit "The"; lit "src"; lit "Clock"]; [lit "Heat"]] in
  Forall (fun ws => ws <> [] /\ Forall plain_word ws) lines /\ concat (map line_text lines) = ln "The src Clock" ++ ln "Heat".
Proof.
  cbv zeta. split; [|reflexivity].
  assert (P : forall w, Forall (fun c => is_alpha c = true) w -> w <> [] -> map to_lower (firstn 4 w) <> lit "http" ->
    map to_lower (firstn 3 w) <> lit "src" \/ length w = 3 -> plain_word w).
  { intros w A B C [D|D]; repeat split; auto. intros E. congruence. }
  repeat match goal with
  | |- Forall _ [] => apply Forall_nil
  | |- Forall (fun ws => _ /\ _) (_ :: _) => apply Forall_cons; [split; [discriminate|]|]
  | |- Forall plain_word (_ :: _) => apply Forall_cons; [apply P; [repeat constructor|discriminate|discriminate|solve [left; discriminate|right; reflexivity]]|]
  end.
Qed.
(** A word that begins with "src" is taken for inline source code, and everything after it for the code. *)
Theorem C67_plain_text_refuted : exists ts, tokenize (ln "srcs are" ++ ln "nice") 100 = Ok ts /\
  map (fun t => (kind t, text t)) ts =
  [(kTextSrcBegin, lit "srcs"); (kCurlyBegin, lit " "); (kRawText, lit "are" ++ [10%Z] ++ lit "nice" ++ [10%Z]); (kCurlyEnd, [])].
Proof. eexists. split; vm_compute; reflexivity. Qed.
Print Assumptions C67_plain_text_refuted.
(** The separator row of an indented table takes as many characters of the next row as it is indented. *)
Theorem C67_separator_refuted : exists ts, tokenize (ln "  |---|" ++ ln "  | a |") 100 = Ok ts /\
  hd_error (map (fun t => (kind t, text t)) ts) = Some (kTableSeparator, lit "  |---|" ++ [10%Z] ++ lit " ").
Proof. eexists. split; vm_compute; reflexivity. Qed.
Print Assumptions C67_separator_refuted.

(** *** C72 *)
(** The kind of a token says what its text is: [looks_like] lists the spelling for every kind. *)
Theorem C72_tokens_look_like_their_kind : forall txt fuel ts t,
  tokenize txt fuel = Ok ts -> In t ts -> looks_like (kind t) (text t).
Proof.
  intros txt fuel ts t H I. destruct (TokKinds.tokenize_kinds _ _ _ H) as (G & _ & _). rewrite Forall_forall in G. apply (G t I).
Qed.
Print Assumptions C72_tokens_look_like_their_kind.
(** In particular a newline token is one newline, an indented item has spaces and its marker, and headings have
    nothing but stars. *)
Theorem C72_newlines_and_markers : forall txt fuel ts t,
  tokenize txt fuel = Ok ts -> In t ts ->
  (kind t = kNewline -> text t = [10%Z]) /\
  (kind t = kLeadingMinus -> exists k, text t = repeat 32%Z k ++ lit "-") /\
  (kind t = kSubtreeStars -> text t <> [] /\ Forall (fun c => c = 42%Z) (text t)) /\
  (kind t = kCmdTitle -> normalize (text t) = lit "title").
Proof.
  intros txt fuel ts t H I. pose proof (C72_tokens_look_like_their_kind _ _ _ _ H I) as L.
  split; [|split; [|split]]; intros K; rewrite K in L; cbn in L.
  - exact L.
  - destruct L as (k & r & E & <-). eauto.
  - destruct L as [N L]. split; [exact N|]. eapply Forall_impl; [|exact L]. intros c E. cbv beta in E. lia.
  - apply L.
Qed.
Print Assumptions C72_newlines_and_markers.
(** A command is always followed by its name. *)
Theorem C72_command_has_a_name : forall txt fuel ts a t r,
  tokenize txt fuel = Ok ts -> ts = a ++ t :: r -> kind t = kLineCommand ->
  exists u r', r = u :: r' /\ which_block_line (kind u) <> None.
Proof.
  intros txt fuel ts a t r H -> K. destruct (TokKinds.tokenize_kinds _ _ _ H) as (_ & C & _).
  clear H. induction a as [|x a IH]; [exact (proj1 C K)|]. exact (IH (proj2 C)).
Qed.
Print Assumptions C72_command_has_a_name.

Definition kinds_of (txt : str) : list (tk * str) :=
  match tokenize txt 300 with Ok ts => map (fun t => (kind t, text t)) ts | _ => [] end.
Example C72_sample : kinds_of (ln "** A" ++ ln "#+ATTR_x: b" ++ ln "  + [X] 1 =c=") =
  [(kSubtreeStars, lit "**"); (kWhitespace, lit " "); (kWord, lit "A"); (kNewline, [10%Z]);
   (kLineCommand, lit "#+"); (kCmdAttr, lit "ATTR_x:"); (kWhitespace, lit " "); (kCmdRawArg, lit "b"); (kNewline, [10%Z]);
   (kLeadingPlus, lit "  +"); (kWhitespace, lit " "); (kCheckbox, lit "[X]"); (kWhitespace, lit " "); (kNumber, lit "1");
   (kWhitespace, lit " "); (kEquals, lit "="); (kWord, lit "c"); (kEquals, lit "="); (kNewline, [10%Z])].
Proof. vm_compute. reflexivity. Qed.

(** Some kinds are never given, in particular none of the LaTeX commands that the parser has cases for: the names
    they are looked up by have underscores, which are removed from the command first. *)
Theorem C72_latex_commands_refuted :
  (exists ts, tokenize (ln "#+latex_class: article") 100 = Ok ts /\ map kind ts = [kLineCommand; kCmdCustomRaw; kRawText; kNewline]) /\
  forall txt fuel ts t, tokenize txt fuel = Ok ts -> In t ts ->
    ~ In (kind t) [kCmdLatexClass; kCmdLatexClassOptions; kCmdLatexCompiler; kCmdLatexHeader].
Proof.
  split; [eexists; split; vm_compute; reflexivity|]. intros txt fuel ts t H I K.
  pose proof (C72_tokens_look_like_their_kind _ _ _ _ H I) as L. cbn [In] in K.
  destruct K as [K|[K|[K|[K|[]]]]]; rewrite <- K in L; exact L.
Qed.
Print Assumptions C72_latex_commands_refuted.
(** A brace may be any character or none. *)
Theorem C72_brace_refuted : exists txt ts t, tokenize txt 100 = Ok ts /\ In t ts /\ kind t = kCurlyBegin /\ text t <> lit "{".
Proof.
  exists (ln "srcs are"). eexists. exists (Token kCurlyBegin (lit " ") 4 4 0). split; [vm_compute; reflexivity|].
  split; [cbn; tauto|]. split; [reflexivity|discriminate].
Qed.
Print Assumptions C72_brace_refuted.
