(** Theorems about the last stage of the tokenizer. *)
From Coq Require Import String.
From Coq Require Import Sorted.
From Verif Require Import Base StrModel TokKind TokModel TokSpec TokProps RegroupModel RegroupSpec RegroupProofs RecombSpec RecombProofs MarkProofs.
Local Open Scope nat_scope.

(** *** C74 *)
(** The final tokens are the regrouped ones in their order, each treated as [recombined] says: markup characters
    get a role, delimiters are cut off, commands get their parts, quoted arguments are put together. *)
Theorem C74_tokens_recombined : forall ts o, convert_tokens ts = Ok o ->
  exists x, regroup ts = Ok x /\ Forall2 kept ts (base_tokens x) /\ recombined (map otok_of x) o.
Proof. intros ts o H. destruct (convert_inv _ _ H) as (x & R & C). exists x. split; [auto|]. split; [now apply regroup_kept|auto]. Qed.
Print Assumptions C74_tokens_recombined.
(** Tokens are in the order of the document and each is located at a token of the lexer. *)
Theorem C74_positions_in_order : forall txt fuel ts o, tokenize txt fuel = Ok ts -> convert_tokens ts = Ok o ->
  StronglySorted le (positions o) /\ incl (positions o) (map tpos ts).
Proof. exact convert_sorted. Qed.
Print Assumptions C74_positions_in_order.
(** No word is lost or changed. *)
Theorem C74_words_survive : forall txt fuel ts o t, tokenize txt fuel = Ok ts -> convert_tokens ts = Ok o -> In t ts -> kind t = kWord ->
  exists t', In t' o /\ otext t' = text t /\ opos t' = Some (tpos t) /\ In (okind t') [kWord; kBigIdent; kCmdRawArg].
Proof. exact words_survive. Qed.
Print Assumptions C74_words_survive.

Definition final (s : str) : outcome (list (tk * str * option nat)) :=
  omap (map (fun t => (okind t, otext t, opos t))) (obind (tokenize s 300) convert_tokens).
Example C74_sample : final (ln "#+attr_html: ""a b"" c" ++ ln "@me *TODO* [fn:x]") = Ok
  [(kCmdPrefix, lit "#+", Some 0); (kCmdAttr, lit "html", Some 2); (kWhitespace, lit " ", Some 12);
   (kCmdRawArg, lit """a b""", Some 13); (kWhitespace, lit " ", Some 18); (kCmdRawArg, lit "c", Some 19); (kNewline, [10%Z], Some 20);
   (kAt, lit "me", Some 21); (kWhitespace, lit " ", Some 24); (kBoldBegin, lit "*", Some 25); (kBigIdent, lit "TODO", Some 26);
   (kBoldEnd, lit "*", Some 30); (kWhitespace, lit " ", Some 31); (kFootnoteLinked, lit "x", Some 32); (kNewline, [10%Z], Some 38)].
Proof. vm_compute. reflexivity. Qed.
Example C74_words_sample : exists ts o t, tokenize (ln "a [fn:x] *TODO*") 100 = Ok ts /\ convert_tokens ts = Ok o /\ In t ts /\ kind t = kWord /\ tpos t = 10.
Proof.
  eexists _, _, (Token kWord (lit "TODO") 10 10 0). split; [vm_compute; reflexivity|]. split; [vm_compute; reflexivity|].
  split; [cbn; tauto|]. split; reflexivity.
Qed.

(** The name of a footnote does not include its brackets, unless the letters in front of it are in upper case. *)
Theorem C74_footnote_refuted :
  final (ln "[fn:a]") = Ok [(kFootnoteLinked, lit "a", Some 0); (kNewline, [10%Z], Some 6)] /\
  final (ln "[FN:a]") = Ok [(kFootnoteLinked, lit "[FN:a", Some 0); (kNewline, [10%Z], Some 6)].
Proof. split; vm_compute; reflexivity. Qed.
Print Assumptions C74_footnote_refuted.
(** The language of inline code is everything after "src_", but the underscore is not required, and then it loses
    its first letter. *)
Theorem C74_inline_source_refuted :
  omap (hd_error (A := _)) (final (ln "src_c{x}")) = Ok (Some (kTextSrcBegin, lit "c", Some 0)) /\
  omap (hd_error (A := _)) (final (ln "srcpython{x}")) = Ok (Some (kTextSrcBegin, lit "ython", Some 0)).
Proof. split; vm_compute; reflexivity. Qed.
Print Assumptions C74_inline_source_refuted.
(** The argument that names a property is the name for one kind of property, and the space or even the line end in
    front of the name for the other. *)
Theorem C74_property_name_refuted :
  final (ln "#+property: header-args c") = Ok
    [(kCmdPrefix, lit "#+", Some 0); (kCmdPropertyArgs, lit "property:", Some 2); (kWhitespace, lit " ", Some 11);
     (kCmdRawArg, lit "header-args", Some 12); (kWhitespace, lit " ", Some 23); (kCmdRawArg, lit "c", Some 24); (kNewline, [10%Z], Some 25)] /\
  final (ln "#+property: description c") = Ok
    [(kCmdPrefix, lit "#+", Some 0); (kCmdPropertyText, lit "property:", Some 2); (kCmdRawArg, lit " ", Some 11);
     (kWord, lit "description", Some 12); (kWhitespace, lit " ", Some 23); (kWord, lit "c", Some 24); (kNewline, [10%Z], Some 25)] /\
  final (ln "#+property:" ++ ln "description c") = Ok
    [(kCmdPrefix, lit "#+", Some 0); (kCmdPropertyText, lit "property:", Some 2); (kCmdRawArg, [10%Z], Some 11);
     (kWord, lit "description", Some 12); (kWhitespace, lit " ", Some 23); (kWord, lit "c", Some 24); (kNewline, [10%Z], Some 25)].
Proof. split; [|split]; vm_compute; reflexivity. Qed.
Print Assumptions C74_property_name_refuted.

(** Text in which there is neither a list nor an indented line nor a block is left as it is. *)
Theorem C68_text_unchanged : forall ts, Forall (fun t => text_kind (kind t) = true) ts -> regroup ts = Ok (map Base ts).
Proof. exact regroup_text. Qed.
Print Assumptions C68_text_unchanged.
Example C68_text_sample : exists ts, tokenize (ln "* head [[file:x][y]]" ++ ln "some (text)") 100 = Ok ts /\
  Forall (fun t => text_kind (kind t) = true) ts /\ length ts = 17.
Proof. eexists. split; [vm_compute; reflexivity|]. split; [repeat constructor|reflexivity]. Qed.

(** *** C75 *)
(** In lines of words with single spaces between them, a mark in front of a word opens markup and a mark behind a
    word closes it; everything else is a word, a space or the end of a line. *)
Theorem C75_markup_partial : forall lines fuel, lines <> [] -> Forall (fun ps => ps <> [] /\ Forall plain_piece ps) lines ->
  length (concat (map marked_line lines)) < fuel ->
  exists ts o, tokenize (concat (map marked_line lines)) fuel = Ok ts /\ convert_tokens ts = Ok o /\
    map (fun t => (okind t, otext t)) o = concat (map marked_tokens lines).
Proof. exact markup_lines. Qed.
Print Assumptions C75_markup_partial.
Definition bold : option (byte * (tk * tk)) := Some (42%Z, (kBoldBegin, kBoldEnd)).
Definition under : option (byte * (tk * tk)) := Some (95%Z, (kUnderlineBegin, kUnderlineEnd)).
Example C75_sample :
  let lines := [[Piece bold (lit "two") None; Piece None (lit "words") bold; Piece None (lit "ABC") None]; [Piece under (lit "x") under]] in
  Forall (fun ps => ps <> [] /\ Forall plain_piece ps) lines /\
  concat (map marked_line lines) = ln "*two words* ABC" ++ ln "_x_" /\
  concat (map marked_tokens lines) =
    [(kBoldBegin, lit "*"); (kWord, lit "two"); (kWhitespace, lit " "); (kWord, lit "words"); (kBoldEnd, lit "*"); (kWhitespace, lit " ");
     (kBigIdent, lit "ABC"); (kNewline, [10%Z]); (kUnderlineBegin, lit "_"); (kWord, lit "x"); (kUnderlineEnd, lit "_"); (kNewline, [10%Z])].
Proof.
  cbv zeta. split; [|split; vm_compute; reflexivity].
  repeat first [apply Forall_cons | apply Forall_nil | split]; try discriminate; try (repeat constructor; fail);
    cbn [opening closing body]; try (intros m E; try discriminate E; injection E as <-; cbn; tauto); try (cbn; intros; discriminate).
Qed.
(** Some other surroundings change the role of a mark: after a list the opening one is taken for punctuation, in
    front of an exclamation mark the closing one, within quotes both, and marks within marks have no role. *)
Definition final_kinds (s : str) : outcome (list tk) := omap (map (fun x => fst (fst x))) (final s).
Theorem C75_markup_refuted :
  final_kinds (ln "a" ++ ln "*b*") = Ok [kWord; kNewline; kBoldBegin; kWord; kBoldEnd; kNewline] /\
  final_kinds (ln "- a" ++ ln "*b*") =
    Ok [kIndent; kLeadingMinus; kWhitespace; kWord; kNewline; kDedent; kPunctuation; kWord; kBoldEnd; kNewline] /\
  final_kinds (ln "*b*. c") = Ok [kBoldBegin; kWord; kBoldEnd; kPunctuation; kWhitespace; kWord; kNewline] /\
  final_kinds (ln "*b*! c") = Ok [kBoldBegin; kWord; kPunctuation; kExclamation; kWhitespace; kWord; kNewline] /\
  final_kinds (ln "(*b*) c") = Ok [kParBegin; kBoldBegin; kWord; kBoldEnd; kParEnd; kWhitespace; kWord; kNewline] /\
  final_kinds (ln "'*b*' c") = Ok [kSingleQuote; kPunctuation; kWord; kPunctuation; kSingleQuote; kWhitespace; kWord; kNewline] /\
  final_kinds (ln "*/b/*") = Ok [kBoldUnknown; kItalicBegin; kWord; kItalicEnd; kBoldUnknown; kNewline].
Proof. repeat split; vm_compute; reflexivity. Qed.
Print Assumptions C75_markup_refuted.
(** What is between tildes is one token only when there is a space in front of the first one. *)
Theorem C75_monospace_refuted :
  final_kinds (ln "a ~b *c* d~") = Ok [kWord; kWhitespace; kMonospaceBegin; kRawText; kMonospaceEnd; kNewline] /\
  final_kinds (ln "~b *c* d~") = Ok [kMonospaceBegin; kWord; kWhitespace; kBoldBegin; kWord; kBoldEnd; kWhitespace; kWord; kMonospaceEnd; kNewline].
Proof. split; vm_compute; reflexivity. Qed.
Print Assumptions C75_monospace_refuted.
