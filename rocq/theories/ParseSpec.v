(** What a parse tree may leave out of the document. Written over token kinds and positions only. *)
From Verif Require Import Base TokKind NodeKind TreeModel TreeSpec.
From Verif Require ParseModel.
From Verif Require RegroupModel.
Local Open Scope nat_scope.

(** Tokens that are notation: blanks, line ends, brackets, marks, separators, keywords of commands, indentation
    markers, comments. Any other token has text of the author in it. *)
Definition structural (k : tk) : bool :=
  match k with
  | kWhitespace | kLeadingSpace | kNewline | kMediumNewline | kLongNewline
  | kParBegin | kParEnd | kBraceBegin | kBraceEnd | kCurlyBegin | kCurlyEnd | kAngleBegin | kAngleEnd
  | kDoubleAngleBegin | kDoubleAngleEnd | kTripleAngleBegin | kTripleAngleEnd
  | kComma | kEquals | kColon | kDoubleColon | kDoubleDash | kDoubleHash | kTimeArrow
  | kBoldBegin | kBoldEnd | kBoldUnknown | kItalicBegin | kItalicEnd | kItalicUnknown
  | kUnderlineBegin | kUnderlineEnd | kUnderlineUnknown | kStrikeBegin | kStrikeEnd | kStrikeUnknown
  | kVerbatimBegin | kVerbatimEnd | kVerbatimUnknown | kMonospaceBegin | kMonospaceEnd
  | kLinkBegin | kLinkSplit | kLinkEnd | kLinkDescriptionBegin | kLinkTargetEnd
  | kFootnoteInlineBegin | kActiveDynamicTimeContent | kInactiveDynamicTimeContent
  | kCriticAddEnd | kCriticDeleteEnd | kCriticReplaceMiddle | kCriticReplaceEnd | kCriticCommentEnd
  | kCriticHighlightEnd
  | kComment
  | kLeadingPipe | kPipe | kTrailingPipe | kTableSeparator
  | kListBegin | kListItemBegin | kListItemEnd | kStmtListEnd | kIndent | kDedent | kSameIndent
  | kColonProperties | kColonLogbook | kColonEnd
  | kCmdPrefix | kCmdContentBegin
  | kCmdSrcBegin | kCmdSrcEnd | kCmdQuoteBegin | kCmdQuoteEnd | kCmdVerseBegin | kCmdVerseEnd
  | kCmdCenterBegin | kCmdCenterEnd | kCmdCommentBegin | kCmdCommentEnd | kCmdDynamicBlockEnd
  | kCmdExampleBegin | kCmdExampleEnd | kCmdExportBegin | kCmdExportEnd | kCmdTableBegin | kCmdTableEnd
  | kCmdRow | kCmdCell | kCmdResults | kCmdCall | kCmdAuthor | kCmdCreator | kCmdTitle | kCmdCaption
  | kCmdEmailRaw | kCmdLanguage | kCmdLatexHeader | kCmdStartup | kCmdFiletags | kCmdLatexClass
  | kCmdLatexCompiler | kCmdLatexClassOptions | kCmdOptions | kCmdKeywordsRaw | kCmdTblfm | kCmdColumns
  | kCmdPropertyRaw | kCmdPropertyText | kCmdPropertyArgs | kCmdInclude | kCmdName | kCmdHeader => true
  | _ => false
  end.

Section Spec.
Variable toks : list RegroupModel.otok.
Notation kind_is i k := (exists t, nth_error toks i = Some t /\ RegroupModel.okind t = k).

(** A word right after the opening bracket or the date of a time stamp, where the name of the day stands. *)
Definition day_name (i : nat) : Prop :=
  kind_is i kWord /\ exists j, j < i /\ (kind_is j kDate \/ kind_is j kAngleBegin \/ kind_is j kBraceBegin) /\
  forall x, j < x < i -> kind_is x kWhitespace \/ kind_is x kLeadingSpace.

(** A word after an opening parenthesis in the body of a source block: the start of a line label. *)
Definition code_kind (k : tk) : bool :=
  match k with
  | kSrcContent | kParBegin | kParEnd | kWord | kColon | kDoubleAngleBegin | kDoubleAngleEnd | kRawText | kComma
  | kNewline | kWhitespace => true
  | _ => false
  end.
Definition in_code (i : nat) : Prop :=
  exists j, j < i /\ kind_is j kCmdContentBegin /\
  forall x, j < x < i -> exists t, nth_error toks x = Some t /\ code_kind (RegroupModel.okind t) = true.
Definition label_word (i : nat) : Prop :=
  kind_is i kWord /\ in_code i /\ exists j, j < i /\ kind_is j kParBegin /\ forall x, j < x < i -> kind_is x kWhitespace.

Definition droppable (i : nat) : Prop :=
  (exists t, nth_error toks i = Some t /\ structural (RegroupModel.okind t) = true) \/ day_name i \/ label_word i.
End Spec.

(** The token leaves of a flat tree, in order. *)
Definition leaf_tokens {K T M} (ns : list (node K T M)) : list T :=
  flat_map (fun n => match value n with Tok t => [t] | _ => [] end) ns.

(** A tree written out: every node before its children, with the number of nodes below it. *)
Fixpoint preorder {K T M} (t : tree K T M) : list (node K T M) :=
  node_of t :: match t with Branch _ sub => flat_map preorder sub | _ => [] end.

(** *** Headings *)
Section Headings.
Variable toks : list RegroupModel.otok.
Notation ptree := (tree nk (option nat) ParseModel.mono).
(** The level of a heading is the length of the run of stars that is its first child; its body is the ninth. *)
Definition level_of (t : ptree) : option nat :=
  match t with
  | Branch nSubtree (Leaf _ (Some i) :: _) => option_map (fun x => length (RegroupModel.otext x)) (nth_error toks i)
  | _ => None
  end.
Definition body_of (t : ptree) : list ptree :=
  match t with Branch nSubtree [_; _; _; _; _; _; _; _; Branch _ body] => body | _ => [] end.
(** A heading with its body pulled out, recursively. *)
Fixpoint unnest (t : ptree) : list ptree :=
  match t with
  | Branch nSubtree [a; b; c; d; e; f; g; h; Branch k body] =>
      Branch nSubtree [a; b; c; d; e; f; g; h; Branch k []] :: flat_map unnest body
  | _ => [t]
  end.
(** Inside a heading of level [outer]: its headings are deeper, and what follows a heading on the same level of
    nesting is a heading too, and not a deeper one. Only headings have a body. *)
Inductive well_nested : nat -> list ptree -> Prop :=
| nested_list outer us :
    (forall u l, In u us -> level_of u = Some l -> outer < l) ->
    (forall pre h x post lh, us = pre ++ h :: x :: post -> level_of h = Some lh -> exists lx, level_of x = Some lx /\ lx <= lh) ->
    (forall u l, In u us -> level_of u = Some l -> well_nested l (body_of u)) ->
    (forall u, In u us -> level_of u = None -> body_of u = []) ->
    well_nested outer us.

(** A tree without headings. *)
Definition no_heading (t : ptree) : Prop := Forall (fun n => kind n <> nSubtree) (preorder t).
End Headings.
