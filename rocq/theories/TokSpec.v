(** Specification of the base lexer: what its tokens have to do with the text. *)
From Coq Require Import String.
From Verif Require Import Base StrModel TokKind TokModel.
Local Open Scope nat_scope.

(** Every token is located where the previous one ended, starting from an offset. *)
Fixpoint laid_out (at_ : nat) (ts : list token) : Prop :=
  match ts with
  | [] => True
  | t :: r => tpos t = at_ /\ laid_out (at_ + length (text t)) r
  end.

(** Line and column of an offset: how many newlines there are before it, and how many bytes there are between
    the last of them and the offset. *)
Definition line_of (txt : str) (p : nat) : nat := length (filter (Z.eqb 10) (firstn p txt)).
Fixpoint since_newline (n : nat) (s : str) : nat :=
  match s with [] => n | c :: s' => since_newline (if Z.eqb c 10 then 0 else S n) s' end.
Definition column_of (txt : str) (p : nat) : nat := since_newline 0 (firstn p txt).

Definition is_newline_kind (k : tk) : bool :=
  match k with kNewline | kMediumNewline | kLongNewline => true | _ => false end.

(** ** Texts the lexer gets through *)
Definition line_begin (txt : str) (p : nat) : Prop := p = 0 \/ nth_error txt (p - 1) = Some 10%Z.
(** A string at an offset *)
Definition at_ (txt : str) (p : nat) (s : str) : Prop := exists r, skipn p txt = s ++ r.

Definition ends_with_newline (txt : str) : Prop := exists body, txt = body ++ [10%Z].
(** No four byte character (first byte 240 and above) is cut short by the end of the text. *)
Definition whole_characters (txt : str) : Prop :=
  forall p c, nth_error txt p = Some c -> (240 <= c)%Z -> p + 4 < length txt.
(** Every [[[protocol:] is followed by a []]] or [][] somewhere. *)
Definition links_closed (txt : str) : Prop :=
  forall p w, w <> [] -> Forall (fun c => is_word c || Z.eqb c 45 = true) w -> at_ txt p ([91; 91]%Z ++ w ++ [58%Z]) ->
    exists q, p < q /\ (at_ txt q [93; 93]%Z \/ at_ txt q [93; 91]%Z).
(** Every verbatim block that a line opens is closed by a later line. *)
Definition opens (txt name : str) (p : nat) : Prop :=
  line_begin txt p /\ exists k w r,
    skipn p txt = repeat 32%Z k ++ [35; 43]%Z ++ w ++ r /\ Forall (fun c => is_word c = true) w /\
    (forall c, hd_error r = Some c -> is_word c = false) /\ normalize w = lit "begin" ++ name.
Definition closes (txt name : str) (p : nat) : Prop :=
  line_begin txt p /\ exists k e u nm r,
    skipn p txt = repeat 32%Z k ++ [35; 43]%Z ++ e ++ u ++ nm ++ r /\
    map to_lower e = lit "end" /\ (u = [] \/ u = [95%Z]) /\ map to_lower nm = name.
Definition blocks_closed (txt : str) : Prop :=
  forall name p, In name [lit "src"; lit "example"; lit "export"] -> opens txt name p ->
    exists q, p < q /\ closes txt name q.

(** ** Plain text *)
(** A word of letters that does not begin with "http" and is not longer than "src" if it begins with that *)
Definition plain_word (w : str) : Prop :=
  w <> [] /\ Forall (fun c => is_alpha c = true) w /\ map to_lower (firstn 4 w) <> lit "http" /\
  (map to_lower (firstn 3 w) = lit "src" -> length w = 3).
(** A line of words with a space between them, and its tokens *)
Fixpoint line_text (ws : list str) : str :=
  match ws with [] => [] | [w] => w ++ [10%Z] | w :: r => w ++ 32%Z :: line_text r end.
Fixpoint line_tokens (ws : list str) : list (tk * str) :=
  match ws with
  | [] => []
  | [w] => [(kWord, w); (kNewline, [10%Z])]
  | w :: r => (kWord, w) :: (kWhitespace, [32%Z]) :: line_tokens r
  end.

(** ** What a token of a kind looks like *)
Definition only (f : byte -> bool) (s : str) : Prop := s <> [] /\ Forall (fun c => f c = true) s.
Definition starts (f : byte -> bool) (s : str) : Prop := exists c r, s = c :: r /\ f c = true.
Definition in_one_line (s : str) : Prop := Forall (fun c => c <> 10%Z) s.
Definition folded (name : str) (s : str) : Prop := map to_lower s = name.
Definition indented (P : str -> Prop) (s : str) : Prop := exists k r, s = repeat 32%Z k ++ r /\ P r.
(** Newlines with nothing but spaces between them: the first and the last character are newlines. *)
Definition newline_run (s : str) : Prop :=
  Forall (fun c => c = 32%Z \/ c = 10%Z) s /\ (exists r, s = 10%Z :: r) /\ (exists r, s = r ++ [10%Z]).
Definition newlines_in (s : str) : nat := length (filter (Z.eqb 10) s).
(** The name of a command is followed by at most one colon; letter case, underscores and dashes do not count. *)
Definition command (name : str) (s : str) : Prop :=
  normalize s = name /\ exists w, Forall (fun c => is_word c = true) w /\ (s = w \/ s = w ++ [58%Z]).
Definition ident_char (c : byte) : bool := is_word c || Z.eqb c 45.
Definition end_of (name : str) (s : str) : Prop :=
  indented (fun r => folded (lit "#+end" ++ name) r \/ folded (lit "#+end_" ++ name) r) s.

Definition looks_like (k : tk) (s : str) : Prop :=
  match k with
  (* spelled in one way *)
  | kAsterisk => s = lit "*"            | kPlus => s = lit "+"              | kParBegin => s = lit "("
  | kParEnd => s = lit ")"              | kPercent => s = lit "%"           | kSingleQuote => s = lit "'"
  | kDoubleQuote => s = [34%Z]          | kUnderline => s = lit "_"         | kSemicolon => s = lit ";"
  | kComma => s = lit ","               | kCircumflex => s = lit "^"        | kTrailingPipe | kPipe => s = lit "|"
  | kBacktick => s = lit "`"            | kDollar => s = lit "$"            | kExclamation => s = lit "!"
  | kAmpersand => s = lit "&"           | kForwardSlash => s = lit "/"      | kLinkEnd => s = lit "]]"
  | kLinkSplit => s = lit "]["          | kBraceEnd => s = lit "]"          | kDoubleSlash => s = lit "\\"
  | kInactiveDynamicTimeContent => s = lit "[%%"                            | kLinkBegin => s = lit "[["
  | kBraceBegin => s = lit "["          | kDoubleColon => s = lit "::"      | kColon => s = lit ":"
  | kTripleAngleEnd => s = lit ">>>"    | kDoubleAngleEnd => s = lit ">>"   | kAngleEnd => s = lit ">"
  | kTripleAngleBegin => s = lit "<<<"  | kCriticCommentEnd => s = lit "<<}"
  | kDoubleAngleBegin => s = lit "<<"   | kActiveDynamicTimeContent => s = lit "<%%"
  | kAngleBegin => s = lit "<"          | kDoubleHash => s = lit "##"       | kEquals => s = lit "="
  | kTimeArrow => s = lit "=>"          | kTilda => s = lit "~"             | kCriticReplaceEnd => s = lit "~~}"
  | kCriticReplaceMiddle => s = lit "~>" | kCriticDeleteEnd => s = lit "--}" | kDoubleDash => s = lit "--"
  | kMinus => s = lit "-"               | kCriticAddBegin => s = lit "{++"  | kCriticAddEnd => s = lit "++}"
  | kCriticDeleteBegin => s = lit "{--" | kCriticHighlightBegin => s = lit "{=="
  | kCriticHighlightEnd => s = lit "==}" | kCriticReplaceBegin => s = lit "{~~"
  | kCriticCommentBegin => s = lit "{>>" | kLineCommand => s = lit "#+"     | kLinkProtocolCustomId => s = lit "#"
  | kPunctuation => s = lit "." \/ s = lit "#" \/ s = lit "@"
  | kTreeTime => s = lit "SCHEDULED:" \/ s = lit "DEADLINE:" \/ s = lit "CLOSED:"
  (* an inline source block takes whatever comes after its name for a brace, see the refutations *)
  | kCurlyBegin | kCurlyEnd => length s <= 1
  (* spaces and newlines *)
  | kWhitespace | kLeadingSpace => only (Z.eqb 32) s
  | kNewline => s = [10%Z]
  | kMediumNewline => newline_run s /\ newlines_in s = 2
  | kLongNewline => newline_run s /\ 3 <= newlines_in s
  (* the beginnings of lines *)
  | kSubtreeStars => only (Z.eqb 42) s
  | kLeadingMinus => indented (eq (lit "-")) s
  | kLeadingPlus => indented (eq (lit "+")) s
  | kLeadingPipe => indented (eq (lit "|")) s
  | kLeadingNumber => indented (fun r => exists n e, r = n ++ [e] /\ only is_digit n /\ (e = 46%Z \/ e = 41%Z)) s
  | kTreeClock => indented (folded (lit "clock:")) s
  | kColonEnd => indented (folded (lit ":end:")) s
  | kColonProperties => indented (folded (lit ":properties:")) s
  | kColonLogbook => indented (folded (lit ":logbook:")) s
  | kColonArgumentsProperty | kColonPropertyText | kColonLiteralProperty =>
      indented (fun r => exists m, r = [58%Z] ++ m ++ [58%Z] /\ only (fun c => ident_char c || Z.eqb c 58) m) s
  | kColonExampleLine => starts (Z.eqb 58) s /\ in_one_line s
  (* words and numbers *)
  | kWord => starts (fun c => is_alnum c || (240 <=? c)%Z) s
  | kAnyPunct => starts (fun c => negb (is_alnum c || Z.eqb c 32 || Z.eqb c 10 || (240 <=? c)%Z)) s
  | kNumber => only is_digit s
  | kTime => exists d m, s = d ++ [58%Z] ++ m /\ only is_digit d
  | kDate => exists y m d, s = y ++ [45%Z] ++ m ++ [45%Z] ++ d /\ only is_digit y /\ only is_digit m /\ only is_digit d /\
      length y = 4 /\ length m = 2 /\ length d = 2
  (* the rest *)
  | kTextSeparator => only (Z.eqb 45) s /\ 5 <= length s
  | kComment => (exists r, s = lit "# " ++ r) /\ in_one_line s
  | kHashIdent => exists r, s = 35%Z :: r /\ starts is_alpha r
  | kAt => exists r, s = 64%Z :: r /\ starts is_alpha r
  | kSymbol => exists r, s = 92%Z :: r /\ starts is_alpha r
  | kEscaped => starts (Z.eqb 92) s /\ length s <= 2
  | kSubtreeCompletion => exists m, s = [91%Z] ++ m ++ [93%Z] /\ only (fun c => is_digit c || Z.eqb c 37 || Z.eqb c 47) m
  | kSubtreePriority => exists c, s = [91; 35; c; 93]%Z /\ (is_alpha c || Z.eqb c 95) = true
  | kCheckbox => s = lit "[x]" \/ s = lit "[X]" \/ s = lit "[ ]" \/ s = lit "[-]"
  | kFootnoteLinked => exists f m, s = f ++ m ++ [93%Z] /\ folded (lit "[fn:") f /\ only ident_char m
  | kFootnoteInlineBegin => folded (lit "[fn::") s
  | kPlaceholder => exists m, s = [60%Z] ++ m ++ [62%Z] /\ only ident_char m
  | kTextSrcBegin => exists f m, s = f ++ m /\ folded (lit "src") f /\ only is_word m
  | kTimeWarnPeriod => exists d a, s = [45%Z] ++ d ++ a /\ only is_digit d /\ only is_alpha a
  | kTimeRepeaterSpec => only (fun c => Z.eqb c 43 || Z.eqb c 46) s
  | kInlineExportBackend => exists m, s = lit "@@" ++ m /\ only is_word m
  | kInlineExportContent => exists m, s = [58%Z] ++ m ++ lit "@@"
  | kLinkProtocolFile => folded (lit "file") s
  | kLinkProtocolAttachment => exists f m, s = f ++ m /\ folded (lit "attachment") f /\ Forall (fun c => is_word c = true) m
  | kLinkProtocolId => exists f m, s = f ++ m /\ folded (lit "id") f /\ Forall (fun c => is_word c = true) m
  | kLinkProtocolHttp => folded (lit "http") s \/ folded (lit "https") s
  | kLinkProtocol => exists m, s = m ++ [58%Z] /\ Forall (fun c => c <> 93%Z /\ c <> 58%Z /\ c <> 10%Z) m
  | kLinkProtocolInternal => Forall (fun c => c <> 93%Z /\ c <> 58%Z /\ c <> 10%Z) s
  (* commands *)
  | kCmdColumns => command (lit "columns") s     | kCmdTblfm => command (lit "tblfm") s
  | kCmdOptions => command (lit "options") s     | kCmdTagsRaw => command (lit "tags") s
  | kCmdDrawersRaw => command (lit "drawers") s  | kCmdCategoryRaw => command (lit "category") s
  | kCmdPrioritiesRaw => command (lit "priorities") s | kCmdHtmlHeadRaw => command (lit "htmlhead") s
  | kCmdLatexHeaderExtraRaw => command (lit "latexheaderextra") s
  | kCmdTitle => command (lit "title") s         | kCmdAuthor => command (lit "author") s
  | kCmdFiletags => command (lit "filetags") s   | kCmdCaption => command (lit "caption") s
  | kCmdDateRaw => command (lit "date") s        | kCmdLinkRaw => command (lit "link") s
  | kCmdDescription => command (lit "description") s | kCmdLanguage => command (lit "language") s
  | kCmdCreator => command (lit "creator") s     | kCmdName => command (lit "name") s
  | kCmdEmailRaw => command (lit "email") s      | kCmdMacroRaw => command (lit "macro") s
  | kCmdBindRaw => command (lit "bind") s        | kCmdExcludeTagsRaw => command (lit "excludetags") s
  | kCmdSelectTagsRaw => command (lit "selecttags") s | kCmdKeywordsRaw => command (lit "keywords") s
  | kCmdSetupfileRaw => command (lit "setupfile") s | kCmdStartup => command (lit "startup") s
  | kCmdSeqTodoRaw => command (lit "seqtodo") s  | kCmdConstants => command (lit "constants") s
  | kCmdResults => command (lit "results") s     | kCmdInclude => command (lit "include") s
  | kCmdHeader => command (lit "header") s       | kCmdCall => command (lit "call") s
  | kCmdRow => command (lit "row") s             | kCmdCell => command (lit "cell") s
  | kCmdQuoteBegin => command (lit "beginquote") s   | kCmdQuoteEnd => command (lit "endquote") s
  | kCmdCellBegin => command (lit "begincell") s     | kCmdCellEnd => command (lit "endcell") s
  | kCmdCenterBegin => command (lit "begincenter") s | kCmdCenterEnd => command (lit "endcenter") s
  | kCmdVerseBegin => command (lit "beginverse") s   | kCmdVerseEnd => command (lit "endverse") s
  | kCmdCommentBegin => command (lit "begincomment") s | kCmdCommentEnd => command (lit "endcomment") s
  | kCmdRowBegin => command (lit "beginrow") s       | kCmdRowEnd => command (lit "endrow") s
  | kCmdTableBegin => command (lit "begintable") s   | kCmdTableEnd => command (lit "endtable") s
  | kCmdSrcBegin => command (lit "beginsrc") s       | kCmdSrcEnd => end_of (lit "src") s
  | kCmdExampleBegin => command (lit "beginexample") s | kCmdExampleEnd => end_of (lit "example") s
  | kCmdExportBegin => command (lit "beginexport") s | kCmdExportEnd => end_of (lit "export") s
  | kSrcContent | kCmdExampleLine | kCmdExportLine => in_one_line s
  | kCmdAttr => exists name, command (lit "attr" ++ name) s
  | kCmdPropertyText | kCmdPropertyArgs => exists name, command (lit "property" ++ name) s
  | kCmdDynamicBlockBegin => exists name, command (lit "begin" ++ name) s
  | kCmdDynamicBlockEnd => exists name, command (lit "end" ++ name) s
  | kCmdCustomRaw => exists name, command name s
  | kCmdColonIdent => exists r, s = 58%Z :: r /\ only ident_char r
  (* nothing is said about these *)
  | kRawText | kLinkTarget | kLinkTargetFile | kLinkProtocolTitle | kCmdRawArg | kTableSeparator
  | kTimeRepeaterDuration => True
  (* the lexer does not produce any other kind, in particular none of the LaTeX commands *)
  | _ => False
  end.

(** Nothing in a source block closes it in the middle of a line: no double angle bracket is followed by
    spaces and a command. *)
Definition angles_before_text (txt : str) : Prop :=
  forall p k, at_ txt p (lit "<<") \/ at_ txt p (lit ">>") -> ~ at_ txt (p + 2) (repeat 32%Z k ++ lit "#+").
