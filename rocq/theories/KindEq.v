(** Kind numbers and kind comparison. *)
From Coq Require Import NArith.
From Verif Require Import TokKind.

Definition tk_num (k : tk) : N :=
  match k with
  | kAmpersand => 0 | kAngleBegin => 1 | kAngleEnd => 2 | kAnyPunct => 3 | kAsterisk => 4 | kAt => 5
  | kBacktick => 6 | kBigIdent => 7 | kBoldBegin => 8 | kBoldEnd => 9 | kBoldUnknown => 10
  | kBraceBegin => 11 | kBraceEnd => 12 | kCheckbox => 13 | kCircumflex => 14 | kCmdAdmonitionEnd => 15
  | kCmdAttr => 16 | kCmdAuthor => 17 | kCmdBindRaw => 18 | kCmdCall => 19 | kCmdCaption => 20
  | kCmdCategoryRaw => 21 | kCmdCell => 22 | kCmdCellBegin => 23 | kCmdCellEnd => 24 | kCmdCenterBegin => 25
  | kCmdCenterEnd => 26 | kCmdColonIdent => 27 | kCmdColumns => 28 | kCmdCommentBegin => 29
  | kCmdCommentEnd => 30 | kCmdConstants => 31 | kCmdContentBegin => 32 | kCmdContentEnd => 33
  | kCmdCreator => 34 | kCmdCustomRaw => 35 | kCmdDateRaw => 36 | kCmdDescription => 37
  | kCmdDrawersRaw => 38 | kCmdDynamicBegin => 39 | kCmdDynamicBlockBegin => 40 | kCmdDynamicBlockEnd => 41
  | kCmdDynamicEnd => 42 | kCmdEmailRaw => 43 | kCmdExampleBegin => 44 | kCmdExampleEnd => 45
  | kCmdExampleLine => 46 | kCmdExcludeTagsRaw => 47 | kCmdExportBegin => 48 | kCmdExportEnd => 49
  | kCmdExportLine => 50 | kCmdFiletags => 51 | kCmdFlag => 52 | kCmdHeader => 53 | kCmdHtmlHeadRaw => 54
  | kCmdInclude => 55 | kCmdLanguage => 56 | kCmdLatexClass => 57 | kCmdLatexClassOptions => 58
  | kCmdLatexCompiler => 59 | kCmdLatexHeader => 60 | kCmdLatexHeaderExtraRaw => 61 | kCmdLinkRaw => 62
  | kCmdMacroRaw => 63 | kCmdName => 64 | kCmdOptions => 65 | kCmdPrefix => 66 | kCmdPrioritiesRaw => 67
  | kCmdPropertyArgs => 68 | kCmdPropertyRaw => 69 | kCmdPropertyText => 70 | kCmdQuoteBegin => 71
  | kCmdQuoteEnd => 72 | kCmdRawArg => 73 | kCmdResults => 74 | kCmdRow => 75 | kCmdRowBegin => 76
  | kCmdRowEnd => 77 | kCmdSelectTagsRaw => 78 | kCmdSeqTodoRaw => 79 | kCmdKeywordsRaw => 80
  | kCmdSetupfileRaw => 81 | kCmdSrcBegin => 82 | kCmdSrcEnd => 83 | kCmdStartup => 84
  | kCmdTableBegin => 85 | kCmdTableEnd => 86 | kCmdTagsRaw => 87 | kCmdTblfm => 88 | kCmdTitle => 89
  | kCmdVerseBegin => 90 | kCmdVerseEnd => 91 | kColon => 92 | kColonArgumentsProperty => 93
  | kColonEnd => 94 | kColonExampleLine => 95 | kColonLiteralProperty => 96 | kColonLogbook => 97
  | kColonProperties => 98 | kColonPropertyText => 99 | kComma => 100 | kComment => 101
  | kCriticAddBegin => 102 | kCriticAddEnd => 103 | kCriticCommentBegin => 104 | kCriticCommentEnd => 105
  | kCriticDeleteBegin => 106 | kCriticDeleteEnd => 107 | kCriticHighlightBegin => 108
  | kCriticHighlightEnd => 109 | kCriticReplaceBegin => 110 | kCriticReplaceEnd => 111
  | kCriticReplaceMiddle => 112 | kCurlyBegin => 113 | kCurlyEnd => 114 | kDate => 115 | kDedent => 116
  | kDollar => 117 | kDoubleAngleBegin => 118 | kDoubleAngleEnd => 119 | kDoubleColon => 120
  | kDoubleDash => 121 | kDoubleHash => 122 | kDoubleQuote => 123 | kDoubleSlash => 124
  | kActiveDynamicTimeContent => 125 | kInactiveDynamicTimeContent => 126 | kEndOfFile => 127
  | kEquals => 128 | kEscaped => 129 | kExclamation => 130 | kFootnoteInlineBegin => 131
  | kFootnoteLinked => 132 | kForwardSlash => 133 | kHashIdent => 134 | kHashTagBegin => 135
  | kIndent => 136 | kInlineExportBackend => 137 | kInlineExportContent => 138 | kItalicBegin => 139
  | kItalicEnd => 140 | kItalicUnknown => 141 | kLatexInlineRaw => 142 | kLatexParBegin => 143
  | kLatexParEnd => 144 | kLeadingMinus => 145 | kLeadingNumber => 146 | kLeadingPipe => 147
  | kLeadingPlus => 148 | kLeadingSpace => 149 | kLineCommand => 150 | kLinkBegin => 151
  | kLinkDescriptionBegin => 152 | kLinkDescriptionEnd => 153 | kLinkEnd => 154 | kLinkFull => 155
  | kLinkProtocol => 156 | kLinkProtocolAttachment => 157 | kLinkProtocolCustomId => 158
  | kLinkProtocolFile => 159 | kLinkProtocolHttp => 160 | kLinkProtocolId => 161
  | kLinkProtocolInternal => 162 | kLinkProtocolTitle => 163 | kLinkSplit => 164 | kLinkTarget => 165
  | kLinkTargetBegin => 166 | kLinkTargetEnd => 167 | kLinkTargetFile => 168 | kListBegin => 169
  | kListEnd => 170 | kListItemBegin => 171 | kListItemEnd => 172 | kLongNewline => 173
  | kMediumNewline => 174 | kMinus => 175 | kMiscUnicode => 176 | kMonospaceBegin => 177
  | kMonospaceEnd => 178 | kMonospaceUnknown => 179 | kNewline => 180 | kNumber => 181 | kParBegin => 182
  | kParEnd => 183 | kPercent => 184 | kPipe => 185 | kPlaceholder => 186 | kPlus => 187
  | kPunctuation => 188 | kRawText => 189 | kSameIndent => 190 | kSemicolon => 191 | kSingleQuote => 192
  | kSrcContent => 193 | kStmtListBegin => 194 | kStmtListEnd => 195 | kStrikeBegin => 196
  | kStrikeEnd => 197 | kStrikeUnknown => 198 | kSubtreeCompletion => 199 | kSubtreePriority => 200
  | kSubtreeStars => 201 | kSymbol => 202 | kTableSeparator => 203 | kTextSeparator => 204
  | kTextSrcBegin => 205 | kTilda => 206 | kTime => 207 | kTimeArrow => 208 | kTimeRepeaterDuration => 209
  | kTimeRepeaterSpec => 210 | kTimeWarnPeriod => 211 | kTrailingPipe => 212 | kTreeClock => 213
  | kTreeTime => 214 | kTripleAngleBegin => 215 | kTripleAngleEnd => 216 | kUnderline => 217
  | kUnderlineBegin => 218 | kUnderlineEnd => 219 | kUnderlineUnknown => 220 | kUnknown => 221
  | kVerbatimBegin => 222 | kVerbatimEnd => 223 | kVerbatimUnknown => 224 | kWhitespace => 225
  | kWord => 226
  end%N.

Definition tk_of (n : N) : tk :=
  match n with
  | 0 => kAmpersand | 1 => kAngleBegin | 2 => kAngleEnd | 3 => kAnyPunct | 4 => kAsterisk | 5 => kAt
  | 6 => kBacktick | 7 => kBigIdent | 8 => kBoldBegin | 9 => kBoldEnd | 10 => kBoldUnknown
  | 11 => kBraceBegin | 12 => kBraceEnd | 13 => kCheckbox | 14 => kCircumflex | 15 => kCmdAdmonitionEnd
  | 16 => kCmdAttr | 17 => kCmdAuthor | 18 => kCmdBindRaw | 19 => kCmdCall | 20 => kCmdCaption
  | 21 => kCmdCategoryRaw | 22 => kCmdCell | 23 => kCmdCellBegin | 24 => kCmdCellEnd | 25 => kCmdCenterBegin
  | 26 => kCmdCenterEnd | 27 => kCmdColonIdent | 28 => kCmdColumns | 29 => kCmdCommentBegin
  | 30 => kCmdCommentEnd | 31 => kCmdConstants | 32 => kCmdContentBegin | 33 => kCmdContentEnd
  | 34 => kCmdCreator | 35 => kCmdCustomRaw | 36 => kCmdDateRaw | 37 => kCmdDescription
  | 38 => kCmdDrawersRaw | 39 => kCmdDynamicBegin | 40 => kCmdDynamicBlockBegin | 41 => kCmdDynamicBlockEnd
  | 42 => kCmdDynamicEnd | 43 => kCmdEmailRaw | 44 => kCmdExampleBegin | 45 => kCmdExampleEnd
  | 46 => kCmdExampleLine | 47 => kCmdExcludeTagsRaw | 48 => kCmdExportBegin | 49 => kCmdExportEnd
  | 50 => kCmdExportLine | 51 => kCmdFiletags | 52 => kCmdFlag | 53 => kCmdHeader | 54 => kCmdHtmlHeadRaw
  | 55 => kCmdInclude | 56 => kCmdLanguage | 57 => kCmdLatexClass | 58 => kCmdLatexClassOptions
  | 59 => kCmdLatexCompiler | 60 => kCmdLatexHeader | 61 => kCmdLatexHeaderExtraRaw | 62 => kCmdLinkRaw
  | 63 => kCmdMacroRaw | 64 => kCmdName | 65 => kCmdOptions | 66 => kCmdPrefix | 67 => kCmdPrioritiesRaw
  | 68 => kCmdPropertyArgs | 69 => kCmdPropertyRaw | 70 => kCmdPropertyText | 71 => kCmdQuoteBegin
  | 72 => kCmdQuoteEnd | 73 => kCmdRawArg | 74 => kCmdResults | 75 => kCmdRow | 76 => kCmdRowBegin
  | 77 => kCmdRowEnd | 78 => kCmdSelectTagsRaw | 79 => kCmdSeqTodoRaw | 80 => kCmdKeywordsRaw
  | 81 => kCmdSetupfileRaw | 82 => kCmdSrcBegin | 83 => kCmdSrcEnd | 84 => kCmdStartup
  | 85 => kCmdTableBegin | 86 => kCmdTableEnd | 87 => kCmdTagsRaw | 88 => kCmdTblfm | 89 => kCmdTitle
  | 90 => kCmdVerseBegin | 91 => kCmdVerseEnd | 92 => kColon | 93 => kColonArgumentsProperty
  | 94 => kColonEnd | 95 => kColonExampleLine | 96 => kColonLiteralProperty | 97 => kColonLogbook
  | 98 => kColonProperties | 99 => kColonPropertyText | 100 => kComma | 101 => kComment
  | 102 => kCriticAddBegin | 103 => kCriticAddEnd | 104 => kCriticCommentBegin | 105 => kCriticCommentEnd
  | 106 => kCriticDeleteBegin | 107 => kCriticDeleteEnd | 108 => kCriticHighlightBegin
  | 109 => kCriticHighlightEnd | 110 => kCriticReplaceBegin | 111 => kCriticReplaceEnd
  | 112 => kCriticReplaceMiddle | 113 => kCurlyBegin | 114 => kCurlyEnd | 115 => kDate | 116 => kDedent
  | 117 => kDollar | 118 => kDoubleAngleBegin | 119 => kDoubleAngleEnd | 120 => kDoubleColon
  | 121 => kDoubleDash | 122 => kDoubleHash | 123 => kDoubleQuote | 124 => kDoubleSlash
  | 125 => kActiveDynamicTimeContent | 126 => kInactiveDynamicTimeContent | 127 => kEndOfFile
  | 128 => kEquals | 129 => kEscaped | 130 => kExclamation | 131 => kFootnoteInlineBegin
  | 132 => kFootnoteLinked | 133 => kForwardSlash | 134 => kHashIdent | 135 => kHashTagBegin
  | 136 => kIndent | 137 => kInlineExportBackend | 138 => kInlineExportContent | 139 => kItalicBegin
  | 140 => kItalicEnd | 141 => kItalicUnknown | 142 => kLatexInlineRaw | 143 => kLatexParBegin
  | 144 => kLatexParEnd | 145 => kLeadingMinus | 146 => kLeadingNumber | 147 => kLeadingPipe
  | 148 => kLeadingPlus | 149 => kLeadingSpace | 150 => kLineCommand | 151 => kLinkBegin
  | 152 => kLinkDescriptionBegin | 153 => kLinkDescriptionEnd | 154 => kLinkEnd | 155 => kLinkFull
  | 156 => kLinkProtocol | 157 => kLinkProtocolAttachment | 158 => kLinkProtocolCustomId
  | 159 => kLinkProtocolFile | 160 => kLinkProtocolHttp | 161 => kLinkProtocolId
  | 162 => kLinkProtocolInternal | 163 => kLinkProtocolTitle | 164 => kLinkSplit | 165 => kLinkTarget
  | 166 => kLinkTargetBegin | 167 => kLinkTargetEnd | 168 => kLinkTargetFile | 169 => kListBegin
  | 170 => kListEnd | 171 => kListItemBegin | 172 => kListItemEnd | 173 => kLongNewline
  | 174 => kMediumNewline | 175 => kMinus | 176 => kMiscUnicode | 177 => kMonospaceBegin
  | 178 => kMonospaceEnd | 179 => kMonospaceUnknown | 180 => kNewline | 181 => kNumber | 182 => kParBegin
  | 183 => kParEnd | 184 => kPercent | 185 => kPipe | 186 => kPlaceholder | 187 => kPlus
  | 188 => kPunctuation | 189 => kRawText | 190 => kSameIndent | 191 => kSemicolon | 192 => kSingleQuote
  | 193 => kSrcContent | 194 => kStmtListBegin | 195 => kStmtListEnd | 196 => kStrikeBegin
  | 197 => kStrikeEnd | 198 => kStrikeUnknown | 199 => kSubtreeCompletion | 200 => kSubtreePriority
  | 201 => kSubtreeStars | 202 => kSymbol | 203 => kTableSeparator | 204 => kTextSeparator
  | 205 => kTextSrcBegin | 206 => kTilda | 207 => kTime | 208 => kTimeArrow | 209 => kTimeRepeaterDuration
  | 210 => kTimeRepeaterSpec | 211 => kTimeWarnPeriod | 212 => kTrailingPipe | 213 => kTreeClock
  | 214 => kTreeTime | 215 => kTripleAngleBegin | 216 => kTripleAngleEnd | 217 => kUnderline
  | 218 => kUnderlineBegin | 219 => kUnderlineEnd | 220 => kUnderlineUnknown | 221 => kUnknown
  | 222 => kVerbatimBegin | 223 => kVerbatimEnd | 224 => kVerbatimUnknown | 225 => kWhitespace
  | 226 => kWord | _ => kUnknown
  end%N.

Lemma tk_of_num k : tk_of (tk_num k) = k.
Proof. destruct k; reflexivity. Qed.

Definition is (a b : tk) : bool := N.eqb (tk_num a) (tk_num b).

Lemma is_eq a b : is a b = true -> a = b.
Proof. intro H. apply N.eqb_eq in H. rewrite <- (tk_of_num a), <- (tk_of_num b), H. reflexivity. Qed.

Lemma is_refl a : is a a = true.
Proof. apply N.eqb_refl. Qed.
