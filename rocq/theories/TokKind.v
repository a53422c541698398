(** The token kinds of src/haxorg/sem/SemOrgEnums.hpp:2449 (enum class OrgTokenKind), with the prefix [k]. *)
Inductive tk : Set :=
| kAmpersand | kAngleBegin | kAngleEnd | kAnyPunct | kAsterisk | kAt | kBacktick | kBigIdent | kBoldBegin
| kBoldEnd | kBoldUnknown | kBraceBegin | kBraceEnd | kCheckbox | kCircumflex | kCmdAdmonitionEnd
| kCmdAttr | kCmdAuthor | kCmdBindRaw | kCmdCall | kCmdCaption | kCmdCategoryRaw | kCmdCell | kCmdCellBegin
| kCmdCellEnd | kCmdCenterBegin | kCmdCenterEnd | kCmdColonIdent | kCmdColumns | kCmdCommentBegin
| kCmdCommentEnd | kCmdConstants | kCmdContentBegin | kCmdContentEnd | kCmdCreator | kCmdCustomRaw
| kCmdDateRaw | kCmdDescription | kCmdDrawersRaw | kCmdDynamicBegin | kCmdDynamicBlockBegin
| kCmdDynamicBlockEnd | kCmdDynamicEnd | kCmdEmailRaw | kCmdExampleBegin | kCmdExampleEnd | kCmdExampleLine
| kCmdExcludeTagsRaw | kCmdExportBegin | kCmdExportEnd | kCmdExportLine | kCmdFiletags | kCmdFlag
| kCmdHeader | kCmdHtmlHeadRaw | kCmdInclude | kCmdLanguage | kCmdLatexClass | kCmdLatexClassOptions
| kCmdLatexCompiler | kCmdLatexHeader | kCmdLatexHeaderExtraRaw | kCmdLinkRaw | kCmdMacroRaw | kCmdName
| kCmdOptions | kCmdPrefix | kCmdPrioritiesRaw | kCmdPropertyArgs | kCmdPropertyRaw | kCmdPropertyText
| kCmdQuoteBegin | kCmdQuoteEnd | kCmdRawArg | kCmdResults | kCmdRow | kCmdRowBegin | kCmdRowEnd
| kCmdSelectTagsRaw | kCmdSeqTodoRaw | kCmdKeywordsRaw | kCmdSetupfileRaw | kCmdSrcBegin | kCmdSrcEnd
| kCmdStartup | kCmdTableBegin | kCmdTableEnd | kCmdTagsRaw | kCmdTblfm | kCmdTitle | kCmdVerseBegin
| kCmdVerseEnd | kColon | kColonArgumentsProperty | kColonEnd | kColonExampleLine | kColonLiteralProperty
| kColonLogbook | kColonProperties | kColonPropertyText | kComma | kComment | kCriticAddBegin
| kCriticAddEnd | kCriticCommentBegin | kCriticCommentEnd | kCriticDeleteBegin | kCriticDeleteEnd
| kCriticHighlightBegin | kCriticHighlightEnd | kCriticReplaceBegin | kCriticReplaceEnd
| kCriticReplaceMiddle | kCurlyBegin | kCurlyEnd | kDate | kDedent | kDollar | kDoubleAngleBegin
| kDoubleAngleEnd | kDoubleColon | kDoubleDash | kDoubleHash | kDoubleQuote | kDoubleSlash
| kActiveDynamicTimeContent | kInactiveDynamicTimeContent | kEndOfFile | kEquals | kEscaped | kExclamation
| kFootnoteInlineBegin | kFootnoteLinked | kForwardSlash | kHashIdent | kHashTagBegin | kIndent
| kInlineExportBackend | kInlineExportContent | kItalicBegin | kItalicEnd | kItalicUnknown
| kLatexInlineRaw | kLatexParBegin | kLatexParEnd | kLeadingMinus | kLeadingNumber | kLeadingPipe
| kLeadingPlus | kLeadingSpace | kLineCommand | kLinkBegin | kLinkDescriptionBegin | kLinkDescriptionEnd
| kLinkEnd | kLinkFull | kLinkProtocol | kLinkProtocolAttachment | kLinkProtocolCustomId
| kLinkProtocolFile | kLinkProtocolHttp | kLinkProtocolId | kLinkProtocolInternal | kLinkProtocolTitle
| kLinkSplit | kLinkTarget | kLinkTargetBegin | kLinkTargetEnd | kLinkTargetFile | kListBegin | kListEnd
| kListItemBegin | kListItemEnd | kLongNewline | kMediumNewline | kMinus | kMiscUnicode | kMonospaceBegin
| kMonospaceEnd | kMonospaceUnknown | kNewline | kNumber | kParBegin | kParEnd | kPercent | kPipe
| kPlaceholder | kPlus | kPunctuation | kRawText | kSameIndent | kSemicolon | kSingleQuote | kSrcContent
| kStmtListBegin | kStmtListEnd | kStrikeBegin | kStrikeEnd | kStrikeUnknown | kSubtreeCompletion
| kSubtreePriority | kSubtreeStars | kSymbol | kTableSeparator | kTextSeparator | kTextSrcBegin | kTilda
| kTime | kTimeArrow | kTimeRepeaterDuration | kTimeRepeaterSpec | kTimeWarnPeriod | kTrailingPipe
| kTreeClock | kTreeTime | kTripleAngleBegin | kTripleAngleEnd | kUnderline | kUnderlineBegin
| kUnderlineEnd | kUnderlineUnknown | kUnknown | kVerbatimBegin | kVerbatimEnd | kVerbatimUnknown
| kWhitespace | kWord.
