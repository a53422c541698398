(** The parse tree node kinds of src/haxorg/sem/SemOrgEnums.hpp:2091 (enum class OrgNodeKind), with the prefix [n]. *)
Inductive nk : Set :=
| nNone | nDocument | nEmpty | nInlineStmtList | nStmtList | nCheckbox | nList | nBullet | nListItem
| nListTag | nCounter | nFile | nColonExample | nTextSeparator | nParagraph | nTableRow | nTableCell
| nTable | nInlineFootnote | nFootnote | nCmd | nAttrs | nAttrValue | nAttrLisp | nCmdTitle | nCmdAuthor
| nCmdCreator | nCmdInclude | nCmdLanguage | nCmdEmail | nCmdAttr | nCmdStartup | nCmdName
| nCmdCustomTextCommand | nCmdCustomArgsCommand | nCmdCustomRawCommand | nCmdResults | nCmdHeader
| nCmdOptions | nCmdTblfm | nCmdCaption | nCmdResult | nCmdCallCode | nCmdFlag | nCmdLatexClass
| nCmdLatexHeader | nCmdLatexCompiler | nCmdLatexClassOptions | nCmdHtmlHead | nCmdColumns
| nCmdPropertyArgs | nCmdPropertyText | nCmdPropertyRaw | nCmdFiletags | nCmdKeywords
| nBlockVerbatimMultiline | nCodeLine | nCodeText | nCodeTangle | nCodeCallout | nBlockCode | nBlockQuote
| nBlockComment | nBlockCenter | nBlockVerse | nBlockExample | nBlockExport | nBlockDetails
| nBlockSummary | nBlockDynamicFallback | nBigIdent | nBold | nErrorInfoToken | nErrorSkipGroup
| nErrorSkipToken | nItalic | nVerbatim | nBacktick | nUnderline | nStrike | nQuote | nAngle | nMonospace
| nPar | nCriticMarkStructure | nInlineMath | nDisplayMath | nSpace | nPunctuation | nColon | nWord
| nEscaped | nNewline | nRawLink | nLink | nMacro | nSymbol | nStaticActiveTime | nStaticInactiveTime
| nDynamicActiveTime | nDynamicInactiveTime | nTimeRange | nSimpleTime | nHashTag | nMetaSymbol
| nAtMention | nPlaceholder | nRadioTarget | nTarget | nSrcInlineCode | nInlineCallCode | nInlineExport
| nInlineComment | nRawText | nSubtreeDescription | nSubtreeUrgency | nDrawerLogbook | nDrawer
| nDrawerPropertyList | nDrawerProperty | nSubtree | nSubtreeTimes | nSubtreeStars | nSubtreeCompletion
| nSubtreeImportance.

(** Kind numbers and kind comparison. *)
From Coq Require Import NArith.
Definition nk_num (k : nk) : N :=
  match k with
  | nNone => 0 | nDocument => 1 | nEmpty => 2 | nInlineStmtList => 3 | nStmtList => 4 | nCheckbox => 5
  | nList => 6 | nBullet => 7 | nListItem => 8 | nListTag => 9 | nCounter => 10 | nFile => 11
  | nColonExample => 12 | nTextSeparator => 13 | nParagraph => 14 | nTableRow => 15 | nTableCell => 16
  | nTable => 17 | nInlineFootnote => 18 | nFootnote => 19 | nCmd => 20 | nAttrs => 21 | nAttrValue => 22
  | nAttrLisp => 23 | nCmdTitle => 24 | nCmdAuthor => 25 | nCmdCreator => 26 | nCmdInclude => 27
  | nCmdLanguage => 28 | nCmdEmail => 29 | nCmdAttr => 30 | nCmdStartup => 31 | nCmdName => 32
  | nCmdCustomTextCommand => 33 | nCmdCustomArgsCommand => 34 | nCmdCustomRawCommand => 35
  | nCmdResults => 36 | nCmdHeader => 37 | nCmdOptions => 38 | nCmdTblfm => 39 | nCmdCaption => 40
  | nCmdResult => 41 | nCmdCallCode => 42 | nCmdFlag => 43 | nCmdLatexClass => 44 | nCmdLatexHeader => 45
  | nCmdLatexCompiler => 46 | nCmdLatexClassOptions => 47 | nCmdHtmlHead => 48 | nCmdColumns => 49
  | nCmdPropertyArgs => 50 | nCmdPropertyText => 51 | nCmdPropertyRaw => 52 | nCmdFiletags => 53
  | nCmdKeywords => 54 | nBlockVerbatimMultiline => 55 | nCodeLine => 56 | nCodeText => 57
  | nCodeTangle => 58 | nCodeCallout => 59 | nBlockCode => 60 | nBlockQuote => 61 | nBlockComment => 62
  | nBlockCenter => 63 | nBlockVerse => 64 | nBlockExample => 65 | nBlockExport => 66 | nBlockDetails => 67
  | nBlockSummary => 68 | nBlockDynamicFallback => 69 | nBigIdent => 70 | nBold => 71
  | nErrorInfoToken => 72 | nErrorSkipGroup => 73 | nErrorSkipToken => 74 | nItalic => 75 | nVerbatim => 76
  | nBacktick => 77 | nUnderline => 78 | nStrike => 79 | nQuote => 80 | nAngle => 81 | nMonospace => 82
  | nPar => 83 | nCriticMarkStructure => 84 | nInlineMath => 85 | nDisplayMath => 86 | nSpace => 87
  | nPunctuation => 88 | nColon => 89 | nWord => 90 | nEscaped => 91 | nNewline => 92 | nRawLink => 93
  | nLink => 94 | nMacro => 95 | nSymbol => 96 | nStaticActiveTime => 97 | nStaticInactiveTime => 98
  | nDynamicActiveTime => 99 | nDynamicInactiveTime => 100 | nTimeRange => 101 | nSimpleTime => 102
  | nHashTag => 103 | nMetaSymbol => 104 | nAtMention => 105 | nPlaceholder => 106 | nRadioTarget => 107
  | nTarget => 108 | nSrcInlineCode => 109 | nInlineCallCode => 110 | nInlineExport => 111
  | nInlineComment => 112 | nRawText => 113 | nSubtreeDescription => 114 | nSubtreeUrgency => 115
  | nDrawerLogbook => 116 | nDrawer => 117 | nDrawerPropertyList => 118 | nDrawerProperty => 119
  | nSubtree => 120 | nSubtreeTimes => 121 | nSubtreeStars => 122 | nSubtreeCompletion => 123
  | nSubtreeImportance => 124
  end%N.

Definition nk_of (n : N) : nk :=
  match n with
  | 0 => nNone | 1 => nDocument | 2 => nEmpty | 3 => nInlineStmtList | 4 => nStmtList | 5 => nCheckbox
  | 6 => nList | 7 => nBullet | 8 => nListItem | 9 => nListTag | 10 => nCounter | 11 => nFile
  | 12 => nColonExample | 13 => nTextSeparator | 14 => nParagraph | 15 => nTableRow | 16 => nTableCell
  | 17 => nTable | 18 => nInlineFootnote | 19 => nFootnote | 20 => nCmd | 21 => nAttrs | 22 => nAttrValue
  | 23 => nAttrLisp | 24 => nCmdTitle | 25 => nCmdAuthor | 26 => nCmdCreator | 27 => nCmdInclude
  | 28 => nCmdLanguage | 29 => nCmdEmail | 30 => nCmdAttr | 31 => nCmdStartup | 32 => nCmdName
  | 33 => nCmdCustomTextCommand | 34 => nCmdCustomArgsCommand | 35 => nCmdCustomRawCommand
  | 36 => nCmdResults | 37 => nCmdHeader | 38 => nCmdOptions | 39 => nCmdTblfm | 40 => nCmdCaption
  | 41 => nCmdResult | 42 => nCmdCallCode | 43 => nCmdFlag | 44 => nCmdLatexClass | 45 => nCmdLatexHeader
  | 46 => nCmdLatexCompiler | 47 => nCmdLatexClassOptions | 48 => nCmdHtmlHead | 49 => nCmdColumns
  | 50 => nCmdPropertyArgs | 51 => nCmdPropertyText | 52 => nCmdPropertyRaw | 53 => nCmdFiletags
  | 54 => nCmdKeywords | 55 => nBlockVerbatimMultiline | 56 => nCodeLine | 57 => nCodeText
  | 58 => nCodeTangle | 59 => nCodeCallout | 60 => nBlockCode | 61 => nBlockQuote | 62 => nBlockComment
  | 63 => nBlockCenter | 64 => nBlockVerse | 65 => nBlockExample | 66 => nBlockExport | 67 => nBlockDetails
  | 68 => nBlockSummary | 69 => nBlockDynamicFallback | 70 => nBigIdent | 71 => nBold
  | 72 => nErrorInfoToken | 73 => nErrorSkipGroup | 74 => nErrorSkipToken | 75 => nItalic | 76 => nVerbatim
  | 77 => nBacktick | 78 => nUnderline | 79 => nStrike | 80 => nQuote | 81 => nAngle | 82 => nMonospace
  | 83 => nPar | 84 => nCriticMarkStructure | 85 => nInlineMath | 86 => nDisplayMath | 87 => nSpace
  | 88 => nPunctuation | 89 => nColon | 90 => nWord | 91 => nEscaped | 92 => nNewline | 93 => nRawLink
  | 94 => nLink | 95 => nMacro | 96 => nSymbol | 97 => nStaticActiveTime | 98 => nStaticInactiveTime
  | 99 => nDynamicActiveTime | 100 => nDynamicInactiveTime | 101 => nTimeRange | 102 => nSimpleTime
  | 103 => nHashTag | 104 => nMetaSymbol | 105 => nAtMention | 106 => nPlaceholder | 107 => nRadioTarget
  | 108 => nTarget | 109 => nSrcInlineCode | 110 => nInlineCallCode | 111 => nInlineExport
  | 112 => nInlineComment | 113 => nRawText | 114 => nSubtreeDescription | 115 => nSubtreeUrgency
  | 116 => nDrawerLogbook | 117 => nDrawer | 118 => nDrawerPropertyList | 119 => nDrawerProperty
  | 120 => nSubtree | 121 => nSubtreeTimes | 122 => nSubtreeStars | 123 => nSubtreeCompletion
  | 124 => nSubtreeImportance | _ => nNone
  end%N.

Lemma nk_of_num k : nk_of (nk_num k) = k.
Proof. destruct k; reflexivity. Qed.

Definition nk_eqb (a b : nk) : bool := N.eqb (nk_num a) (nk_num b).

Lemma nk_eqb_eq a b : nk_eqb a b = true <-> a = b.
Proof.
  unfold nk_eqb. rewrite N.eqb_eq. split; [|congruence].
  intro H. rewrite <- (nk_of_num a), <- (nk_of_num b), H. reflexivity.
Qed.
