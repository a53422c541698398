(** The fields of the nodes of a parsed document, as the parser lays them out; OrgSpec.cpp gives the names and the
    places of the fields. Independent of the parser. *)
From Verif Require Import Base NodeKind.
From Verif Require RegroupModel TreeModel TreeSpec ParseModel.
From Verif Require Import TokKind ParseSpec.
Import TreeSpec.

(** A field is one child of one of some kinds; [Rep] is any number of such children, [Any] any children at all. *)
Inductive field := One (ks : list nk) | Rep (ks : list nk) | Any.
Fixpoint fits (fs : list field) (w : list nk) : Prop :=
  match fs with
  | [] => w = []
  | One ks :: r => match w with k :: q => In k ks /\ fits r q | [] => False end
  | Rep ks :: r => exists a b, w = a ++ b /\ Forall (fun k => In k ks) a /\ fits r b
  | Any :: r => exists a b, w = a ++ b /\ fits r b
  end.

Definition time_kinds : list nk := [nStaticActiveTime; nStaticInactiveTime; nDynamicActiveTime; nDynamicInactiveTime].
Definition time_fields : list field :=
  [One [nRawText; nEmpty]; One [nRawText; nEmpty]; One [nRawText; nEmpty]; One [nInlineStmtList; nEmpty]; One [nRawText; nEmpty]].
Definition args : field := One [nInlineStmtList; nEmpty].

(** The layouts a node of a kind can have, OrgSpec.cpp:84-500. A heading is described apart. Where the table asks for
    other kinds than the parser ever makes, the kinds are the parser's: the arguments of blocks and rows
    (InlineStmtList for Attrs), the repeater of a time, and the commands with a paragraph, whose table has a second
    field the parser does not make. *)
Definition layouts (k : nk) : list (list field) :=
  match k with
  | nStaticActiveTime | nStaticInactiveTime => [time_fields]
  | nDynamicActiveTime | nDynamicInactiveTime => [[One [nInlineStmtList; nRawText]]]
  | nTimeRange => [[One time_kinds; One time_kinds; One [nSimpleTime; nEmpty]]]
  | nHashTag => [[One [nRawText]; Rep [nHashTag]]]
  | nMacro => [[One [nWord]; One [nInlineStmtList]]]
  | nAttrLisp => [[One [nInlineStmtList; nRawText]]]
  | nAttrValue => [[One [nWord; nEmpty]; One [nRawText; nEmpty]; One [nAttrLisp; nRawText; nInlineStmtList; nEmpty]; args]]
  | nAttrs => [[One [nInlineStmtList]; One [nInlineStmtList]]; [One [nParagraph; nEmpty]]]
  | nSrcInlineCode => [[One [nWord]; One [nEmpty]; One [nCodeLine]; One [nEmpty]]]
  | nVerbatim | nMonospace => [[Rep [nRawText; nPlaceholder; nPunctuation]]]
  | nRadioTarget => [[Rep [nRawText; nSpace; nWord; nBigIdent]]]
  | nInlineExport => [[One [nRawText]; One [nRawText]]]
  | nLink => [[One [nWord; nEmpty]; One [nRawText; nParagraph; nEmpty]; One [nParagraph; nEmpty]]]
  | nSymbol => [[One [nWord]; One [nInlineStmtList]; One [nInlineStmtList]]]
  | nFootnote => [[One [nEmpty]; One [nRawText]]]
  | nInlineFootnote => [[One [nParagraph]]]
  | nCriticMarkStructure => [[One [nRawText]; One [nParagraph; nEmpty]; One [nParagraph]]]
  | nTable => [[args; Rep [nTableRow]]]
  | nTableRow => [[args; One [nEmpty]; One [nStmtList]]]
  | nTableCell => [[args; One [nStmtList]]]
  | nBlockExport => [[One [nWord]; One [nInlineStmtList]; One [nStmtList]]]
  | nBlockExample => [[One [nInlineStmtList]; Rep [nRawText]]]
  | nColonExample => [[Rep [nRawText; nEmpty]]]
  | nBlockVerse | nBlockCenter | nBlockQuote | nBlockComment => [[args; Any]]
  | nBlockDynamicFallback => [[One [nWord]; args; Any]]
  | nBlockCode => [[One [nWord; nEmpty]; One [nAttrs]; One [nStmtList]; One [nCmdResults; nEmpty]]]
  | nCodeLine => [[Rep [nCodeText; nCodeCallout; nCodeTangle]]]
  | nCodeCallout => [[One [nWord]]]
  | nCodeTangle => [[One [nWord]; Rep [nRawText]]]
  | nCmdResults => [[One [nInlineStmtList]]; [One [nInlineStmtList]; Any]]
  | nList => [[Rep [nListItem]]]
  | nListItem => [[One [nRawText]; One [nEmpty]; One [nCheckbox; nEmpty]; One [nParagraph; nEmpty]; One [nStmtList]]]
  | nDrawer => [[Rep [nDrawerPropertyList; nDrawerLogbook]]]
  | nDrawerPropertyList => [[Rep [nDrawerProperty]]]
  | nDrawerProperty => [[One [nRawText]; One [nRawText; nInlineStmtList; nParagraph]]]
  | nDrawerLogbook => [[One [nList]]]
  | nCmdCustomRawCommand => [[One [nRawText]; Rep [nRawText]]]
  | nCmdCustomTextCommand => [[One [nRawText]; One [nAttrs]]]
  | nCmdCustomArgsCommand => [[One [nRawText]; One [nInlineStmtList]]]
  | nCmdCallCode => [[One [nWord]; args; args; One [nInlineStmtList]]]
  | nCmdAuthor | nCmdCreator | nCmdTitle | nCmdCaption => [[One [nAttrs]]]
  | nCmdEmail | nCmdLanguage | nCmdLatexHeader | nCmdStartup => [[Rep [nRawText]]]
  | nCmdFiletags => [[Rep [nHashTag]]]
  | nCmdLatexClass | nCmdLatexCompiler => [[One [nWord]]]
  | nCmdLatexClassOptions | nCmdOptions | nCmdKeywords | nCmdTblfm | nCmdColumns | nCmdInclude | nCmdName | nCmdHeader =>
      [[One [nInlineStmtList]]]
  | nCmdPropertyRaw => [[One [nRawText]]]
  | nCmdPropertyArgs => [[One [nRawText]; One [nInlineStmtList]]; [One [nRawText]; One [nInlineStmtList]; One [nParagraph]]]
  | nCmdAttr => [[One [nWord]; One [nInlineStmtList]]]
  | nErrorSkipGroup => [[Rep [nErrorSkipToken]]]
  | nStmtList | nParagraph | nInlineStmtList | nBold | nItalic | nUnderline | nStrike => [[Any]]
  | _ => []
  end.
(** The fields of a heading after its stars and before its body, OrgSpec.cpp:94-133. *)
Definition heading_fields : list field :=
  [One [nBigIdent; nEmpty]; One [nSubtreeUrgency; nEmpty]; One [nParagraph; nEmpty]; One [nSubtreeCompletion; nEmpty];
   One [nInlineStmtList; nEmpty]; One [nStmtList; nEmpty]; One [nDrawer; nEmpty]].
Definition leaf_kind (k : nk) : bool := negb (nk_eqb k nSubtree) && match layouts k with [] => true | _ => false end.

Section Layout.
Variable toks : list RegroupModel.otok.
Notation ptree := (tree nk (option nat) ParseModel.mono).
(** What may be in the body of a heading: nothing before the headings are nested. *)
Variable body_ok : list ptree -> Prop.
(** A node is reported as an error, or one below it is. *)
Definition error_in (t : ptree) : Prop := Exists (fun n => TreeModel.kind n = nErrorInfoToken) (preorder t).
Definition heading_laid (sub : list ptree) : Prop :=
  exists i t fields body, sub = Leaf nRawText (Some i) :: fields ++ [Branch nStmtList body] /\ body_ok body /\
    nth_error toks i = Some t /\ RegroupModel.okind t = kSubtreeStars /\ fits heading_fields (map kind_of fields).
Definition laid (k : nk) (sub : list ptree) : Prop :=
  if nk_eqb k nSubtree then heading_laid sub
  else layouts k <> [] /\ (Exists error_in sub \/ Exists (fun fs => fits fs (map kind_of sub)) (layouts k)).
(** Everywhere in the tree; a kind that has fields is never a leaf. *)
Inductive laid_out : ptree -> Prop :=
| laid_leaf k t : leaf_kind k = true -> laid_out (Leaf k t)
| laid_mono k x : leaf_kind k = true -> laid_out (MonoLeaf k x)
| laid_branch k sub : laid k sub -> Forall laid_out sub -> laid_out (Branch k sub).
End Layout.
