(** What a parsed document means, written as a relation between a parse tree and the tree of the document. The relation
    does not mention how the converter works; only the type of document trees is shared with it. *)
From Coq Require Import String.
From Verif Require Import Base StrModel NodeKind.
From Verif Require RegroupModel TreeSpec ParseModel AttrModel.
From Verif Require Import ConvModel.
Import TreeSpec.
Local Open Scope nat_scope.

(** Leaves of running text, and nodes that are only a list of others. *)
Definition leaf_of (k : nk) : option osk :=
  match k with
  | nSpace => Some oSpace | nWord => Some oWord | nNewline => Some oNewline | nPunctuation => Some oPunctuation
  | nColon => Some oPunctuation | nBigIdent => Some oBigIdent | nRawText => Some oRawText
  | nPlaceholder => Some oPlaceholder | nEscaped => Some oEscaped | nAtMention => Some oAtMention
  | _ => None
  end.
Definition mark_of (k : nk) : option osk :=
  match k with
  | nBold => Some oBold | nItalic => Some oItalic | nStrike => Some oStrike | nUnderline => Some oUnderline
  | nVerbatim => Some oVerbatim | nMonospace => Some oMonospace | nList => Some oList | nPar => Some oPar | nQuote => Some oMarkQuote
  | _ => None
  end.
Definition blank (s : sem) : Prop := skind s = oSpace \/ skind s = oNewline.

(** *** Commands and what they are attached to *)
(** A statement takes the commands right before it and the formulas right after it; the commands before a paragraph
    that is only a link are the link's. *)
Definition with_attached (s : sem) (commands formulas : list sem) : sem :=
  match s with
  | Sem oParagraph d f [Sem oLink d' f' s' _] _ => Sem oParagraph d f [Sem oLink d' f' s' commands] formulas
  | Sem k d f subs _ => Sem k d f subs (commands ++ formulas)
  end.
(** The converted items, with the kinds they had, and the list they become. *)
Inductive gathered : list (nk * sem) -> list sem -> Prop :=
| gathered_statement cmds k s forms rest l :
    Forall (fun p => is_attached (skind (snd p)) = true) cmds ->
    is_stmt (skind s) = true -> is_attached (skind s) = false ->
    Forall (fun p => fst p = nCmdTblfm) forms -> (forall p r, rest = p :: r -> fst p <> nCmdTblfm) ->
    gathered rest l ->
    gathered (cmds ++ (k, s) :: forms ++ rest) (with_attached s (map snd cmds) (map snd forms) :: l)
| gathered_other cmds k s rest l :
    Forall (fun p => is_attached (skind (snd p)) = true) cmds ->
    is_stmt (skind s) = false -> gathered rest l ->
    gathered (cmds ++ (k, s) :: rest) (map snd cmds ++ s :: l)
| gathered_end cmds : Forall (fun p => is_attached (skind (snd p)) = true) cmds -> gathered cmds (map snd cmds).
(** The items of a list in the order of the text: every node is preceded by its commands and followed by its formulas. *)
Definition opened (s : sem) : list sem :=
  match s with
  | Sem oParagraph d f [Sem oLink d' f' s' att'] att => att' ++ Sem oParagraph d f [Sem oLink d' f' s' []] [] :: att
  | Sem k d f subs att =>
      filter (fun x => is_attached (skind x)) att ++ Sem k d f subs [] :: filter (fun x => negb (is_attached (skind x))) att
  end.

(** *** The meaning of a tree *)
(** [t] is [s] without characters at its ends. *)
Definition trims (lead trail : list Z) (s t : str) : Prop :=
  exists a b, s = a ++ t ++ b /\ Forall (fun c => In c lead) a /\ Forall (fun c => In c trail) b /\
    (exists c m, t = c :: m /\ ~ In c lead) /\ (exists c m, t = m ++ [c] /\ ~ In c trail).

Section Meaning.
Variable toks : list RegroupModel.otok.
Variable time_ok : str -> option Z -> bool.
Definition absent (a : ptree) : Prop := a = MonoLeaf nEmpty ParseModel.MNone.
Definition text_of (a : ptree) (s : str) : Prop :=
  exists k i x, a = Leaf k (Some i) /\ nth_error toks i = Some x /\ RegroupModel.otext x = s.

(** Checkbox, TODO keyword, priority and tags of headings and items *)
Definition box_state (a : ptree) (st : list Z) : Prop :=
  a = MonoLeaf nEmpty ParseModel.MNone /\ st = [] \/
  exists s, text_of a s /\ kind_of a = nCheckbox /\
    (s = lit "[ ]" /\ st = [0%Z] \/ (s = lit "[x]" \/ s = lit "[X]") /\ st = [1%Z] \/ s = lit "[-]" /\ st = [2%Z]).
Definition keyword (a : ptree) (kw : str) (comment : bool) : Prop :=
  absent a /\ kw = [] /\ comment = false \/
  exists s, text_of a s /\ kind_of a <> nEmpty /\
    (s = lit "COMMENT" /\ kw = [] /\ comment = true \/ s <> lit "COMMENT" /\ kw = s /\ comment = false).
Definition priority (a : ptree) (p : str) : Prop :=
  absent a /\ p = [] \/ exists s, text_of a s /\ kind_of a <> nEmpty /\ trims [91; 35]%Z [93%Z] s p.
Inductive tag_means : ptree -> sem -> Prop :=
| tag_is h sub s t tags : text_of h s -> trims [35%Z] [] s t -> Forall2 tag_means sub tags ->
    tag_means (Branch nHashTag (h :: sub)) (Sem oHashTag (text [t]) (map (pair FSubtag) tags) [] []).
Definition tagged (a : ptree) (tags : list sem) : Prop :=
  absent a /\ tags = [] \/ exists sub, a = Branch nInlineStmtList sub /\ Forall2 tag_means sub tags.
Definition is_archive (s : sem) : bool := match dtext (sdata s) with [t] => str_is t "ARCHIVE" | _ => false end.
(** The title without the word that makes a heading a comment *)
Definition comment_word : sem := Sem oBigIdent (text [lit "COMMENT"]) [] [] [].
Definition titled (title : list sem) (comment : bool) (l : list sem) : Prop :=
  comment = false /\ l = title /\ (forall r, title <> comment_word :: r) \/
  comment = true /\ exists sp, title = comment_word :: sp ++ l /\ Forall (fun s => skind s = oSpace) sp /\
    (forall x r, l = x :: r -> skind x <> oSpace).
(** Numbers, and how much of a heading is done *)
Definition numeral (s : str) (z : Z) : Prop :=
  s <> [] /\ Forall (fun c => 48 <= c <= 57)%Z s /\ z = fold_left (fun v c => (10 * v + (c - 48))%Z) s 0%Z /\ (z <= 2147483647)%Z.
Definition completion (a : ptree) (l : list Z) : Prop :=
  absent a /\ l = [] \/
  exists s, text_of a s /\ kind_of a <> nEmpty /\
    ((exists d z, s = lit "[" ++ d ++ lit "%]" /\ numeral d z /\ l = [z; 100%Z]) \/
     (exists d f x y, s = lit "[" ++ d ++ lit "/" ++ f ++ lit "]" /\ numeral d x /\ numeral f y /\ l = [x; y])).
(** Times: a date and maybe a time of the day, a zone in seconds, periods of repetition and of the warning *)
Definition zone (a : ptree) (o : option Z) : Prop :=
  absent a /\ o = None \/
  exists s g hs h ms m, text_of a s /\ kind_of a <> nEmpty /\ s = g ++ hs ++ ms /\ length hs = 2 /\ numeral hs h /\
    (ms = [] /\ m = 0%Z \/ length ms = 2 /\ numeral ms m) /\
    ((g = [] \/ g = lit "+") /\ o = Some (h * 3600 + m * 60)%Z \/ g = lit "-" /\ o = Some (- (h * 3600 + m * 60))%Z).
Definition period (s : str) (z : Z) : Prop :=
  exists d u, s = d ++ [u] /\ In u (lit "dmwyMh") /\
    (numeral d z \/ (exists e, d = 43%Z :: e /\ numeral e z) \/ exists e m, d = 45%Z :: e /\ numeral e m /\ z = (- m)%Z).
Inductive repetition : ptree -> Z -> Prop :=
| repetition_is k mode p m s z rest : text_of mode m -> text_of p s -> period s z -> repetition (Branch k (mode :: p :: rest)) z.
Inductive time_means : ptree -> sem -> Prop :=
| time_is k y c z r w ys cs dt o reps warn : k = nStaticActiveTime \/ k = nStaticInactiveTime ->
    text_of y ys -> kind_of y <> nEmpty ->
    (absent c /\ dt = ys \/ text_of c cs /\ kind_of c <> nEmpty /\ ys <> [] /\ dt = ys ++ lit " " ++ cs) ->
    zone z o -> time_ok dt o = true ->
    (absent r /\ reps = [] \/ exists kr rs, r = Branch kr rs /\ kr <> nEmpty /\ Forall2 repetition rs reps) ->
    (absent w /\ warn = [] \/ exists s p, text_of w s /\ kind_of w <> nEmpty /\ period s p /\ warn = [p]) ->
    time_means (Branch k [y; c; z; r; w]) (Sem oTime (D [dt] (flag (nk_eqb k nStaticActiveTime) :: 1%Z :: reps ++ warn) [] []) [] [] []).
(** The times of a heading *)
Inductive timed : ptree -> fld * sem -> Prop :=
| timed_is k w t rest word f s : text_of w word -> kind_of w = nBigIdent \/ kind_of w = nWord -> time_means t s ->
    (word = lit "CLOSED:" /\ f = FClosed \/ word = lit "DEADLINE:" /\ f = FDeadline \/ word = lit "SCHEDULED:" /\ f = FScheduled) ->
    timed (Branch k (w :: t :: rest)) (f, s).
Definition times_of (a : ptree) (l : list (fld * sem)) : Prop :=
  absent a /\ l = [] \/ exists k sub, a = Branch k sub /\ Forall2 timed sub l.
(** Arguments: a name that is written with a colon, maybe a variable, and a text, which may be in quotes *)
Definition value_means (a : ptree) (q : bool) (t : str) : Prop :=
  (exists s, text_of a s /\ kind_of a = nRawText /\
     (q = false /\ t = s /\ ~ In 58%Z s /\ starts_with s [34%Z] = false \/ q = true /\ s = [34%Z] ++ t ++ [34%Z])) \/
  exists sub ts, a = Branch nInlineStmtList sub /\ Forall2 text_of sub ts /\ q = false /\ t = concat ts.
Inductive argument : ptree -> attrv -> Prop :=
| argument_is nm var v cells name vn q t :
    (absent nm /\ name = None \/ exists u n, text_of nm u /\ kind_of nm <> nEmpty /\ trims [58%Z] [] u n /\ name = Some n) ->
    (absent var /\ vn = None \/ exists u, text_of var u /\ kind_of var <> nEmpty /\ vn = Some u) ->
    value_means v q t -> absent cells ->
    argument (Branch nAttrValue [nm; var; v; cells]) (Attrv name vn q (AText t) []).
(** An argument without a name belongs to the name before it. *)
Definition name_at (raw : list attrv) (i : nat) : option str :=
  fold_left (fun o x => match an x with Some s => Some s | None => o end) (firstn (S i) raw) None.
Definition named_by (raw l : list attrv) : Prop :=
  length l = length raw /\
  forall i x, nth_error raw i = Some x -> nth_error l i = Some (Attrv (name_at raw i) (avar x) (aquoted x) (adata x) (aspan x)).
Definition arguments (a : ptree) (l : list attrv) : Prop :=
  absent a /\ l = [] \/
  exists sub raw, (a = Branch nInlineStmtList sub \/ exists flags k, a = Branch nAttrs [flags; Branch k sub]) /\
    Forall2 argument sub raw /\ named_by raw l.
(** Where a link leads *)
Definition link_to (proto tgt : ptree) (t : target) : Prop :=
  exists s u, text_of tgt s /\ trims [58%Z] [] s u /\
    (absent proto /\
       ((starts_with u (lit ".") = true \/ starts_with u (lit "/") = true) /\ t = TFile u \/
        starts_with u (lit ".") = false /\ starts_with u (lit "/") = false /\ starts_with u (lit "*") = false /\ t = TInternal u \/
        exists n v parts, u = repeat 42%Z (S n) ++ v /\ (forall c r, v = c :: r -> c <> 42%Z) /\ parts <> [] /\ trims [42; 32]%Z [] v (join [47%Z] parts) /\
          Forall (fun p => ~ In 47%Z p) parts /\ t = TTitle (S n) parts) \/
     exists w, text_of proto w /\ kind_of proto <> nEmpty /\
       ((w = lit "http" \/ w = lit "https") /\ t = TRaw (w ++ lit ":" ++ u) \/
        w = lit "file" /\ t = TFile u \/ w = lit "attachment" /\ t = TAttachment u \/ w = lit "#" /\ t = TCustomId u \/
        w = lit "id" /\ exists v, trims [32%Z] [32%Z] u v /\ t = TId v)).

Definition quote_of (k : nk) : option osk :=
  match k with nBlockQuote => Some oBlockQuote | nBlockComment => Some oBlockComment | _ => None end.
Inductive means : ptree -> sem -> Prop :=
| means_leaf k o i x : leaf_of k = Some o -> nth_error toks i = Some x ->
    means (Leaf k (Some i)) (Sem o (text [RegroupModel.otext x]) [] [] [])
| means_empty a : absent a -> means a (node oEmpty [])
| means_separator t : means (Leaf nTextSeparator t) (node oTextSeparator [])
| means_mark k o sub ss : mark_of k = Some o -> Forall2 means sub ss -> means (Branch k sub) (node o ss)
(** A paragraph ends with its last word. *)
| means_paragraph sub ss tail : Forall2 means sub (ss ++ tail) -> Forall blank tail ->
    (forall l x, ss = l ++ [x] -> ~ blank x) -> means (Branch nParagraph sub) (node oParagraph ss)
| means_statements k sub ss l : k = nStmtList \/ k = nInlineStmtList -> Forall2 means sub ss ->
    gathered (combine (map kind_of sub) ss) l -> means (Branch k sub) (node oStmtList l)
| means_item bullet counter box header body b bl st hd ss :
    text_of bullet b -> kind_of bullet <> nEmpty -> absent counter -> trims [32%Z] [32%Z] b bl -> box_state box st ->
    (absent header /\ hd = [] \/ exists p, kind_of header = nParagraph /\ means header p /\ hd = [(FHeader, p)]) ->
    Forall2 means body ss ->
    means (Branch nListItem [bullet; counter; box; header; Branch nStmtList body]) (Sem oListItem (D [bl] st [] []) hd ss [])
| means_heading prefix todo urgency title compl tags times drawer body stars kw c1 pr tl c2 ttl cl tgs tms ss l :
    text_of prefix stars -> keyword todo kw c1 -> priority urgency pr ->
    (absent title /\ tl = [] \/ kind_of title = nParagraph /\ means title (node oParagraph tl)) -> titled tl c2 ttl ->
    completion compl cl -> tagged tags tgs -> times_of times tms -> absent drawer ->
    Forall2 means body ss -> gathered (combine (map kind_of body) ss) l ->
    means (Branch nSubtree [prefix; todo; urgency; title; compl; tags; times; drawer; Branch nStmtList body])
      (Sem oSubtree (D [kw; pr] ([Z.of_nat (length stars); flag (c2 || c1); flag (existsb is_archive tgs)] ++ cl) [] [])
        ((FTitle, node oParagraph ttl) :: map (pair FTag) (filter (fun t => negb (is_archive t)) tgs) ++ tms) l [])
| means_quote k o args sub ss l : quote_of k = Some o -> absent args -> Forall2 means sub ss ->
    gathered (combine (map kind_of sub) ss) l -> means (Branch k (args :: sub)) (node o l)
| means_center args sub ss : absent args -> Forall2 means sub ss -> means (Branch nBlockCenter (args :: sub)) (node oBlockCenter ss)
| means_example args sub ss : absent args \/ args = Branch nInlineStmtList [] -> sub <> [] -> Forall2 means sub ss -> means (Branch nBlockExample (args :: sub)) (node oBlockExample ss)
| means_table args rows ss : absent args -> rows <> [] -> Forall2 row_means rows ss ->
    means (Branch nTable (args :: rows)) (Sem oTable (D [] [0%Z] [] []) (map (pair FRow) ss) [] [])
| means_link proto tgt desc t hd : link_to proto tgt t ->
    (absent desc /\ hd = [] \/ exists p, kind_of desc = nParagraph /\ means desc p /\ hd = [(FDescription, p)]) ->
    means (Branch nLink [proto; tgt; desc]) (Sem oLink (D [] [] [] [t]) hd [] [])
| means_footnote nm def s : absent nm -> text_of def s ->
    means (Branch nFootnote [nm; def]) (Sem oLink (D [] [] [] [TFootnote s]) [] [] [])
| means_inline_footnote def s : means def s ->
    means (Branch nInlineFootnote [def]) (Sem oInlineFootnote nothing [(FDefinition, s)] [] [])
| means_tag a s : tag_means a s -> means a s
| means_time a s : time_means a s -> means a s
(** The lines of a source block *)
| means_code lang args al kb body lines l res : text_of lang l -> kind_of lang <> nEmpty -> arguments args al ->
    Forall2 line_means body lines -> absent res ->
    means (Branch nBlockCode [lang; args; Branch kb body; res])
      (Sem oBlockCode (D (l :: lines) [] [al] []) [] [] [])
| means_caption p q : kind_of p = nParagraph -> means p q ->
    means (Branch nCmdCaption [Branch nAttrs [p]]) (Sem oCmdCaption nothing [(FText, q)] [] [])
| means_name k e1 e2 v e3 rest s : absent e1 -> absent e2 -> absent e3 -> text_of v s -> kind_of v = nRawText ->
    ~ In 58%Z s -> starts_with s [34%Z] = false ->
    means (Branch nCmdName [Branch k (Branch nAttrValue [e1; e2; v; e3] :: rest)]) (Sem oCmdName (text [s]) [] [] [])
| means_range f t diff sf st : time_means f sf -> time_means t st -> absent diff ->
    means (Branch nTimeRange [f; t; diff]) (Sem oTimeRange nothing [(FFrom, sf); (FTo, st)] [] [])
(** The words of a radio target, without the blanks between them *)
| means_radio sub ts ws : Forall2 text_of sub ts ->
    Forall2 text_of (filter (fun x => negb (nk_eqb (kind_of x) nSpace)) sub) ws ->
    means (Branch nRadioTarget sub) (Sem oRadioTarget (text ws) [] [] [])
| means_target sub ts : Forall2 text_of sub ts -> means (Branch nTarget sub) (Sem oTextTarget (text [concat ts]) [] [] [])
(** What is marked by an editor, and what replaces it *)
| means_critic nm old new s l z : text_of nm s ->
    (absent old /\ l = [] \/ exists y, kind_of old <> nEmpty /\ means old y /\ l = [y]) -> means new z ->
    means (Branch nCriticMarkStructure [nm; old; new]) (Sem oCriticMarkup (text [s]) [] (l ++ [z]) [])
| means_macro nm args s l : text_of nm s -> arguments args l -> means (Branch nMacro [nm; args]) (Sem oMacro (D [s] [] [l] []) [] [] [])
| means_attr nm args s l : text_of nm s -> normalize s = s -> arguments args l ->
    means (Branch nCmdAttr [nm; args]) (Sem oCmdAttr (D [s] [] [l] []) [] [] [])
| means_raw_link i x : nth_error toks i = Some x ->
    means (Leaf nRawLink (Some i)) (Sem oLink (D [] [] [] [TRaw (RegroupModel.otext x)]) [] [] [])
| means_symbol nm k body c s ss : text_of nm (c :: s) -> Forall2 means body ss ->
    means (Branch nSymbol [nm; Branch k []; Branch nInlineStmtList body]) (Sem oSymbol (text [s]) (map (pair FPositional) ss) [] [])
| means_fixed sub ss : sub <> [] -> Forall (fun x => kind_of x = nRawText) sub -> Forall2 means sub ss ->
    means (Branch nColonExample sub) (node oColonExample ss)
with row_means : ptree -> sem -> Prop :=
| row_is args txt cells ss : absent args -> absent txt -> Forall2 cell_means cells ss ->
    row_means (Branch nTableRow [args; txt; Branch nStmtList cells]) (Sem oRow (D [] [0%Z] [] []) (map (pair FCell) ss) [] [])
with cell_means : ptree -> sem -> Prop :=
| cell_is args sub ss : absent args -> Forall2 means sub ss ->
    cell_means (Branch nTableCell [args; Branch nStmtList sub]) (Sem oCell (D [] [0%Z] [] []) [] ss [])
with line_means : ptree -> str -> Prop :=
| line_is k parts texts : Forall2 part_means parts texts -> line_means (Branch k parts) (concat texts)
with part_means : ptree -> str -> Prop :=
| part_is a s : text_of a s -> kind_of a = nCodeText -> part_means a s.

(** *** Documents *)
(** The commands that set something in the document. *)
Definition startup_words : list str :=
  map (fun w => lit w) ["content"; "overview"; "showall"; "show2levels"; "show3levels"; "show4levels"; "showeverything"]%string.
Inductive sets : ptree -> setting -> Prop :=
| sets_title k sub ss tail : Forall2 means sub (ss ++ tail) -> Forall blank tail -> (forall l x, ss = l ++ [x] -> ~ blank x) ->
    sets (Branch nCmdTitle [Branch k sub]) (STitle (node oParagraph ss))
| sets_tags tags ss : tags <> [] -> Forall2 tag_means tags ss -> sets (Branch nCmdFiletags tags) (SFiletags ss)
| sets_startup a rest s w : text_of a s -> trims [32%Z] [32%Z] s w -> In w startup_words -> sets (Branch nCmdStartup (a :: rest)) (SStartup w)
| sets_keywords a : kind_of a = nCmdKeywords -> sets a SKeywords.
(** The statements of a document are commands that set something and others. *)
Inductive document_means : list ptree -> list setting -> list (nk * sem) -> Prop :=
| document_end : document_means [] [] []
| document_sets a u l us items : sets a u -> document_means l us items -> document_means (a :: l) (u :: us) items
| document_statement a s l us items : means a s -> document_means l us items -> document_means (a :: l) us ((kind_of a, s) :: items).

(** The commands that set something in a document *)
Definition setting_kind (k : nk) : bool :=
  match k with
  | nCmdColumns | nCmdTitle | nCmdOptions | nCmdPropertyArgs | nCmdStartup | nCmdLatexClass | nCmdLatexHeader | nCmdLatexCompiler
  | nCmdLatexClassOptions | nCmdKeywords | nCmdFiletags => true
  | _ => false
  end.

(** *** The words of a document *)
(** The fields with running text *)
Definition shown (k : nk) (i : nat) : bool :=
  match k with
  | nSubtree => (i =? 3) || (i =? 8)
  | nListItem => (i =? 3) || (i =? 4)
  | nLink => i =? 2
  | nCriticMarkStructure => (i =? 1) || (i =? 2)
  | nSymbol => i =? 2
  | nBlockCode | nHashTag | nFootnote | nCmdName | nStaticActiveTime | nStaticInactiveTime | nTimeRange | nRadioTarget | nTarget
  | nMacro | nCmdAttr => false
  | _ => true
  end.
Definition word_kind (k : nk) : bool :=
  match leaf_of k with Some oSpace | Some oNewline | None => false | Some _ => true end.
Definition leaf_text (i : option nat) : str :=
  match i with Some i => match nth_error toks i with Some x => RegroupModel.otext x | None => [] end | None => [] end.
Definition commented (title : ptree) : bool :=
  match sub_of title with Leaf nBigIdent i :: _ => str_is (leaf_text i) "COMMENT" | _ => false end.
Fixpoint words_of (a : ptree) : list str :=
  match a with
  | Leaf k i => if word_kind k then [leaf_text i] else []
  | MonoLeaf _ _ => []
  | Branch k sub =>
      (fix go (i : nat) (l : list ptree) : list str :=
         match l with
         | [] => []
         | x :: r =>
             (if shown k i then if nk_eqb k nSubtree && (i =? 3) && commented x then tl (words_of x) else words_of x else []) ++ go (S i) r
         end) 0 sub
  end.
Definition osk_word (k : osk) : bool :=
  match k with oWord | oPunctuation | oBigIdent | oRawText | oPlaceholder | oEscaped | oAtMention => true | _ => false end.
Fixpoint words (s : sem) : list str :=
  match s with
  | Sem k d f subs att =>
      flat_map words att ++ (if osk_word k then dtext d else []) ++ flat_map (fun p => words (snd p)) f ++ flat_map words subs
  end.

(** *** The outline of a document *)
Inductive outline := Heading (level : Z) (title : list str) (below : list outline).
Fixpoint outline_of (a : ptree) : list outline :=
  match a with
  | Branch k sub =>
      let below := (fix go (i : nat) l := match l with [] => [] | x :: r => (if shown k i then outline_of x else []) ++ go (S i) r end) 0 sub in
      match k, sub with
      | nSubtree, prefix :: _ :: _ :: title :: _ =>
          [Heading (match prefix with Leaf _ i => Z.of_nat (length (leaf_text i)) | _ => 0%Z end)
             (if commented title then tl (words_of title) else words_of title) below]
      | _, _ => below
      end
  | _ => []
  end.
Fixpoint headings (s : sem) : list outline :=
  match s with
  | Sem k d f subs att =>
      let below := flat_map headings att ++ flat_map (fun p => headings (snd p)) f ++ flat_map headings subs in
      match k with
      | oSubtree => [Heading (nth 0 (dnum d) 0%Z) (flat_map (fun p => match p with (FTitle, t) => words t | _ => [] end) f) below]
      | _ => below
      end
  end.
End Meaning.
