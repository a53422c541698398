(** Model of the conversion of a parse tree into the tree of the document: src/haxorg/sem/SemConvert.cpp, with the
    access to the fields of a node of src/haxorg/lexbase/AstSpec.hpp and the table of src/haxorg/parse/OrgSpec.cpp.
    Line numbers without a file name are those of SemConvert.cpp.

    A node of the parse tree is the tree of TreeSpec.v: NodeAdapter (NodeAdapter.hpp:14-130) reads the flat tree of
    TreeModel.v, where C20 and C21 relate the two. Not modelled: tracing, locations, the texts of diagnostics, the
    contents of logbooks and property drawers (356-595, 662-905) and of [#+options:] (2749-2889), which are arbitrary functions here.
    The grammars of [#+tblfm:] and [#+columns:] (lexy), the date parser (cctz) and std::stof are arbitrary functions
    too, of the text they are given. *)
From Coq Require Import String.
From Verif Require Import Base StrModel NodeKind.
From Verif Require RegroupModel TreeSpec ParseModel AttrModel.
Import TreeSpec.
Local Open Scope nat_scope.
Notation ptree := (tree nk (option nat) ParseModel.mono) (only parsing).
Notation lit := AttrModel.lit.

(** How a function of the converter ends. FieldAccessError is apart from the other exceptions and failed assertions
    because three functions catch it (AstSpec.hpp:18). *)
Inductive res (A : Type) := Done (a : A) | NoField | Thrown | Undefined | Spent.
Arguments Done {A} a. Arguments NoField {A}. Arguments Thrown {A}. Arguments Undefined {A}. Arguments Spent {A}.
Definition rbind {A B} (m : res A) (f : A -> res B) : res B :=
  match m with Done a => f a | NoField => NoField | Thrown => Thrown | Undefined => Undefined | Spent => Spent end.
Notation "x <- m ;; k" := (rbind m (fun x => k)) (at level 61, m at next level, right associativity).
Definition each {A B} (f : A -> res B) : list A -> res (list B) :=
  fix go l := match l with [] => Done [] | x :: r => y <- f x ;; ys <- go r ;; Done (y :: ys) end.
Definition lift {A} (o : outcome A) : res A :=
  match o with Ok a => Done a | Throw => Thrown | UB => Undefined | Fuel => Spent end.

(** *** The converted tree *)
(** OrgSemKind of the nodes the converter makes, SemOrgEnums.hpp *)
Inductive osk :=
| oErrorItem | oErrorGroup | oErrorSkipGroup | oErrorSkipToken | oStmtList | oEmpty | oParagraph | oSubtree | oSubtreeLog
| oTime | oTimeRange | oSpace | oWord | oNewline | oRawText | oPunctuation | oBigIdent | oPlaceholder | oEscaped
| oAtMention | oTextTarget | oRadioTarget | oTextSeparator | oBold | oItalic | oStrike | oUnderline | oVerbatim
| oMonospace | oMarkQuote | oPar | oLatex | oLink | oHashTag | oMacro | oSymbol | oInlineFootnote | oInlineExport
| oCriticMarkup | oList | oListItem | oTable | oRow | oCell | oBlockCode | oBlockCodeEvalResult | oBlockExport
| oBlockExample | oBlockCenter | oBlockQuote | oBlockComment | oBlockDynamicFallback | oColonExample
| oCmdCaption | oCmdCreator | oCmdAuthor | oCmdEmail | oCmdLanguage | oCmdName | oCmdCall | oCmdAttr | oCmdColumns
| oCmdTblfm | oCmdInclude | oCmdCustomRaw | oCmdCustomText | oCmdCustomArgs | oProperty | oDocument.
Definition osk_dec (a b : osk) : {a = b} + {a <> b}.
Proof. decide equality. Defined.
Definition osk_eqb (a b : osk) : bool := if osk_dec a b then true else false.
(** Attached, Stmt: SemOrgTypes.hpp:45-1061, the base classes *)
Definition is_attached (k : osk) : bool :=
  match k with oCmdCaption | oCmdColumns | oCmdName | oCmdCall | oCmdAttr => true | _ => false end.
Definition is_stmt (k : osk) : bool :=
  match k with
  | oCmdCaption | oCmdColumns | oCmdName | oCmdCall | oCmdAttr
  | oCmdCreator | oCmdAuthor | oCmdEmail | oCmdLanguage | oCmdCustomArgs | oCmdCustomRaw | oCmdCustomText | oCmdTblfm
  | oLink | oBlockCenter | oBlockQuote | oBlockComment | oBlockDynamicFallback | oBlockExample | oBlockExport
  | oBlockCodeEvalResult | oBlockCode | oCell | oRow | oTable | oParagraph | oList => true
  | _ => false
  end.

(** LispCode, AttrValue, LinkTarget: SemOrgSharedTypes.hpp *)
Inductive lisp :=
| LCall (name : str) (args : list lisp) | LList (items : list lisp) | LText (s : str) | LNumber (z : Z) | LReal (s : str)
| LBoolean (b : bool) | LIdent (s : str).
Inductive aval := AText (s : str) | AFile (file reference : str) | ALisp (code : lisp).
Record attrv := Attrv { an : option str; avar : option str; aquoted : bool; adata : aval; aspan : list (Z * option Z) }.
Inductive target :=
| TRaw (s : str) | TFootnote (s : str) | TFile (s : str) | TTitle (level : nat) (path : list str) | TInternal (s : str)
| TId (s : str) | TPerson (s : str) | TAttachment (s : str) | TCustomId (s : str) | TUser (protocol : str).

(** The fields that are not nodes: texts, numbers, flags (as numbers), attributes, the target of a link; which text is
    which is said where they are set. *)
Record data := D { dtext : list str; dnum : list Z; dattr : list (list attrv); dlink : list target }.
Definition nothing : data := D [] [] [] [].
Definition text (l : list str) : data := D l [] [] [].
(** The fields that are nodes. *)
Inductive fld :=
| FTitle | FTag | FClosed | FDeadline | FScheduled | FProperty | FLog | FDescription | FHeader | FRow | FCell | FFrom
| FTo | FDefinition | FText | FPositional | FResult | FNode | FDiagnostic | FSkipped | FSubtag.
Inductive sem := Sem (k : osk) (d : data) (fields : list (fld * sem)) (subs attached : list sem).
Definition skind (s : sem) : osk := let 'Sem k _ _ _ _ := s in k.
Definition sdata (s : sem) : data := let 'Sem _ d _ _ _ := s in d.
Definition sfields (s : sem) : list (fld * sem) := let 'Sem _ _ f _ _ := s in f.
Definition ssubs (s : sem) : list sem := let 'Sem _ _ _ x _ := s in x.
Definition sattached (s : sem) : list sem := let 'Sem _ _ _ _ x := s in x.
Definition is_a (k : osk) (s : sem) : bool := osk_eqb (skind s) k.
Definition node (k : osk) (subs : list sem) : sem := Sem k nothing [] subs [].
Definition set_attached (s : sem) (l : list sem) : sem := let 'Sem k d f x _ := s in Sem k d f x l.

(** SemError, SemErrorItem: 2425-2454 *)
Definition error_item : sem := node oErrorItem [].
Definition error_group (diags subs : list sem) : sem := Sem oErrorGroup nothing (map (pair FDiagnostic) diags) subs [].
Definition sem_error : sem := error_group [error_item] [].
(** ConvResult::value throws for an error, SemConvert.hpp; a result that is not an error is never an ErrorGroup. *)
Definition value (s : sem) : res sem := if is_a oErrorGroup s then Thrown else Done s.

(** *** Texts and numbers *)
Definition chars (l : list Z) : charset := fun c => existsb (Z.eqb c) l.
Definition strip_space (s : str) : str := strip s (chars [32%Z]) (chars [32%Z]).
Definition lstrip (s : str) (l : list Z) : str := strip s (chars l) (chars []).
Definition contains (s p : str) : bool := match find s p 0 with Some _ => true | None => false end.
Definition str_is (s : str) (w : string) : bool := AttrModel.str_eqb s (lit w).
(** Str::toInt, Str.cpp:75: std::stoi *)
Definition is_space (c : Z) : bool := ((9 <=? c) && (c <=? 13) || (c =? 32))%Z.
Fixpoint skip_space (s : str) : str := match s with c :: r => if is_space c then skip_space r else s | [] => [] end.
Fixpoint digits (s : str) (acc : Z) (seen : bool) : option Z :=
  match s with
  | c :: r => if is_digit c then digits r (acc * 10 + (c - 48))%Z true else if seen then Some acc else None
  | [] => if seen then Some acc else None
  end.
Definition stoi (s : str) : res Z :=
  let (neg, body) := match skip_space s with 45%Z :: r => (true, r) | 43%Z :: r => (false, r) | r => (false, r) end in
  match digits body 0%Z false with
  | None => Thrown
  | Some z => let z := if neg : bool then (- z)%Z else z in
              if ((-2147483648 <=? z) && (z <=? 2147483647))%Z then Done z else Thrown
  end.
Definition split_on (s : str) (c : Z) : res (list str) := lift (split_char s c).
(** split by a string, strutils.cpp:48-66 *)
Definition split_by (s : str) (w : string) : res (list str) := lift (split_str (S (S (length s))) s (lit w)).
(** Vec::at *)
Definition at_ {A} (l : list A) (i : nat) : res A := match nth_error l i with Some x => Done x | None => Thrown end.

Section Convert.
Variable toks : list RegroupModel.otok.
Variable time_ok : str -> option Z -> bool.
Variable float_ok tblfm_ok columns_ok : str -> bool.
Variable log_entry : ptree -> res sem.
Variable property : ptree -> res (list sem).
Variable options : str -> res unit.

(** val().text of a terminal *)
Definition token_text (t : option nat) : res str :=
  match t with
  | Some i => match nth_error toks i with Some x => Done (RegroupModel.otext x) | None => Thrown end
  | None => Thrown
  end.
(** get_text, 234-250 *)
Fixpoint get_text (a : ptree) : res str :=
  match a with
  | Leaf _ t => token_text t
  | MonoLeaf k _ => match k with nEmpty | nInlineStmtList => Done [] | _ => Thrown end
  | Branch k sub =>
      match k with
      | nEmpty => Done []
      | nInlineStmtList => omitted <- each get_text sub ;; Done (concat omitted)
      | _ => Thrown
      end
  end.

(** *** Fields of a node *)
(** The names of OrgSpecName that the converter asks for *)
Inductive fname :=
| NYear | NClock | NZone | NRepeater | NWarn | NBody | NPrefix | NTodo | NImportance | NTitle | NCompletion | NTags
| NTimes | NDrawer | NArgs | NName | NValues | NValue | NSubname | NCells | NFrom | NTo | NHeader | NBullet | NCheckbox
| NRows | NAssoc | NDefinition | NProtocol | NLink | NDesc | NLang | NHeaderArgs | NResult | NEndArgs.
Definition fname_dec (a b : fname) : {a = b} + {a <> b}.
Proof. decide equality. Defined.
(** AstRange, AstSpec.hpp:59-112: a place, or the places from one on up to the last but some *)
Inductive place := Pt (i : nat) | From (i : nat).
(** getOrgSpec, OrgSpec.cpp:47-521: the fields of a kind the converter asks for by a name; [None] for a kind that is not
    in the table. [From i] is [slice(i, 1_B)]. *)
Definition spec (k : nk) : option (list (fname * place)) :=
  match k with
  | nStaticActiveTime | nStaticInactiveTime =>
      Some [(NYear, Pt 0); (NClock, Pt 1); (NZone, Pt 2); (NRepeater, Pt 3); (NWarn, Pt 4)]
  | nDynamicActiveTime | nDynamicInactiveTime => Some [(NBody, Pt 0)]
  | nSubtree =>
      Some [(NPrefix, Pt 0); (NTodo, Pt 1); (NImportance, Pt 2); (NTitle, Pt 3); (NCompletion, Pt 4); (NTags, Pt 5);
            (NTimes, Pt 6); (NDrawer, Pt 7); (NBody, Pt 8)]
  | nCmdFiletags => Some [(NTags, From 0)]
  | nBlockCenter | nBlockQuote | nBlockComment | nBlockExample => Some [(NArgs, Pt 0); (NBody, From 1)]
  | nBlockDynamicFallback => Some [(NName, Pt 0); (NArgs, Pt 1); (NBody, From 2)]
  | nColonExample => Some [(NBody, From 0)]
  | nStmtList | nParagraph | nInlineStmtList | nList => Some [(NBody, From 0)]
  | nSrcInlineCode | nBlockCode => Some [(NLang, Pt 0); (NHeaderArgs, Pt 1); (NBody, Pt 2); (NResult, Pt 3)]
  | nAttrs => Some [(NValues, Pt 1)]
  | nAttrValue => Some [(NName, Pt 0); (NSubname, Pt 1); (NValue, Pt 2); (NCells, Pt 3)]
  | nAttrLisp => Some [(NValue, Pt 0)]
  | nCmdTblfm => Some [(NValues, Pt 0)]
  | nListItem => Some [(NBullet, Pt 0); (NCheckbox, Pt 2); (NHeader, Pt 3); (NBody, Pt 4)]
  | nTimeRange => Some [(NFrom, Pt 0); (NTo, Pt 1)]
  | nTableRow => Some [(NArgs, Pt 0); (NBody, Pt 2)]
  | nDrawerProperty => Some [(NName, Pt 0); (NValues, Pt 1)]
  | nTable => Some [(NArgs, Pt 0); (NRows, From 1)]
  | nTableCell => Some [(NArgs, Pt 0); (NBody, Pt 1)]
  | nCriticMarkStructure => Some [(NName, Pt 0); (NAssoc, Pt 1); (NBody, Pt 2)]
  | nCmdTitle | nCmdCaption | nCmdCreator | nCmdAuthor | nCmdEmail => Some [(NArgs, Pt 0); (NBody, Pt 1)]
  | nCmdColumns | nCmdInclude | nCmdHeader => Some [(NArgs, Pt 0)]
  | nCmdPropertyText | nCmdPropertyArgs => Some [(NName, Pt 0); (NArgs, Pt 1); (NBody, Pt 2)]
  | nCmd => Some [(NName, Pt 0); (NArgs, Pt 1)]
  | nBlockExport => Some [(NName, Pt 0); (NArgs, Pt 1); (NBody, Pt 2)]
  | nInlineExport => Some [(NName, Pt 0); (NBody, Pt 1)]
  | nCmdResults => Some [(NArgs, Pt 0); (NBody, Pt 1)]
  | nCmdCustomArgsCommand | nCmdCustomTextCommand | nCmdCustomRawCommand => Some [(NName, Pt 0); (NArgs, Pt 1)]
  | nFootnote => Some [(NName, Pt 0); (NDefinition, Pt 1)]
  | nInlineFootnote => Some [(NDefinition, Pt 0)]
  | nCmdAttr => Some [(NName, Pt 0); (NArgs, Pt 1)]
  | nCmdOptions => Some [(NArgs, From 0)]
  | nLink => Some [(NProtocol, Pt 0); (NLink, Pt 1); (NDesc, Pt 2)]
  | nSymbol => Some [(NName, Pt 0); (NArgs, Pt 1); (NBody, Pt 2)]
  | nMacro => Some [(NName, Pt 0); (NArgs, From 1)]
  | nCodeTangle => Some [(NName, Pt 0)]
  | nCmdCallCode => Some [(NName, Pt 0); (NHeaderArgs, Pt 1); (NArgs, Pt 2); (NEndArgs, Pt 3)]
  | nAngle => Some [(NBody, Pt 0)]
  | nBold | nItalic | nVerbatim | nStrike | nUnderline | nMonospace => Some [(NBody, From 0)]
  | nHashTag | nDrawer | nSubtreeDescription | nErrorSkipGroup | nDrawerLogbook | nInlineCallCode | nCmdResult
  | nDrawerPropertyList | nMetaSymbol | nCodeLine => Some []
  | _ => None
  end.
Fixpoint lookup (l : list (fname * place)) (n : fname) : option place :=
  match l with [] => None | (m, p) :: r => if fname_dec m n then Some p else lookup r n end.
(** toSlice, AstSpec.hpp:115-133: the places a range stands for in a node of a size; a place right after the last
    child is let through *)
Definition to_slice (p : place) (size : nat) : option (nat * nat) :=
  match p with
  | Pt i => if i <=? size then Some (i, i) else None
  | From i => if i + 1 <=? size then Some (i, size - 1) else None
  end.
(** one, many: 2730-2747, AstSpec.hpp:643-653, 690-707; a kind without a table is an std::out_of_range *)
Definition error_kind (k : nk) : bool := match k with nErrorInfoToken | nErrorSkipToken | nErrorSkipGroup => true | _ => false end.
Definition slice_of (a : ptree) (n : fname) : res (nat * nat) :=
  if error_kind (kind_of a) then Thrown else
  match spec (kind_of a) with
  | None => Thrown
  | Some l =>
      match lookup l n with
      | None => NoField
      | Some p => match to_slice p (length (sub_of a)) with Some s => Done s | None => NoField end
      end
  end.
Definition one (a : ptree) (n : fname) : res ptree := s <- slice_of a n ;; at_ (sub_of a) (fst s).
Definition many (a : ptree) (n : fname) : res (list ptree) :=
  s <- slice_of a n ;; each (at_ (sub_of a)) (seq (fst s) (S (snd s) - fst s)).
Definition is_kind (k : nk) (a : ptree) : bool := nk_eqb (kind_of a) k.
Definition is_empty (a : ptree) : bool := is_kind nEmpty a.

(** *** Leaves *)
(** SemLeaf, 123-129; the text is the first of [dtext] *)
Definition sem_leaf (k : osk) (a : ptree) : res sem :=
  match a with Leaf _ t => s <- token_text t ;; Done (Sem k (text [s]) [] [] []) | _ => Thrown end.
(** convertHashTag, 316-345; a tag and its subtags have the head as their text. The two uses of [aux] are the same. *)
Fixpoint hash_tag (n : nat) (a : ptree) : res sem :=
  match n with
  | O => Spent
  | S n' =>
      h <- at_ (sub_of a) 0 ;; s <- get_text h ;;
      subs <- each (hash_tag n') (tl (sub_of a)) ;;
      Done (Sem oHashTag (text [strip s (chars [35%Z]) (chars [])]) (map (pair FSubtag) subs) [] [])
  end.
(** convertLisp, 2242-2291; std::stof is tried after std::stoi *)
Definition quoted (v : str) : bool := starts_with v [34%Z] && ends_with v [34%Z].
Definition unquote (v : str) : str := substr v 1 (length v - 2).
Fixpoint lisp_of (n : nat) (a : ptree) : res lisp :=
  match n with
  | O => Spent
  | S n' =>
      match kind_of a with
      | nAttrLisp => b <- one a NValue ;; lisp_of n' b
      | nInlineStmtList =>
          items <- each (lisp_of n') (sub_of a) ;;
          Done (match items with LIdent s :: rest => LCall s rest | _ => LList items end)
      | _ =>
          v <- get_text a ;;
          Done (if quoted v then LText (unquote v)
                else match stoi v with
                     | Done z => LNumber z
                     | _ => if float_ok v then LReal v else if str_is v "t" then LBoolean true
                            else if str_is v "nil" then LBoolean false else LIdent v
                     end)
      end
  end.
(** convertAttr, 2139-2206 *)
Definition span_of (it : ptree) : res (Z * option Z) :=
  axis <- get_text it ;;
  if str_is axis "" || str_is axis "*" then Done (0%Z, Some (-1)%Z)
  else parts <- split_on axis 58 ;; p0 <- at_ parts 0 ;; f <- stoi p0 ;;
       match nth_error parts 1 with Some p1 => l <- stoi p1 ;; Done (f, Some l) | None => Done (f, None) end.
Definition text_value (v : str) : res (bool * aval) :=
  let q := quoted v in
  let v := if q then unquote v else v in
  parts <- split_on v 58 ;;
  Done (q, match parts with [f; r] => if negb q && negb (contains v (lit "::")) then AFile f r else AText v | _ => AText v end).
Definition attr_of (n : nat) (a : ptree) : res attrv :=
  nm <- one a NName ;;
  name <- (if is_empty nm then Done None else s <- get_text nm ;; Done (Some (lstrip s [58%Z]))) ;;
  sn <- one a NSubname ;;
  var <- (if is_empty sn then Done None else s <- get_text sn ;; Done (Some s)) ;;
  v <- one a NValue ;;
  d <- (match kind_of v with
        | nRawText => s <- get_text v ;; text_value s
        | nAttrLisp => c <- lisp_of n v ;; Done (false, ALisp c)
        | _ => s <- get_text v ;; Done (false, AText s)
        end) ;;
  cells <- one a NCells ;;
  sp <- (if is_empty cells then Done [] else each span_of (sub_of cells)) ;;
  Done (Attrv name var (fst d) (snd d) sp).
(** convertAttrs with push_argument, 2208-2240: an argument without a name has the name of the one before it. The group
    of addArgument (1147-1160) is AttrModel.attrs_of over this list. *)
Fixpoint push_args (last : option str) (l : list attrv) : list attrv :=
  match l with
  | [] => []
  | x :: r =>
      match an x with
      | Some _ => x :: push_args (an x) r
      | None => Attrv last (avar x) (aquoted x) (adata x) (aspan x) :: push_args last r
      end
  end.
Definition attrs_of (n : nat) (a : ptree) : res (list attrv) :=
  match kind_of a with
  | nAttrs => v <- one a NValues ;; l <- each (attr_of n) (sub_of v) ;; Done (push_args None l)
  | nInlineStmtList => l <- each (attr_of n) (sub_of a) ;; Done (push_args None l)
  | nEmpty => Done []
  | _ => Thrown
  end.
(** getString, SemOrgApi.cpp:293: the text of a text value *)
Definition attr_string (x : attrv) : res str := match adata x with AText s => Done s | _ => Thrown end.
Definition positional (l : list attrv) : list attrv := filter (fun x => match an x with None => true | _ => false end) l.
Definition named (l : list attrv) (w : string) : list attrv :=
  filter (fun x => match an x with Some s => str_is (normalize s) w | None => false end) l.

(** convertTime, 1028-1130; the zone 165-186; [dtext] is the date and time, [dnum] whether it is active, static, and the zone *)
Definition zone_of (z : str) : res Z :=
  let (pos, z) := match z with 43%Z :: r => (true, r) | 45%Z :: r => (false, r) | _ => (true, z) end in
  hm <- (if length z =? 2 then h <- stoi z ;; Done (h, 0%Z)
         else if length z =? 4 then h <- stoi (substr z 0 2) ;; m <- stoi (substr z 2 2) ;; Done (h, m)
         else Done (0, 0)%Z) ;;
  let off := (fst hm * 3600 + snd hm * 60)%Z in Done (if pos : bool then off else - off)%Z.
Definition period_of (spec : str) : res Z :=
  c <- stoi (substr spec 0 (length spec - 1)) ;;
  p <- at_ spec (length spec - 1) ;;
  if chars [100; 109; 119; 121; 77; 104]%Z p then Done c else Thrown.
Definition repeat_of (r : ptree) : res Z :=
  m <- at_ (sub_of r) 0 ;; mode <- get_text m ;; p <- at_ (sub_of r) 1 ;; period <- get_text p ;; period_of period.
Definition time (n : nat) (a : ptree) : res sem :=
  match kind_of a with
  | nDynamicActiveTime | nDynamicInactiveTime =>
      b <- one a NBody ;; code <- lisp_of n b ;;
      Done (Sem oTime (D [] [if is_kind nDynamicActiveTime a then 1 else 0; 0]%Z
              [[Attrv None None false (ALisp code) []]] []) [] [] [])
  | nStaticActiveTime | nStaticInactiveTime =>
      y <- one a NYear ;; ys <- (if is_empty y then Done [] else get_text y) ;;
      c <- one a NClock ;; cs <- (if is_empty c then Done [] else get_text c) ;;
      let dt := if is_empty c then ys else match ys with [] => cs | _ => ys ++ 32%Z :: cs end in
      z <- one a NZone ;; zone <- (if is_empty z then Done None else s <- get_text z ;; o <- zone_of s ;; Done (Some o)) ;;
      if time_ok dt zone then
        r <- one a NRepeater ;; reps <- (if is_empty r then Done [] else each repeat_of (sub_of r)) ;;
        w <- one a NWarn ;; warn <- (if is_empty w then Done [] else s <- get_text w ;; p <- period_of s ;; Done [p]) ;;
        Done (Sem oTime (D [dt] ((if is_kind nStaticActiveTime a then 1 else 0) :: 1 :: reps ++ warn)%Z [] []) [] [] [])
      else Done sem_error
  | _ => Thrown
  end.

(** convertLink without the description, 1230-1290 *)
Fixpoint stars (s : str) : nat := match s with 42%Z :: r => S (stars r) | _ => 0 end.
Definition link_target (a : ptree) : res target :=
  match kind_of a with
  | nRawLink => s <- get_text a ;; Done (TRaw s)
  | nFootnote => d <- one a NDefinition ;; s <- get_text d ;; Done (TFootnote s)
  | _ =>
      p <- one a NProtocol ;;
      let get_target := l <- one a NLink ;; s <- get_text l ;; Done (lstrip s [58%Z]) in
      if is_empty p then
        t <- get_target ;;
        if starts_with t (lit ".") || starts_with t (lit "/") then Done (TFile t)
        else if starts_with t (lit "*") then path <- split_by (lstrip t [42; 32]%Z) "/" ;; Done (TTitle (stars t) path)
        else Done (TInternal t)
      else
        raw <- get_text p ;;
        let proto := normalize raw in
        if str_is proto "http" || str_is proto "https" then t <- get_target ;; Done (TRaw (proto ++ lit ":" ++ t))
        else if str_is proto "id" then t <- get_target ;; Done (TId (strip_space t))
        else if str_is proto "person" then
          l <- one a NLink ;; ws <- each get_text (sub_of l) ;; Done (TPerson (concat ws))
        else if str_is proto "file" then t <- get_target ;; Done (TFile t)
        else if str_is proto "attachment" then t <- get_target ;; Done (TAttachment t)
        else if str_is raw "#" then t <- get_target ;; Done (TCustomId t)
        else Done (TUser proto)
  end.

(** remove_empty_text, 223-231: back() of an empty vector is undefined *)
Definition no_text (s : sem) : bool := is_a oParagraph s && (length (ssubs s) =? 0).
Fixpoint drop_back (r : list sem) : res (list sem) :=
  match r with
  | [] => Undefined
  | x :: q => if no_text x || is_a oNewline x then drop_back q else Done r
  end.
Definition remove_empty_text (l : list sem) : res (list sem) :=
  x <- at_ l 0 ;;
  r <- drop_back (rev (if no_text x then tl l else l)) ;; Done (rev r).

(** *** The converter over the conversion of the nodes below *)
Section Level.
Variable conv : ptree -> res sem.
Variable n : nat.

(** convertParagraph, 1197-1209 *)
Fixpoint drop_blank (r : list sem) : list sem :=
  match r with x :: q => if is_a oNewline x || is_a oSpace x then drop_blank q else r | [] => [] end.
Definition paragraph (a : ptree) : res sem :=
  l <- each conv (sub_of a) ;; Done (node oParagraph (rev (drop_blank (rev l)))).

(** convertCmdTblfm, 1774-1793 *)
Definition cmd_tblfm (a : ptree) : res sem :=
  v <- one a NValues ;; s <- get_text v ;;
  Done (if tblfm_ok (strip_space s) then Sem oCmdTblfm (text [strip_space s]) [] [] [] else sem_error).
(** The inner loop of flatConvertAttached: the formulas after a statement *)
Fixpoint formulas (items : list ptree) : res (list sem * list ptree) :=
  match items with
  | x :: r => if is_kind nCmdTblfm x then t <- cmd_tblfm x ;; q <- formulas r ;; Done (t :: fst q, snd q) else Done ([], items)
  | [] => Done ([], [])
  end.
(** link->attached or res_stmt->attached, 2562-2573 *)
Definition attach (s : sem) (buffer : list sem) : sem :=
  match s with
  | Sem oParagraph d f [x] att => if is_a oLink x then Sem oParagraph d f [set_attached x buffer] att else set_attached s buffer
  | _ => set_attached s buffer
  end.
(** flatConvertAttached, 2547-2624; the fuel is one for every item *)
Fixpoint flat_attached (m : nat) (items : list ptree) (buffer : list sem) : res (list sem) :=
  match items, m with
  | [], _ => Done buffer
  | _, O => Spent
  | x :: r, S m' =>
      s <- conv x ;;
      if is_attached (skind s) then flat_attached m' r (buffer ++ [s])
      else if is_stmt (skind s) then
        q <- formulas r ;;
        let s := attach s buffer in
        rest <- flat_attached m' (snd q) [] ;;
        Done (set_attached s (sattached s ++ fst q) :: rest)
      else rest <- flat_attached m' r [] ;; Done (buffer ++ s :: rest)
  end.
Definition attached_all (items : list ptree) : res (list sem) := flat_attached (length items) items [].

(** convertTable, 276-313; [dnum] is isBlock *)
Definition block_args (a : ptree) : res data :=
  g <- one a NArgs ;;
  if is_kind nInlineStmtList g then l <- attrs_of n g ;; Done (D [] [1%Z] [l] []) else Done (D [] [0%Z] [] []).
Definition cell (c : ptree) : res sem :=
  d <- block_args c ;; b <- one c NBody ;; l <- each conv (sub_of b) ;; Done (Sem oCell d [] l []).
Definition row (r : ptree) : res sem :=
  d <- block_args r ;; b <- one r NBody ;; cs <- each cell (sub_of b) ;; Done (Sem oRow d (map (pair FCell) cs) [] []).
Definition table (a : ptree) : res sem :=
  d <- block_args a ;; rs <- many a NRows ;; rows <- each row rs ;; Done (Sem oTable d (map (pair FRow) rows) [] []).

(** convertSubtreeDrawer, 597-660: the fields it sets and the diagnostics *)
Definition found (f : fld) (s : sem) : list (fld * sem) * list sem :=
  if is_a oErrorGroup s then ([], map snd (sfields s)) else ([(f, s)], []).
Definition drawer_group (g : ptree) : res (list (fld * sem) * list sem) :=
  match kind_of g with
  | nSubtreeDescription => c <- at_ (sub_of g) 0 ;; p <- paragraph c ;; Done (found FDescription p)
  | nDrawerLogbook =>
      c <- at_ (sub_of g) 0 ;; l <- each log_entry (sub_of c) ;;
      Done (flat_map (fun s => fst (found FLog s)) l, flat_map (fun s => snd (found FLog s)) l)
  | nDrawerPropertyList =>
      l <- each property (sub_of g) ;;
      Done (flat_map (fun s => fst (found FProperty s)) (concat l), flat_map (fun s => snd (found FProperty s)) (concat l))
  | _ => Done ([], [error_item])
  end.
Definition drawer (a : ptree) : res (list (fld * sem) * list sem) :=
  if is_empty a then Done ([], []) else
  l <- each drawer_group (sub_of a) ;;
  let diags := concat (map snd l) in
  Done (concat (map fst l), match diags with [] => [] | _ => [error_group diags []] end).

(** convertSubtree, 907-1026. [dtext]: TODO state, priority, completion; each empty when there is none. [dnum]: level,
    isComment, isArchived, then done and full of the completion. *)
Definition opt_text (a : ptree) : res str := if is_empty a then Done [] else get_text a.
Fixpoint spaces (l : list sem) : list sem := match l with x :: r => if is_a oSpace x then spaces r else l | [] => [] end.
Definition drop_comment (l : list sem) : bool * list sem :=
  match l with
  | Sem oBigIdent d _ _ _ :: r =>
      if AttrModel.str_eqb (concat (dtext d)) (lit "COMMENT") then (true, spaces r) else (false, l)
  | _ => (false, l)
  end.
Definition completion_of (a : ptree) : res (list Z) :=
  if is_empty a then Done [] else
  t <- get_text a ;;
  let t := strip t (chars [91%Z]) (chars [93%Z]) in
  if ends_with t (lit "%") then d <- stoi (strip t (chars []) (chars [37%Z])) ;; Done [d; 100%Z]
  else parts <- split_by t "/" ;; p0 <- at_ parts 0 ;; d <- stoi p0 ;; p1 <- at_ parts 1 ;; f <- stoi p1 ;; Done [d; f].
Definition head_of (s : sem) : str := concat (dtext (sdata s)).
Definition subtree_time (it : ptree) : res (fld * sem + sem) :=
  w <- at_ (sub_of it) 0 ;;
  if is_kind nBigIdent w || is_kind nWord w then
    kind <- sem_leaf oWord w ;;
    x <- at_ (sub_of it) 1 ;; t <- time n x ;; t <- value t ;;
    if Z.eqb (nth 1 (dnum (sdata t)) 0%Z) 0 then Done (inr sem_error)
    else let k := normalize (head_of kind) in
         if str_is k "closed" then Done (inl (FClosed, t)) else if str_is k "deadline" then Done (inl (FDeadline, t))
         else if str_is k "scheduled" then Done (inl (FScheduled, t)) else Done (inr sem_error)
  else Thrown.
(** The loop over the times returns an error at the first bad one *)
Fixpoint subtree_times (l : list ptree) : res (list (fld * sem) + sem) :=
  match l with
  | [] => Done (inl [])
  | it :: r =>
      x <- subtree_time it ;;
      match x with
      | inr e => Done (inr e)
      | inl f => y <- subtree_times r ;; Done (match y with inl fs => inl (f :: fs) | inr e => inr e end)
      end
  end.
Definition flag (b : bool) : Z := if b then 1%Z else 0%Z.
Definition subtree (a : ptree) : res sem :=
  p <- one a NPrefix ;; st <- get_text p ;;
  t <- one a NTitle ;; title <- paragraph t ;;
  let '(comment, tsubs) := drop_comment (ssubs title) in
  i <- one a NImportance ;; imp <- opt_text i ;;
  c <- one a NCompletion ;; compl <- completion_of c ;;
  td <- one a NTodo ;; todo <- opt_text td ;;
  let ctodo := AttrModel.str_eqb todo (lit "COMMENT") in
  tg <- one a NTags ;; tags <- each (hash_tag n) (sub_of tg) ;;
  let '(arch, tags) := partition (fun s => AttrModel.str_eqb (head_of s) (lit "ARCHIVE")) tags in
  tm <- one a NTimes ;; times <- subtree_times (sub_of tm) ;;
  match times with
  | inr e => Done e
  | inl tfs =>
      dr <- one a NDrawer ;; dw <- drawer dr ;;
      b <- one a NBody ;; body <- attached_all (sub_of b) ;;
      Done (Sem oSubtree
        (D [if ctodo then [] else todo; strip imp (chars [91; 35]%Z) (chars [93%Z])]
           (Z.of_nat (length st) :: flag (comment || ctodo) :: flag (negb (length arch =? 0)) :: compl) [] [])
        ((FTitle, node oParagraph tsubs) :: map (pair FTag) tags ++ tfs ++ fst dw) (snd dw ++ body) [])
  end.

(** convertTimeRange, 1132-1145 *)
Definition time_range (a : ptree) : res sem :=
  f <- one a NFrom ;; tf <- time n f ;; tf <- value tf ;;
  t <- one a NTo ;; tt <- time n t ;; tt <- value tt ;;
  Done (Sem oTimeRange nothing [(FFrom, tf); (FTo, tt)] [] []).
(** convertMacro, 1162-1169 *)
Definition macro (a : ptree) : res sem :=
  nm <- one a NName ;; s <- get_text nm ;; g <- one a NArgs ;; l <- attrs_of n g ;; Done (Sem oMacro (D [s] [] [l] []) [] [] []).
(** convertSymbol, 1171-1195; [dtext] is the name and the words of the parameters; substr(1) of an empty text throws *)
Definition symbol (a : ptree) : res sem :=
  nm <- one a NName ;; s <- get_text nm ;;
  nm <- (match s with _ :: r => Done r | [] => Thrown end) ;;
  g <- one a NArgs ;;
  ps <- each (fun x => t <- get_text x ;; split_by t " ") (sub_of g) ;;
  b <- one a NBody ;; l <- each conv (sub_of b) ;;
  Done (Sem oSymbol (text (nm :: concat ps)) (map (pair FPositional) l) [] []).
(** convertInlineFootnote, 1222-1228 *)
Definition inline_footnote (a : ptree) : res sem :=
  d <- one a NDefinition ;; s <- conv d ;; Done (Sem oInlineFootnote nothing [(FDefinition, s)] [] []).
(** convertLink, 1230-1300 *)
Definition link (a : ptree) : res sem :=
  t <- link_target a ;;
  let mk f := Sem oLink (D [] [] [] [t]) f [] [] in
  if is_kind nLink a then
    d <- one a NDesc ;;
    if is_kind nParagraph d then p <- paragraph d ;; Done (mk [(FDescription, p)]) else Done (mk [])
  else Done (mk []).
(** convertListItem, 1311-1350; [dtext] is the bullet, [dnum] the checkbox: 0 empty, 1 done, 2 partial *)
Definition checkbox (a : ptree) : res (option (list Z)) :=
  if is_empty a then Done (Some []) else
  s <- get_text a ;;
  let t := strip s (chars [91; 32]%Z) (chars [32; 93]%Z) in
  Done (if str_is t "x" || str_is t "X" then Some [1%Z] else if str_is t "" then Some [0%Z]
        else if str_is t "-" then Some [2%Z] else None).
Definition list_item (a : ptree) : res sem :=
  h <- one a NHeader ;; hd <- (if is_empty h then Done [] else p <- paragraph h ;; Done [(FHeader, p)]) ;;
  bu <- one a NBullet ;; bt <- (if is_empty bu then Done [] else s <- get_text bu ;; Done [strip_space s]) ;;
  ch <- one a NCheckbox ;; cb <- checkbox ch ;;
  match cb with
  | None => Done sem_error
  | Some box => b <- one a NBody ;; l <- each conv (sub_of b) ;; Done (Sem oListItem (D bt box [] []) hd l [])
  end.
(** convertCmdCaption, convertCmdCreator, convertCmdAuthor: 1352-1377 *)
Definition cmd_caption (a : ptree) : res sem :=
  g <- one a NArgs ;; c <- at_ (sub_of g) 0 ;; p <- paragraph c ;; Done (Sem oCmdCaption nothing [(FText, p)] [] []).
Definition cmd_person (k : osk) (a : ptree) : res sem :=
  if 0 <? length (sub_of a) then
    g <- one a NArgs ;; c <- at_ (sub_of g) 0 ;; p <- paragraph c ;; Done (Sem k nothing [(FText, p)] [] [])
  else Done (node k []).
(** convertCmdEmail, convertCmdLanguage: 1379-1395 *)
Definition cmd_words (k : osk) (a : ptree) : res sem :=
  if 0 <? length (sub_of a) then g <- one a NArgs ;; s <- get_text g ;; Done (Sem k (text [strip_space s]) [] [] [])
  else Done (node k []).
(** convertCmdCustomRaw, convertCmdCustomText, convertCmdCustomArgs: 1397-1422 *)
Definition custom_raw (a : ptree) : res sem :=
  nm <- one a NName ;; s <- get_text nm ;;
  if 1 <? length (sub_of a) then g <- one a NArgs ;; t <- get_text g ;; Done (Sem oCmdCustomRaw (text [s; t]) [] [] [])
  else Done (Sem oCmdCustomRaw (text [s]) [] [] []).
Definition custom_text (a : ptree) : res sem :=
  nm <- one a NName ;; s <- get_text nm ;;
  if 1 <? length (sub_of a) then g <- one a NArgs ;; p <- paragraph g ;; Done (Sem oCmdCustomText (text [s]) [(FText, p)] [] [])
  else Done (Sem oCmdCustomText (text [s]) [] [] []).
Definition custom_args (a : ptree) : res sem :=
  nm <- one a NName ;; s <- get_text nm ;; g <- one a NArgs ;; l <- attrs_of n g ;; Done (Sem oCmdCustomArgs (D [s] [] [l] []) [] [] []).
(** convertErrorSkipGroup, 1828-1835; [as] of another kind throws *)
Definition skip_group (a : ptree) : res sem :=
  l <- each (fun x => s <- conv x ;; if is_a oErrorSkipToken s then Done s else Thrown) (sub_of a) ;;
  Done (Sem oErrorSkipGroup nothing (map (pair FSkipped) l) [] []).
(** convertRadioTarget, convertTextTarget: 1850-1864 *)
Definition radio_target (a : ptree) : res sem :=
  ws <- each get_text (filter (fun x => negb (is_kind nSpace x)) (sub_of a)) ;; Done (Sem oRadioTarget (text ws) [] [] []).
Definition text_target (a : ptree) : res sem :=
  ws <- each get_text (sub_of a) ;; Done (Sem oTextTarget (text [concat ws]) [] [] []).
(** convertAllSubnodes, SemConvert.hpp *)
Definition all_subnodes (k : osk) (a : ptree) : res sem := l <- each conv (sub_of a) ;; Done (node k l).
(** convertBlockExample, convertBlockDynamicFallback: 1918-1939; [dtext] of the second is its name *)
Definition block_example (a : ptree) : res sem :=
  b <- many a NBody ;; l <- each conv b ;; Done (node oBlockExample l).
Definition block_dynamic (a : ptree) : res sem :=
  g <- one a NArgs ;; l <- attrs_of n g ;; nm <- one a NName ;; s <- get_text nm ;;
  name <- lift (replace_all (S (length s)) (normalize s) (lit "begin") []) ;;
  b <- many a NBody ;; subs <- each conv b ;; subs <- remove_empty_text subs ;;
  Done (Sem oBlockDynamicFallback (D [name] [] [l] []) [] subs []).
(** convertCriticMarkup, 1941-1967; [dtext] is the opening mark, which says the kind *)
Definition critic (a : ptree) : res sem :=
  nm <- one a NName ;; s <- get_text nm ;; x <- one a NAssoc ;; b <- one a NBody ;;
  l <- (if is_empty x then Done [] else y <- conv x ;; Done [y]) ;; z <- conv b ;;
  Done (Sem oCriticMarkup (text [s]) [] (l ++ [z]) []).
(** convertColonExample, 1970-1981 *)
Definition colon_example (a : ptree) : res sem :=
  b <- many a NBody ;;
  l <- each (fun x => match x with MonoLeaf _ _ => Done (Sem oRawText (text [[]]) [] [] []) | _ => sem_leaf oRawText x end) b ;;
  Done (node oColonExample l).
(** convertBlockExport, 1983-2001: the last line is left out; [dtext] is the exporter and the content *)
Definition block_export (a : ptree) : res sem :=
  g <- one a NArgs ;; l <- attrs_of n g ;; nm <- one a NName ;; s <- get_text nm ;;
  content <- match (b <- one a NBody ;; each get_text (firstn (length (sub_of b) - 1) (sub_of b))) with
             | NoField => Done [] | r => r end ;;
  Done (Sem oBlockExport (D [s; concat content] [] [l] []) [] [] []).
(** convertBlockCenter, 2003-2013: what was converted before a FieldAccessError is kept *)
Fixpoint each_until (l : list ptree) : res (list sem) :=
  match l with
  | [] => Done []
  | x :: r => match conv x with NoField => Done [] | m => s <- m ;; q <- each_until r ;; Done (s :: q) end
  end.
Definition block_center (a : ptree) : res sem :=
  match many a NBody with
  | NoField => Done (node oBlockCenter [])
  | m => b <- m ;; l <- each_until b ;; Done (node oBlockCenter l)
  end.
(** convertBlockQuote, convertBlockComment: 2015-2041 *)
Definition caught (m : res (list sem)) : res (list sem) := match m with NoField => Done [] | _ => m end.
Definition block_quote (a : ptree) : res sem :=
  g <- one a NArgs ;; l <- (if is_empty g then Done [] else x <- attrs_of n g ;; Done [x]) ;;
  subs <- caught (b <- many a NBody ;; attached_all b) ;; Done (Sem oBlockQuote (D [] [] l []) [] subs []).
Definition block_comment (a : ptree) : res sem :=
  subs <- caught (b <- many a NBody ;; attached_all b) ;; Done (node oBlockComment subs).
(** convertCmdInclude, 2052-2127; [dtext] is the path and the kind *)
Definition cmd_include (a : ptree) : res sem :=
  g <- one a NArgs ;; l <- attrs_of n g ;;
  p <- at_ (positional l) 0 ;; path <- attr_string p ;;
  kp <- match nth_error (positional l) 1 with
        | Some x =>
            ks <- attr_string x ;;
            Done (path, [ks],
              if str_is ks "src" then [node oBlockCode []] else if str_is ks "example" then [node oBlockExample []]
              else if str_is ks "export" then [node oBlockExport []] else [])
        | None =>
            if contains path (lit "::") then
              parts <- split_by path "::" ;; p0 <- at_ parts 0 ;; p1 <- at_ parts 1 ;;
              let second := strip_space p1 in
              if starts_with second (lit "*") then
                q <- split_by (strip second (chars [42; 32]%Z) (chars [32%Z])) "/" ;; Done (p0, [], [])
              else Done (p0, [], [])
            else Done (path, [], [])
        end ;;
  let '(path, ks, subs) := kp in
  let orgdoc := match ks with [] => true | _ => false end in
  ml <- match named l "minlevel" with
        | x :: _ => if orgdoc then s <- attr_string x ;; match stoi s with Done z => Done [z] | _ => Done [] end else Thrown
        | [] => Done [] end ;;
  oc <- match named l "onlycontents" with x :: _ => if orgdoc then s <- attr_string x ;; Done [s] else Thrown | [] => Done [] end ;;
  ln <- match named l "lines" with
        | x :: _ =>
            s <- attr_string x ;;
            let s := strip s (chars [34%Z]) (chars [34%Z]) in
            parts <- split_by s "-" ;;
            if starts_with s (lit "-") then p1 <- at_ parts 1 ;; z <- stoi p1 ;; Done [z]
            else if ends_with s (lit "-") then p0 <- at_ parts 0 ;; z <- stoi p0 ;; Done [z]
            else p0 <- at_ parts 0 ;; z <- stoi p0 ;; p1 <- at_ parts 1 ;; y <- stoi p1 ;; Done [z; y]
        | [] => Done [] end ;;
  Done (Sem oCmdInclude (D (path :: ks ++ oc) (ml ++ ln) [] []) [] subs []).
(** convertCmdAttr, 2293-2300 *)
Definition cmd_attr (a : ptree) : res sem :=
  nm <- one a NName ;; s <- get_text nm ;; g <- one a NArgs ;; l <- attrs_of n g ;; Done (Sem oCmdAttr (D [normalize s] [] [l] []) [] [] []).
(** convertCmdColumns, 2389-2408 *)
Definition cmd_columns (a : ptree) : res sem :=
  g <- one a NArgs ;; s <- get_text g ;;
  Done (if columns_ok (strip_space s) then Sem oCmdColumns (text [strip_space s]) [] [] [] else sem_error).
(** convertCmdName, 2410-2415 *)
Definition cmd_name (a : ptree) : res sem :=
  x <- at_ (sub_of a) 0 ;; y <- at_ (sub_of x) 0 ;; v <- attr_of n y ;; s <- attr_string v ;; Done (Sem oCmdName (text [s]) [] [] []).
(** convertInlineExport, 2417-2423; at(slice(1, 3_B)) is the text without the first and the last two bytes *)
Definition inline_export (a : ptree) : res sem :=
  nm <- one a NName ;; s <- get_text nm ;; b <- one a NBody ;; t <- get_text b ;;
  if 3 <=? length t then Done (Sem oInlineExport (text [lstrip s [64%Z]; substr t 1 (length t - 3)]) [] [] []) else Thrown.
(** convertBlockCode, 2456-2529. [dtext]: the language, then the code of the lines, a line is the texts of its parts one after another *)
Definition code_part (p : ptree) : res str :=
  match kind_of p with
  | nCodeText => get_text p
  | nCodeTangle => nm <- one p NName ;; s <- get_text nm ;; Done s
  | _ => Thrown
  end.
Definition block_code (a : ptree) : res sem :=
  la <- one a NLang ;; lang <- opt_text la ;;
  h <- one a NHeaderArgs ;; attrs <- (if is_empty h then Done [] else attrs_of n h) ;;
  b <- one a NBody ;;
  lines <- (if is_kind nSrcInlineCode a then l <- each get_text (sub_of b) ;; Done [concat l]
            else each (fun it => l <- each code_part (sub_of it) ;; Done (concat l)) (sub_of b)) ;;
  r <- one a NResult ;;
  rs <- (if is_empty r then Done [] else
         body <- one r NBody ;; c <- conv body ;;
         let c := match c with Sem oParagraph _ _ [x] _ => if is_a oLink x then x else c | _ => c end in
         Done [(FResult, Sem oBlockCodeEvalResult nothing [(FNode, c)] [] [])]) ;;
  Done (Sem oBlockCode (D (lang :: lines) [] [attrs] []) rs [] []).
(** convertCmdCall, 2531-2544 *)
Definition cmd_call (a : ptree) : res sem :=
  nm <- one a NName ;; s <- get_text nm ;;
  h <- one a NHeaderArgs ;; hl <- attrs_of n h ;; g <- one a NArgs ;; gl <- attrs_of n g ;;
  e <- one a NEndArgs ;; el <- attrs_of n e ;; Done (Sem oCmdCall (D [s] [] [hl; gl; el] []) [] [] []).

(** convert, 2627-2727 *)
Definition is_error (a : ptree) : bool := match a with MonoLeaf _ ParseModel.MErr => true | _ => false end.
Definition dispatch (a : ptree) : res sem :=
  match kind_of a with
  | nErrorSkipGroup => skip_group a
  | nErrorSkipToken => sem_leaf oErrorSkipToken a
  | nNewline => sem_leaf oNewline a
  | nStmtList | nInlineStmtList => l <- attached_all (sub_of a) ;; Done (node oStmtList l)
  | nSubtree => subtree a
  | nTimeRange => time_range a
  | nSpace => sem_leaf oSpace a
  | nWord => sem_leaf oWord a
  | nBold => all_subnodes oBold a
  | nItalic => all_subnodes oItalic a
  | nStrike => all_subnodes oStrike a
  | nPunctuation | nColon => sem_leaf oPunctuation a
  | nLink | nRawLink | nFootnote => link a
  | nPar => all_subnodes oPar a
  | nBigIdent => sem_leaf oBigIdent a
  | nVerbatim => all_subnodes oVerbatim a
  | nRawText => sem_leaf oRawText a
  | nList => all_subnodes oList a
  | nListItem => list_item a
  | nPlaceholder | nAngle => sem_leaf oPlaceholder a
  | nEscaped => sem_leaf oEscaped a
  | nTextSeparator => Done (node oTextSeparator [])
  | nAtMention => sem_leaf oAtMention a
  | nUnderline => all_subnodes oUnderline a
  | nTarget => text_target a
  | nRadioTarget => radio_target a
  | nSrcInlineCode | nBlockCode => block_code a
  | nInlineFootnote => inline_footnote a
  | nBlockExport => block_export a
  | nMacro => macro a
  | nMonospace => all_subnodes oMonospace a
  | nBlockCenter => block_center a
  | nBlockExample => block_example a
  | nHashTag => hash_tag n a
  | nListTag => x <- at_ (sub_of a) 0 ;; conv x
  | nInlineMath => Done (node oLatex [])
  | nInlineExport => inline_export a
  | nStaticActiveTime | nStaticInactiveTime | nDynamicActiveTime | nDynamicInactiveTime => time n a
  | nQuote => all_subnodes oMarkQuote a
  | nBlockComment => block_comment a
  | nBlockQuote => block_quote a
  | nCmdInclude => cmd_include a
  | nSymbol => symbol a
  | nEmpty => Done (node oEmpty [])
  | nTable => table a
  | nCmdTblfm => cmd_tblfm a
  | nCmdAttr => cmd_attr a
  | nCmdColumns => cmd_columns a
  | nColonExample => colon_example a
  | nCmdCaption => cmd_caption a
  | nCmdCreator => cmd_person oCmdCreator a
  | nCmdAuthor => cmd_person oCmdAuthor a
  | nCmdEmail => cmd_words oCmdEmail a
  | nCmdLanguage => cmd_words oCmdLanguage a
  | nCmdName => cmd_name a
  | nCmdCallCode => cmd_call a
  | nParagraph => paragraph a
  | nCmdCustomRawCommand => custom_raw a
  | nCmdCustomTextCommand => custom_text a
  | nCmdCustomArgsCommand => custom_args a
  | nCriticMarkStructure => critic a
  | nBlockDynamicFallback => block_dynamic a
  | _ => Done sem_error
  end.
(** A node with an error among its children; convertErrorItem, 1837-1847 *)
Definition step (a : ptree) : res sem :=
  if existsb is_error (sub_of a) then
    l <- each conv (filter (fun x => negb (is_error x)) (sub_of a)) ;;
    Done (error_group (map (fun _ => error_item) (filter is_error (sub_of a))) l)
  else dispatch a.
End Level.

Fixpoint convert (n : nat) (a : ptree) : res sem :=
  match n with O => Spent | S n' => step (convert n') n' a end.

(** updateDocument, 2895-2997: what a command sets in the document, [None] when it is not one of these. The settings
    are numbered after the branches. *)
Inductive setting :=
| SColumns (s : str) | STitle (p : sem) | SOptions | SProperty (name : str) (attrs : list attrv) | SStartup (w : str)
| SLatex (k : nk) (s : str) | SKeywords | SFiletags (tags : list sem) | SError (e : sem).
Definition startup_words : list string :=
  ["content"; "overview"; "showall"; "show2levels"; "show3levels"; "show4levels"; "showeverything"]%string.
Definition update (n : nat) (a : ptree) : res (option setting) :=
  match kind_of a with
  | nCmdColumns => c <- cmd_columns a ;; Done (Some (if is_a oErrorGroup c then SError c else SColumns (head_of c)))
  | nCmdTitle => x <- at_ (sub_of a) 0 ;; p <- paragraph (convert n) x ;; Done (Some (STitle p))
  | nCmdOptions => x <- at_ (sub_of a) 0 ;; s <- get_text x ;; _ <- options s ;; Done (Some SOptions)
  | nCmdPropertyArgs =>
      nm <- one a NName ;; s <- get_text nm ;; g <- one a NArgs ;; l <- attrs_of n g ;; Done (Some (SProperty s l))
  | nCmdStartup =>
      x <- at_ (sub_of a) 0 ;; s <- get_text x ;; parts <- split_by (strip_space s) " " ;; w <- at_ parts 0 ;;
      if existsb (str_is (normalize w)) startup_words then Done (Some (SStartup (normalize w))) else Thrown
  | nCmdLatexClass | nCmdLatexHeader | nCmdLatexCompiler | nCmdLatexClassOptions =>
      x <- at_ (sub_of a) 0 ;; s <- get_text x ;; Done (Some (SLatex (kind_of a) s))
  | nCmdKeywords => Done (Some SKeywords)
  | nCmdFiletags => l <- many a NTags ;; tags <- each (hash_tag n) l ;; Done (Some (SFiletags tags))
  | _ => Done None
  end.
(** The loop over the statements: the settings and the buffer *)
Fixpoint settings (n : nat) (l : list ptree) : res (list setting * list ptree) :=
  match l with
  | [] => Done ([], [])
  | x :: r =>
      s <- update n x ;; q <- settings n r ;;
      Done (match s with Some u => (u :: fst q, snd q) | None => (fst q, x :: snd q) end)
  end.
(** convertDocument, 3026-3043: an error of [#+columns:] is put before the converted statements *)
Definition convert_document (n : nat) (a : ptree) : res (list setting * sem) :=
  q <- settings n (sub_of a) ;;
  l <- attached_all (convert n) (snd q) ;;
  Done (fst q, node oDocument (flat_map (fun s => match s with SError e => [e] | _ => [] end) (fst q) ++ l)).
End Convert.
