(** Model of the formatter, which writes the tree of a document as text again: src/haxorg/sem/SemOrgFormat.{hpp,cpp}
    (line numbers without a file name are those of the .cpp), with the parts of src/hstd/ext/textlayouter.cpp it uses
    besides those of LayoutModel.v.

    The tree is the one ConvModel.v makes; what that leaves out of the tree is left out here too: a line of code is one
    text (tangles are not told apart, 543-560). Arbitrary texts: dates and repeaters of a static time (912-958), floats,
    diagnostics, [__PRETTY_FUNCTION__]; arbitrary lines: the settings of a document other than its title (184-379), the
    property drawer and the logbook of a heading (1203-1538). *)
From Coq Require Import String.
From Verif Require Import Base StrModel ConvModel LayoutModel LayoutTextSpec.
From Verif Require AttrModel.
Local Open Scope nat_scope.

(** The blocks the formatter makes: BlockStore::text, line, stack. A text is the string it stands for. *)
Inductive fblock := WText (s : str) | WLine (l : list fblock) | WStack (l : list fblock).
Definition txt (w : string) : fblock := WText (lit w).
Definition hollow (b : fblock) : bool := match b with WLine [] | WStack [] => true | _ => false end.
(** Formatter::add, 51-58: lines and stacks without parts are skipped *)
Definition adds (l : list fblock) : list fblock := filter (fun b => negb (hollow b)) l.
(** BlockStore::add_at, textlayouter.cpp:803-814: they throw *)
Definition strictly (l : list fblock) : res (list fblock) := if existsb hollow l then Thrown else Done l.
(** BlockStore::join, textlayouter.cpp:840-854 *)
Fixpoint join_parts (l : list fblock) (sep : fblock) : list fblock :=
  match l with [] => [] | [x] => [x] | x :: r => WLine [x; sep] :: join_parts r sep end.
Definition join_with (l : list fblock) (sep : fblock) : res fblock := x <- strictly (join_parts l sep) ;; Done (WLine x).

(** hstd::fmt of a number *)
Fixpoint dec_digits (fuel : nat) (z : Z) (acc : str) : str :=
  match fuel with
  | O => acc
  | S f => let acc := (48 + z mod 10)%Z :: acc in if (z <? 10)%Z then acc else dec_digits f (z / 10)%Z acc
  end.
Definition dec (z : Z) : str :=
  if (z <? 0)%Z then 45%Z :: dec_digits (S (Z.to_nat (- z))) (- z)%Z [] else dec_digits (S (Z.to_nat z)) z [].

(** escape_for_write, strutils.cpp:248-265, with quotes *)
Definition escaped_char (c : Z) : str :=
  if (c =? 9)%Z then lit "\t" else if (c =? 10)%Z then lit "\n" else if (c =? 34)%Z then [92; 34]%Z else [c].
Definition escape_quoted (s : str) : str := 34%Z :: concat (map escaped_char s) ++ [34%Z].
Definition escape_quotes (s : str) : str := concat (map (fun c => if (c =? 34)%Z then [92; 34]%Z else [c]) s).

Section Format.
Variable pretty : osk -> str.
Variable time_text : data -> str.
Variable real_text : str -> str.
Variable diagnostic : str.
Variable preamble : list setting -> list fblock.
Variable drawers : list (fld * sem) -> list fblock.

(** LispCode, 441-476 *)
Fixpoint lisp_block (c : lisp) : fblock :=
  match c with
  | LBoolean b => if b then txt "t" else txt "nil"
  | LCall name args => WLine (txt "(" :: WText name :: flat_map (fun a => [txt " "; lisp_block a]) args ++ [txt ")"])
  | LList items =>
      WLine (txt "(" :: (fix go (l : list lisp) := match l with [] => [] | [x] => [lisp_block x] | x :: r => lisp_block x :: txt " " :: go r end) items
             ++ [txt ")"])
  | LIdent s => WText s
  | LReal s => WText (real_text s)
  | LNumber z => WText (dec z)
  | LText s => WText (lit """" ++ s ++ lit """")
  end.
(** AttrValue, 478-500 *)
Definition attr_block (x : attrv) : fblock :=
  WLine (match an x with Some s => [WText (lit ":" ++ s ++ lit " ")] | None => [] end
         ++ match avar x with Some v => [WText v; txt "="] | None => [] end
         ++ match adata x with
            | AText s => [WText (if aquoted x then escape_quoted (escape_quotes s) else escape_quotes s)]
            | AFile f r => [WText f; txt ":"; WText r]
            | ALisp c => [lisp_block c]
            end).
(** AttrList, 60-67: a stack *)
Fixpoint apart_by (sep : fblock) (l : list fblock) : list fblock :=
  match l with [] => [] | [x] => [x] | x :: r => x :: sep :: apart_by sep r end.
Definition attr_list (l : list attrv) : fblock := WStack (apart_by (txt " ") (map attr_block l)).
(** AttrGroup: addArgument (SemConvert.cpp:1147-1160) has put the attributes of a name together; the names are sorted *)
Fixpoint add_named (x : attrv) (key : str) (m : list (str * list attrv)) : list (str * list attrv) :=
  match m with
  | [] => [(key, [x])]
  | (k, l) :: r =>
      if AttrModel.str_eqb k key then (k, l ++ [x]) :: r
      else if AttrModel.str_ltb key k then (key, [x]) :: m else (k, l) :: add_named x key r
  end.
Definition named_groups (l : list attrv) : list (str * list attrv) :=
  fold_left (fun m x => match an x with Some s => add_named x (normalize s) m | None => m end) l [].
(** 1128-1146 *)
Definition group_block (l : list attrv) : res fblock :=
  match map attr_block (positional l) ++ map (fun p => attr_list (snd p)) (named_groups l) with
  | [] => Done (txt "")
  | parts => join_with parts (txt " ")
  end.
(** Opt<AttrGroup>, SemOrgFormat.hpp:37-43: [dattr] is empty when there is none *)
Definition opt_group (l : list (list attrv)) : res fblock :=
  match l with [] => Done (txt "") | g :: _ => x <- group_block g ;; Done (WLine [txt " "; x]) end.
(** AttrGroup::getAll, SemOrgApi.cpp:95-104 *)
Definition all_attrs (l : list attrv) : list attrv := positional l ++ flat_map snd (named_groups l).
Definition group_of (d : data) (i : nat) : list attrv := nth i (dattr d) [].

(** nestedHashtag, 145-161 *)
Fixpoint nested_tag (s : sem) : str :=
  match s with
  | Sem _ d f _ _ =>
      let head := concat (dtext d) in
      match map (fun p => match p with (_, x) => nested_tag x end) f with
      | [] => head
      | [x] => head ++ lit "##" ++ x
      | l => head ++ lit "##[" ++ join [44%Z] l ++ lit "]"
      end
  end.

(** LinkTarget, 616-672; FormatPath 33 *)
Definition target_text (t : target) : str :=
  match t with
  | TPerson s => lit "person:" ++ s
  | TAttachment s => lit "attachment:" ++ s
  | TFile s => lit "file:" ++ s
  | TId s => lit "id:" ++ s
  | TInternal s => s
  | TRaw s => s
  | TCustomId s => lit "#" ++ s
  | TTitle _ path => lit "*" ++ join [47%Z] path
  | TFootnote s => lit "fn:" ++ s
  | TUser p => p ++ lit ":"
  end.

(** rv::split_when at newlines, 1684-1690; the parts between two newlines that follow each other are lines without
    parts, which [adds] skips *)
Fixpoint split_lines {A} (l : list (bool * A)) : list (list A) :=
  match l with
  | [] => [[]]
  | (true, _) :: r => [] :: split_lines r
  | (false, x) :: r => match split_lines r with h :: t => (x :: h) :: t | [] => [[x]] end
  end.

(** The parameters of a symbol, SemConvert.cpp:1179-1190, and 708-722 *)
Fixpoint symbol_params (fuel : nat) (l : list str) : list fblock :=
  match fuel, l with
  | S f, k :: v :: r =>
      if starts_with k (lit ":") then WLine [txt "["; WText k; txt "="; WText v; txt "]"] :: symbol_params f r
      else WLine [txt "["; WText k; txt "]"] :: symbol_params f (v :: r)
  | S _, [k] => [WLine [txt "["; WText k; txt "]"]]
  | _, _ => []
  end.

(** rv::intersperse(" ") over the words, 107 *)
Fixpoint between_words (l : list str) : list str :=
  match l with [] => [] | [x] => [x] | x :: r => x :: [32%Z] :: between_words r end.
Definition text_of (d : data) (i : nat) : str := nth i (dtext d) [].
Definition num_of (d : data) (i : nat) : Z := nth i (dnum d) 0%Z.
(** The fields of a name, and the field or the text of a null reference *)
Definition only (f : fld) (l : list (fld * fblock)) : list fblock :=
  flat_map (fun p => if (match fst p, f with
                         | FTitle, FTitle | FTag, FTag | FClosed, FClosed | FDeadline, FDeadline | FScheduled, FScheduled
                         | FDescription, FDescription | FHeader, FHeader | FFrom, FFrom | FTo, FTo | FDefinition, FDefinition
                         | FText, FText | FPositional, FPositional | FNode, FNode | FDiagnostic, FDiagnostic
                         | FSkipped, FSkipped => true
                         | _, _ => false end) then [snd p] else []) l.
Definition is_drawer (p : fld * sem) : bool := match fst p with FProperty | FLog | FDescription => true | _ => false end.
Definition or_nil (l : list fblock) : fblock := match l with x :: _ => x | [] => txt "<nil>" end.
Definition between_marks (open close : string) (l : list fblock) : fblock := WLine (txt open :: l ++ [txt close]).
Definition block_of (name : str) (l : list fblock) : fblock :=
  WStack (WText (lit "#+begin_" ++ name) :: l ++ [WText (lit "#+end_" ++ name)]).

(** toString of every kind; [inline] is Context::isInline. *)
Fixpoint fmt (inline : bool) (s : sem) {struct s} : res fblock :=
  match s with
  | Sem k d f subs att =>
      (* toSubnodes, SemOrgFormat.hpp:55-60 *)
      let nodes := each (fmt inline) subs in
      let fields := each (fun p => match p with (n, x) => b <- fmt inline x ;; Done (n, b) end) f in
      (* stackAttached, 1705-1714 *)
      let attached prev :=
        match att with
        | [] => Done prev
        | _ => l <- each (fmt inline) att ;; Done (WStack (adds (l ++ [prev])))
        end in
      let marked (open close : string) := l <- nodes ;; Done (between_marks open close l) in
      let plain := Done (WText (text_of d 0)) in
      let command (w : string) := fs <- fields ;; Done (WLine [txt w; or_nil (only FText fs)]) in
      let unwritten := Done (WText (pretty k)) in
      match k with
      (* 119-123, 389-392, 824-830, 891-895, 1002-1005, 1618-1621 *)
      | oWord | oSpace | oRawText | oPunctuation | oBigIdent | oErrorSkipToken => plain
      | oEmpty => Done (txt "")
      (* 602-609 *)
      | oNewline => Done (WStack (repeat (txt "") (length (text_of d 0) - 1)))
      (* 876-889, 897-900, 907-910, 1042-1045 *)
      | oEscaped => Done (WText (lit "\" ++ text_of d 0))
      | oPlaceholder => Done (WLine [txt "<"; WText (text_of d 0); txt ">"])
      | oAtMention => Done (WText (lit "@" ++ text_of d 0))
      | oHashTag => Done (WText (lit "#" ++ nested_tag s))
      | oTextSeparator => Done (txt "------------")
      (* 102-117 *)
      | oRadioTarget => Done (WLine (txt "<<<" :: map WText (between_words (dtext d)) ++ [txt ">>>"]))
      | oTextTarget => Done (WText (lit "<<" ++ text_of d 0 ++ lit ">>"))
      (* 125-143 *)
      | oMacro =>
          match map attr_block (all_attrs (group_of d 0)) with
          | [] => Done (WText (lit "{{{" ++ text_of d 0 ++ lit "}}}"))
          | l => x <- join_with l (txt ", ") ;; Done (WLine [WText (lit "{{{" ++ text_of d 0 ++ lit "("); x; txt ")}}}"])
          end
      (* 611-614, 997-1000, 1047-1050, 1122-1126, 1567-1570, 1699-1702 *)
      | oBold => marked "*"%string "*"%string
      | oItalic => marked "/"%string "/"%string
      | oStrike => marked "+"%string "+"%string
      | oUnderline => marked "_"%string "_"%string
      | oVerbatim => marked "="%string "="%string
      | oMonospace => marked "~"%string "~"%string
      | oStmtList => l <- nodes ;; Done (WLine l)
      (* 1148-1155 *)
      | oLatex =>
          l <- nodes ;;
          Done (match l with [] => WText (lit "\(\)") | x :: _ => WLine [txt "\("; x; txt "\)"] end)
      (* 401-439 *)
      | oCriticMarkup =>
          l <- nodes ;;
          let two (open close : string) := x <- at_ l 0 ;; Done (WLine [txt open; x; txt close]) in
          let m := text_of d 0 in
          if str_is m "{--" then two "{--"%string "--}"%string else if str_is m "{++" then two "{++"%string "++}"%string
          else if str_is m "{==" then two "{=="%string "==}"%string else if str_is m "{>>" then two "{>>"%string "<<}"%string
          else x <- at_ l 0 ;; y <- at_ l 1 ;; Done (WLine [txt "{~~"; x; txt "~>"; y; txt "~~}"])
      | oInlineFootnote => fs <- fields ;; Done (WLine [txt "[fn::"; or_nil (only FDefinition fs); txt "]"])
      (* 674-703 *)
      | oLink =>
          fs <- fields ;;
          match dlink d with
          | t :: _ =>
              match t, only FDescription fs with
              | TRaw x, [] => Done (WText x)
              | TFootnote _, [] => Done (WLine [txt "["; WText (target_text t); txt "]"])
              | _, x :: _ => Done (WLine [txt "[["; WText (target_text t); txt "]["; x; txt "]]"])
              | _, [] => Done (WLine [txt "[["; WText (target_text t); txt "]]"])
              end
          | [] => Undefined
          end
      (* 705-728 *)
      | oSymbol =>
          fs <- fields ;;
          match dtext d with
          | name :: ps =>
              Done (WLine (WText (lit "\" ++ name) :: adds (symbol_params (length ps) ps
                           ++ map (fun x => WLine [txt "{"; x; txt "}"]) (only FPositional fs))))
          | [] => Undefined
          end
      (* 730-758 *)
      | oCmdCaption => command "#+caption: "%string
      | oCmdCreator => command "#+creator: "%string
      | oCmdAuthor => command "#+author: "%string
      | oCmdEmail => Done (WLine [txt "#+email: "; WText (text_of d 0)])
      | oCmdLanguage => Done (WLine [txt "#+language: "; WText (text_of d 0)])
      | oCmdColumns => Done (WLine [txt "#+columns: "])
      (* 760-790 *)
      | oCmdCall =>
          let inside := group_of d 0 in
          let call := group_of d 1 in
          g <- group_block inside ;;
          l <- strictly (txt "#+call: " :: WText (text_of d 0)
                 :: (match inside with [] => [] | _ => [txt "["; g; txt "]"] end)
                 ++ (match call with [] => [] | _ => txt "(" :: apart_by (txt ", ") (map attr_block (all_attrs call)) ++ [txt ")"] end)
                 ++ (match inside with [] => [] | _ => [txt " "; g] end)) ;;
          Done (WLine l)
      (* 792-810 *)
      | oCmdCustomRaw => Done (WLine [WText (lit "#+" ++ text_of d 0 ++ lit ": " ++ text_of d 1)])
      | oCmdCustomArgs => g <- group_block (group_of d 0) ;; Done (WLine [WText (lit "#+" ++ text_of d 0 ++ lit ":"); g])
      | oCmdCustomText => fs <- fields ;; Done (WLine [WText (lit "#+" ++ text_of d 0 ++ lit ": "); or_nil (only FText fs)])
      | oCmdName => Done (WLine [WText (lit "#+name: " ++ text_of d 0)])
      (* 1114-1120 *)
      | oCmdAttr => g <- group_block (group_of d 0) ;; Done (WLine [WText (lit "#+attr_" ++ text_of d 0 ++ lit ": "); g])
      (* 812-837 *)
      | oErrorGroup => fs <- fields ;; Done (WLine (adds (only FDiagnostic fs)))
      | oErrorItem => Done (WLine [WText diagnostic])
      | oErrorSkipGroup => fs <- fields ;; l <- strictly (only FSkipped fs) ;; Done (WLine l)
      (* 912-959 *)
      | oTime =>
          let open := if Z.eqb (num_of d 0) 1 then txt "<" else txt "[" in
          let close := if Z.eqb (num_of d 0) 1 then txt ">" else txt "]" in
          if Z.eqb (num_of d 1) 1 then Done (WLine [open; WText (time_text d); close])
          else match dattr d with
               | [x] :: _ => match adata x with ALisp c => Done (WLine [open; txt "%%"; lisp_block c; close]) | _ => Undefined end
               | _ => Undefined
               end
      (* 966-969 *)
      | oTimeRange => fs <- fields ;; Done (WLine [or_nil (only FFrom fs); txt "--"; or_nil (only FTo fs)])
      (* 579-585 *)
      | oList => l <- nodes ;; attached (WStack (adds l))
      (* 1007-1040 *)
      | oListItem =>
          fs <- fields ;; l <- nodes ;;
          let body :=
            match only FHeader fs with
            | h :: _ => match l with
                        | [] => []
                        | x :: r => adds (WLine (adds [h; txt " :: "; x]) :: txt "" :: r)
                        end
            | [] => adds l
            end in
          let bullet := match dtext d with b :: _ => b ++ lit " " | [] => lit "- " end in
          let box := match dnum d with
                     | 0%Z :: _ => lit "[ ] " | 1%Z :: _ => lit "[x] " | 2%Z :: _ => lit "[-] " | _ => [] end in
          Done (WLine [WText (bullet ++ box); WStack body])
      (* 1052-1107: rows and cells *)
      | oTable =>
          begin <- (if Z.eqb (num_of d 0) 1 then g <- opt_group (dattr d) ;; Done [WLine [txt "#+begin_table"; g]] else Done []) ;;
          rows <- each (fun p => match p with (_, Sem _ rd rf _ _) =>
                    if Z.eqb (num_of rd 0) 1 then
                      g <- opt_group (dattr rd) ;;
                      cells <- each (fun q => match q with (_, Sem _ cd _ items _) =>
                                 l <- each (fmt inline) items ;;
                                 if Z.eqb (num_of cd 0) 1 then
                                   h <- opt_group (dattr cd) ;; Done (WStack (WLine [txt "#+cell:"; h] :: adds l))
                                 else Done (WLine (txt "| " :: adds l)) end) rf ;;
                      Done (WStack (WLine [txt "#+row:"; g] :: cells))
                    else
                      cells <- each (fun q => match q with (_, Sem _ _ _ items _) =>
                                 l <- each (fmt inline) items ;;
                                 Done (adds [WLine (adds (flat_map (fun x => [txt " "; x; txt " "]) l)); txt "|"]) end) rf ;;
                      Done (WLine (txt "| " :: concat cells)) end) f ;;
          attached (WStack (begin ++ rows ++ (if Z.eqb (num_of d 0) 1 then [txt "#+end_table"] else [])))
      (* 507-572 *)
      | oBlockCode =>
          let lang := text_of d 0 in
          let attrs := group_of d 0 in
          g <- group_block attrs ;;
          let head :=
            (if inline then txt "src_" else txt "#+begin_src")
            :: (match lang with [] => [] | _ => [WText ((if inline then [] else lit " ") ++ lang)] end)
            ++ (match attrs with
                | [] => []
                | _ => (if inline then txt "[" else txt " ") :: WLine [g] :: (if inline then [txt "]"] else []) end) in
          results <- each (fun p => match p with (_, Sem _ _ rf _ _) =>
                       l <- each (fun q => match q with (_, x) => fmt inline x end) rf ;; Done (txt "#+results:" :: l) end) f ;;
          let body := WLine head :: (if inline then [txt "{"] else []) ++ map (fun x => WLine [WText x]) (tl (dtext d))
                      ++ (if inline then [txt "}"] else [txt "#+end_src"]) ++ adds (concat results) in
          attached (if inline then WLine body else WStack body)
      | oBlockCodeEvalResult => Done (txt "TODO")
      (* 1637-1651 *)
      | oBlockExport =>
          let attrs := group_of d 0 in
          g <- group_block attrs ;;
          Done (WStack [WLine (WText (lit "#+begin_export " ++ text_of d 0) :: match attrs with [] => [] | _ => [txt " "; g] end);
                        WText (text_of d 1); txt "#+end_export"])
      | oInlineExport => Done (WText (lit "@@" ++ text_of d 0 ++ lit ":" ++ text_of d 1 ++ lit "@@"))
      (* 990-995, 1572-1596, 1657-1676 *)
      | oBlockCenter => l <- nodes ;; Done (block_of (lit "center") l)
      | oBlockExample => l <- nodes ;; Done (block_of (lit "example") l)
      | oBlockComment => l <- nodes ;; Done (block_of (lit "comment") l)
      | oBlockDynamicFallback => l <- nodes ;; Done (block_of (text_of d 0) l)
      | oBlockQuote =>
          g <- opt_group (dattr d) ;; l <- nodes ;;
          attached (WStack (WLine [txt "#+begin_quote "; g] :: l ++ [txt "#+end_quote"]))
      | oColonExample => l <- nodes ;; Done (WStack (map (fun x => WLine [txt ": "; x]) l))
      (* 1679-1697 *)
      | oParagraph =>
          l <- each (fmt true) subs ;;
          let here := WStack (adds (map (fun x => WLine (adds x)) (split_lines (combine (map (is_a oNewline) subs) l)))) in
          match subs with
          | [Sem oLink _ _ _ latt] =>
              match latt with [] => Done here | _ => al <- each (fmt inline) latt ;; Done (WStack (adds (al ++ [here]))) end
          | _ => attached here
          end
      (* 1157-1201, 1540-1559 *)
      | oSubtree =>
          fs <- fields ;;
          let todo := text_of d 0 in
          let prio := text_of d 1 in
          let tags := flat_map (fun p => match p with (FTag, x) => [WText (nested_tag x)] | _ => [] end) f in
          let title_empty := forallb (fun p => match p with (FTitle, x) => match ssubs x with [] => true | _ => false end | _ => true end) f in
          tagged <- (match tags with [] => Done [] | _ => x <- join_with tags (txt ":") ;; Done [x] end) ;;
          let tagged := (if Z.eqb (num_of d 2) 1 then [txt "ARCHIVE"] else []) ++ tagged in
          tl <- (match tagged with [] => Done [] | _ => x <- join_with tagged (txt ":") ;; Done [WLine [txt ":"; x; txt ":"]] end) ;;
          lead <- join_with
            ((match todo with [] => [] | _ => [WText todo] end)
             ++ (if Z.eqb (num_of d 1) 1 then [txt "COMMENT"] else [])
             ++ (match prio with [] => [] | _ => [WText (lit "[#" ++ prio ++ lit "]")] end)
             ++ (if title_empty then [] else only FTitle fs)
             ++ (match dnum d with
                 | _ :: _ :: _ :: a :: b :: _ =>
                     [WText (if Z.eqb b 100 then lit "[" ++ dec a ++ lit "%]" else lit "[" ++ dec a ++ lit "/" ++ dec b ++ lit "]")]
                 | _ => [] end)
             ++ tl) (txt " ") ;;
          let dated (w : string) n := map (fun x => WLine [txt w; x]) (firstn 1 (only n fs)) in
          let head := WStack (WLine (adds [lead]) :: dated "SCHEDULED: "%string FScheduled ++ dated "DEADLINE: "%string FDeadline
                              ++ dated "CLOSED: "%string FClosed ++ adds (match filter is_drawer f with [] => [] | x => drawers x end)) in
          l <- nodes ;;
          Done (WStack (WLine [WText (repeat 42%Z (Z.to_nat (num_of d 0))); txt " "; head]
                        :: match subs with [] => [] | _ => txt "" :: adds l end))
      (* 176-387 without settings *)
      | oDocument => l <- nodes ;; Done (WStack (match adds l with [] => [txt ""] | x => x end))
      (* 502-505, 574-577, 587-590, 881-884, 902-905, 971-979, 1598-1601 *)
      | oMarkQuote | oPar | oRow | oCell | oCmdInclude | oCmdTblfm | oSubtreeLog | oProperty => unwritten
      end
  end.

(** Document, 176-387, with its settings: the title first, the other settings, an empty line if the title or the tags of
    the file were among them (181, 184, 276); nothing is written for a document without settings *)
Definition fmt_document (sets : list setting) (s : sem) : res fblock :=
  t <- match flat_map (fun x => match x with STitle p => [p] | _ => [] end) sets with
       | [] => Done []
       | l => x <- fmt false (last l s) ;; Done [WLine [txt "#+title: "; x]]
       end ;;
  let others := filter (fun x => match x with STitle _ => false | _ => true end) sets in
  let pre := t ++ match others with [] => [] | _ => preamble others end in
  let had := existsb (fun x => match x with STitle _ | SFiletags _ => true | _ => false end) sets in
  l <- each (fmt false) (ssubs s) ;;
  Done (WStack (match adds (pre ++ (if had then [txt ""] else []) ++ l) with [] => [txt ""] | x => x end)).
End Format.

(** *** The string *)
(** SimpleStringStore::str, textlayouter.cpp:1096-1100: a text is its place in the list of strings and its length *)
Fixpoint intern (b : fblock) (st : list str) : block * list str :=
  match b with
  | WText s => (BText [mkStr (TextId (length st)) (Z.of_nat (length s))], st ++ [s])
  | WLine l =>
      let '(x, st) := (fix go (l : list fblock) (st : list str) : list block * list str :=
         match l with [] => ([], st) | e :: r => let '(y, st) := intern e st in let '(ys, st) := go r st in (y :: ys, st) end) l st in
      (BLine x, st)
  | WStack l =>
      let '(x, st) := (fix go (l : list fblock) (st : list str) : list block * list str :=
         match l with [] => ([], st) | e :: r => let '(y, st) := intern e st in let '(ys, st) := go r st in (y :: ys, st) end) l st in
      (BStack 1 x, st)
  end.
(** Block::leafCount, 759-777 *)
Fixpoint leaf_count (b : fblock) : nat :=
  match b with WText _ => 1 | WLine l | WStack l => list_sum (map leaf_count l) end.
(** 1133-1138: spaces at the ends of lines are dropped *)
Definition tidy (s : str) : res str :=
  parts <- split_by s (String (Ascii.ascii_of_nat 10) EmptyString) ;;
  Done (join [10%Z] (map (fun x => strip x (chars []) (chars [32%Z])) parts)).
(** SimpleStringStore::toString, 1110-1139; toLayout is the first of toLayouts, textlayouter.hpp:361-365. The two steps
    have a fuel of their own *)
Definition block_string (fuel fuel' : nat) (o : options) (b : fblock) : res str :=
  if leaf_count b =? 0 then Done [] else
  let '(bl, st) := intern b [] in
  ls <- lift (to_layouts fuel o bl) ;; l <- at_ ls 0 ;; ev <- lift (format_events fuel' l) ;;
  tidy (events_text (fun n => nth n st []) ev).
(** Formatter::format, SemOrgFormat.hpp:49-53, of a document *)
Definition formatted (pretty : osk -> str) (time_text : data -> str) (real_text : str -> str) (diagnostic : str)
    (preamble : list setting -> list fblock) (drawers : list (fld * sem) -> list fblock) (fuel fuel' : nat) (o : options)
    (sets : list setting) (s : sem) : res str :=
  b <- fmt_document pretty time_text real_text diagnostic preamble drawers sets s ;; block_string fuel fuel' o b.
