(** Model of the token conversion of src/haxorg/parse/OrgTokenizer.cpp: lines, groups, indentation markers and
    the final recombination. Not modelled: tracing and messages.

    Simplifications: a vector of lines is a list and an iterator into it the remaining list; numbers are
    unbounded; the range-for over the shrinking vector of 1241-1244 runs once per element it had. *)
From Coq Require Import String.
From Verif Require Import Base StrModel TokKind TokModel.
Local Open Scope nat_scope.

(** line_end, 98-103 *)
Definition line_end (k : tk) : bool :=
  match k with kNewline | kMediumNewline | kLongNewline | kEndOfFile => true | _ => false end.

(** LineToken::Kind, 572-581; Subtree is never assigned *)
Inductive lkind := LNone | LLine | LItem | LOpen | LClose | LIndented | LProperty.
Record lin := Lin { ltoks : list token; indent : nat; lk : lkind }.
Definition no_line : lin := Lin [] 0 LNone.

(** isListBreakingItem, 587-593 *)
Definition list_breaking (l : lin) : bool :=
  match rev (ltoks l) with
  | t :: _ => match lk l, kind t with LItem, kLongNewline => true | _, _ => false end
  | [] => false
  end.

(** CmdBlockClose, CmdBlockOpen, CmdBlockLine and whichBlockLineKind: 597-661 *)
Definition block_close (k : tk) : bool :=
  match k with
  | kCmdSrcEnd | kCmdCenterEnd | kCmdExampleEnd | kCmdQuoteEnd | kCmdExportEnd | kCmdVerseEnd | kCmdCommentEnd
  | kCmdTableEnd | kCmdRowEnd | kCmdCellEnd | kCmdDynamicBlockEnd => true
  | _ => false
  end.
Definition block_open (k : tk) : bool :=
  match k with
  | kCmdCenterBegin | kCmdExportBegin | kCmdExampleBegin | kCmdSrcBegin | kCmdQuoteBegin | kCmdVerseBegin
  | kCmdCommentBegin | kCmdTableBegin | kCmdRowBegin | kCmdCellBegin | kCmdDynamicBlockBegin => true
  | _ => false
  end.
Definition block_line (k : tk) : bool :=
  match k with
  | kCmdTitle | kCmdHeader | kCmdName | kCmdInclude | kCmdResults | kCmdCaption | kCmdColumns | kCmdAttr
  | kCmdPropertyArgs | kCmdPropertyRaw | kCmdPropertyText | kCmdOptions | kCmdFiletags | kCmdTblfm
  | kCmdLatexClass | kCmdLatexCompiler | kCmdLatexClassOptions | kCmdLatexHeader | kCmdStartup | kCmdRow
  | kCmdCell | kCmdAuthor | kCmdCustomRaw | kCmdDescription | kCmdLinkRaw | kCmdEmailRaw
  | kCmdLatexHeaderExtraRaw | kCmdDateRaw | kCmdLanguage | kCmdBindRaw | kCmdCategoryRaw | kCmdSeqTodoRaw
  | kCmdTagsRaw | kCmdPrioritiesRaw | kCmdMacroRaw | kCmdSetupfileRaw | kCmdExcludeTagsRaw | kCmdHtmlHeadRaw
  | kCmdSelectTagsRaw | kCmdDrawersRaw | kCmdConstants | kCmdCreator | kCmdCall | kCmdKeywordsRaw => true
  | _ => false
  end.
Definition which_block_line (k : tk) : option lkind :=
  if block_line k then Some LLine else if block_open k then Some LOpen
  else if block_close k then Some LClose else None.

(** setLineCommandKind, 663-684, for a line whose token at the offset is LineCommand: [ts] are the tokens
    after it *)
Definition line_command_kind (ts : list token) : outcome lkind :=
  match ts with
  | [] => Throw
  | t :: _ => match which_block_line (kind t) with Some k => Ok k | None => Throw end
  end.
(** setLeadingSpaceKind, 686-716: [ts] are the tokens after the space *)
Definition is_ws (t : token) : bool := match kind t with kWhitespace => true | _ => false end.
Definition leading_space_kind (ts : list token) : outcome lkind :=
  match ts with
  | [] => Ok LIndented
  | t :: ts' =>
      match kind t with
      | kTreeClock => Ok LItem
      | kMinus => Ok (match ts' with w :: _ => if is_ws w then LItem else LIndented | [] => LIndented end)
      | kColonEnd | kColonPropertyText | kColonProperties | kColonLogbook => Ok LProperty
      | kLineCommand => line_command_kind ts'
      | k => Ok (if block_close k then LClose else LIndented)
      end
  end.
(** setIndent, 718-747 *)
Definition line_indent (t : token) : nat :=
  match kind t with
  | kCmdExampleLine | kSrcContent => run_len (Z.eqb c_sp) (text t)
  | kLeadingSpace => length (text t)
  | kLeadingPlus | kLeadingNumber | kTreeClock | kLeadingMinus => length (filter (Z.eqb c_sp) (text t)) + 2
  | _ => 0
  end.
(** updateForTokens, 749-779, and the constructor, 781-783 *)
Definition line_kind (t : token) (ts : list token) : outcome lkind :=
  match kind t with
  | kLeadingSpace => leading_space_kind ts
  | kMinus => Ok (match ts with w :: _ => if is_ws w then LItem else LLine | [] => LLine end)
  | kLeadingNumber | kLeadingMinus | kLeadingPlus => Ok LItem
  | kLineCommand => line_command_kind ts
  | kTreeClock => Ok LItem
  | k => Ok (if block_close k then LClose else LLine)
  end.
Definition mk_line (ts : list token) : outcome lin :=
  match ts with
  | [] => Ok no_line
  | t :: r => omap (Lin ts (line_indent t)) (line_kind t r)
  end.

(** to_lines, 850-875: [start] are the tokens since the last line end *)
Fixpoint to_lines (start : list token) (ts : list token) : outcome (list lin) :=
  match ts with
  | [] => match start with [] => Ok [] | _ => omap (fun l => [l]) (mk_line start) end
  | t :: r =>
      if line_end (kind t)
      then obind (mk_line (start ++ [t])) (fun l => omap (cons l) (to_lines [] r))
      else to_lines (start ++ [t]) r
  end.

(** GroupToken, 787-841 *)
Inductive gkind := GLine | GItem | GProperties.
Inductive group :=
| Leaf (k : gkind) (ls : list lin)
| Nested (b : lin) (subs : list group) (e : lin).

(** while (it != end && f of the line) nextline() *)
Fixpoint take_while (f : lin -> bool) (ls : list lin) : list lin * list lin :=
  match ls with
  | l :: r => if f l then let '(a, b) := take_while f r in (l :: a, b) else ([], ls)
  | [] => ([], [])
  end.
Definition is_text (l : lin) : bool := match lk l with LLine | LIndented => true | _ => false end.
Definition is_indented (l : lin) : bool := match lk l with LIndented => true | _ => false end.
Definition is_property (l : lin) : bool := match lk l with LProperty => true | _ => false end.
Definition is_close (l : lin) : bool := match lk l with LClose => true | _ => false end.

(** to_groups, 878-968 *)
Fixpoint rec_group (fuel : nat) (l : lin) (r : list lin) : outcome (group * list lin) :=
  match fuel with
  | O => Fuel
  | S fuel' =>
      match lk l with
      | LIndented | LLine =>
          let '(a, b) := take_while (fun x => is_text x && (indent l <=? indent x)) (l :: r) in
          Ok (Leaf GLine a, b)
      | LItem =>
          let '(a, b) := take_while (fun x => is_indented x && (indent l <=? indent x)) r in
          Ok (Leaf GItem (l :: a), b)
      | LOpen => omap (fun '(subs, e, rest) => (Nested l subs e, rest)) (rec_block fuel' r)
      | LProperty => let '(a, b) := take_while is_property (l :: r) in Ok (Leaf GProperties a, b)
      | LClose => Ok (Leaf GLine [l], r)
      | LNone => Throw
      end
  end
with rec_block (fuel : nat) (r : list lin) : outcome (list group * lin * list lin) :=
  match fuel with
  | O => Fuel
  | S fuel' =>
      match r with
      | [] => Ok ([], no_line, [])
      | l :: r' =>
          if is_close l then Ok ([], l, r')
          else obind (rec_group fuel' l r') (fun '(g, rest) =>
                 omap (fun '(subs, e, rest') => (g :: subs, e, rest')) (rec_block fuel' rest))
      end
  end.
Fixpoint root_groups (fuel : nat) (ls : list lin) : outcome (list group) :=
  match fuel with
  | O => Fuel
  | S fuel' =>
      match ls with
      | [] => Ok []
      | l :: r => obind (rec_group fuel l r) (fun '(g, rest) => omap (cons g) (root_groups fuel' rest))
      end
  end.
Definition to_groups (ls : list lin) : outcome (list group) := root_groups (2 * length ls + 2) ls.

(** ** rec_convert_groups *)
(** A token of the new stream: one of the base tokens or an added marker (add_base, add_fake: 983-1019). *)
Inductive item := Base (t : token) | Mark (k : tk).

(** rec_add_line, 1021-1080: [first] is whether the token is the first one or follows leading space. An empty
    optional is dereferenced when a leading token is the last one. *)
Definition leading_kind (k : tk) : bool := match k with kLeadingPlus | kLeadingNumber | kLeadingMinus => true | _ => false end.
Definition dash_kind (k : tk) : bool := match k with kTreeClock | kMinus => true | _ => false end.
Definition is_space (t : token) : bool := match kind t with kLeadingSpace => true | _ => false end.
Fixpoint add_line (item_group first : bool) (ts : list token) : outcome (list item) :=
  match ts with
  | [] => Ok []
  | t :: r =>
      if dash_kind (kind t) then
        match r with
        | w :: r' =>
            if first && is_ws w && item_group
            then omap (fun l => Base t :: Base w :: l) (add_line item_group false r')
            else omap (cons (Base t)) (add_line item_group (is_space t) r)
        | [] => Ok [Base t]
        end
      else if leading_kind (kind t) then
        match r with
        | w :: r' =>
            if is_ws w then omap (fun l => Base t :: Base w :: l) (add_line item_group false r')
            else omap (cons (Base t)) (add_line item_group (is_space t) r)
        | [] => UB
        end
      else omap (cons (Base t)) (add_line item_group (is_space t) r)
  end.
Fixpoint add_lines (item_group : bool) (ls : list lin) : outcome (list item) :=
  match ls with
  | [] => Ok []
  | l :: r => obind (add_line item_group true (ltoks l)) (fun a => omap (app a) (add_lines item_group r))
  end.

(** gr.indent(), 834-840; [at(0)] of an empty leaf throws *)
Definition group_indent (g : group) : outcome nat :=
  match g with
  | Nested b _ _ => Ok (indent b)
  | Leaf _ (l :: _) => Ok (indent l)
  | Leaf _ [] => Throw
  end.
Definition is_item (g : group) : bool := match g with Leaf GItem _ => true | _ => false end.

(** while (!ind.empty() && indent < ind.back()) { add_fake(Dedent); pop }: 1114-1117, 1168-1173. The stack has
    its top first. *)
Fixpoint dedent (i : nat) (ind : list nat) : list item * list nat :=
  match ind with
  | b :: r => if i <? b then let '(m, s) := dedent i r in (Mark kDedent :: m, s) else ([], ind)
  | [] => ([], [])
  end.

(** The markers in front of a group, 1105-1175 *)
Definition breaks_list (prev : option group) : bool :=
  match prev with
  | Some (Leaf GItem ls) => match rev ls with l :: _ => list_breaking l | [] => false end
  | _ => false
  end.
Definition markers (prev : option group) (g : group) (i : nat) (ind : list nat) : list item * list nat :=
  if is_item g then
    match ind with
    | [] => ([Mark kIndent], [i])
    | b :: _ =>
        if b <? i then ([Mark kIndent], i :: ind)
        else if i <? b then
          let '(m, s) := dedent i ind in
          match s with
          | b' :: _ => if b' =? i then (m ++ [Mark kListItemEnd], s) else (m, s)
          | [] => (m, s)
          end
        else if breaks_list prev then ([Mark kDedent; Mark kIndent], ind)
        else ([Mark kSameIndent], ind)
    end
  else dedent i ind.

(** isSrc, 808-827 *)
Definition is_src (g : group) : bool :=
  match g with
  | Nested _ (Leaf _ (l :: _) :: _) _ =>
      match ltoks l with
      | t :: _ => match kind t with kSrcContent | kCmdExampleLine => true | _ => false end
      | [] => false
      end
  | _ => false
  end.

(** The lines of a source block and the indentation to remove, 1188-1200; getLeaf() of a nested group throws *)
Fixpoint leaf_lines (gs : list group) : outcome (list lin) :=
  match gs with
  | [] => Ok []
  | Leaf _ ls :: r => omap (app ls) (leaf_lines r)
  | Nested _ _ _ :: _ => Throw
  end.
Definition blank_line (l : lin) : bool :=
  match ltoks l with
  | [t; e] => match text t with [] => line_end (kind e) | _ => false end
  | [e] => line_end (kind e)
  | _ => false
  end.
Definition min_indent (start : nat) (ls : list lin) : nat :=
  fold_left (fun m l => if blank_line l then m else match ltoks l with [] => m | _ => Nat.min (indent l) m end) ls start.
(** 1206-1225: substr throws when the text is shorter than the position *)
Definition src_line (m : nat) (l : lin) : outcome (list item) :=
  match ltoks l with
  | [] => Ok []
  | t :: r =>
      match text t with
      | [] => Ok (map Base (t :: r))
      | _ => if length (text t) <? m then Throw
             else Ok (Base (Token (kind t) (skipn m (text t)) (tpos t) (tcol t) (tline t)) :: map Base r)
      end
  end.
Fixpoint src_lines (m : nat) (ls : list lin) : outcome (list item) :=
  match ls with
  | [] => Ok []
  | l :: r => obind (src_line m l) (fun a => omap (app a) (src_lines m r))
  end.

(** rec_convert_groups, 1085-1247 *)
Fixpoint convert_group (g : group) : outcome (list item) :=
  match g with
  | Leaf k ls => add_lines (match k with GItem => true | _ => false end) ls
  | Nested b subs e =>
      obind (add_line false true (ltoks b)) (fun x =>
      obind (if is_src g then
               obind (leaf_lines subs) (fun ls => src_lines (min_indent (indent b) ls) ls)
             else
               (fix convert (prev : option group) (ind : list nat) (gs : list group) : outcome (list item) :=
                  match gs with
                  | [] => Ok (repeat (Mark kDedent) (length ind))
                  | g' :: r =>
                      obind (group_indent g') (fun i =>
                      let '(m, ind') := markers prev g' i ind in
                      obind (convert_group g') (fun y => omap (fun z => m ++ y ++ z) (convert (Some g') ind' r)))
                  end) None [] subs) (fun y =>
      omap (fun z => x ++ y ++ z) (add_line false true (ltoks e))))
  end.
Fixpoint convert (prev : option group) (ind : list nat) (gs : list group) : outcome (list item) :=
  match gs with
  | [] => Ok (repeat (Mark kDedent) (length ind))
  | g' :: r =>
      obind (group_indent g') (fun i =>
      let '(m, ind') := markers prev g' i ind in
      obind (convert_group g') (fun y => omap (fun z => m ++ y ++ z) (convert (Some g') ind' r)))
  end.

(** The first half of OrgTokenizer::recombine, 1325-1340 *)
Definition regroup (ts : list token) : outcome (list item) :=
  obind (to_lines [] ts) (fun ls => obind (to_groups ls) (convert None [])).

(** ** Recombination, 106-566 *)
(** The kind, the text and the offset, which an added token does not have. *)
Record otok := OTok { okind : tk; otext : str; opos : option nat }.
Definition otok_of (i : item) : otok :=
  match i with Base t => OTok (kind t) (text t) (Some (tpos t)) | Mark k => OTok k [] None end.

(** EmptyToken, 248-267 *)
Definition empty_token (k : tk) : bool :=
  match k with
  | kWhitespace | kEndOfFile | kNewline | kMediumNewline | kLongNewline | kAnyPunct | kLeadingSpace | kColon
  | kSemicolon | kComma | kStmtListBegin | kParBegin | kParEnd | kForwardSlash | kAsterisk | kUnderline
  | kPunctuation => true
  | _ => false
  end.

(** The lexer over the regrouped tokens: the token before the current one, the current and following ones, and
    the output. *)
Record rs := Rs { prev : option otok; rest : list otok; done : list otok }.
(** add_fake with the value or the location of the current token, pop, pop_as, next: 179-245. [k t] gives the
    tokens to add; tok() throws at the end. *)
Definition emit (f : otok -> list otok) (s : rs) : outcome rs :=
  match rest s with t :: r => Ok (Rs (Some t) r (done s ++ f t)) | [] => Throw end.
Definition pop_as (k : tk) : rs -> outcome rs := emit (fun t => [OTok k (otext t) (opos t)]).
Definition pop : rs -> outcome rs := emit (fun t => [t]).
Definition put_text (k : tk) (f : str -> str) : rs -> outcome rs := emit (fun t => [OTok k (f (otext t)) (opos t)]).
Definition then_ (f g : rs -> outcome rs) : rs -> outcome rs := fun s => obind (f s) g.

(** recombine_markup, 269-324 *)
Definition markup_kinds (k : tk) : option (tk * tk * tk) :=
  match k with
  | kAsterisk => Some (kBoldBegin, kBoldEnd, kBoldUnknown)
  | kForwardSlash => Some (kItalicBegin, kItalicEnd, kItalicUnknown)
  | kUnderline => Some (kUnderlineBegin, kUnderlineEnd, kUnderlineUnknown)
  | kEquals => Some (kVerbatimBegin, kVerbatimEnd, kVerbatimUnknown)
  | kPlus => Some (kStrikeBegin, kStrikeEnd, kStrikeUnknown)
  | kTilda => Some (kMonospaceBegin, kMonospaceEnd, kMonospaceUnknown)
  | _ => None
  end.
Definition verbatim_kind (k : tk) : bool := match k with kTilda | kEquals => true | _ => false end.
Definition empty_at (o : option otok) : bool := match o with Some t => empty_token (okind t) | None => true end.
Definition markup_kind (k : tk) (kinds : tk * tk * tk) (prev_empty next_empty : bool) : tk :=
  let '(open, close, unknown) := kinds in
  if prev_empty && negb next_empty then open
  else if negb prev_empty && next_empty then close
  else if prev_empty && verbatim_kind k then open
  else if next_empty && verbatim_kind k then close
  else if next_empty && prev_empty then unknown
  else match k with kEquals => kEquals | _ => kPunctuation end.

(** while (lex.can_search(line_end)) pop_as(lex.kind()): 401-403; while (lex.at(Whitespace)) next(): 375 *)
Fixpoint pop_line (r : list otok) (p : option otok) (d : list otok) : rs :=
  match r with
  | t :: r' => if line_end (okind t) then Rs p r d else pop_line r' (Some t) (d ++ [t])
  | [] => Rs p r d
  end.
Fixpoint skip_space (r : list otok) (p : option otok) (d : list otok) : rs :=
  match r with
  | t :: r' => match okind t with kWhitespace => skip_space r' (Some t) d | _ => Rs p r d end
  | [] => Rs p r d
  end.

(** lstrip and rstrip with a set of characters, Str.cpp; the text of `#+attr_x:` in 346-354 *)
Definition attr_text (s : str) : str :=
  let a := skipn 4 s in
  let b := skipn (run_len (Z.eqb c_us) a) a in
  rev (skipn (run_len (one_of [c_sp; c_colon]) (rev b)) (rev b)).

(** The merging of a quoted argument, 421-447: the tokens up to and including the one that ends with a quote *)
Definition ends_quote (s : str) : bool := match rev s with c :: _ => Z.eqb c c_dq | [] => false end.
Definition starts_quote (s : str) : bool := match s with c :: _ => Z.eqb c c_dq | [] => false end.
Definition arg_part (k : tk) : bool := match k with kWhitespace | kCmdRawArg => true | _ => false end.
Fixpoint quote_run (r : list otok) : outcome (list otok * list otok) :=
  match r with
  | [] => Throw
  | t :: r' =>
      if arg_part (okind t) then
        if ends_quote (otext t) then Ok ([t], r') else omap (fun '(a, b) => (t :: a, b)) (quote_run r')
      else Ok ([], r)
  end.
Definition raw_arg (s : rs) : outcome rs :=
  match rest s with
  | [] => Throw
  | t :: r =>
      if starts_quote (otext t) && negb (ends_quote (otext t)) then
        omap (fun '(a, b) =>
          let buf := t :: a in
          let last := last buf t in
          Rs (Some last) b
             (done s ++ (if ends_quote (otext last) then [OTok (okind t) (concat (map otext buf)) (opos t)] else buf)))
          (quote_run r)
      else pop s
  end.

Definition next_tok (s : rs) : option otok := match rest s with _ :: n :: _ => Some n | _ => None end.
Definition is_big (s : str) : bool := forallb (fun c => is_upper c || Z.eqb c c_us) s.
Definition prefixed (k : tk) : rs -> outcome rs :=
  emit (fun t => [OTok kCmdPrefix [] (opos t); OTok k (otext t) (opos t)]).

(** 346-358 *)
Definition put_name (k : tk) : rs -> outcome rs :=
  match k with kCmdAttr => put_text kCmdAttr attr_text | _ => pop_as k end.
(** 384-389 *)
Definition begin_content (s : rs) : rs :=
  let d := done s ++ [OTok kCmdContentBegin [] None] in
  match rest s with
  | e :: r => if line_end (okind e) then Rs (Some e) r d else Rs (prev s) (rest s) d
  | [] => Rs (prev s) (rest s) d
  end.

(** map_interpreted_token, 405-542, and map_line_command, 333-391 *)
Fixpoint map_token (fuel : nat) (s : rs) : outcome rs :=
  match fuel with
  | O => Fuel
  | S fuel' =>
      match rest s with
      | [] => Throw
      | t :: _ =>
          match okind t with
          | kLineCommand =>
              match next_tok s with
              | None => Throw
              | Some n =>
                  obind (then_ (pop_as kCmdPrefix)
                           (put_name (okind n)) s) (fun s1 =>
                  obind (match okind n with
                         | kCmdExampleBegin | kCmdExportBegin | kCmdSrcBegin | kCmdPropertyArgs =>
                             Ok (pop_line (rest s1) (prev s1) (done s1))
                         | kCmdTitle => Ok (skip_space (rest s1) (prev s1) (done s1))
                         | kCmdPropertyText => obind (pop_as kCmdRawArg s1) (map_text fuel')
                         | _ => Ok s1
                         end) (fun s2 =>
                  match okind n with kCmdSrcBegin => Ok (begin_content s2) | _ => Ok s2 end))
              end
          | kCmdExampleEnd => prefixed kCmdExampleEnd s
          | kCmdExportEnd => prefixed kCmdExportEnd s
          | kCmdSrcEnd => prefixed kCmdSrcEnd s
          | kCmdRawArg => raw_arg s
          | kAt => put_text kAt (skipn 1) s
          | kPlus | kForwardSlash | kEquals | kTilda | kUnderline | kAsterisk =>
              match markup_kinds (okind t) with
              | Some ks => pop_as (markup_kind (okind t) ks (empty_at (prev s)) (empty_at (next_tok s))) s
              | None => Throw
              end
          | kEndOfFile => emit (fun _ => []) s
          | kEscaped => put_text kEscaped (skipn 1) s
          | kPlaceholder => put_text kPlaceholder (fun x => substr x 1 (length x - 2)) s
          | kTextSrcBegin =>
              if length (otext t) <? 4 then Throw else put_text kTextSrcBegin (skipn 4) s
          | kWord => pop_as (if is_big (otext t) then kBigIdent else kWord) s
          | kColonExampleLine =>
              put_text kColonExampleLine (fun x => if 1 <? length x then skipn 2 x else []) s
          | kFootnoteLinked => put_text kFootnoteLinked (fun x => drop_suffix (drop_prefix x (lit "[fn:")) (lit "]")) s
          | _ => pop s
          end
      end
  end
(** while (!lex.at(line_end)) map_interpreted_token(): 379 *)
with map_text (fuel : nat) (s : rs) : outcome rs :=
  match fuel with
  | O => Fuel
  | S fuel' =>
      match rest s with
      | t :: _ => if line_end (okind t) then Ok s else obind (map_token fuel' s) (map_text fuel')
      | [] => Throw
      end
  end.

(** recombine_impl, 544-565: the assertion that the position moved *)
Fixpoint recombine_loop (fuel : nat) (s : rs) : outcome rs :=
  match fuel with
  | O => Fuel
  | S fuel' =>
      match rest s with
      | [] => Ok s
      | _ :: _ =>
          obind (map_token (2 * length (rest s) + 2) s) (fun s' =>
            if length (rest s') =? length (rest s) then Throw else recombine_loop fuel' s')
      end
  end.
Definition recombine (l : list item) : outcome (list otok) :=
  omap done (recombine_loop (S (length l)) (Rs None (map otok_of l) [])).

(** OrgTokenizer::convert, 1349-1358 *)
Definition convert_tokens (ts : list token) : outcome (list otok) := obind (regroup ts) recombine.
