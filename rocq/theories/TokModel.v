(** Model of the base lexer: src/haxorg/base_lexer/base_token_tokenize.cpp, all of it except tracing and the
    function [switch_subtree_head] (874-894), which nothing calls.

    Simplifications: a byte is an integer in 0..255; the character classification is that of the "C" locale;
    positions are unbounded; [std::terminate], which a failed [advance_guard] leads to because it throws from
    a destructor (hstd/stdlib/Func.hpp:43), and the dereference of an empty optional are [UB]; an exception
    that unwinds through a guard is [Throw] even where the guard would terminate. The patterns of the lexy
    library are modelled by their documented meaning (its sources are not part of the repository). *)
From Coq Require Import String.
From Verif Require Import Base StrModel TokKind.
From Verif Require AttrModel.
Local Open Scope nat_scope.

Notation lit := AttrModel.lit.

Notation c_nl := 10%Z (only parsing).      Notation c_sp := 32%Z (only parsing).
Notation c_excl := 33%Z (only parsing).    Notation c_dq := 34%Z (only parsing).
Notation c_hash := 35%Z (only parsing).    Notation c_dollar := 36%Z (only parsing).
Notation c_percent := 37%Z (only parsing). Notation c_amp := 38%Z (only parsing).
Notation c_sq := 39%Z (only parsing).      Notation c_lpar := 40%Z (only parsing).
Notation c_rpar := 41%Z (only parsing).    Notation c_star := 42%Z (only parsing).
Notation c_plus := 43%Z (only parsing).    Notation c_comma := 44%Z (only parsing).
Notation c_minus := 45%Z (only parsing).   Notation c_dot := 46%Z (only parsing).
Notation c_slash := 47%Z (only parsing).   Notation c_colon := 58%Z (only parsing).
Notation c_semi := 59%Z (only parsing).    Notation c_lt := 60%Z (only parsing).
Notation c_eq := 61%Z (only parsing).      Notation c_gt := 62%Z (only parsing).
Notation c_at := 64%Z (only parsing).      Notation c_lbr := 91%Z (only parsing).
Notation c_bsl := 92%Z (only parsing).     Notation c_rbr := 93%Z (only parsing).
Notation c_caret := 94%Z (only parsing).   Notation c_us := 95%Z (only parsing).
Notation c_tick := 96%Z (only parsing).    Notation c_lcur := 123%Z (only parsing).
Notation c_pipe := 124%Z (only parsing).   Notation c_rcur := 125%Z (only parsing).
Notation c_tilde := 126%Z (only parsing).

(** <cctype> *)
Definition is_alpha (c : byte) : bool := is_lower c || is_upper c.
Definition is_alnum (c : byte) : bool := is_alpha c || is_digit c.
Definition one_of (l : str) (c : byte) : bool := existsb (Z.eqb c) l.

(** ** lexy patterns: the length of the match at the beginning of the input, if there is one *)
Definition pat := str -> option nat.
Definition p_cls (f : byte -> bool) : pat :=
  fun s => match s with c :: _ => if f c then Some 1 else None | [] => None end.
Definition p_chr (c : byte) : pat := p_cls (Z.eqb c).
Fixpoint p_fold (eq : byte -> byte -> bool) (l : str) : pat :=
  fun s =>
    match l, s with
    | [], _ => Some 0
    | c :: l', d :: s' => if eq c d then option_map S (p_fold eq l' s') else None
    | _ :: _, [] => None
    end.
(** LEXY_LIT, dsl::lit_c and LEXY_ILIT (base_token_tokenize.cpp:896) *)
Definition p_lit (l : str) : pat := p_fold Z.eqb l.
Definition p_ilit (l : str) : pat := p_fold (fun a b => Z.eqb (to_lower a) (to_lower b)) l.
Definition p_seq (p q : pat) : pat :=
  fun s => match p s with
           | Some n => match q (skipn n s) with Some m => Some (n + m) | None => None end
           | None => None
           end.
Definition p_alt (p q : pat) : pat := fun s => match p s with Some n => Some n | None => q s end.
(** dsl::opt *)
Definition p_opt (p : pat) : pat := fun s => match p s with Some n => Some n | None => Some 0 end.
(** dsl::while_one of a character class; dsl::digits<>, dsl::identifier of a class *)
Fixpoint run_len (f : byte -> bool) (s : str) : nat :=
  match s with c :: s' => if f c then S (run_len f s') else 0 | [] => 0 end.
Definition p_many1 (f : byte -> bool) : pat :=
  fun s => match run_len f s with O => None | S n => Some (S n) end.
(** dsl::while_one of a sequence: repeated as long as the whole sequence matches *)
Fixpoint p_more (fuel : nat) (p : pat) (s : str) : nat :=
  match fuel with
  | O => 0
  | S fuel' => match p s with Some (S n) => S n + p_more fuel' p (skipn (S n) s) | _ => 0 end
  end.
Definition p_while_one (p : pat) : pat :=
  fun s => match p s with Some n => Some (n + p_more (length s) p (skipn n s)) | None => None end.
(** dsl::while_one(branch >> rest): once the branch is taken the rest has to match *)
Fixpoint p_more_br (fuel : nat) (p q : pat) (s : str) : option nat :=
  match fuel with
  | O => Some 0
  | S fuel' =>
      match p s with
      | None => Some 0
      | Some n =>
          match q (skipn n s) with
          | None => None
          | Some m => option_map (Nat.add (n + m)) (p_more_br fuel' p q (skipn (n + m) s))
          end
      end
  end.
Definition p_while_one_br (p q : pat) : pat :=
  p_seq (p_seq p q) (fun s => p_more_br (length s) p q s).
(** dsl::until: everything up to and including the first match *)
Fixpoint p_until (p : pat) (s : str) : option nat :=
  match p s with
  | Some n => Some n
  | None => match s with [] => None | _ :: s' => option_map S (p_until p s') end
  end.
(** dsl::integer<int>: digits whose value fits *)
Definition dec_value (s : str) : Z := fold_left (fun v c => v * 10 + (c - 48))%Z s 0%Z.
Definition p_int : pat :=
  fun s => match p_many1 is_digit s with
           | Some n => if (dec_value (firstn n s) <=? 2147483647)%Z then Some n else None
           | None => None
           end.
Fixpoint p_times (n : nat) (p : pat) : pat :=
  match n with O => fun _ => Some 0 | S n' => p_seq p (p_times n' p) end.

Definition is_word (c : byte) : bool := is_alnum c || Z.eqb c c_us.
(** org_ident, base_token_tokenize.cpp:652-658 *)
Definition p_ident : pat := p_many1 (fun c => is_word c || Z.eqb c c_minus).
Definition p_digit : pat := p_cls is_digit.
Definition p_digits : pat := p_many1 is_digit.
(** dsl::literal_set takes the longest literal that matches *)
(** text_properties and argument_properties, base_token_tokenize.cpp:1009-1026 *)
Definition p_text_property : pat :=
  p_alt (p_ilit (lit "description")) (p_alt (p_ilit (lit "created")) (p_alt (p_ilit (lit "hashtag_def"))
    (p_alt (p_ilit (lit "hashtag-def")) (p_ilit (lit "hashtag"))))).
Definition p_argument_property : pat :=
  p_alt (p_ilit (lit "header-args")) (p_alt (p_ilit (lit "header_args"))
    (p_alt (p_ilit (lit "prop_args")) (p_ilit (lit "prop-args")))).
(** time_repeater_pattern, base_token_tokenize.cpp:1028-1030 *)
Definition p_repeater : pat :=
  p_seq (p_alt (p_lit (lit ".+")) (p_alt (p_lit (lit "++")) (p_lit (lit "+"))))
        (p_while_one (p_seq p_digits (p_cls is_alpha))).
(** link_end, base_token_tokenize.cpp:1237-1238 *)
Definition p_link_end : pat := p_until (p_alt (p_lit (lit "]]")) (p_lit (lit "]["))).
(** link_continuation, base_token_tokenize.cpp:1226-1235 *)
Definition p_link_start : pat := p_cls (fun c => is_word c || one_of (lit "-*#./") c).
Definition p_date : pat :=
  p_seq (p_times 4 p_digit) (p_seq (p_chr c_minus) (p_seq (p_times 2 p_digit)
    (p_seq (p_chr c_minus) (p_times 2 p_digit)))).

(** ** CmdSpec, base_token_tokenize.cpp:592-649 *)
Inductive cmd_type := CRaw | CText | CArgs.
Definition cmd_spec : list (str * (tk * cmd_type)) := [
  (lit "columns", (kCmdColumns, CRaw)); (lit "tblfm", (kCmdTblfm, CRaw)); (lit "options", (kCmdOptions, CRaw));
  (lit "tags", (kCmdTagsRaw, CRaw)); (lit "drawers", (kCmdDrawersRaw, CRaw));
  (lit "category", (kCmdCategoryRaw, CRaw)); (lit "priorities", (kCmdPrioritiesRaw, CRaw));
  (lit "htmlhead", (kCmdHtmlHeadRaw, CRaw)); (lit "latexheaderextra", (kCmdLatexHeaderExtraRaw, CRaw));
  (lit "title", (kCmdTitle, CText)); (lit "author", (kCmdAuthor, CText)); (lit "filetags", (kCmdFiletags, CText));
  (lit "caption", (kCmdCaption, CText)); (lit "date", (kCmdDateRaw, CText)); (lit "link", (kCmdLinkRaw, CText));
  (lit "description", (kCmdDescription, CText)); (lit "language", (kCmdLanguage, CText));
  (lit "creator", (kCmdCreator, CText)); (lit "name", (kCmdName, CArgs)); (lit "email", (kCmdEmailRaw, CRaw));
  (lit "macro", (kCmdMacroRaw, CRaw)); (lit "bind", (kCmdBindRaw, CRaw));
  (lit "excludetags", (kCmdExcludeTagsRaw, CRaw)); (lit "selecttags", (kCmdSelectTagsRaw, CRaw));
  (lit "keywords", (kCmdKeywordsRaw, CRaw)); (lit "setupfile", (kCmdSetupfileRaw, CRaw));
  (lit "startup", (kCmdStartup, CRaw)); (lit "seqtodo", (kCmdSeqTodoRaw, CRaw));
  (lit "constants", (kCmdConstants, CArgs)); (lit "results", (kCmdResults, CArgs));
  (lit "include", (kCmdInclude, CArgs)); (lit "header", (kCmdHeader, CArgs)); (lit "call", (kCmdCall, CArgs));
  (lit "row", (kCmdRow, CArgs)); (lit "cell", (kCmdCell, CArgs)); (lit "latex_class", (kCmdLatexClass, CArgs));
  (lit "latex_compiler", (kCmdLatexCompiler, CArgs)); (lit "latex_header", (kCmdLatexHeader, CArgs));
  (lit "latex_class_options", (kCmdLatexClassOptions, CArgs)) ].

(** Token with the location of base_token_tokenize.cpp:364-425: text, offset, column and line. *)
Record token := Token { kind : tk; text : str; tpos : nat; tcol : nat; tline : nat }.

(** Position, line and column of the cursor (341-343), and the cursor with the tokens produced so far. *)
Record cu := Cu { pos : nat; line : nat; col : nat }.
Record st := St { cur : cu; out : list token }.

Section Lexer.
Variable txt : str.

(** Cursor::has_pos, get, is_at, is_at_any_of, is_at_all_of, is_iat, can_search: 40-162. A signed offset is
    only used once, see [prev_is]. *)
Definition peek (c : cu) (off : nat) : option byte := nth_error txt (pos c + off).
Definition has_pos (c : cu) (off : nat) : bool := pos c + off <? length txt.
Definition has_text (c : cu) : bool := has_pos c 0.
Definition is_pred (c : cu) (off : nat) (f : byte -> bool) : bool :=
  match peek c off with Some x => f x | None => false end.
Definition is_at (c : cu) (off : nat) (ch : byte) : bool := is_pred c off (fun x => Z.eqb x ch).
Definition is_any (c : cu) (off : nat) (l : str) : bool := is_pred c off (one_of l).
Fixpoint is_str (c : cu) (off : nat) (s : str) : bool :=
  match s with [] => true | x :: s' => is_at c off x && is_str c (S off) s' end.
Fixpoint is_iat (c : cu) (off : nat) (s : str) : outcome bool :=
  match s with
  | [] => Ok true
  | x :: s' =>
      match peek c off with
      | None => Throw
      | Some y => if Z.eqb (to_lower y) (to_lower x) then is_iat c (S off) s' else Ok false
      end
  end.
Definition can_search (c : cu) (off : nat) (ch : byte) : bool := has_pos c off && negb (is_at c off ch).
(** is_at(' ', -1) with its has_pos, 1470 *)
Definition prev_is (c : cu) (ch : byte) : bool :=
  match pos c with O => false | S p => match nth_error txt p with Some x => Z.eqb x ch | None => false end end.
Definition get (c : cu) (off : nat) : outcome byte := match peek c off with Some x => Ok x | None => Throw end.

(** Cursor::next, 186-203 *)
Definition next (c : cu) : cu :=
  match peek c 0 with
  | None => c
  | Some x => if Z.eqb x c_nl then Cu (S (pos c)) (S (line c)) 0 else Cu (S (pos c)) (line c) (S (col c))
  end.
(** Cursor::is_at_unicode, nextUnicode: 205-235 *)
Definition next_unicode (c : cu) : cu :=
  match peek c 0 with
  | None => c
  | Some x =>
      if Z.eqb x c_nl then Cu (S (pos c)) (S (line c)) 1
      else let size := if (240 <=? x)%Z then 4 else if (224 <=? x)%Z then 3 else if (192 <=? x)%Z then 2 else 1 in
           Cu (Nat.min (pos c + size) (length txt)) (line c) (S (col c))
  end.
(** Number of bytes left: every loop below that stops at the end of the text and advances on every round
    runs at most this often, so this much fuel never cuts it short. *)
Definition left (c : cu) : nat := length txt - pos c.

(** advance_count, token_adv: 446-454, 489-493 *)
Fixpoint advance (n : nat) (c : cu) : cu := match n with O => c | S n' => advance n' (next c) end.
(** while (has_text() && f(get())) next(): 508-523 and the other scanning loops *)
Fixpoint run_n (n : nat) (f : byte -> bool) (c : cu) : cu :=
  match n with O => c | S n' => if is_pred c 0 f then run_n n' f (next c) else c end.
Definition run (f : byte -> bool) (c : cu) : cu := run_n (left c) f c.
Definition opt_next (ch : byte) (c : cu) : cu := if is_at c 0 ch then next c else c.
(** Cursor::skip, 49-61 *)
Definition skip (ch : byte) (c : cu) : outcome cu :=
  obind (get c 0) (fun x => if Z.eqb x ch then Ok (next c) else Throw).

(** advance_word, 495-506 *)
Definition at_joint (c : cu) : bool := is_any c 0 (lit "-_") && is_pred c 1 is_alnum.
Fixpoint joints_inner (n : nat) (c : cu) : cu :=
  match n with O => c | S n' => if at_joint c then joints_inner n' (next c) else c end.
Fixpoint joints (n : nat) (c : cu) : cu :=
  match n with
  | O => c
  | S n' => if at_joint c then joints n' (run is_alnum (joints_inner (left c) c)) else c
  end.
Definition advance_word (c : cu) : cu :=
  let c1 := joints (left c) (run is_alnum c) in run is_alnum (opt_next c_sq c1).
(** advance_number, advance_ident: 508-515 *)
Definition advance_number (c : cu) : cu := run (fun x => is_digit x || Z.eqb x c_us) (opt_next c_minus c).
Definition advance_ident (c : cu) : cu := run is_word c.
(** while (can_search('\n')) next() *)
Definition to_eol (c : cu) : cu := run (fun x => negb (Z.eqb x c_nl)) c.

(** token_cb, 397-425: the [line] of the location is never given and is zero *)
Definition sub (a b : nat) : str := substr txt a (b - a).
Definition mk (k : tk) (c c' : cu) : token := Token k (sub (pos c) (pos c')) (pos c) (col c) 0.
Definition tok (k : tk) (adv : cu -> outcome cu) (s : st) : outcome st :=
  obind (adv (cur s)) (fun c' => Ok (St c' (out s ++ [mk k (cur s) c']))).
Definition tokt (k : tk) (adv : cu -> cu) : st -> outcome st := tok k (fun c => Ok (adv c)).
Definition tok_adv (k : tk) (n : nat) : st -> outcome st := tokt k (advance n).
Definition tok1 (k : tk) : st -> outcome st := tok_adv k 1.

Definition andthen (f g : st -> outcome st) : st -> outcome st := fun s => obind (f s) g.
Infix ">>>" := andthen (at level 61, left associativity).

(** advance_guard, 458-484 *)
Definition guard (f : st -> outcome st) (s : st) : outcome st :=
  obind (f s) (fun s' => if pos (cur s') =? pos (cur s) then UB else Ok s').
(** while (cond) body *)
Fixpoint loop (n : nat) (cond : cu -> bool) (body : st -> outcome st) (s : st) : outcome st :=
  match n with
  | O => Fuel
  | S n' => if cond (cur s) then obind (body s) (loop n' cond body) else Ok s
  end.
Definition in_line (c : cu) : bool := can_search c 0 c_nl.

(** try_lexy_patt, 303-309 *)
Definition patt (p : pat) (c : cu) (off : nat) : option nat := p (skipn (pos c + off) txt).

(** The quoted argument of switch_cmd_argument, 542-555 *)
Fixpoint quoted (n : nat) (c : cu) : cu :=
  match n with
  | O => c
  | S n' =>
      if can_search c 0 c_dq then
        if is_at c 0 c_nl then c
        else if is_str c 0 [c_bsl; c_dq] then quoted n' (next (next c)) else quoted n' (next c)
      else c
  end.
Definition arg_stop (x : byte) : bool := one_of [c_lpar; c_rpar; c_rbr; c_lbr; c_eq; c_comma; c_sp; c_nl] x.

(** switch_cmd_argument, 531-588. The loop of 572-574 does not test for the end of the text: it goes on
    forever when there is no delimiter left, which is [Fuel] here. *)
Definition cmd_argument (s : st) : outcome st :=
  let c := cur s in
  obind (get c 0) (fun x =>
    if Z.eqb x c_lpar then tok1 kParBegin s
    else if Z.eqb x c_rpar then tok1 kParEnd s
    else if Z.eqb x c_rbr then tok1 kBraceEnd s
    else if Z.eqb x c_eq then tok1 kEquals s
    else if Z.eqb x c_comma then tok1 kComma s
    else if Z.eqb x c_sp then tokt kWhitespace (run (Z.eqb c_sp)) s
    else if Z.eqb x c_nl then Throw
    else if Z.eqb x c_lbr then tok1 kBraceBegin s
    else if Z.eqb x c_dq then
      tokt kCmdRawArg (fun c => opt_next c_dq (quoted (left (next c)) (next c))) s
    else if Z.eqb x c_colon then
      if is_pred c 1 is_alnum then
        tok kCmdColonIdent (fun c =>
          omap (run (fun y => is_alnum y || Z.eqb y c_us || Z.eqb y c_minus)) (skip c_colon c)) s
      else
        tok kCmdRawArg (fun c =>
          let c' := run (fun y => negb (arg_stop y)) (next c) in if has_text c' then Ok c' else Fuel) s
    else tokt kCmdRawArg (run (fun y => negb (arg_stop y))) s).

(** get_end_block_offset, 702-732 *)
Definition count_at (f : byte -> bool) (c : cu) (off : nat) : nat := run_len f (skipn (pos c + off) txt).
Definition end_offset (name : str) (c : cu) : outcome (option nat) :=
  let p := count_at (Z.eqb c_sp) c 0 in
  if is_at c p c_hash then
    if is_at c (p + 1) c_plus then
      obind (is_iat c (p + 2) (lit "end")) (fun e =>
        if e then
          let p2 := if is_at c (p + 5) c_us then p + 6 else p + 5 in
          obind (is_iat c p2 name) (fun b => Ok (if b then Some (p2 + length name) else None))
        else Ok None)
    else Ok None
  else Ok None.

(** The loops of 771-779, 784-792 and 797-816: until the end of the block. *)
Fixpoint block (n : nat) (name : str) (body : st -> outcome st) (fin : tk) (s : st) : outcome st :=
  match n with
  | O => Fuel
  | S n' =>
      obind (end_offset name (cur s)) (fun o =>
        match o with
        | Some k => tok_adv fin k s
        | None => obind (guard body s) (block n' name body fin)
        end)
  end.
Definition opt_newline (s : st) : outcome st := if is_at (cur s) 0 c_nl then tok1 kNewline s else Ok s.
(** 774-777, 787-790 *)
Definition raw_line (k : tk) : st -> outcome st := tokt k to_eol >>> opt_newline.
(** 800-814 *)
Fixpoint src_run (n : nat) (c : cu) : cu :=
  match n with
  | O => c
  | S n' =>
      if has_text c && negb (is_at c 0 c_nl || is_str c 0 [c_gt; c_gt] || is_str c 0 [c_lt; c_lt])
      then src_run n' (next c) else c
  end.
Definition src_line (s : st) : outcome st :=
  let c := cur s in
  ((if is_str c 0 [c_lt; c_lt] then tok_adv kDoubleAngleBegin 2
    else if is_str c 0 [c_gt; c_gt] then tok_adv kDoubleAngleEnd 2
    else tokt kSrcContent (fun c => src_run (left c) c)) >>> opt_newline) s.

Section Rec.
(** The recursive call of switch_regular_char, and the fuel of the loops. *)
Variable self : st -> outcome st.
Variable n : nat.

(** head_raw, head_args, head_text: 671-699. [head] is the token taken back by pop_token (668). *)
Definition put (k : tk) (head : token) (s : st) : st :=
  St (cur s) (out s ++ [Token k (text head) (tpos head) (tcol head) (tline head)]).
Definition head_raw (k : tk) (head : token) (s : st) : outcome st := tokt kRawText to_eol (put k head s).
Definition head_args (k : tk) (head : token) (s : st) : outcome st :=
  loop n in_line (guard cmd_argument) (put k head s).
Definition head_text (k : tk) (head : token) (s : st) : outcome st :=
  loop n in_line (guard self) (put k head s).

(** The kinds of block, 746-820 and 822-840. *)
Definition begin_kind (name : str) : tk :=
  if AttrModel.str_eqb name (lit "quote") then kCmdQuoteBegin
  else if AttrModel.str_eqb name (lit "cell") then kCmdCellBegin
  else if AttrModel.str_eqb name (lit "center") then kCmdCenterBegin
  else if AttrModel.str_eqb name (lit "verse") then kCmdVerseBegin
  else if AttrModel.str_eqb name (lit "comment") then kCmdCommentBegin
  else if AttrModel.str_eqb name (lit "row") then kCmdRowBegin
  else if AttrModel.str_eqb name (lit "table") then kCmdTableBegin
  else kCmdDynamicBlockBegin.
Definition end_kind (name : str) : tk :=
  if AttrModel.str_eqb name (lit "quote") then kCmdQuoteEnd
  else if AttrModel.str_eqb name (lit "cell") then kCmdCellEnd
  else if AttrModel.str_eqb name (lit "center") then kCmdCenterEnd
  else if AttrModel.str_eqb name (lit "comment") then kCmdCommentEnd
  else if AttrModel.str_eqb name (lit "verse") then kCmdVerseEnd
  else if AttrModel.str_eqb name (lit "row") then kCmdRowEnd
  else if AttrModel.str_eqb name (lit "table") then kCmdTableEnd
  else kCmdDynamicBlockEnd.
Definition begins (s p : str) : bool := AttrModel.str_eqb (firstn (length p) s) p.

(** switch_command, 660-872. The cases `norm_head == "begin"` and "end" (841-845) come after the tests for
    the prefix and cannot be reached. *)
Definition switch_command (s0 : st) : outcome st :=
  obind (tok_adv kLineCommand 2 s0) (fun s1 =>
  let c' := opt_next c_colon (advance_ident (cur s1)) in
  let head := mk kWord (cur s1) c' in
  let s := St c' (out s1) in
  let norm := normalize (text head) in
  match AttrModel.lookup cmd_spec norm with
  | Some (k, CArgs) => head_args k head s
  | Some (k, CRaw) => head_raw k head s
  | Some (k, CText) => head_text k head s
  | None =>
      if begins norm (lit "attr") then head_args kCmdAttr head s
      else if begins norm (lit "begin") then
        let name := skipn 5 norm in
        if AttrModel.str_eqb name (lit "export") then
          (head_args kCmdExportBegin head >>> tok1 kNewline
             >>> block n (lit "export") (raw_line kCmdExportLine) kCmdExportEnd) s
        else if AttrModel.str_eqb name (lit "example") then
          (head_args kCmdExampleBegin head >>> tok1 kNewline
             >>> block n (lit "example") (raw_line kCmdExampleLine) kCmdExampleEnd) s
        else if AttrModel.str_eqb name (lit "src") then
          (head_args kCmdSrcBegin head >>> tok1 kNewline
             >>> block n (lit "src") src_line kCmdSrcEnd) s
        else head_args (begin_kind name) head s
      else if begins norm (lit "end") then head_args (end_kind (skipn 3 norm)) head s
      else if begins norm (lit "property") then
        match patt (p_seq (fun r => Some (run_len (one_of [32; 9; 10; 11; 12; 13]%Z) r)) p_ident) c' 0 with
        | Some span =>
            let kind := normalize (sub (pos c') (pos c' + span)) in
            if existsb (AttrModel.str_eqb kind)
                 [lit "description"; lit "created"; lit "hashtag"; lit "hashtagdef"]
            then head_text kCmdPropertyText head s
            else if existsb (AttrModel.str_eqb kind) [lit "headerargs"; lit "propargs"]
            then head_args kCmdPropertyArgs head s
            else head_raw kCmdCustomRaw head s
        | None => head_raw kCmdCustomRaw head s
        end
      else head_raw kCmdCustomRaw head s
  end).

(** The content of inline source, 903-936. *)
Fixpoint braces (m open : nat) (c : cu) : cu :=
  match m with
  | O => c
  | S m' =>
      match peek c 0 with
      | None => c
      | Some x =>
          if Z.eqb x c_lcur then braces m' (S open) (next c)
          else if Z.eqb x c_rcur then if open =? 1 then c else braces m' (open - 1) (next c)
          else if Z.eqb x c_bsl then
            if is_any c 1 [c_lcur; c_rcur] then braces m' open (next (next c)) else braces m' open (next c)
          else braces m' open (next c)
      end
  end.
Definition inline_src : st -> outcome st :=
  tok1 kCurlyBegin >>> tokt kRawText (fun c => braces (left c) 1 c) >>> tok1 kCurlyEnd.

(** switch_word, 898-998 *)
Definition switch_word (s : st) : outcome st :=
  let c := cur s in
  let word := tokt kWord advance_word in
  obind (get c 0) (fun x =>
    if one_of (lit "hH") x then
      obind (is_iat c 0 (lit "http")) (fun b =>
        if b then
          (tokt kLinkProtocolHttp (fun c => let c' := advance 4 c in if is_any c' 0 (lit "sS") then next c' else c')
             >>> tokt kLinkTarget (run (fun y => negb (one_of [c_sp; c_rbr; c_nl] y)))) s
        else word s)
    else if one_of (lit "sS") x then
      if is_str c 0 (lit "SCHEDULED:") then tok_adv kTreeTime 10 s
      else match patt (p_seq (p_ilit (lit "src")) (p_seq (p_opt (p_chr c_us)) (p_many1 is_word))) c 0 with
           | Some span => (tok_adv kTextSrcBegin span >>> inline_src) s
           | None => word s
           end
    else if Z.eqb x 68 then if is_str c 0 (lit "DEADLINE:") then tok_adv kTreeTime 9 s else word s
    else if Z.eqb x 67 then if is_str c 0 (lit "CLOSED:") then tok_adv kTreeTime 7 s else word s
    else word s).

(** check_leading, 1000-1006 *)
Definition check_leading (c : cu) (ch : byte) (sk : nat) : bool := is_at c sk ch && is_any c (1 + sk) [c_sp; c_nl].

(** switch_time_repeater, 1032-1044 *)
Fixpoint durations (m : nat) (c : cu) : cu :=
  match m with
  | O => c
  | S m' => if is_pred c 0 is_digit then durations m' (advance_ident (advance_number c)) else c
  end.
Definition time_repeater : st -> outcome st :=
  tokt kTimeRepeaterSpec (fun c => run (Z.eqb c_plus) (opt_next c_dot c))
    >>> tokt kTimeRepeaterDuration (fun c => durations (left c) c).

(** is_at_table_separator, 1046-1068 *)
Fixpoint sep_columns (m : nat) (c : cu) (p columns : nat) : nat * nat :=
  match m with
  | O => (p, columns)
  | S m' =>
      if is_at c p c_minus then
        let p' := p + count_at (Z.eqb c_minus) c p in
        if is_any c p' [c_plus; c_pipe] then sep_columns m' c (S p') (S columns) else (p', columns)
      else (p, columns)
  end.
Definition table_separator (c : cu) (sk : nat) : option nat :=
  let p := if is_at c sk c_pipe then sk + 1 else sk in
  let '(p', columns) := sep_columns (left c) c p 0 in if 0 <? columns then Some p' else None.

(** The newlines of 1480-1486 and of 1549-1560: the offset after the last one, and how many there are. *)
Fixpoint blank_lines (m : nat) (c : cu) (off count : nat) : nat * nat :=
  match m with
  | O => (off, count)
  | S m' =>
      if is_at c off c_nl then
        let off' := S off + count_at (Z.eqb c_sp) c (S off) in
        if is_at c off' c_nl then blank_lines m' c off' (S count) else (off', S count)
      else (off, count)
  end.
Fixpoint newlines (m : nat) (c : cu) (count : nat) : cu * nat :=
  match m with
  | O => (c, count)
  | S m' =>
      if is_at c 0 c_nl then
        let c1 := next c in
        let c2 := run (Z.eqb c_sp) c1 in
        if is_at c2 0 c_nl then newlines m' c2 (S count) else (c1, S count)
      else (c, count)
  end.
(** 1545-1571 with range_token, 364-385: the location has the line and the column after the newlines *)
Definition newline_token (s : st) : outcome st :=
  let '(c', count) := newlines (left (cur s)) (cur s) 0 in
  let k := if count =? 1 then kNewline else if count =? 2 then kMediumNewline else kLongNewline in
  Ok (St c' (out s ++ [Token k (sub (pos (cur s)) (pos c')) (pos (cur s)) (col c') (line c')])).

(** The search for the closing tilda, 1473-1496. *)
Fixpoint tilda_end (m : nat) (c : cu) (off : nat) : nat :=
  match m with
  | O => off
  | S m' =>
      if has_pos c (off + 1) then
        if is_at c off c_tilde && negb (is_pred c (off + 1) is_alnum) then off
        else if is_at c off c_nl then
          let '(off', count) := blank_lines (left c) c off 0 in
          if count =? 1 then tilda_end m' c off' else off
        else tilda_end m' c (S off)
      else off
  end.
Definition tilda (s : st) : outcome st :=
  let c := cur s in
  if is_str c 0 (lit "~~}") then tok_adv kCriticReplaceEnd 3 s
  else if is_str c 0 (lit "~>") then tok_adv kCriticReplaceMiddle 2 s
  else if prev_is c c_sp then
    obind (tok1 kTilda s) (fun s1 =>
      let c1 := cur s1 in
      let off := tilda_end (left c1) c1 0 in
      if is_at c1 off c_tilde then (tok_adv kRawText off >>> tok1 kTilda) s1 else Ok s1)
  else tok1 kTilda s.

(** The offset of 1298-1301 and 1339-1343. *)
Definition link_name (c : cu) : nat := count_at (fun x => negb (one_of [c_rbr; c_colon; c_nl] x)) c 0.
Definition link_internal (s : st) : outcome st :=
  let off := link_name (cur s) in
  if is_at (cur s) off c_colon then tok_adv kLinkProtocol (off + 1) s else tok_adv kLinkProtocolInternal off s.
(** token_adv(kind, *span - 2) with the span of dsl::until(link_end); an empty span is dereferenced. *)
Definition until_end (k : tk) (s : st) : outcome st :=
  match patt p_link_end (cur s) 0 with Some span => tok_adv k (span - 2) s | None => UB end.
(** 1277-1308 *)
Definition link_protocol (s : st) : outcome st :=
  let c := cur s in
  obind (is_iat c 0 (lit "http")) (fun b => if b then switch_word s else
  obind (is_iat c 0 (lit "file")) (fun b => if b then (tok_adv kLinkProtocolFile 4 >>> until_end kLinkTarget) s else
  obind (is_iat c 0 (lit "attachment")) (fun b =>
    if b then (tokt kLinkProtocolAttachment advance_ident >>> until_end kLinkTarget) s else
  obind (is_iat c 0 (lit "id")) (fun b =>
    if b then (tokt kLinkProtocolId advance_ident >>> until_end kLinkTarget) s else link_internal s)))).
(** 1314-1352 *)
Definition link_plain (s : st) : outcome st :=
  obind (get (cur s) 0) (fun x =>
    if Z.eqb x c_star then until_end kLinkProtocolTitle s
    else if Z.eqb x c_hash then (tok1 kLinkProtocolCustomId >>> until_end kLinkTarget) s
    else if Z.eqb x c_slash then until_end kLinkTargetFile s
    else if Z.eqb x c_dot then until_end kLinkTargetFile s
    else link_internal s).

(** The case '[' of switch_regular_char, 1225-1358 *)
Definition bracket (s : st) : outcome st :=
  let c := cur s in
  match patt (p_seq (p_chr c_lbr) (p_seq p_digits (p_seq (p_chr c_percent) (p_chr c_rbr)))) c 0 with
  | Some span => tok_adv kSubtreeCompletion span s
  | None =>
  match patt (p_seq (p_chr c_lbr) (p_seq p_digits (p_seq (p_chr c_slash) (p_seq p_digits (p_chr c_rbr))))) c 0 with
  | Some span => tok_adv kSubtreeCompletion span s
  | None =>
  if is_str c 0 (lit "[%%") then tok_adv kInactiveDynamicTimeContent 3 s else
  match patt (p_seq (p_lit (lit "[#")) (p_seq (p_cls (fun x => is_alpha x || Z.eqb x c_us)) (p_chr c_rbr))) c 0 with
  | Some span => tok_adv kSubtreePriority span s
  | None =>
  match patt (p_seq (p_chr c_lbr) (p_seq (p_cls (one_of (lit "xX -"))) (p_chr c_rbr))) c 0 with
  | Some span => tok_adv kCheckbox span s
  | None =>
  match patt (p_seq (fun r => match p_ilit (lit "[fn:") r with
                              | Some k => match p_chr c_colon (skipn k r) with Some _ => None | None => Some k end
                              | None => None end)
                    (p_seq p_ident (p_chr c_rbr))) c 0 with
  | Some span => tok_adv kFootnoteLinked span s
  | None =>
  match patt (p_ilit (lit "[fn::")) c 0 with
  | Some span => tok_adv kFootnoteInlineBegin span s
  | None =>
  match patt (p_seq (p_lit (lit "[[")) (p_seq p_ident (p_chr c_colon))) c 0 with
  | Some _ => (tok_adv kLinkBegin 2 >>> link_protocol) s
  | None =>
  match patt (p_seq (p_lit (lit "[[")) (p_seq p_link_start p_link_end)) c 0 with
  | Some _ => (tok_adv kLinkBegin 2 >>> link_plain) s
  | None => tok1 kBraceBegin s
  end end end end end end end end.

(** The case '@', 1426-1453 *)
Fixpoint to_at_at (m : nat) (c : cu) : outcome cu :=
  match m with
  | O => Fuel
  | S m' => if is_str c 0 (lit "@@") then Ok c else to_at_at m' (next c)
  end.
Definition at_sign (s : st) : outcome st :=
  let c := cur s in
  if is_pred c 1 is_alpha then tokt kAt (fun c => advance_word (next c)) s
  else match patt (p_seq (p_lit (lit "@@")) (p_seq (p_many1 is_word) (p_seq (p_chr c_colon)
                          (p_until (p_lit (lit "@@")))))) c 0 with
       | Some _ =>
           (tok kInlineExportBackend (fun c => omap advance_ident (obind (skip c_at c) (skip c_at)))
              >>> tok kInlineExportContent (fun c =>
                    obind (skip c_colon c) (fun c => obind (to_at_at (S (left c)) c) (fun c =>
                      obind (skip c_at c) (skip c_at))))) s
       | None => tok1 kPunctuation s
       end.

(** Digits, 1579-1614 *)
Definition am_pm (c : cu) (p : nat) : outcome nat :=
  obind (is_iat c p (lit "am")) (fun a =>
    if a then Ok (p + 2) else obind (is_iat c p (lit "pm")) (fun b => Ok (if b then p + 2 else p))).
Definition number (s : st) : outcome st :=
  let c := cur s in
  let two := p_times 2 p_digit in
  match patt (p_seq two (p_seq (p_chr c_colon) (p_seq two (p_seq (p_chr c_colon) two)))) c 0 with
  | Some span => obind (am_pm c span) (fun p => tok_adv kTime p s)
  | None =>
  match patt (p_seq p_digits (p_seq (p_chr c_colon) two)) c 0 with
  | Some span => obind (am_pm c span) (fun p => tok_adv kTime p s)
  | None =>
  match patt p_date c 0 with
  | Some span => tok_adv kDate span s
  | None =>
  match patt (p_seq p_int (p_seq (p_opt (p_chr c_us)) (p_many1 is_alpha))) c 0 with
  | Some span => tok_adv kWord span s
  | None =>
  match patt (p_seq p_int (p_while_one_br (p_chr c_us) p_digits)) c 0 with
  | Some span => tok_adv kWord span s
  | None => tokt kNumber (run is_digit) s
  end end end end end.

(** is_at_unicode (205-207) and the run of such characters, 1616-1619: [get] fails at the end of the text. *)
Fixpoint unicode_run (m : nat) (c : cu) : outcome cu :=
  match m with
  | O => Fuel
  | S m' => obind (get c 0) (fun x => if (240 <=? x)%Z then unicode_run m' (next_unicode c) else Ok c)
  end.

(** The switch of switch_regular_char, 1159-1625 *)
Definition switch_char (s : st) : outcome st :=
  let c := cur s in
  obind (get c 0) (fun x =>
    if Z.eqb x c_star then
      match (if col c =? 0 then patt (p_seq (p_many1 (Z.eqb c_star)) (p_chr c_sp)) c 0 else None) with
      | Some _ => tokt kSubtreeStars (run (Z.eqb c_star)) s
      | None => tok1 kAsterisk s
      end
    else if Z.eqb x c_plus then
      if is_str c 1 (lit "+}") then tok_adv kCriticAddEnd 3 s
      else match patt p_repeater c 0 with Some _ => time_repeater s | None => tok1 kPlus s end
    else if Z.eqb x c_lpar then tok1 kParBegin s
    else if Z.eqb x c_rpar then tok1 kParEnd s
    else if Z.eqb x c_percent then tok1 kPercent s
    else if Z.eqb x c_sq then tok1 kSingleQuote s
    else if Z.eqb x c_dq then tok1 kDoubleQuote s
    else if Z.eqb x c_us then tok1 kUnderline s
    else if Z.eqb x c_semi then tok1 kSemicolon s
    else if Z.eqb x c_comma then tok1 kComma s
    else if Z.eqb x c_caret then tok1 kCircumflex s
    else if Z.eqb x c_pipe then
      if negb (has_pos c 1) || is_at c 1 c_nl then tok1 kTrailingPipe s else tok1 kPipe s
    else if Z.eqb x c_tick then tok1 kBacktick s
    else if Z.eqb x c_dollar then tok1 kDollar s
    else if Z.eqb x c_excl then tok1 kExclamation s
    else if Z.eqb x c_amp then tok1 kAmpersand s
    else if Z.eqb x c_slash then tok1 kForwardSlash s
    else if Z.eqb x c_rbr then
      if is_str c 0 (lit "]]") then tok_adv kLinkEnd 2 s
      else if is_str c 0 (lit "][") then tok_adv kLinkSplit 2 s
      else tok1 kBraceEnd s
    else if Z.eqb x c_bsl then
      if is_pred c 1 is_alpha then tok kSymbol (fun c => omap advance_word (skip c_bsl c)) s
      else if is_at c 1 c_bsl then tok_adv kDoubleSlash 2 s
      else tok_adv kEscaped 2 s
    else if Z.eqb x c_lbr then bracket s
    else if Z.eqb x c_colon then if is_at c 1 c_colon then tok_adv kDoubleColon 2 s else tok1 kColon s
    else if Z.eqb x c_gt then
      if is_str c 0 (lit ">>>") then tok_adv kTripleAngleEnd 3 s
      else if is_str c 0 (lit ">>") then tok_adv kDoubleAngleEnd 2 s
      else tok1 kAngleEnd s
    else if Z.eqb x c_dot then
      match patt p_repeater c 0 with Some _ => time_repeater s | None => tok1 kPunctuation s end
    else if Z.eqb x c_lt then
      if is_str c 0 (lit "<<<") then tok_adv kTripleAngleBegin 3 s
      else if is_str c 0 (lit "<<}") then tok_adv kCriticCommentEnd 3 s
      else if is_str c 0 (lit "<<") then tok_adv kDoubleAngleBegin 2 s
      else if is_str c 0 (lit "<%%") then tok_adv kActiveDynamicTimeContent 3 s
      else match patt (p_seq (p_chr c_lt) p_date) c 0 with
           | Some _ => tok1 kAngleBegin s
           | None => match patt (p_seq (p_chr c_lt) (p_seq p_ident (p_chr c_gt))) c 0 with
                     | Some span => tok_adv kPlaceholder span s
                     | None => tok1 kAngleBegin s
                     end
           end
    else if Z.eqb x c_hash then
      if is_at c 1 c_hash then tok_adv kDoubleHash 2 s
      else if is_at c 1 c_sp then tokt kComment to_eol s
      else if is_pred c 1 is_alpha then tok kHashIdent (fun c => omap advance_word (skip c_hash c)) s
      else tok1 kPunctuation s
    else if Z.eqb x c_at then at_sign s
    else if Z.eqb x c_eq then
      if is_str c 1 (lit "=}") then tok_adv kCriticHighlightEnd 3 s
      else if is_at c 1 c_gt then tok_adv kTimeArrow 2 s
      else tok1 kEquals s
    else if Z.eqb x c_tilde then tilda s
    else if Z.eqb x c_minus then
      if is_str c 0 (lit "-----") then tokt kTextSeparator (run (Z.eqb c_minus)) s
      else if is_str c 0 (lit "--}") then tok_adv kCriticDeleteEnd 3 s
      else if is_str c 0 (lit "--") then tok_adv kDoubleDash 2 s
      else match patt (p_seq (p_chr c_minus) (p_seq p_digits (p_many1 is_alpha))) c 0 with
           | Some span => tok_adv kTimeWarnPeriod span s
           | None => tok1 kMinus s
           end
    else if Z.eqb x c_rcur then tok1 kCurlyEnd s
    else if Z.eqb x c_lcur then
      if is_str c 1 (lit "++") then tok_adv kCriticAddBegin 3 s
      else if is_str c 1 (lit "--") then tok_adv kCriticDeleteBegin 3 s
      else if is_str c 1 (lit "==") then tok_adv kCriticHighlightBegin 3 s
      else if is_str c 1 (lit "~~") then tok_adv kCriticReplaceBegin 3 s
      else if is_str c 1 (lit ">>") then tok_adv kCriticCommentBegin 3 s
      else tok1 kCurlyBegin s
    else if Z.eqb x c_nl then newline_token s
    else if Z.eqb x c_sp then tokt kWhitespace (run (Z.eqb c_sp)) s
    else if is_alpha x then switch_word s
    else if is_digit x then number s
    else if (240 <=? x)%Z then tok kWord (fun c => unicode_run (S (left c)) c) s
    else tokt kAnyPunct next_unicode s).

(** property_subname, 1081-1086 *)
Definition property_subname (c : cu) (p : nat) : nat :=
  match patt (p_seq p_ident (p_chr c_colon)) c p with Some k => p + k | None => p end.

(** The beginning of a line, 1071-1156: [None] when it falls through to the switch. A span found by
    is_at_table_separator already contains the skipped spaces, which are added again. *)
Definition line_start (s : st) : option (outcome st) :=
  let c := cur s in
  let sk := count_at (Z.eqb c_sp) c 0 in
  let leading_space (s : st) := if 0 <? sk then tok_adv kLeadingSpace sk s else Ok s in
  if check_leading c c_minus sk then Some (tok_adv kLeadingMinus (1 + sk) s)
  else if check_leading c c_plus sk then Some (tok_adv kLeadingPlus (1 + sk) s)
  else if check_leading c c_pipe sk then Some (tok_adv kLeadingPipe (1 + sk) s)
  else match table_separator c sk with
  | Some span => Some (tok_adv kTableSeparator (span + sk) s)
  | None =>
  match patt (p_ilit (lit "clock:")) c sk with
  | Some span => Some ((tok_adv kTreeClock (span + sk) >>> loop n in_line self) s)
  | None =>
  match patt (p_ilit (lit ":end:")) c sk with
  | Some span => Some (tok_adv kColonEnd (span + sk) s)
  | None =>
  match patt (p_ilit (lit ":properties:")) c sk with
  | Some span => Some (tok_adv kColonProperties (span + sk) s)
  | None =>
  match patt (p_seq p_digits (p_seq (p_cls (one_of (lit ".)"))) (p_chr c_sp))) c sk with
  | Some span => Some (tok_adv kLeadingNumber (span - 1 + sk) s)
  | None =>
  match patt (p_ilit (lit ":logbook:")) c sk with
  | Some span => Some (tok_adv kColonLogbook (span + sk) s)
  | None =>
  match patt (p_seq (p_chr c_colon) (p_seq p_argument_property (p_chr c_colon))) c sk with
  | Some span =>
      Some ((tok_adv kColonArgumentsProperty (property_subname c (span + sk)) >>> loop n in_line cmd_argument) s)
  | None =>
  match patt (p_seq (p_chr c_colon) (p_seq p_text_property (p_chr c_colon))) c sk with
  | Some span =>
      Some ((tok_adv kColonPropertyText (property_subname c (span + sk)) >>> loop n in_line self) s)
  | None =>
  match patt (p_seq (p_chr c_colon) (p_seq p_ident (p_chr c_colon))) c sk with
  | Some span =>
      Some ((tok_adv kColonLiteralProperty (property_subname c (span + sk)) >>> tokt kRawText to_eol) s)
  | None =>
  if check_leading c c_colon sk then
    Some (obind (leading_space s) (fun s =>
      tok_adv kColonExampleLine (1 + count_at (fun x => negb (Z.eqb x c_nl)) (cur s) 1) s))
  else if is_str c sk (lit "#+") then Some (obind (leading_space s) switch_command)
  else if 0 <? sk then Some (leading_space s)
  else None
  end end end end end end end end end.

(** switch_regular_char, 1070-1626 *)
Definition regular_body (s : st) : outcome st :=
  if col (cur s) =? 0 then
    match line_start s with Some o => o | None => switch_char s end
  else switch_char s.
End Rec.

Fixpoint regular (n : nat) (s : st) : outcome st :=
  match n with O => Fuel | S n' => regular_body (regular n') n' s end.

(** tokenize, 1629-1652 *)
Definition tokenize (fuel : nat) : outcome (list token) :=
  match txt with
  | [] => Ok []
  | _ :: _ => omap out (loop fuel has_text (guard (regular fuel)) (St (Cu 0 0 0) []))
  end.
End Lexer.
