(** Model of the parser: src/haxorg/parse/OrgParser.cpp and OrgParserUtils.cpp over the token cursors of
    src/haxorg/lexbase/Lexer.hpp. The flat tree it writes is the one of TreeModel.v. Line numbers without a file
    name are those of OrgParser.cpp.

    Simplifications: token ids are indices and nil is [None]; [int] values are unbounded. Not modelled: tracing,
    reports and the texts of messages (getLocMsg, 10-44 of OrgParserUtils.cpp, only reads tokens hasNext has
    answered for). An exception and a failed assertion are both [Throw]. Unreachable: parseOrgFile, parseLatex,
    parseInlineMath, which no function calls. *)
From Coq Require Import String.
From Verif Require Import Base StrModel TokKind KindEq NodeKind.
From Verif Require RegroupModel TreeModel AttrModel.
Notation okind := RegroupModel.okind.
Notation otext := RegroupModel.otext.
Notation opos := RegroupModel.opos.
Notation otok := RegroupModel.otok (only parsing).
Notation lit := AttrModel.lit.
Local Open Scope nat_scope.

(** OrgNodeMono, OrgTypes.hpp:14-43: an empty node or an error; the contents of errors are dropped. *)
Inductive mono := MNone | MErr.
Notation node := (TreeModel.node nk (option nat) mono) (only parsing).
Notation grp := (TreeModel.group nk (option nat) mono) (only parsing).

Section Parse.
Variable toks : list otok.

(** LexerCommon, Lexer and SubLexer, Lexer.hpp:9-15, 351-399, 404-428: the current id, the position and ids of a
    sub-lexer, and the last token passed. *)
Record lx := Lx { lpos : option nat; lsub : option (nat * list (option nat)); llast : option nat }.
Definition whole : lx := Lx (Some 0) None None.
Definition sub_lexer (ids : list (option nat)) : lx :=
  Lx (match ids with i :: _ => i | [] => None end) (Some (0, ids)) None.

(** hasNext, finished: Lexer.hpp:292, 363-366, 418-425; offsets are not negative *)
Definition has_next (l : lx) (off : nat) : bool :=
  match lpos l with
  | None => false
  | Some p => match lsub l with None => p + off <? length toks | Some (sp, ids) => sp + off <? length ids end
  end.
Definition finished (l : lx) : bool := negb (has_next l 0).
(** tok, kind: Lexer.hpp:17-23; [None] is the exception for an id outside the group *)
Definition tok_at (l : lx) (off : nat) : option otok :=
  match lpos l with Some p => nth_error toks (p + off) | None => None end.
Definition kind_at (l : lx) (off : nat) : option tk := option_map okind (tok_at l off).
(** at(set, offset), at(kind, offset): Lexer.hpp:200-202, 222-224. The ids of a sub-lexer grow, so an id within
    the offset hasNext allows is in the group. *)
Definition at_ (off : nat) (f : tk -> bool) (l : lx) : bool :=
  has_next l off && match kind_at l off with Some k => f k | None => false end.
Definition at0 (k : tk) : lx -> bool := at_ 0 (is k).
(** at(vec), Lexer.hpp:205-216 *)
Fixpoint at_vec_from (off : nat) (ks : list tk) (l : lx) : bool :=
  match ks with [] => true | k :: r => at_ off (is k) l && at_vec_from (S off) r l end.
Definition at_vec (ks : list tk) (l : lx) : bool := has_next l 0 && at_vec_from 0 ks l.
(** at(set, -1), used for tables only *)
Definition at_prev (f : tk -> bool) (l : lx) : bool :=
  match lpos l, lsub l with
  | Some (S p), None => match nth_error toks p with Some t => f (okind t) | None => false end
  | Some (S p), Some (S _, _) => match nth_error toks p with Some t => f (okind t) | None => false end
  | _, _ => false
  end.
(** can_search, Lexer.hpp:218-220 *)
Definition can_search (c : lx -> bool) (l : lx) : bool := negb (finished l) && negb (c l).
(** find, ahead: Lexer.hpp:227-249; every step is a token further *)
Fixpoint find_from (n : nat) (skip : tk -> bool) (target : nat -> lx -> bool) (off : nat) (l : lx) : bool :=
  match n with
  | O => false
  | S n' => if at_ off skip l then find_from n' skip target (S off) l else target off l
  end.
Definition ahead (skip target : tk -> bool) (off : nat) (l : lx) : bool :=
  find_from (S (length toks)) skip (fun o => at_ o target) off l.
Definition ahead_vec (skip : tk -> bool) (ks : list tk) (l : lx) : bool :=
  find_from (S (length toks)) skip (fun o l => has_next l o && at_vec_from o ks l) 0 l.
(** next, Lexer.hpp:382-392, 409-416 *)
Definition advance (l : lx) : lx :=
  match lsub l with
  | None => if has_next l 1 then Lx (option_map S (lpos l)) None (lpos l) else Lx None None (llast l)
  | Some (sp, ids) =>
      if has_next l 1 then Lx (nth (S sp) ids None) (Some (S sp, ids)) (lpos l)
      else Lx None (Some (S sp, ids)) (llast l)
  end.
(** setPos, Lexer.hpp:299, 371-380 *)
Fixpoint index_of (ids : list (option nat)) (x : nat) : option nat :=
  match ids with
  | [] => None
  | Some y :: r => if y =? x then Some 0 else option_map S (index_of r x)
  | None :: r => option_map S (index_of r x)
  end.
(** The tokens of the group from the current one on: whole_fixed().range_current(), Lexer.hpp:58-65, 98-104. *)
Definition from_here (l : lx) : list otok :=
  if finished l then [] else match lpos l with Some p => skipn p toks | None => [] end.

(** A parser step: the lexer and the tree in; [None] is ParseFail, OrgParser.hpp:54-62. *)
Definition M (A : Type) := lx -> grp -> outcome (option A * lx * grp).
Definition ret {A} (a : A) : M A := fun l g => Ok (Some a, l, g).
Definition bind {A B} (m : M A) (k : A -> M B) : M B := fun l g =>
  match m l g with
  | Ok (Some a, l', g') => k a l' g'
  | Ok (None, l', g') => Ok (None, l', g')
  | Throw => Throw | UB => UB | Fuel => Fuel
  end.
Notation "x <- m ;; k" := (bind m (fun x => k)) (at level 61, m at next level, right associativity).
Notation "m ;; k" := (bind m (fun _ => k)) (at level 61, right associativity).
Definition bad {A} : M A := fun l g => Ok (None, l, g).
Definition crash {A} : M A := fun _ _ => Throw.
Definition spent {A} : M A := fun _ _ => Fuel.
Definition test {A} (c : lx -> bool) (a b : M A) : M A := fun l g => if c l then a l g else b l g.
Definition when_ (c : lx -> bool) (a : M unit) : M unit := test c a (ret tt).
Definition ask {A} (f : lx -> A) : M A := fun l g => Ok (Some (f l), l, g).
(** while loops; the fuel bounds the number of rounds *)
Fixpoint while_ (n : nat) (c : lx -> bool) (body : M unit) : M unit :=
  match n with O => spent | S n' => test c (body ;; while_ n' c body) (ret tt) end.

Definition next_ : M unit := fun l g => Ok (Some tt, advance l, g).
(** pop, Lexer.hpp:174-178: nil at the end *)
Definition pop_ : M (option nat) := fun l g => Ok (Some (lpos l), advance l, g).
(** kind(), kind(+1): Lexer.hpp:17 *)
Definition kind_ (off : nat) : M tk := fun l g => match kind_at l off with Some k => Ok (Some k, l, g) | None => Throw end.
Definition set_pos (p : option nat) : M unit := fun l g =>
  match lsub l with
  | None => Ok (Some tt, Lx p None (llast l), g)
  | Some (_, ids) =>
      match p with
      | Some x => match index_of ids x with Some i => Ok (Some tt, Lx p (Some (i, ids)) (llast l), g) | None => Throw end
      | None => Throw
      end
  end.
(** LexerCommon::skip(kind), Lexer.hpp:254-286: throws *)
Definition must_skip (k : tk) : M unit := test (at0 k) next_ crash.

(** token, empty: OrgParser.hpp:134-140, OrgParserUtils.cpp:151-178 *)
Definition push (n : node) : M unit := fun l g => Ok (Some tt, l, fst (TreeModel.token g n)).
Definition tok_ (k : nk) (t : option nat) : M unit := push (TreeModel.mkNode k (TreeModel.Tok t)).
Definition empty_ : M unit := push (TreeModel.mkNode nEmpty (TreeModel.Mono MNone)).
Definition take (k : nk) : M unit := t <- pop_ ;; tok_ k t.
(** error_value, error_token: OrgParserUtils.cpp:180-222. [loc.value()] throws for a token without a place. *)
Definition has_loc (i : nat) : bool :=
  match nth_error toks i with Some t => match opos t with Some _ => true | None => false end | None => false end.
Definition error_ : M unit := fun l g =>
  match (if finished l then llast l else lpos l) with
  | Some i => if has_loc i then push (TreeModel.mkNode nErrorInfoToken (TreeModel.Mono MErr)) l g else Throw
  | None => push (TreeModel.mkNode nErrorInfoToken (TreeModel.Mono MErr)) l g
  end.
Definition fail_ {A} : M A := error_ ;; bad.
(** expect, pop(kind), skip(kind): OrgParserUtils.cpp:249-309; SUB_PARSE, TRY_SKIP, TRY_POPX: 109-133 *)
Definition expect (f : tk -> bool) : M unit := test (at_ 0 f) (ret tt) fail_.
Definition try_skip (f : tk -> bool) : M unit := expect f ;; next_.
Definition try_take (k : nk) (f : tk -> bool) : M unit := expect f ;; take k.
Definition sub_parse {A} (m : M A) : M A := fun l g =>
  match m l g with Ok (None, l', g') => fail_ l' g' | r => r end.
Definition attempt {A} (m : M A) : M bool := fun l g =>
  match m l g with
  | Ok (Some _, l', g') => Ok (Some true, l', g')
  | Ok (None, l', g') => Ok (Some false, l', g')
  | Throw => Throw | UB => UB | Fuel => Fuel
  end.
Definition ignore {A} (m : M A) : M unit := attempt m ;; ret tt.
(** start, NodeGuard: OrgParserUtils.cpp:77-91, OrgParser.hpp:155-177, 2763-2780. The guard ends the tree once,
    whichever way the scope is left, and asserts the depth it was opened at. *)
Definition guard {A} (k : nk) (body : M A) : M A := fun l g =>
  match body l (fst (TreeModel.start_tree g (TreeModel.mkNode k (TreeModel.Ext 0)))) with
  | Ok (r, l', g') =>
      obind (TreeModel.end_tree g' 0) (fun '(g'', _) =>
        if length (TreeModel.pending g'') =? length (TreeModel.pending g) then Ok (r, l', g'') else Throw)
  | Throw => Throw | UB => UB | Fuel => Fuel
  end.
(** A nested lexer; [start()] on one without tokens throws, Lexer.hpp:369. *)
Definition run_sub {A} (ids : list (option nat)) (m : M A) : M A := fun l g =>
  match m (sub_lexer ids) g with
  | Ok (r, _, g') => Ok (r, l, g')
  | Throw => Throw | UB => UB | Fuel => Fuel
  end.
Definition in_sub {A} (ids : list (option nat)) (m : M A) : M A :=
  match ids with [] => crash | _ :: _ => run_sub ids m end.

(** Token sets, 71-107 *)
Definition newline_kind (k : tk) : bool := match k with kNewline | kLongNewline | kMediumNewline => true | _ => false end.
Definition space_kind (k : tk) : bool := match k with kWhitespace | kLeadingSpace => true | _ => false end.
Definition paragraph_end (k : tk) : bool :=
  match k with
  | kMediumNewline | kLongNewline | kSubtreeStars | kListBegin | kListItemBegin | kCmdSrcBegin | kCmdSrcEnd
  | kCmdQuoteEnd | kCmdQuoteBegin | kStmtListEnd | kCmdPrefix | kLeadingPipe | kListItemEnd | kIndent | kDedent
  | kSameIndent => true
  | _ => false
  end.
Definition list_start (k : tk) : bool :=
  match k with kLeadingMinus | kLeadingNumber | kLeadingPlus | kTreeClock => true | _ => false end.
Definition eq_token (k : tk) : bool :=
  match k with kEquals | kVerbatimBegin | kVerbatimEnd | kVerbatimUnknown => true | _ => false end.

(** space, newline, subToEol and the loops that fill a sub-lexer: 135-154 *)
Definition space (n : nat) : M unit := while_ n (at_ 0 space_kind) next_.
Definition newline (n : nat) : M unit := while_ n (at_ 0 newline_kind) next_.
Fixpoint collect (n : nat) (stop : lx -> bool) : M (list (option nat)) :=
  match n with
  | O => spent
  | S n' => test (can_search stop) (i <- pop_ ;; r <- collect n' stop ;; ret (i :: r)) (ret [])
  end.

(** parseCSVArguments, 156-178 *)
Definition csv_arguments (n : nat) : M unit :=
  try_take nWord (fun k => match k with kWord | kSrcContent => true | _ => false end) ;;
  when_ (at0 kParBegin)
    (try_skip (is kParBegin) ;;
     while_ n (at0 kRawText) (try_take nRawText (is kRawText) ;; when_ (at0 kComma) next_) ;;
     try_skip (is kParEnd)).

(** parseAttrLisp, 343-362 *)
Definition attr_lisp_ (n : nat) (nested : M unit) : M unit :=
  guard nAttrLisp
    (test (at0 kParBegin)
      (guard nInlineStmtList
        (try_skip (is kParBegin) ;; space n ;;
         while_ n (can_search (at0 kParEnd)) (sub_parse nested ;; space n) ;;
         try_skip (is kParEnd)))
      (take nRawText)).
Fixpoint attr_lisp (n : nat) : M unit := fun l g =>
  match n with O => Fuel | S n' => attr_lisp_ n' (attr_lisp n') l g end.

(** parseAttrValue, 246-340 *)
Definition attr_value (n : nat) : M unit :=
  guard nAttrValue
    (test (at_ 0 (fun k => match k with kCmdColonIdent | kCmdRawArg | kParBegin => true | _ => false end))
      (test (at0 kCmdColonIdent) (try_take nWord (is kCmdColonIdent) ;; space n) empty_ ;;
       test (fun l => at0 kCmdRawArg l && at_ 1 eq_token l)
         (try_take nRawText (is kCmdRawArg) ;; try_skip eq_token ;; space n) empty_ ;;
       test (at0 kParBegin) (sub_parse (attr_lisp n))
         (test (at0 kCmdRawArg) (try_take nRawText (is kCmdRawArg)) empty_) ;;
       test (at0 kBraceBegin)
         (guard nInlineStmtList
           (try_skip (is kBraceBegin) ;;
            while_ n (at_ 0 (fun k => match k with kCmdRawArg | kComma => true | _ => false end))
              (test (at0 kComma)
                (empty_ ;; next_ ;; space n)
                (try_take nRawText (is kCmdRawArg) ;; space n ;; when_ (at0 kComma) (next_ ;; space n))) ;;
            try_skip (is kBraceEnd)))
         empty_)
      (empty_ ;;
       test (fun l => at_ 0 (fun k => match k with kWord | kRawText => true | _ => false end) l && at_ 1 eq_token l)
         (take nRawText ;; next_) empty_ ;;
       guard nInlineStmtList
         (while_ n (can_search (at_ 0 (fun k => match k with kParEnd | kComma => true | _ => false end)))
           (take nRawText)) ;;
       empty_)).

(** parseCallArguments, 223-243 *)
Definition call_arguments (n : nat) : M unit :=
  guard nInlineStmtList
    (when_ (at0 kParBegin)
      (try_skip (is kParBegin) ;;
       while_ n (can_search (at0 kParEnd))
         (sub_parse (attr_value n) ;; space n ;; when_ (at0 kComma) (next_ ;; space n)) ;;
       try_skip (is kParEnd))).

(** parseMacro, 189-221 *)
Fixpoint first_at (n : nat) (k : tk) (off : nat) (l : lx) : nat :=
  match n with
  | O => off
  | S n' => if has_next l off && negb (at_ off (is k) l) then first_at n' k (S off) l else off
  end.
Definition has_close (l : lx) : bool :=
  let o := first_at (S (length toks)) kCurlyEnd 0 l in
  at_ o (is kCurlyEnd) l && at_ (o + 1) (is kCurlyEnd) l && at_ (o + 2) (is kCurlyEnd) l.
Definition close_curly (closed : bool) : M unit :=
  test (at0 kCurlyEnd) next_ (if closed then crash else fail_).
Definition macro (n : nat) : M unit :=
  closed <- ask has_close ;;
  guard nMacro
    (try_skip (is kCurlyBegin) ;; try_skip (is kCurlyBegin) ;; try_skip (is kCurlyBegin) ;;
     try_take nWord (is kWord) ;;
     sub_parse (call_arguments n) ;;
     close_curly closed ;; close_curly closed ;; close_curly closed ;;
     (if closed then ret tt else crash)).

(** parsePlaceholder, 365-373 *)
Definition placeholder : M unit := test (at0 kPlaceholder) (take nPlaceholder) (take nPunctuation).

(** parseHashTag, 781-855; the flag is doubleSkip *)
Definition tag_kind (k : tk) : bool := match k with kHashIdent | kWord | kBigIdent => true | _ => false end.
Fixpoint hash_list (n : nat) (item : M bool) (m : nat) : M bool :=
  match n with
  | O => spent
  | S n' =>
      test (can_search (at_ 0 (fun k => match k with kBraceEnd | kLinkEnd => true | _ => false end)))
        (d <- item ;; if (d : bool) then ret true else when_ (at0 kComma) next_ ;; space m ;; hash_list n' item m)
        (ret false)
  end.
Definition hash_tag_ (n : nat) (nested : M bool) : M bool :=
  guard nHashTag
    (space n ;;
     test (at0 kAt) (try_take nRawText (is kAt)) (try_take nRawText tag_kind) ;;
     test (at0 kDoubleHash)
       (try_skip (is kDoubleHash) ;;
        test (at_ 0 tag_kind)
          (nested ;; ret false)
          (try_skip (is kBraceBegin) ;;
           early <- hash_list n nested n ;;
           if (early : bool) then ret false
           else test (at0 kLinkEnd) (try_skip (is kLinkEnd) ;; ret true) (try_skip (is kBraceEnd) ;; ret false)))
       (ret false)).
Fixpoint hash_tag (n : nat) : M bool := fun l g =>
  match n with O => Fuel | S n' => hash_tag_ n' (hash_tag n') l g end.

(** parseTimeStamp, 858-975 *)
Definition dynamic_time (k : tk) : bool :=
  match k with kInactiveDynamicTimeContent | kActiveDynamicTimeContent => true | _ => false end.
Definition time_stamp (n : nat) : M unit :=
  kind_ 0 ;;
  expect (fun k => match k with
                   | kBraceBegin | kAngleBegin | kInactiveDynamicTimeContent | kActiveDynamicTimeContent => true
                   | _ => false end) ;;
  active <- ask (at_ 0 (fun k => match k with kAngleBegin | kActiveDynamicTimeContent => true | _ => false end)) ;;
  test (at_ 0 dynamic_time)
    (guard (if active : bool then nDynamicActiveTime else nDynamicInactiveTime)
      (try_skip (is (if active then kActiveDynamicTimeContent else kInactiveDynamicTimeContent)) ;;
       ignore
         (test (at0 kParBegin)
           (guard nInlineStmtList
             (try_skip (is kParBegin) ;; space n ;;
              while_ n (can_search (at0 kParEnd)) (sub_parse (attr_lisp n) ;; space n) ;;
              try_skip (is kParEnd)))
           (take nRawText))))
    (guard (if active then nStaticActiveTime else nStaticInactiveTime)
      (try_skip (is (if active then kAngleBegin else kBraceBegin)) ;;
       test (at0 kDate) (try_take nRawText (is kDate) ;; space n) empty_ ;;
       when_ (at0 kWord) (next_ ;; space n) ;;
       test (at0 kTime) (try_take nRawText (is kTime) ;; space n) empty_ ;;
       test (fun l => at0 kStrikeBegin l && at_ 1 (is kNumber) l)
         (next_ ;; try_take nRawText (is kNumber) ;; space n) empty_ ;;
       test (at0 kTimeRepeaterSpec)
         (guard nInlineStmtList
           (while_ n (at0 kTimeRepeaterSpec)
             (guard nInlineStmtList
               (try_take nRawText (is kTimeRepeaterSpec) ;; while_ n (at0 kTimeRepeaterDuration) (take nRawText)) ;;
              space n)))
         empty_ ;;
       test (at0 kTimeWarnPeriod) (try_take nRawText (is kTimeWarnPeriod)) empty_)) ;;
  try_skip (is (if active then kAngleEnd else kBraceEnd)).

(** parseTimeRange, 978-1035; the search runs over the whole group *)
Definition time_kind (k : tk) : bool :=
  match k with
  | kBraceBegin | kBraceEnd | kAngleBegin | kAngleEnd | kInactiveDynamicTimeContent | kActiveDynamicTimeContent
  | kDate | kWord | kTime | kNumber | kStrikeBegin | kWhitespace | kTimeRepeaterSpec | kTimeWarnPeriod
  | kTimeRepeaterDuration => true
  | _ => false
  end.
Fixpoint range_scan (n : nat) (l : lx) : bool :=
  match n with
  | O => false
  | S n' =>
      if negb (finished l) && at_ 0 time_kind l then
        if at0 kAngleEnd l && at_ 1 (is kDoubleDash) l
           && at_ 2 (fun k => match k with kAngleBegin | kActiveDynamicTimeContent => true | _ => false end) l then true
        else if at0 kBraceEnd l && at_ 1 (is kDoubleDash) l
           && at_ 2 (fun k => match k with kBraceBegin | kInactiveDynamicTimeContent => true | _ => false end) l then true
        else range_scan n' (advance l)
      else false
  end.
Definition is_range (l : lx) : bool := range_scan (S (length toks)) (Lx (lpos l) None None).
Definition time_range (n : nat) : M unit :=
  test is_range
    (guard nTimeRange
      (sub_parse (time_stamp n) ;; try_skip (is kDoubleDash) ;; sub_parse (time_stamp n) ;;
       test (ahead (is kWhitespace) (is kTimeArrow) 0)
         (space n ;; try_skip (is kTimeArrow) ;; space n ;; try_take nSimpleTime (is kTime)) empty_))
    (sub_parse (time_stamp n)).

(** parseSrcInline, 1059-1090 *)
Fixpoint src_body (n : nat) (balance : nat) : M unit :=
  match n with
  | O => spent
  | S n' =>
      test (fun l => negb (finished l) && (0 <? balance))
        (test (at0 kCurlyEnd)
          ((if balance =? 1 then try_skip (is kCurlyEnd) else take nCodeText) ;; src_body n' (balance - 1))
          (take nCodeText ;; src_body n' balance))
        (ret tt)
  end.
Definition src_inline (n : nat) : M unit :=
  guard nSrcInlineCode
    (try_take nWord (is kTextSrcBegin) ;; empty_ ;;
     guard nCodeLine (try_skip (is kCurlyBegin) ;; src_body n 1) ;;
     empty_).

(** parseVerbatimOrMonospace, 1092-1156; removeTail, Node.cpp:25-28 *)
Fixpoint verbatim_body (n : nat) (fin : tk) (newlines : nat) : M unit :=
  match n with
  | O => spent
  | S n' =>
      test finished (ret tt)
        (test (at_ 0 (fun k => match k with kVerbatimEnd | kMonospaceEnd => true | _ => false end))
          (test (at0 fin) (ret tt) (take nRawText ;; verbatim_body n' fin newlines))
          (test (at0 kNewline)
            (if 2 <? newlines then ret tt else take nRawText ;; verbatim_body n' fin (S newlines))
            (test (at0 kPlaceholder)
              (sub_parse placeholder ;; verbatim_body n' fin newlines)
              (take nRawText ;; verbatim_body n' fin newlines))))
  end.
Definition node_count : M nat := fun l g => Ok (Some (length (TreeModel.nodes g)), l, g).
Definition drop_tail (id : nat) : M unit := fun l g => omap (fun g' => (Some tt, l, g')) (TreeModel.remove_tail g id).
Definition verbatim (n : nat) : M unit :=
  k <- kind_ 0 ;;
  let fin := if is kMonospaceBegin k then kMonospaceEnd else kVerbatimEnd in
  p <- ask lpos ;; id <- node_count ;;
  found <- guard (if is kMonospaceBegin k then nMonospace else nVerbatim)
    (pop_ ;; verbatim_body n fin 0 ;; test (at0 fin) (next_ ;; ret true) (ret false)) ;;
  if (found : bool) then ret tt else drop_tail id ;; set_pos p ;; take nPunctuation.

(** parseAngleTarget, 1158-1187 *)
Definition angle_target (n : nat) : M unit :=
  k <- kind_ 0 ;;
  let fin := if is kTripleAngleBegin k then kTripleAngleEnd else kDoubleAngleEnd in
  let beg := if is kTripleAngleBegin k then kTripleAngleBegin else kDoubleAngleBegin in
  test (ahead (fun k => is kWhitespace k || is kWord k || is beg k) (is fin) 0)
    (try_skip (is beg) ;;
     guard nRadioTarget
       (while_ n (can_search (at0 fin))
         (test (at0 kRawText) (take nRawText)
           (test (at0 kWhitespace) (take nSpace)
             (test (at0 kWord) (take nWord)
               (test (at0 kBigIdent) (take nBigIdent) (ret tt))))) ;;
        try_skip (is fin)))
    (take nPunctuation).

(** parseInlineExport, 1340-1345 *)
Definition inline_export : M unit :=
  guard nInlineExport
    (try_take nRawText (is kInlineExportBackend) ;; try_take nRawText (is kInlineExportContent)).

(** getInside({CurlyBegin}, {CurlyEnd}), Lexer.hpp:312-346: kind() throws at the end *)
Fixpoint skip_kind (n : nat) (k : tk) : M unit :=
  match n with O => spent | S n' => c <- kind_ 0 ;; if is k c then next_ ;; skip_kind n' k else ret tt end.
Fixpoint keep_kind (n : nat) (k : tk) : M (list (option nat)) :=
  match n with
  | O => spent
  | S n' => c <- kind_ 0 ;; if is k c then i <- pop_ ;; r <- keep_kind n' k ;; ret (i :: r) else ret []
  end.
Fixpoint pass_kind (n : nat) (k : tk) (keep : bool) : M (list (option nat)) :=
  match n with
  | O => spent
  | S n' =>
      test finished (ret [])
        (c <- kind_ 0 ;;
         if is k c then i <- pop_ ;; r <- pass_kind n' k keep ;; ret (if keep then i :: r else r) else ret [])
  end.
Fixpoint inside_loop (n : nat) (count : nat) : M (list (option nat)) :=
  match n with
  | O => spent
  | S n' =>
      test (fun l => (0 <? count) && negb (finished l))
        (c <- kind_ 0 ;;
         if is kCurlyBegin c then a <- keep_kind n' kCurlyBegin ;; b <- inside_loop n' (S count) ;; ret (a ++ b)
         else if is kCurlyEnd c then
           a <- pass_kind n' kCurlyEnd (1 <? count) ;; b <- inside_loop n' (count - 1) ;; ret (a ++ b)
         else i <- pop_ ;; b <- inside_loop n' count ;; ret (i :: b))
        (ret [])
  end.
Definition get_inside (n : nat) : M (list (option nat)) := skip_kind n kCurlyBegin ;; inside_loop n 1.

(** The text functions that parse nested text, over the parser [par] of a paragraph and [text] of bare text. *)
Section Nested.
Variables par text : M unit.

Definition par_or_empty (ids : list (option nat)) : M unit :=
  match ids with [] => empty_ | _ :: _ => in_sub ids (sub_parse par) end.

(** parseLink, 643-729 *)
Definition protocol_with_target (k : tk) : bool :=
  match k with
  | kLinkProtocolHttp | kLinkProtocolId | kLinkProtocolCustomId | kLinkProtocolAttachment | kLinkProtocolFile => true
  | _ => false
  end.
Definition target_only (k : tk) : bool :=
  match k with kLinkProtocolTitle | kLinkTargetFile | kLinkProtocolInternal => true | _ => false end.
(** 694-698: [while (!lex.at(...)) sub.add(pop(lex))] does not look for the end *)
Fixpoint collect_until (n : nat) (stop : lx -> bool) : M (list (option nat)) :=
  match n with
  | O => spent
  | S n' => test stop (ret []) (i <- pop_ ;; r <- collect_until n' stop ;; ret (i :: r))
  end.
Definition link (n : nat) : M unit :=
  guard nLink
    (test (at0 kLinkProtocolHttp)
      (try_take nWord (is kLinkProtocolHttp) ;; try_take nRawText (is kLinkTarget) ;; empty_)
      (try_skip (is kLinkBegin) ;;
       k <- kind_ 0 ;;
       (if protocol_with_target k then try_take nWord (is k) ;; try_take nRawText (is kLinkTarget)
        else if target_only k then empty_ ;; try_take nRawText (is k)
        else try_take nWord (is kLinkProtocol) ;;
             ids <- collect_until n (at_ 0 (fun k => match k with kLinkSplit | kLinkEnd => true | _ => false end)) ;;
             par_or_empty ids) ;;
       test (at0 kLinkSplit)
         (try_skip (is kLinkSplit) ;; ids <- collect n (at0 kLinkEnd) ;; par_or_empty ids) empty_ ;;
       try_skip (is kLinkEnd))).

(** parseSymbol, 743-778 *)
Definition symbol (n : nat) : M unit :=
  guard nSymbol
    (try_take nWord (is kSymbol) ;;
     guard nInlineStmtList
       (while_ n (at0 kBraceBegin) (try_skip (is kBraceBegin) ;; take nRawText ;; try_skip (is kBraceEnd))) ;;
     guard nInlineStmtList
       (while_ n (at0 kCurlyBegin)
         (test (at_vec [kCurlyBegin; kCurlyEnd])
           (empty_ ;; try_skip (is kCurlyBegin) ;; try_skip (is kCurlyEnd))
           (ids <- get_inside n ;; guard nParagraph (run_sub ids text))))).

(** parseFootnote, 1038-1056 *)
Definition footnote (n : nat) : M unit :=
  test (at0 kFootnoteLinked)
    (guard nFootnote (empty_ ;; take nRawText))
    (guard nInlineFootnote
      (try_skip (is kFootnoteInlineBegin) ;;
       ids <- collect n (at0 kBraceEnd) ;; in_sub ids (sub_parse par) ;;
       try_skip (is kBraceEnd))).

(** parseCriticMarkup, 1347-1385 *)
Definition critic_end (k : tk) : tk :=
  match k with
  | kCriticDeleteBegin => kCriticDeleteEnd | kCriticAddBegin => kCriticAddEnd
  | kCriticCommentBegin => kCriticCommentEnd | kCriticReplaceBegin => kCriticReplaceEnd
  | _ => kCriticHighlightEnd
  end.
Definition critic (n : nat) : M unit :=
  k <- kind_ 0 ;;
  let e := critic_end k in
  guard nCriticMarkStructure
    (take nRawText ;;
     (if is kCriticReplaceEnd e then
        ids <- collect n (at0 kCriticReplaceMiddle) ;; par_or_empty ids ;; try_skip (is kCriticReplaceMiddle)
      else empty_) ;;
     ids <- collect n (at0 e) ;; in_sub ids (sub_parse par) ;; try_skip (is e)).
End Nested.

(** textFold, 386-614: what the switch of _single does with a kind *)
Inductive tclass :=
| CBegin (k : nk) | CEnd (k : nk) | CUnknown (k : nk) | CTake (k : nk) | CSkip | CCurly | CCritic | CPlaceholder
| CTime | CAngle | CExport | CSrc | CHash | CLink | CFootnote | CSymbol | CBrace | CVerbatim | CTarget | CLinkPart.
Definition text_class (k : tk) : tclass :=
  match k with
  | kBoldBegin => CBegin nBold | kBoldEnd => CEnd nBold | kBoldUnknown => CUnknown nBold
  | kItalicBegin => CBegin nItalic | kItalicEnd => CEnd nItalic | kItalicUnknown => CUnknown nItalic
  | kUnderlineBegin => CBegin nUnderline | kUnderlineEnd => CEnd nUnderline | kUnderlineUnknown => CUnknown nUnderline
  | kStrikeBegin => CBegin nStrike | kStrikeEnd => CEnd nStrike | kStrikeUnknown => CUnknown nStrike
  | kWhitespace => CTake nSpace
  | kCurlyBegin => CCurly
  | kAngleEnd => CTake nPunctuation
  | kEscaped => CTake nEscaped | kRawText => CTake nRawText | kNewline => CTake nNewline | kWord => CTake nWord
  | kBigIdent => CTake nBigIdent | kPunctuation => CTake nPunctuation | kColon => CTake nColon
  | kMiscUnicode | kTime | kDate | kSubtreePriority | kNumber => CTake nWord
  | kCriticAddBegin | kCriticDeleteBegin | kCriticReplaceBegin | kCriticCommentBegin | kCriticHighlightBegin => CCritic
  | kPlaceholder => CPlaceholder
  | kActiveDynamicTimeContent | kInactiveDynamicTimeContent => CTime
  | kAngleBegin => CAngle
  | kInlineExportBackend => CExport
  | kTextSrcBegin => CSrc
  | kHashIdent => CHash
  | kLinkProtocolHttp | kLinkProtocol | kLinkBegin => CLink
  | kFootnoteInlineBegin | kFootnoteLinked => CFootnote
  | kSymbol => CSymbol
  | kBraceBegin => CBrace
  | kAt => CTake nAtMention
  | kVerbatimBegin | kMonospaceBegin => CVerbatim
  | kDoubleAngleBegin | kTripleAngleBegin => CTarget
  | kComment | kLeadingSpace => CSkip
  | kLinkEnd | kLinkDescriptionBegin | kLinkTargetEnd => CLinkPart
  | _ => CTake nPunctuation
  end.

(** _begin, 394-423 *)
Definition begin_ (k : nk) (aux : M unit) : M unit := fun l g =>
  match ignore aux (advance l) (fst (TreeModel.start_tree g (TreeModel.mkNode k (TreeModel.Ext 0)))) with
  | Ok (r, l', g') =>
      if length (TreeModel.pending g) <? length (TreeModel.pending g') then
        match TreeModel.pending g' with
        | [] => UB
        | u :: rest =>
            match TreeModel.set_nth (TreeModel.nodes g') u (TreeModel.mkNode nPunctuation (TreeModel.Tok (lpos l))) with
            | Some ns => Ok (r, l', TreeModel.mkGroup ns rest)
            | None => Throw
            end
        end
      else Ok (r, l', g')
  | Throw => Throw | UB => UB | Fuel => Fuel
  end.
(** pending, _end, _unknown: OrgParser.hpp:119-122, 425-442 *)
Definition with_pending (f : nk -> M unit) : M unit := fun l g =>
  match TreeModel.pending g with
  | [] => UB
  | p :: _ => match nth_error (TreeModel.nodes g) p with Some x => f (TreeModel.kind x) l g | None => Throw end
  end.
Definition end_tree_ : M unit := fun l g => omap (fun '(g', _) => (Some tt, l, g')) (TreeModel.end_tree g 0).
Definition end_ (k : nk) : M unit :=
  with_pending (fun p => if nk_eqb p k then end_tree_ ;; next_ else take nPunctuation).
Definition unknown_ (k : nk) (aux : M unit) : M unit :=
  with_pending (fun p => if nk_eqb p k then end_ k else begin_ k aux).

(** _single, 444-587 *)
Definition single (n : nat) (aux par text : M unit) : M unit :=
  k <- kind_ 0 ;;
  match text_class k with
  | CBegin b => begin_ b aux
  | CEnd b => end_ b
  | CUnknown b => unknown_ b aux
  | CTake b => take b
  | CSkip => next_
  | CCurly => test (at_vec [kCurlyBegin; kCurlyBegin; kCurlyBegin]) (sub_parse (macro n)) (take nPunctuation)
  | CCritic => sub_parse (critic par n)
  | CPlaceholder => sub_parse placeholder
  | CTime => sub_parse (time_range n)
  | CAngle => test (at_ 1 (is kDate)) (sub_parse (time_range n)) (sub_parse placeholder)
  | CExport => sub_parse inline_export
  | CSrc => sub_parse (src_inline n)
  | CHash => sub_parse (hash_tag n ;; ret tt)
  | CLink => sub_parse (link par n)
  | CFootnote => sub_parse (footnote par n)
  | CSymbol => sub_parse (symbol text n)
  | CBrace => test (at_ 1 (is kDate)) (sub_parse (time_range n)) (take nPunctuation)
  | CVerbatim => sub_parse (verbatim n)
  | CTarget => sub_parse (angle_target n)
  | CLinkPart =>
      test (fun l => match tok_at l 0 with Some t => match otext t with [] => true | _ => false end | None => false end)
        next_ (take nPunctuation)
  end.

(** parseText, 617-640: the depth before and after *)
Definition balanced (m : M unit) : M unit := fun l g =>
  match ignore m l g with
  | Ok (r, l', g') =>
      if length (TreeModel.pending g') =? length (TreeModel.pending g) then Ok (r, l', g') else Throw
  | Throw => Throw | UB => UB | Fuel => Fuel
  end.
(** aux, 590-611, and parseParagraph, 1334-1338 *)
Definition fold_text_ (n : nat) (aux : M unit) : M unit :=
  while_ n (fun l => negb (finished l))
    (ignore (single n aux (guard nParagraph (balanced aux)) (balanced aux))).
Fixpoint fold_text (n : nat) : M unit := fun l g =>
  match n with O => Fuel | S n' => fold_text_ n' (fold_text n') l g end.
Definition paragraph (n : nat) : M unit := guard nParagraph (balanced (fold_text n)).
Definition par_of (n : nat) : list (option nat) -> M unit := par_or_empty (paragraph n).

(** parseCommandArguments, 1387-1398 *)
Definition command_arguments (n : nat) : M unit :=
  space n ;;
  guard nInlineStmtList
    (while_ n (at_ 0 (fun k => match k with kCmdRawArg | kCmdColonIdent => true | _ => false end))
      (sub_parse (attr_value n) ;; space n)).
(** parseSrcArguments, 1401-1421 *)
Definition src_arguments (n : nat) : M unit :=
  space n ;;
  test (at_ 0 newline_kind) (empty_ ;; empty_)
    (guard nAttrs
      (guard nInlineStmtList (while_ n (at0 kCmdFlag) (try_take nCmdFlag (is kCmdFlag))) ;;
       sub_parse (command_arguments n))).

(** parseTablePipeRow, 1189-1227 *)
Definition cell_end (k : tk) : bool := match k with kPipe | kTrailingPipe => true | _ => false end.
Definition cell_start (k : tk) : bool := match k with kPipe | kLeadingPipe => true | _ => false end.
Fixpoint cell_ids (n : nat) : M (list (option nat)) :=
  match n with
  | O => spent
  | S n' =>
      test (can_search (at_ 0 cell_end))
        (test (fun l => at0 kWhitespace l && (at_ 1 cell_end l || at_prev cell_start l))
          (next_ ;; cell_ids n')
          (i <- pop_ ;; r <- cell_ids n' ;; ret (i :: r)))
        (ret [])
  end.
Definition pipe_row (n : nat) : M unit :=
  guard nTableRow
    (empty_ ;; empty_ ;;
     guard nStmtList
       (while_ n (at_ 0 cell_start)
         (guard nTableCell
           (empty_ ;;
            guard nStmtList
              (next_ ;; ids <- cell_ids n ;;
               match ids with [] => guard nParagraph (ret tt) | _ :: _ => in_sub ids (sub_parse (paragraph n)) end))) ;;
        try_skip (is kTrailingPipe) ;; when_ (at_ 0 newline_kind) next_)).

(** parseBlockExport, 1497-1523 *)
Definition block_export (n : nat) : M unit :=
  guard nBlockExport
    (try_skip (is kCmdPrefix) ;; try_skip (is kCmdExportBegin) ;; space n ;;
     try_take nWord (is kCmdRawArg) ;; space n ;;
     sub_parse (command_arguments n) ;; newline n ;;
     guard nStmtList
       (while_ n (at_ 0 (fun k => match k with kCmdExportLine | kNewline => true | _ => false end)) (take nRawText)) ;;
     try_skip (is kCmdPrefix) ;; try_skip (is kCmdExportEnd)).

(** parseColonExample, 1526-1545 *)
Definition colon_example (n : nat) : M unit :=
  guard nColonExample
    (while_ n (at_ 0 (fun k => match k with kColonExampleLine | kColon => true | _ => false end))
      (test (at0 kColonExampleLine) (take nRawText) (empty_ ;; try_skip (is kColon)) ;;
       when_ (at0 kNewline) next_)).

(** parseExample, 1547-1574 *)
Definition example (n : nat) : M unit :=
  guard nBlockExample
    (try_skip (is kCmdPrefix) ;; try_skip (is kCmdExampleBegin) ;;
     sub_parse (command_arguments n) ;; newline n ;;
     while_ n (at_ 0 (fun k => match k with kCmdExampleLine | kNewline => true | _ => false end))
       (test (at_vec [kNewline; kCmdPrefix]) next_ (take nRawText)) ;;
     try_skip (is kCmdPrefix) ;; try_skip (is kCmdExampleEnd)).

(** parseSubtreeCompletion, parseSubtreeTodo, parseSubtreeUrgency: 1893-1923 *)
Definition completion (n : nat) : M unit :=
  space n ;; test (at0 kSubtreeCompletion) (take nSubtreeCompletion) empty_.
Definition todo (n : nat) : M unit :=
  space n ;; test (at_vec [kBigIdent; kWhitespace; kSubtreePriority]) (take nBigIdent) empty_.
Definition urgency (n : nat) : M unit :=
  space n ;; test (at0 kSubtreePriority) (take nSubtreeUrgency) empty_.

(** parseSubtreeTitle, 1926-1966; the tags are looked for in the whole group *)
Fixpoint tags_end (ts : list otok) : bool :=
  match ts with
  | [] => true
  | t :: r =>
      match okind t with
      | kColon | kWord | kDoubleHash | kAt | kBigIdent => tags_end r
      | k => newline_kind k
      end
  end.
Definition at_tags (l : lx) : bool := at0 kColon l && tags_end (from_here l).
Definition title (n : nat) : M unit :=
  space n ;;
  ids <- collect n (fun l => at_ 0 newline_kind l || at_tags l || at0 kSubtreeCompletion l) ;;
  par_of n ids.

(** parseSubtreeTags, 1969-1983 *)
Definition tags (n : nat) : M unit :=
  test (at0 kColon)
    (guard nInlineStmtList
      (while_ n (fun l => at0 kColon l && at_ 1 (fun k => match k with kWord | kAt | kBigIdent => true | _ => false end) l)
        (try_skip (is kColon) ;; sub_parse (hash_tag n ;; ret tt)) ;;
       try_skip (fun k => is kColon k || newline_kind k)))
    empty_.

(** parseSubtreeTimes, 1986-2065 *)
Definition stamp_follows (l : lx) : bool :=
  match from_here l with
  | a :: r =>
      if is kNewline (okind a) then
        let r := match r with b :: r' => if is kLeadingSpace (okind b) then r' else r | [] => [] end in
        match r with
        | b :: c :: _ =>
            (is kAngleBegin (okind b) || is kBraceBegin (okind b)) && is kDate (okind c) &&
            ahead (fun k => match k with
                            | kBraceBegin | kBraceEnd | kAngleBegin | kAngleEnd | kInactiveDynamicTimeContent
                            | kActiveDynamicTimeContent | kTimeRepeaterSpec => true
                            | _ => false end) newline_kind 1 l
        | _ => false
        end
      else false
  | [] => false
  end.
Definition times (n : nat) : M unit :=
  test (fun l => (at0 kLeadingSpace l && at_ 1 (is kTreeTime) l) || at0 kTreeTime l)
    (space n ;;
     guard nStmtList
       (while_ n (fun l => at0 kTreeTime l || (at0 kNewline l && at_ 1 (is kTreeTime) l))
         (newline n ;;
          guard nInlineStmtList (take nWord ;; space n ;; sub_parse (time_range n) ;; space n)) ;;
        when_ stamp_follows
          (must_skip kNewline ;; space n ;;
           guard nInlineStmtList (empty_ ;; sub_parse (time_range n) ;; space n))))
    empty_.

(** parseSubtreeProperties, 1816-1863 *)
Definition property_kind (k : tk) : bool :=
  match k with kColonLiteralProperty | kColonArgumentsProperty | kColonPropertyText => true | _ => false end.
Definition property (n : nat) : M unit :=
  k <- kind_ 0 ;;
  if property_kind k then
    guard nDrawerProperty
      (take nRawText ;;
       (if is kColonLiteralProperty k then try_take nRawText (is kRawText)
        else if is kColonArgumentsProperty k then sub_parse (command_arguments n)
        else space n ;; ids <- collect n (at_ 0 newline_kind) ;; in_sub ids (sub_parse (paragraph n))) ;;
       try_skip (is kNewline))
  else fail_.
Definition properties (n : nat) : M unit :=
  try_skip (is kColonProperties) ;; try_skip (is kNewline) ;;
  guard nDrawerPropertyList
    (while_ n (can_search (at0 kColonEnd)) (property n) ;; try_skip (is kColonEnd)).

(** The statement functions over the parser [stmt] of a nested statement. *)
Section Statements.
Variable stmt : M unit.

(** parseTableBlockRow, 1229-1274 *)
Definition block_row (n : nat) : M unit :=
  try_skip (is kCmdPrefix) ;; try_skip (is kCmdRow) ;;
  guard nTableRow
    (sub_parse (command_arguments n) ;; empty_ ;; newline n ;;
     guard nStmtList
       (test (at0 kLeadingPipe)
         (while_ n (at0 kLeadingPipe)
           (try_skip (is kLeadingPipe) ;; space n ;;
            guard nTableCell
              (empty_ ;; guard nStmtList (ids <- collect n (at_ 0 paragraph_end) ;; par_of n ids)) ;;
            newline n))
         (while_ n (at_vec [kCmdPrefix; kCmdCell])
           (try_skip (is kCmdPrefix) ;; try_skip (is kCmdCell) ;;
            guard nTableCell
              (sub_parse (command_arguments n) ;;
               guard nStmtList
                 (while_ n (fun l => negb (at0 kCmdPrefix l
                                     && at_ 1 (fun k => match k with kCmdCell | kCmdRow | kCmdTableEnd => true | _ => false end) l))
                   (sub_parse stmt))))))).

(** parseTable, 1277-1331 *)
Definition table (n : nat) : M unit :=
  test (at_ 0 (fun k => match k with kLeadingPipe | kTableSeparator => true | _ => false end))
    (guard nTable
      (empty_ ;;
       while_ n (at_ 0 (fun k => match k with kLeadingPipe | kTableSeparator => true | _ => false end))
         (test (at0 kLeadingPipe) (sub_parse (pipe_row n)) (next_ ;; newline n))))
    (guard nTable
      (try_skip (is kCmdPrefix) ;; try_skip (is kCmdTableBegin) ;;
       sub_parse (command_arguments n) ;; newline n ;;
       while_ n (can_search (at_vec [kCmdPrefix; kCmdTableEnd]))
         (test (at0 kLeadingPipe) (sub_parse (pipe_row n))
           (test (at0 kCmdPrefix) (sub_parse (block_row n)) fail_)) ;;
       try_skip (is kCmdPrefix) ;; try_skip (is kCmdTableEnd))).

(** parseTextWrapCommand, 1424-1494; hstd::replace_all, strutils.cpp:404-412 *)
Fixpoint replace_all (n : nat) (s from to : str) : str :=
  match n with
  | O => s
  | S n' =>
      if AttrModel.str_eqb (firstn (length from) s) from then to ++ replace_all n' (skipn (length from) s) from to
      else match s with [] => [] | c :: r => c :: replace_all n' r from to end
  end.
Definition wrap_kind (k : tk) : option (nk * tk) :=
  match k with
  | kCmdVerseBegin => Some (nBlockVerse, kCmdVerseEnd)
  | kCmdCenterBegin => Some (nBlockCenter, kCmdCenterEnd)
  | kCmdQuoteBegin => Some (nBlockQuote, kCmdQuoteEnd)
  | kCmdCommentBegin => Some (nBlockComment, kCmdCommentEnd)
  | kCmdDynamicBlockBegin => Some (nBlockDynamicFallback, kCmdDynamicBlockEnd)
  | _ => None
  end.
Fixpoint wrap_body (n : nat) (more : lx -> bool) : M unit :=
  match n with
  | O => spent
  | S n' => test more (sub_parse stmt ;; test (at0 kSubtreeStars) (ret tt) (wrap_body n' more)) (ret tt)
  end.
Definition text_at (off : nat) (l : lx) : str := match tok_at l off with Some t => otext t | None => [] end.
Definition text_wrap (n : nat) : M unit :=
  try_skip (is kCmdPrefix) ;;
  k <- kind_ 0 ;;
  match wrap_kind k with
  | None => crash
  | Some (b, fin) =>
      guard b
        ((if is kCmdDynamicBlockBegin k then t <- ask lpos ;; tok_ nWord t else ret tt) ;;
         name <- ask (text_at 0) ;;
         next_ ;;
         test (at_ 0 newline_kind) empty_ (space n ;; sub_parse (command_arguments n) ;; space n) ;;
         try_skip newline_kind ;;
         let end_name := normalize (replace_all (length name) name (lit "begin") (lit "end")) in
         wrap_body n (fun l => can_search (at_vec [kCmdPrefix; fin]) l &&
           (if is kCmdDynamicBlockBegin k
            then has_next l 2 && negb (AttrModel.str_eqb (normalize (text_at 1 l)) end_name) else true)) ;;
         try_skip (is kCmdPrefix) ;; try_skip (is fin))
  end.

(** parseSrc, 1577-1693 *)
Fixpoint angle_close (n : nat) (off : nat) (l : lx) : bool :=
  match n with
  | O => false
  | S n' =>
      if has_next l off then
        if at_ off (is kDoubleAngleEnd) l then true
        else if at_ off (is kNewline) l then false else angle_close n' (S off) l
      else false
  end.
Definition code_part (n : nat) : M unit :=
  test (at0 kSrcContent) (try_take nCodeText (is kSrcContent))
    (test (at0 kParBegin)
      (try_skip (is kParBegin) ;; try_skip (is kWord) ;; try_skip (is kColon) ;;
       guard nCodeCallout (try_take nWord (is kWord)) ;; try_skip (is kParEnd))
      (test (at0 kDoubleAngleBegin)
        (test (angle_close (S (length toks)) 0)
          (try_skip (is kDoubleAngleBegin) ;; guard nCodeTangle (sub_parse (csv_arguments n)) ;;
           try_skip (is kDoubleAngleEnd))
          (try_take nCodeText (is kDoubleAngleBegin)))
        (test (at0 kDoubleAngleEnd) (try_take nCodeText (is kDoubleAngleEnd)) crash))).
Definition src (n : nat) : M unit :=
  guard nBlockCode
    (try_skip (is kCmdPrefix) ;; try_skip (is kCmdSrcBegin) ;; space n ;;
     test (fun l => at0 kCmdRawArg l && match text_at 0 l with [] => false | _ :: _ => true end)
       (try_take nWord (is kCmdRawArg)) empty_ ;;
     space n ;;
     sub_parse (src_arguments n) ;;
     guard nStmtList
       (try_skip (is kCmdContentBegin) ;;
        while_ n (can_search (at_vec [kCmdPrefix; kCmdSrcEnd]))
          (guard nCodeLine
            (while_ n (can_search (at_ 0 (fun k => match k with kCmdContentEnd | kNewline => true | _ => false end)))
               (code_part n) ;;
             when_ (at0 kNewline) next_))) ;;
     try_skip (is kCmdPrefix) ;; try_skip (is kCmdSrcEnd) ;;
     test (ahead_vec (fun k => newline_kind k || is kWhitespace k) [kCmdPrefix; kCmdResults])
       (while_ n (fun l => negb (at0 kCmdPrefix l)) (space n ;; newline n) ;;
        try_skip (is kCmdPrefix) ;; try_skip (is kCmdResults) ;;
        guard nCmdResults
          (space n ;; sub_parse (command_arguments n) ;; newline n ;;
           test (at0 kSubtreeStars) empty_ (sub_parse stmt)))
       empty_).

(** parseListItem, 1696-1774; the tag is looked for in the whole group *)
Definition colon_pattern : list tk := [kWhitespace; kDoubleColon; kWhitespace].
Fixpoint tag_scan (n : nat) (l : lx) : bool :=
  match n with
  | O => false
  | S n' =>
      if can_search (at_vec colon_pattern) l then
        if at_ 0 newline_kind l then at_vec colon_pattern l else tag_scan n' (advance l)
      else at_vec colon_pattern l
  end.
Definition has_tag (l : lx) : bool := tag_scan (S (length toks)) (Lx (lpos l) None None).
Definition list_item (n : nat) : M unit :=
  guard nListItem
    (try_take nRawText list_start ;; space n ;;
     empty_ ;;
     test (at0 kCheckbox) (try_take nCheckbox (is kCheckbox) ;; space n) empty_ ;;
     test has_tag
       (ids <- collect n (at_vec colon_pattern) ;;
        match ids with
        | [] => empty_
        | _ :: _ => in_sub ids (sub_parse (paragraph n)) ;; must_skip kWhitespace ;; must_skip kDoubleColon ;; space n
        end)
       empty_ ;;
     guard nStmtList
       (while_ n (can_search (at_ 0 (fun k => match k with kDedent | kSameIndent | kListItemEnd => true | _ => false end)))
          (sub_parse stmt) ;;
        when_ (at0 kListItemEnd) next_)).
(** parseList, 1777-1790; the message reads the current token *)
Definition list_ (n : nat) : M unit :=
  guard nList
    (kind_ 0 ;;
     while_ n (fun l => at_ 0 list_start l || (at0 kLeadingSpace l && at_ 1 list_start l))
       (sub_parse (list_item n) ;; when_ (at0 kSameIndent) next_)).

(** parseSubtreeLogbook, 1793-1813 *)
Definition logbook (n : nat) : M unit :=
  guard nDrawerLogbook
    (try_skip (is kColonLogbook) ;; newline n ;; space n ;;
     try_skip (is kIndent) ;; sub_parse (list_ n) ;;
     when_ (at0 kStmtListEnd) (try_skip (is kStmtListEnd) ;; try_skip (is kListItemEnd)) ;;
     try_skip (is kDedent) ;; space n ;; try_skip (is kColonEnd)).
(** parseSubtreeDrawer, 1866-1889 *)
Definition drawer_start (k : tk) : bool := match k with kColonProperties | kColonLogbook => true | _ => false end.
Definition drawer (n : nat) : M unit :=
  guard nDrawer
    (while_ n (at_ 0 drawer_start)
      (test (at0 kColonProperties) (properties n) (logbook n) ;; newline n ;; space n)).

(** parseSubtree, 2068-2119: after a failed element the others are empty *)
Definition element (failed : bool) (m : M unit) : M bool :=
  if failed then empty_ ;; ret true else ok <- attempt m ;; ret (negb ok).
Definition subtree (n : nat) : M unit :=
  guard nSubtree
    (try_take nRawText (is kSubtreeStars) ;;
     f1 <- element false (todo n) ;;
     f2 <- element f1 (urgency n) ;;
     space n ;;
     f3 <- element f2 (title n) ;;
     f4 <- element f3 (completion n) ;;
     space n ;;
     f5 <- element f4 (tags n) ;;
     when_ (at0 kNewline) (newline n) ;;
     f6 <- element f5 (times n) ;;
     when_ (at0 kNewline) (newline n) ;;
     f7 <- test (at_ 0 drawer_start) (element f6 (drawer n)) (empty_ ;; ret f6) ;;
     newline n ;;
     guard nStmtList (ret tt) ;;
     if (f7 : bool) then bad else ret tt).
End Statements.

(** parseLineCommand, 2131-2442: what a command kind asks for *)
Inductive cclass :=
| KRaw | KText | KArgs | KCall | KTitle (k : nk) | KWords (k : nk) | KFiletags | KLatex (k : nk) | KList (k : nk)
| KPropertyRaw | KPropertyText | KInclude | KAttr | KNamed (k : nk) | KPropertyArgs | KNone.
Definition command_class (k : tk) : cclass :=
  match k with
  | kCmdBindRaw | kCmdCategoryRaw | kCmdSetupfileRaw | kCmdPrioritiesRaw | kCmdSeqTodoRaw | kCmdTagsRaw | kCmdMacroRaw
  | kCmdLinkRaw | kCmdLatexHeaderExtraRaw | kCmdExcludeTagsRaw | kCmdSelectTagsRaw | kCmdDrawersRaw | kCmdConstants
  | kCmdCustomRaw => KRaw
  | kCmdDateRaw | kCmdDescription => KText
  | kCmdHtmlHeadRaw => KArgs
  | kCmdCall => KCall
  | kCmdAuthor => KTitle nCmdAuthor | kCmdCreator => KTitle nCmdCreator
  | kCmdTitle => KTitle nCmdTitle | kCmdCaption => KTitle nCmdCaption
  | kCmdEmailRaw => KWords nCmdEmail | kCmdLanguage => KWords nCmdLanguage
  | kCmdLatexHeader => KWords nCmdLatexHeader | kCmdStartup => KWords nCmdStartup
  | kCmdFiletags => KFiletags
  | kCmdLatexClass => KLatex nCmdLatexClass | kCmdLatexCompiler => KLatex nCmdLatexCompiler
  | kCmdLatexClassOptions => KList nCmdLatexClassOptions | kCmdOptions => KList nCmdOptions
  | kCmdKeywordsRaw => KList nCmdKeywords | kCmdTblfm => KList nCmdTblfm | kCmdColumns => KList nCmdColumns
  | kCmdPropertyRaw => KPropertyRaw
  | kCmdPropertyText => KPropertyText
  | kCmdInclude => KInclude
  | kCmdAttr => KAttr
  | kCmdName => KNamed nCmdName | kCmdResults => KNamed nCmdResults | kCmdHeader => KNamed nCmdHeader
  | kCmdPropertyArgs => KPropertyArgs
  | _ => KNone
  end.
Definition raw_value (k : tk) : bool :=
  match k with kCmdRawArg | kBraceBegin | kBraceEnd | kComma | kEquals | kRawText => true | _ => false end.
Definition line_end_kind (k : tk) : bool := paragraph_end k || is kNewline k.
Definition prefix_and (k : tk) (n : nat) : M unit := try_skip (is kCmdPrefix) ;; try_skip (is k) ;; space n.
Definition text_attrs (n : nat) : M unit :=
  guard nAttrs (ids <- collect n (at_ 0 line_end_kind) ;; par_of n ids).
Definition line_command (n : nat) : M unit :=
  k <- kind_ 1 ;;
  match command_class k with
  | KRaw =>
      guard nCmdCustomRawCommand
        (try_skip (is kCmdPrefix) ;; try_take nRawText (is k) ;; space n ;;
         while_ n (at0 kRawText) (try_take nRawText (is kRawText) ;; when_ (at0 kWhitespace) (space n)) ;; newline n)
  | KText =>
      try_skip (is kCmdPrefix) ;;
      guard nCmdCustomTextCommand (try_take nRawText (is k) ;; space n ;; text_attrs n ;; newline n)
  | KArgs =>
      try_skip (is kCmdPrefix) ;;
      guard nCmdCustomArgsCommand
        (try_take nRawText (is k) ;; space n ;; sub_parse (command_arguments n) ;; newline n)
  | KCall =>
      guard nCmdCallCode
        (prefix_and kCmdCall n ;;
         try_take nWord (is kCmdRawArg) ;; space n ;;
         test (at0 kBraceBegin)
           (try_skip (is kBraceBegin) ;; sub_parse (command_arguments n) ;; try_skip (is kBraceEnd)) empty_ ;;
         space n ;;
         test (at0 kParBegin) (sub_parse (call_arguments n)) empty_ ;;
         space n ;;
         sub_parse (command_arguments n) ;; newline n)
  | KTitle b => prefix_and k n ;; guard b (text_attrs n ;; newline n)
  | KWords b =>
      guard b
        (prefix_and k n ;;
         while_ n (at_ 0 (fun k => match k with kRawText | kCmdRawArg => true | _ => false end)) (take nRawText ;; space n) ;;
         newline n)
  | KFiletags =>
      prefix_and k n ;;
      guard nCmdFiletags
        (while_ n (at_ 1 (fun k => match k with kWord | kBigIdent => true | _ => false end))
           (test (at0 kColon) next_ (space n) ;; sub_parse (hash_tag n ;; ret tt) ;; space n) ;;
         when_ (at0 kColon) next_ ;; newline n)
  | KLatex b =>
      try_skip (is kCmdPrefix) ;;
      guard b (try_skip (is k) ;; space n ;; try_take nWord (is kCmdRawArg) ;; newline n)
  | KList b =>
      prefix_and k n ;;
      guard b (guard nInlineStmtList (while_ n (at_ 0 raw_value) (try_take nRawText raw_value)) ;; newline n)
  | KPropertyRaw => prefix_and k n ;; guard nCmdPropertyRaw (try_take nRawText (is kRawText) ;; newline n)
  | KPropertyText =>
      prefix_and k n ;;
      guard nCmdPropertyArgs
        (try_take nRawText (is kCmdRawArg) ;; sub_parse (command_arguments n) ;; sub_parse (paragraph n) ;; newline n)
  | KInclude => guard nCmdInclude (prefix_and k n ;; sub_parse (command_arguments n) ;; newline n)
  | KAttr =>
      guard nCmdAttr
        (try_skip (is kCmdPrefix) ;; try_take nWord (is kCmdAttr) ;; space n ;; sub_parse (command_arguments n) ;; newline n)
  | KNamed b =>
      try_skip (is kCmdPrefix) ;; try_skip (is k) ;;
      guard b (space n ;; sub_parse (command_arguments n) ;; newline n)
  | KPropertyArgs =>
      prefix_and k n ;;
      guard nCmdPropertyArgs (try_take nRawText (is kCmdRawArg) ;; sub_parse (command_arguments n) ;; newline n)
  | KNone => crash
  end.

(** parseStmtListItem, 2445-2526 *)
Inductive sclass := SSubtree | SList | STake (k : nk) | STable | SColon | SCommand | SText.
Definition stmt_class (k : tk) : sclass :=
  match k with
  | kSubtreeStars => SSubtree
  | kIndent => SList
  | kWhitespace => STake nSpace
  | kMediumNewline | kLongNewline | kNewline => STake nNewline
  | kTextSeparator => STake nTextSeparator
  | kTableSeparator | kLeadingPipe => STable
  | kColonExampleLine => SColon
  | kCmdPrefix => SCommand
  | _ => SText
  end.
Inductive bclass := BSrc | BExample | BExport | BWrap | BTable | BLine.
Definition block_class (k : tk) : bclass :=
  match k with
  | kCmdSrcBegin => BSrc
  | kCmdExampleBegin => BExample
  | kCmdExportBegin => BExport
  | kCmdVerseBegin | kCmdCenterBegin | kCmdCommentBegin | kCmdDynamicBlockBegin | kCmdQuoteBegin => BWrap
  | kCmdTableBegin => BTable
  | _ => BLine
  end.
Definition statement (n : nat) (stmt : M unit) : M unit :=
  k <- kind_ 0 ;;
  match stmt_class k with
  | SSubtree => subtree stmt n
  | SList =>
      try_skip (is kIndent) ;; ok <- attempt (list_ stmt n) ;; try_skip (is kDedent) ;;
      if (ok : bool) then ret tt else bad
  | STake b => take b
  | STable => table stmt n
  | SColon => colon_example n
  | SCommand =>
      c <- kind_ 1 ;;
      match block_class c with
      | BSrc => src stmt n
      | BExample => example n
      | BExport => block_export n
      | BWrap => text_wrap stmt n
      | BTable => table stmt n
      | BLine => line_command n
      end
  | SText =>
      ids <- collect n (at_ 0 paragraph_end) ;;
      match ids with [] => next_ ;; guard nParagraph (ret tt) | _ :: _ => in_sub ids (paragraph n) end
  end.
Fixpoint stmt (n : nat) : M unit := fun l g => match n with O => Fuel | S n' => statement n' (stmt n') l g end.

(** parseTop, 2529-2548 *)
Definition top (n : nat) : M unit :=
  guard nStmtList
    (while_ n (fun l => negb (finished l))
      (test (at0 kComment) next_
        (ok <- attempt (stmt n) ;;
         if (ok : bool) then ret tt
         else guard nErrorSkipGroup (while_ n (can_search (at_ 0 newline_kind)) (take nErrorSkipToken))))).

(** assertValidStructure, 2585-2661 *)
Definition kind_of_node (n : node) : nk := TreeModel.kind n.
Definition nil_token (n : node) : bool := match TreeModel.value n with TreeModel.Tok None => true | _ => false end.
Fixpoint valid_structure (fuel : nat) (ns : list node) (id : nat) : outcome unit :=
  match fuel with
  | O => Fuel
  | S f =>
      match nth_error ns id with
      | None => Throw
      | Some n =>
          if TreeModel.is_terminal n || TreeModel.is_mono n then Ok tt
          else if nk_eqb (TreeModel.kind n) nEmpty then Throw
          else
            let e := TreeModel.get_extent n in
            if 0 <? e then
              if id + e <? length ns then
                if existsb nil_token (firstn e (skipn (S id) ns)) then Throw
                else valid_children f f ns (S id) (id + e)
              else Throw
            else Ok tt
      end
  end
(** the loop over the children, 2618-2643: [last] is the last id of the extent *)
with valid_children (fuel : nat) (g : nat) (ns : list node) (id last : nat) : outcome unit :=
  match fuel with
  | O => Fuel
  | S f =>
      if id <=? last then
        obind (valid_structure f ns id) (fun _ =>
        match nth_error ns id with
        | Some n =>
            let id' := id + TreeModel.get_extent n in
            if id' <? length ns then valid_children f g ns (S id') last else Throw
        | None => Throw
        end)
      else if S last =? id then Ok tt else Throw
  end.

(** extendSubtreeTrailsImpl, 2665-2755; [val] needs a token, NodeStore.hpp:22-31 *)
Definition update (ns : list node) (i : nat) (e : Z) : outcome (list node) :=
  match nth_error ns i with
  | None => Throw
  | Some n =>
      obind (TreeModel.extend n e) (fun n' => match TreeModel.set_nth ns i n' with Some ns' => Ok ns' | None => Throw end)
  end.
Definition star_count (ns : list node) (i : nat) : outcome nat :=
  match nth_error ns i with
  | Some n =>
      match TreeModel.value n with
      | TreeModel.Tok (Some t) => match nth_error toks t with Some x => Ok (length (otext x)) | None => Throw end
      | _ => Throw
      end
  | None => Throw
  end.
Definition trail_kind (n : node) : bool :=
  match TreeModel.kind n with nStmtList | nErrorSkipGroup => true | _ => false end.
Fixpoint extend_trails (fuel : nat) (ns : list node) (id level : nat) : outcome (list node * nat) :=
  match fuel with
  | O => Fuel
  | S f =>
      match nth_error ns id with
      | None => Ok (ns, id)
      | Some n =>
          if nk_eqb (TreeModel.kind n) nSubtree then
            obind (TreeModel.node_size ns id) (fun _ =>
            obind (TreeModel.subnode ns id 0) (fun s0 =>
            obind (star_count ns s0) (fun sub =>
            if level <? sub then
              obind (TreeModel.subnode ns id 8) (fun st =>
              match nth_error ns st with
              | None => Throw
              | Some sn =>
                  if trail_kind sn then
                    obind (extend_trails f ns (S st) sub) (fun '(ns1, id1) =>
                    if S st <=? id1 then
                      obind (update ns1 st (Z.of_nat id1 - Z.of_nat st - 1)) (fun ns2 =>
                      obind (update ns2 id (Z.of_nat id1 - Z.of_nat id - 1)) (fun ns3 =>
                      obind (TreeModel.all_subnodes_of ns3 id) (fun sl =>
                      match sl with
                      | None => Throw
                      | Some (_, last) =>
                          obind (valid_structure (S (2 * length ns3)) ns3 id) (fun _ =>
                          if last <? length ns3 then extend_trails f ns3 id1 level else Throw)
                      end)))
                    else Throw)
                  else Throw
              end)
            else Ok (ns, id))))
          else extend_trails f ns (S id) level
      end
  end.

(** parseFull, extendSubtreeTrails: 2551-2557, 2757-2761 *)
Definition parse_flat (n : nat) : outcome (list node) :=
  match top n whole TreeModel.empty_group with
  | Ok (_, _, g) => Ok (TreeModel.nodes g)
  | Throw => Throw | UB => UB | Fuel => Fuel
  end.
Definition parse_full (n : nat) : outcome (list node) :=
  obind (parse_flat n) (fun ns =>
  obind (extend_trails (S (2 * length ns)) ns 0 0) (fun '(ns', _) =>
  obind (valid_structure (S (2 * length ns')) ns' 0) (fun _ => Ok ns'))).

End Parse.
