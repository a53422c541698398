(** Entries of the logbook of a heading: reading, src/haxorg/sem/SemConvert.cpp:347-595 (convertSubtreeLog), and
    writing, src/haxorg/sem/SemOrgFormat.cpp:1407-1548. Line numbers without a file name are those of SemConvert.cpp.

    The item is the node convertListItem makes of it (ConvModel.v, list_item). Simplified: a time is the text it was
    read from, and is written as this text in brackets (SemOrgFormat.hpp:27-30; C119 is about these texts; the zone is
    not in the node of ConvModel.v); a member that is default-constructed in C++ is None. Not modelled: tracing, the
    layout of the lines of a description, which is given to the writer as it is. *)
From Coq Require Import String.
From Verif Require Import Base StrModel ConvModel.
From Verif Require AttrModel.
Local Open Scope nat_scope.

(** HashTagText, SemOrgSharedTypes.hpp: a tag and its subtags; the text of a HashTag, 316-345 *)
Inductive htag := HT (head : str) (subs : list htag).
Fixpoint htag_of (s : sem) : htag :=
  let 'Sem _ d f _ _ := s in HT (List.hd [] (dtext d)) (map (fun p => htag_of (snd p)) f).

(** SubtreeLogHead, SemOrgSharedTypes.hpp:491-612 *)
Inductive action := Added | Removed | Changed.
Inductive lhead :=
| HPriority (a : action) (old new : option str) (on : option str)
| HNote (on : option str)
| HRefile (on : option str) (from : option target)
| HClock (from : str) (to : option str)
| HState (from to : str) (on : option str)
| HDeadline (from to on : option str)
| HSchedule (from to on : option str)
| HTag (t : htag) (added : bool) (on : option str)
| HUnknown.
(** SubtreeLog, SemOrgTypes.hpp: the head and the description *)
Record entry := Entry { ehead : lhead; edesc : option (list sem) }.
(** What convertSubtreeLog returns: an entry or a node with a diagnostic. *)
Inductive logged := Logged (e : entry) | Faulty.

(** Leaf, SemOrgTypes.hpp:441-535 *)
Definition leaf_text (s : sem) : option str :=
  match skind s with
  | oEscaped | oNewline | oSpace | oWord | oAtMention | oRawText | oPunctuation | oPlaceholder | oBigIdent | oTextTarget
  | oErrorSkipToken => Some (List.hd [] (dtext (sdata s)))
  | _ => None
  end.
Definition leaf (s : sem) : str := List.hd [] (dtext (sdata s)).
(** Time::getStaticTime: the variant must be the static one *)
Definition static_time (s : sem) : res str :=
  match dnum (sdata s) with _ :: 1%Z :: _ => Done (leaf s) | _ => Thrown end.
Definition static_opt (o : option sem) : res (option str) :=
  match o with None => Done None | Some s => t <- static_time s ;; Done (Some t) end.

(** take_while: up to the first newline; filter_subnodes, 347-354 *)
Fixpoint before_newline (l : list sem) : list sem :=
  match l with [] => [] | x :: r => if is_a oNewline x then [] else x :: before_newline r end.
Definition firsts (k : osk) (par : list sem) : list sem := filter (is_a k) (before_newline par).
Definition words_of (par : list sem) : list str := map (fun w => normalize (leaf w)) (firsts oWord par).

(** node_after, 372-399. The inner loop: a word ends the search unless words are searched for. *)
Fixpoint seek (k : osk) (l : list sem) : option sem :=
  match l with
  | [] => None
  | t :: r => if is_a oWord t && negb (osk_eqb k oWord) then None else if is_a k t then Some t else seek k r
  end.
Fixpoint node_after (w : string) (k : osk) (l : list sem) : option sem :=
  match l with
  | [] => None
  | x :: r =>
      match leaf_text x with
      | Some s => if str_is (normalize s) w then match seek k r with Some t => Some t | None => node_after w k r end
                  else node_after w k r
      | None => node_after w k r
      end
  end.
Definition text_after (w : string) (k : osk) (l : list sem) : option str := option_map leaf (node_after w k l).
(** time_after, 401-408, and the getStaticTime of its result *)
Definition time_after (w : string) (l : list sem) : res (option str) := static_opt (node_after w oTime l).

Definition field (f : fld) (s : sem) : res sem :=
  match List.find (fun p => match fst p, f with FFrom, FFrom | FTo, FTo => true | _, _ => false end) (sfields s) with
  | Some p => Done (snd p)
  | None => Thrown
  end.
(** 410-433 *)
Definition read_clock (par : list sem) : res lhead :=
  match filter (fun x => is_a oTime x || is_a oTimeRange x) par with
  | [] => Thrown
  | x :: _ =>
      if is_a oTime x then f <- static_time x ;; Done (HClock f None)
      else f <- field FFrom x ;; t <- field FTo x ;; f <- static_time f ;; t <- static_time t ;; Done (HClock f (Some t))
  end.

Definition has_word (w : string) (ws : list str) : bool := existsb (fun s => str_is s w) ws.
Definition word_is (i : nat) (w : string) (ws : list str) : bool :=
  match nth_error ws i with Some s => str_is s w | None => false end.

(** 437-453 *)
Definition read_tag (ws : list str) (par : list sem) : res (option lhead) :=
  match node_after "tag" oHashTag par with
  | None => Done None
  | Some t => on <- time_after "on" par ;; w <- at_ ws 1 ;; Done (Some (HTag (htag_of t) (str_is w "added") on))
  end.
(** 455-475 *)
Definition read_state (par : list sem) : res (option lhead) :=
  match text_after "state" oBigIdent par with
  | None => Done None
  | Some to =>
      let from := match text_after "from" oBigIdent par with Some s => s | None => [] end in
      on <- time_after "on" par ;;
      on <- (match on with
             | Some t => Done (Some t)
             | None => static_opt (nth_error (firsts oTime par) 0)
             end) ;;
      Done (Some (HState from to on))
  end.
(** 477-495 *)
Definition read_refile (par : list sem) : res (option lhead) :=
  match firsts oTime par with
  | [] => Thrown
  | _ =>
      match node_after "on" oTime par with
      | None => Done None
      | Some t => on <- static_time t ;;
                  Done (Some (HRefile (Some on) match firsts oLink par with l :: _ => nth_error (dlink (sdata l)) 0 | [] => None end))
      end
  end.
(** 505-541 *)
Definition read_priority (ws : list str) (par : list sem) : res (option lhead) :=
  let new := text_after "priority" oBigIdent par in
  let old := text_after "from" oBigIdent par in
  let finish a o n := on <- time_after "on" par ;; Done (Some (HPriority a o n on)) in
  if has_word "added" ws then finish Added None new
  else if has_word "changed" ws then finish Changed old new
  else if has_word "removed" ws then finish Removed old None
  else Thrown.
(** 410-559; None: a diagnostic. The deadline is not filled in, 497-503. *)
Definition read_head (par : list sem) : res (option lhead) :=
  let ws := words_of par in
  match ws with
  | [] => h <- read_clock par ;; Done (Some h)
  | _ =>
      if word_is 0 "tag" ws then read_tag ws par
      else if word_is 0 "state" ws then read_state par
      else if word_is 0 "refiled" ws then read_refile par
      else if word_is 1 "deadline" ws then Done (Some (HDeadline None None None))
      else if word_is 0 "priority" ws then read_priority ws par
      else if word_is 0 "note" ws && match firsts oTime par with [] => false | _ => true end then
        on <- time_after "on" par ;; Done (Some (HNote on))
      else Done (Some HUnknown)
  end.

(** The description, 561-592 *)
Definition is_break (s : sem) : bool := is_a oPunctuation s && str_is (leaf s) "\\".
Fixpoint after_break (l : list sem) : list sem :=
  match l with [] => [] | x :: r => if is_break x then r else after_break r end.
Fixpoint drop_blank (l : list sem) : list sem :=
  match l with [] => [] | x :: r => if is_a oNewline x || is_a oSpace x then drop_blank r else l end.
Definition described (par more : list sem) : option (list sem) :=
  match drop_blank (after_break par), more with
  | [], [] => None
  | [], _ => Some more
  | d, _ => Some (node oParagraph d :: more)
  end.

(** convertSubtreeLog, 356-595, from the item: [at_ _ 0] is item->at(0) *)
Definition read_entry (item : sem) : res logged :=
  p <- at_ (ssubs item) 0 ;;
  h <- read_head (ssubs p) ;;
  match h with
  | None => Done Faulty
  | Some HUnknown => Done (Logged (Entry HUnknown (Some (ssubs item))))
  | Some h => Done (Logged (Entry h (described (ssubs p) (tl (ssubs item)))))
  end.

(** *** Writing, SemOrgFormat.cpp *)
(** nestedHashtag, SemOrgFormat.cpp:145-161 *)
Fixpoint commas (l : list str) : str :=
  match l with [] => [] | [x] => x | x :: r => x ++ 44%Z :: commas r end.
Fixpoint nested (t : htag) : str :=
  let 'HT h subs := t in
  match subs with
  | [] => h
  | [x] => h ++ lit "##" ++ nested x
  | _ => h ++ lit "##[" ++ commas (map nested subs) ++ lit "]"
  end.

Section Write.
(** toString of a link's target, SemOrgFormat.cpp:616-680, and of a list of nodes as one text; the time between two
    times, FormatTimeDelta and GetTimeDelta, SemOrgFormat.cpp:19-31 *)
Variable show_target : target -> str.
Variable show_nodes : list sem -> str.
Variable span : str -> str -> str.
(** The text of a default-constructed UserTime and of a default-constructed target. *)
Variable epoch : str.
Definition show_time (o : option str) : str := 91%Z :: (match o with Some t => t | None => epoch end) ++ [93%Z].
Definition show_from (o : option target) : str := match o with Some t => show_target t | None => [] end.
(** optional::value *)
Definition must {A} (o : option A) : res A := match o with Some a => Done a | None => Thrown end.

(** The line of the head, 1411-1533 *)
Definition write_head (e : entry) : res str :=
  match ehead e with
  | HTag t added on =>
      Done (lit "- Tag ""#" ++ nested t ++ lit """" ++ (if added then lit " Added" else lit " Removed") ++ lit " on " ++ show_time on)
  | HRefile on from => Done (lit "- Refiled on " ++ show_time on ++ lit " from [[" ++ show_from from ++ lit "]]")
  | HState from to on =>
      Done (lit "- State """ ++ to ++ lit """ from """ ++ from ++ lit """ " ++ show_time on)
  | HNote on => Done (lit "- Note taken on " ++ show_time on)
  | HClock from (Some to) =>
      Done (lit "CLOCK: " ++ show_time (Some from) ++ lit "--" ++ show_time (Some to) ++ lit " => " ++ span from to)
  | HClock from None => Done (lit "CLOCK: " ++ show_time (Some from))
  | HPriority Added _ new on => n <- must new ;; Done (lit "- Priority " ++ n ++ lit " added on " ++ show_time on)
  | HPriority Changed old new on =>
      n <- must new ;; o <- must old ;;
      Done (lit "- Priority " ++ n ++ lit " changed from " ++ o ++ lit " on " ++ show_time on)
  | HPriority Removed old _ on => o <- must old ;; Done (lit "- Priority " ++ o ++ lit " removed on " ++ show_time on)
  | HDeadline _ _ _ | HSchedule _ _ _ | HUnknown => d <- must (edesc e) ;; Done (lit "- " ++ show_nodes d)
  end.
(** 1535-1546: the line, and what is written below it, indented by two *)
Record wrote := Wrote { wline : str; wbelow : list sem }.
Definition write_entry (e : entry) : res wrote :=
  l <- write_head e ;;
  match edesc e with
  | Some d => Done (Wrote (l ++ lit " \\") d)
  | None => Done (Wrote l [])
  end.
End Write.
