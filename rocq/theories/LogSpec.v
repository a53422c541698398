(** What an entry of a logbook says: the sentence of each kind of entry, how it is spelled, and which items stop the
    reading. Nothing here uses the functions of LogModel.v. *)
From Coq Require Import String.
From Verif Require Import Base StrModel ConvModel LogModel.
Local Open Scope nat_scope.

(** The pieces of a line *)
Inductive piece :=
| PWord (w : string) | PGap | PQuote | PName (s : str) | PTime (t : str) | PRange (from to : str) | PTag (t : htag)
| PLink (t : target).
Definition is_leaf (k : osk) (s : str) (x : sem) : Prop := x = Sem k (text [s]) [] [] [].
Definition is_time (t : str) (x : sem) : Prop := exists a r, x = Sem oTime (D [t] (a :: 1%Z :: r) [] []) [] [] [].
Fixpoint tag_node (t : htag) : sem :=
  let 'HT h l := t in Sem oHashTag (text [h]) (map (fun x => (FSubtag, tag_node x)) l) [] [].
(** A node is what the line has in the place of a piece; words are compared as names are: only letters
    and digits count, and capitals do not matter. *)
Definition fits (p : piece) (x : sem) : Prop :=
  match p with
  | PWord w => exists s, is_leaf oWord s x /\ normalize s = lit w
  | PGap => exists n, is_leaf oSpace (repeat 32%Z n) x
  | PQuote => is_leaf oPunctuation [34%Z] x
  | PName s => is_leaf oBigIdent s x
  | PTime t => is_time t x
  | PRange f t => exists a b, is_time f a /\ is_time t b /\ x = Sem oTimeRange nothing [(FFrom, a); (FTo, b)] [] []
  | PTag t => x = tag_node t
  | PLink t => exists f, x = Sem oLink (D [] [] [] [t]) f [] []
  end.

(** The sentences: - Tag "#t" Added on [..], - State "A" from "B" [..], - Note taken on [..], - Refiled on [..] from
    [[..]], - Priority A added on [..], - Priority A changed from B on [..], CLOCK: [..], CLOCK: [..]--[..]. A removed
    priority, a deadline and a schedule are not here: see C121_removed_refuted and C121_deadline_refuted. *)
Definition spaced (l : list (list piece)) : list piece :=
  match l with [] => [] | p :: r => p ++ flat_map (fun q => PGap :: q) r end.
Definition w (s : string) : list piece := [PWord s].
Definition sentence (h : lhead) : option (list piece) :=
  match h with
  | HTag t added (Some on) =>
      Some (spaced [w "tag"; [PQuote; PTag t; PQuote]; w (if added then "added" else "removed"); w "on"; [PTime on]])
  | HState from to (Some on) =>
      Some (spaced [w "state"; [PQuote; PName to; PQuote]; w "from";
                    match from with [] => [PQuote; PQuote] | _ => [PQuote; PName from; PQuote] end; [PTime on]])
  | HNote (Some on) => Some (spaced [w "note"; w "taken"; w "on"; [PTime on]])
  | HRefile (Some on) (Some t) => Some (spaced [w "refiled"; w "on"; [PTime on]; w "from"; [PLink t]])
  | HPriority Added None (Some new) (Some on) => Some (spaced [w "priority"; [PName new]; w "added"; w "on"; [PTime on]])
  | HPriority Changed (Some old) (Some new) (Some on) =>
      Some (spaced [w "priority"; [PName new]; w "changed"; w "from"; [PName old]; w "on"; [PTime on]])
  | HClock from None => Some [PTime from]
  | HClock from (Some to) => Some [PRange from to]
  | _ => None
  end.
(** What may follow on the line, and the nodes below it: two backslashes, and the text of the description. *)
Definition newline (x : sem) : Prop := exists n, is_leaf oNewline (repeat 10%Z n) x.
Inductive ending : list sem -> list sem -> Prop :=
| end_here : ending [] []
| end_line x : newline x -> ending [x] []
| end_more g b x d : fits PGap g -> is_leaf oPunctuation [92; 92]%Z b -> newline x ->
    match d with y :: _ => skind y <> oNewline /\ skind y <> oSpace | [] => True end -> ending (g :: b :: x :: d) d.
Definition description (d more : list sem) : option (list sem) :=
  match d, more with [], [] => None | [], _ => Some more | _, _ => Some (Sem oParagraph nothing [] d [] :: more) end.

(** A node that says a word: a leaf with this text. *)
Definition leaf_kind (k : osk) : Prop :=
  In k [oEscaped; oNewline; oSpace; oWord; oAtMention; oRawText; oPunctuation; oPlaceholder; oBigIdent; oTextTarget; oErrorSkipToken].
Definition says (v : string) (x : sem) : Prop :=
  leaf_kind (skind x) /\ normalize (hd [] (dtext (sdata x))) = lit v.
(** The description of a change of state must not say "on", and if there was no state before it must not have a
    name in capitals: see C121_state_time_refuted. *)
Definition undisturbed (h : lhead) (d : list sem) : Prop :=
  match h with
  | HState from _ _ => Forall (fun x => ~ says "on" x) d /\ (from = [] -> Forall (fun x => skind x <> oBigIdent) d)
  | _ => True
  end.

(** How the sentence is spelled *)
Fixpoint joined (l : list str) : str := match l with [] => [] | [x] => x | x :: r => x ++ 44%Z :: joined r end.
Fixpoint tag_text (t : htag) : str :=
  let 'HT h l := t in
  match l with
  | [] => h
  | [x] => h ++ lit "##" ++ tag_text x
  | _ => h ++ lit "##[" ++ joined (map tag_text l) ++ lit "]"
  end.
Definition capital (v : string) : bool :=
  existsb (String.eqb v) ["tag"; "state"; "note"; "refiled"; "priority"]%string.
Definition upper_first (s : str) : str := match s with c :: r => (c - 32)%Z :: r | [] => [] end.
Section Spell.
Variable show_target : target -> str.
Variable span : str -> str -> str.
Definition bracketed (t : str) : str := lit "[" ++ t ++ lit "]".
Definition spell (p : piece) : str :=
  match p with
  | PWord v => if capital v then upper_first (lit v) else lit v
  | PGap => lit " "
  | PQuote => lit """"
  | PName s => s
  | PTime t => bracketed t
  | PRange f t => bracketed f ++ lit "--" ++ bracketed t ++ lit " => " ++ span f t
  | PTag t => lit "#" ++ tag_text t
  | PLink t => lit "[[" ++ show_target t ++ lit "]]"
  end.
(** The line of an entry. The word after a tag has a capital too. *)
Definition bullet (h : lhead) : str := match h with HClock _ _ => lit "CLOCK: " | _ => lit "- " end.
Definition spelled (h : lhead) (ps : list piece) : str :=
  bullet h ++ flat_map (fun p => match h, p with
    | HTag _ _ _, PWord v => if String.eqb v "on" then spell p else upper_first (lit v)
    | _, _ => spell p
    end) ps.
End Spell.

(** *** Which items stop the reading of the document *)
(** The words of the first line *)
Inductive first_words : list sem -> list str -> Prop :=
| fw_end : first_words [] []
| fw_line x r : skind x = oNewline -> first_words (x :: r) []
| fw_word x r ws : skind x = oWord -> first_words r ws -> first_words (x :: r) (normalize (hd [] (dtext (sdata x))) :: ws)
| fw_other x r ws : skind x <> oNewline -> skind x <> oWord -> first_words r ws -> first_words (x :: r) ws.
(** A node of a kind after a word, with no other word between *)
Definition has_after (v : string) (k : osk) (l : list sem) : Prop :=
  exists a x m t c, l = a ++ x :: m ++ t :: c /\ says v x /\ Forall (fun y => skind y <> oWord) m /\ skind t = k.
Definition on_first_line (k : osk) (l : list sem) : Prop :=
  exists a t c, l = a ++ t :: c /\ Forall (fun y => skind y <> oNewline) a /\ skind t = k.
(** Times that are dates, and ranges with both ends *)
Definition dated (x : sem) : Prop :=
  (skind x = oTime -> exists t, is_time t x) /\
  (skind x = oTimeRange -> exists f t, fits (PRange f t) x).
Definition stops (l : list sem) (ws : list str) : Prop :=
  match ws with
  | [] => Forall (fun x => skind x <> oTime /\ skind x <> oTimeRange) l
  | v :: r =>
      (v = lit "tag" /\ r = [] /\ has_after "tag" oHashTag l) \/
      (v = lit "refiled" /\ ~ on_first_line oTime l) \/
      (v = lit "priority" /\ hd [] r <> lit "deadline" /\
       ~ In (lit "added") r /\ ~ In (lit "changed") r /\ ~ In (lit "removed") r)
  end.
(** Words an unknown entry does not start with *)
Definition unknown_words (ws : list str) : Prop :=
  match ws with
  | [] => False
  | v :: r => ~ In v (map lit ["tag"; "state"; "refiled"; "priority"; "note"]%string) /\ hd [] r <> lit "deadline"
  end.
