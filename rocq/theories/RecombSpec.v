(** Specification of the last stage of the tokenizer: what the final tokens have to do with the regrouped ones. *)
From Coq Require Import String.
From Verif Require Import Base StrModel TokKind TokModel TokSpec RegroupModel.
Local Open Scope nat_scope.

(** The kinds a markup character may get: it opens, it closes, it may do either, or it is itself *)
Definition roles (k : tk) : list tk :=
  match k with
  | kAsterisk => [kBoldBegin; kBoldEnd; kBoldUnknown; kPunctuation]
  | kForwardSlash => [kItalicBegin; kItalicEnd; kItalicUnknown; kPunctuation]
  | kUnderline => [kUnderlineBegin; kUnderlineEnd; kUnderlineUnknown; kPunctuation]
  | kPlus => [kStrikeBegin; kStrikeEnd; kStrikeUnknown; kPunctuation]
  | kEquals => [kVerbatimBegin; kVerbatimEnd; kEquals]
  | kTilda => [kMonospaceBegin; kMonospaceEnd; kPunctuation]
  | _ => []
  end.
(** One token that becomes one: it stays where it was, and keeps its text except for the characters that only
    delimit it. *)
Definition cut (a s b s' : str) : Prop := s = a ++ s' ++ b.
Definition turned (t t' : otok) : Prop :=
  opos t' = opos t /\
  match okind t with
  | kAsterisk | kForwardSlash | kUnderline | kPlus | kEquals | kTilda => otext t' = otext t /\ In (okind t') (roles (okind t))
  | kWord => otext t' = otext t /\ (okind t' = kWord \/ okind t' = kBigIdent /\ Forall (fun c => is_upper c = true \/ c = 95%Z) (otext t))
  | kAt | kEscaped => okind t' = okind t /\ exists a, cut a (otext t) [] (otext t') /\ length a = Nat.min 1 (length (otext t))
  | kPlaceholder => okind t' = okind t /\ exists a b, cut a (otext t) b (otext t') /\ length a <= 1 /\ length b <= 1
  | kTextSrcBegin => okind t' = okind t /\ exists a, cut a (otext t) [] (otext t') /\ length a = 4
  | kColonExampleLine => okind t' = okind t /\ exists a, cut a (otext t) [] (otext t') /\ length a = Nat.min 2 (length (otext t))
  | kFootnoteLinked => okind t' = okind t /\ exists a b, cut a (otext t) b (otext t') /\
      (a = [] \/ a = lit "[fn:") /\ (b = [] \/ b = lit "]")
  | _ => t' = t
  end.
(** The name of a command: attributes lose the part in front of their name and the colon. *)
Definition named (t t' : otok) : Prop :=
  match okind t with
  | kCmdAttr => okind t' = okind t /\ opos t' = opos t /\ exists a b, cut a (otext t) b (otext t') /\
      (length a = Nat.min 4 (length (otext t)) \/ exists u, a = firstn 4 (otext t) ++ u /\ Forall (eq 95%Z) u) /\
      Forall (fun c => c = 32%Z \/ c = 58%Z) b
  | _ => t' = t
  end.
(** What follows the name of a command of a kind, and what becomes of it *)
Definition in_line_ (l : list otok) : Prop := Forall (fun t => line_end (okind t) = false) l.
Inductive arguments (k : tk) : list otok -> list otok -> Prop :=
| args_none : k <> kCmdPropertyText -> k <> kCmdSrcBegin -> arguments k [] []
| args_title : forall l, k = kCmdTitle -> Forall (fun t => okind t = kWhitespace) l -> arguments k l []
| args_kept : forall l, In k [kCmdExampleBegin; kCmdExportBegin; kCmdPropertyArgs] -> in_line_ l -> arguments k l l
| args_property : forall t, k = kCmdPropertyText -> arguments k [t] [OTok kCmdRawArg (otext t) (opos t)]
| args_source : forall l e, k = kCmdSrcBegin -> in_line_ l -> (e = [] \/ exists t, e = [t] /\ line_end (okind t) = true) ->
    arguments k (l ++ e) (l ++ [OTok kCmdContentBegin [] None]).

(** Every regrouped token in order, and what becomes of it *)
Inductive recombined : list otok -> list otok -> Prop :=
| rc_end : recombined [] []
| rc_one : forall t t' a b, turned t t' -> okind t <> kLineCommand -> recombined a b -> recombined (t :: a) (t' :: b)
| rc_command : forall t n n' x x' a b, okind t = kLineCommand -> named n n' -> arguments (okind n) x x' ->
    recombined a b -> recombined (t :: n :: x ++ a) (OTok kCmdPrefix (otext t) (opos t) :: n' :: x' ++ b)
| rc_close : forall t a b, In (okind t) [kCmdExampleEnd; kCmdExportEnd; kCmdSrcEnd] -> recombined a b ->
    recombined (t :: a) (OTok kCmdPrefix [] (opos t) :: t :: b)
| rc_quoted : forall t ts a b, okind t = kCmdRawArg -> Forall (fun u => okind u = kWhitespace \/ okind u = kCmdRawArg) ts ->
    (exists r, otext t = 34%Z :: r) -> (exists r, concat (map otext (t :: ts)) = r ++ [34%Z]) -> recombined a b ->
    recombined (t :: ts ++ a) (OTok kCmdRawArg (concat (map otext (t :: ts))) (opos t) :: b)
| rc_eof : forall t a b, okind t = kEndOfFile -> recombined a b -> recombined (t :: a) b.

(** The positions of tokens in the document, in the order of the tokens *)
Definition positions (l : list otok) : list nat := flat_map (fun t => match opos t with Some p => [p] | None => [] end) l.

(** ** Markup *)
(** The characters that mark bold, italic, underlined, struck out and verbatim text, and the kinds of token for
    their beginning and end *)
Definition mark_kinds : list (byte * (tk * tk)) :=
  [(42%Z, (kBoldBegin, kBoldEnd)); (47%Z, (kItalicBegin, kItalicEnd)); (95%Z, (kUnderlineBegin, kUnderlineEnd));
   (43%Z, (kStrikeBegin, kStrikeEnd)); (61%Z, (kVerbatimBegin, kVerbatimEnd))].
(** A word that may have a mark in front of it, behind it or both *)
Record piece := Piece { opening : option (byte * (tk * tk)); body : str; closing : option (byte * (tk * tk)) }.
Definition plain_piece (p : piece) : Prop :=
  plain_word (body p) /\ (forall m, opening p = Some m -> In m mark_kinds) /\ (forall m, closing p = Some m -> In m mark_kinds).
Definition mark_text (m : option (byte * (tk * tk))) : str := match m with Some (c, _) => [c] | None => [] end.
Definition piece_text (p : piece) : str := mark_text (opening p) ++ body p ++ mark_text (closing p).
(** What the tokens of a word have to be *)
Definition upper_word (w : str) : bool := forallb (fun c => is_upper c || Z.eqb c 95) w.
Definition piece_tokens (p : piece) : list (tk * str) :=
  match opening p with Some (c, (b, _)) => [(b, [c])] | None => [] end ++
  [(if upper_word (body p) then kBigIdent else kWord, body p)] ++
  match closing p with Some (c, (_, e)) => [(e, [c])] | None => [] end.
(** Lines of such words with a space between them *)
Definition marked_line : list piece -> str := fun ps => line_text (map piece_text ps).
Fixpoint marked_tokens (ps : list piece) : list (tk * str) :=
  match ps with
  | [] => []
  | [p] => piece_tokens p ++ [(kNewline, [10%Z])]
  | p :: r => piece_tokens p ++ (kWhitespace, [32%Z]) :: marked_tokens r
  end.

(** Kinds of token that do not belong to a list, to an indented line or to a block *)
Definition text_kind (k : tk) : bool :=
  match k with
  | kLeadingSpace | kMinus | kLeadingNumber | kLeadingMinus | kLeadingPlus | kLineCommand | kTreeClock | kCmdExampleLine | kSrcContent => false
  | k => negb (block_close k)
  end.
