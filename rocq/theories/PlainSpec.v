(** Plain documents: headings and paragraphs of words, some of them marked. How such a document is written, and what a
    reader of it expects to find in the tree. Only the type of document trees is shared with the model. *)
From Coq Require Import String.
From Verif Require Import Base StrModel TokSpec RecombSpec.
From Verif Require Import ConvModel ConvSpec.
Local Open Scope nat_scope.

Inductive mark := Bold | Italic | Underline | Strike.
(** Words with a space between them, as they are or marked as a whole; a line of such spans; lines that are a paragraph,
    with the number of empty lines after it; a heading, with the number of empty lines after it, the paragraphs below
    it and the headings below it. *)
Record span := Span { how : option mark; said : list str }.
Notation line := (list span).
Record par := Par { lines : list line; gap : nat }.
Inductive section := Sec (stars : nat) (title : line) (gap : nat) (pars : list par) (below : list section).
Definition stars_of (s : section) : nat := match s with Sec n _ _ _ _ => n end.

(** *** The text *)
Definition mark_char (m : mark) : byte := match m with Bold => 42 | Italic => 47 | Underline => 95 | Strike => 43 end%Z.
Fixpoint spaced (ws : list str) : str :=
  match ws with [] => [] | [w] => w | w :: r => w ++ 32%Z :: spaced r end.
Definition around (m : option mark) : str := match m with Some m => [mark_char m] | None => [] end.
Definition span_text (s : span) : str := around (how s) ++ spaced (said s) ++ around (how s).
Definition line_written (l : line) : str := spaced (map span_text l) ++ [10%Z].
Definition par_text (p : par) : str := concat (map line_written (lines p)) ++ repeat 10%Z (gap p).
Fixpoint section_text (s : section) : str :=
  match s with
  | Sec n t g ps l =>
      repeat 42%Z n ++ 32%Z :: line_written t ++ repeat 10%Z g ++ concat (map par_text ps) ++ concat (map section_text l)
  end.
Definition document_text (ps : list par) (ss : list section) : str :=
  concat (map par_text ps) ++ concat (map section_text ss).

(** *** Which documents *)
(** Words are of letters; [plain_word] leaves out those that begin links or source code. Spans, lines and paragraphs are
    not empty. Between two paragraphs there is an empty line. *)
Definition span_ok (s : span) : Prop := said s <> [] /\ Forall plain_word (said s).
Definition line_ok (l : line) : Prop := l <> [] /\ Forall span_ok l.
Definition par_ok (p : par) : Prop := lines p <> [] /\ Forall line_ok (lines p).
Fixpoint apart (ps : list par) : Prop :=
  match ps with p :: (_ :: _) as r => gap p <> 0 /\ apart r | _ => True end.
(** A heading belongs to the last one before it that has fewer stars. *)
Inductive sections_ok : nat -> list section -> Prop :=
| no_sections outer : sections_ok outer []
| one_section outer n t g ps l rest :
    outer < n -> line_ok t -> Forall par_ok ps -> apart ps -> sections_ok n l ->
    (forall s r, rest = s :: r -> stars_of s <= n) -> sections_ok outer rest ->
    sections_ok outer (Sec n t g ps l :: rest).
Definition plain_document (ps : list par) (ss : list section) : Prop :=
  Forall par_ok ps /\ apart ps /\ sections_ok 0 ss.

(** *** The tree *)
Definition leaf (k : osk) (s : str) : sem := Sem k (text [s]) [] [] [].
Definition mark_kind (m : mark) : osk := match m with Bold => oBold | Italic => oItalic | Underline => oUnderline | Strike => oStrike end.
Fixpoint between {A} (x : A) (ls : list (list A)) : list A :=
  match ls with [] => [] | [l] => l | l :: r => l ++ x :: between x r end.
(** A word in capitals may be a keyword and has a kind of its own. *)
Definition word_tree (w : str) : sem := leaf (if upper_word w then oBigIdent else oWord) w.
Definition space_tree : sem := leaf oSpace [32%Z].
Definition span_tree (s : span) : list sem :=
  let ws := between space_tree (map (fun w => [word_tree w]) (said s)) in
  match how s with Some m => [node (mark_kind m) ws] | None => ws end.
Definition line_tree (l : line) : list sem := between space_tree (map span_tree l).
Definition par_tree (p : par) : list sem :=
  node oParagraph (between (leaf oNewline [10%Z]) (map line_tree (lines p))) ::
  match gap p with 0 => [] | S _ => [leaf oNewline (repeat 10%Z (S (gap p)))] end.
(** The word COMMENT at the beginning of a title is not part of it but makes the heading a comment. *)
Definition is_comment (t : line) : bool :=
  match t with Span None (w :: _) :: _ => str_is w "COMMENT" | _ => false end.
Definition title_tree (t : line) : list sem := if is_comment t then skipn 2 (line_tree t) else line_tree t.
Fixpoint section_tree (s : section) : sem :=
  match s with
  | Sec n t _ ps l =>
      Sem oSubtree (D [[]; []] [Z.of_nat n; flag (is_comment t); 0%Z] [] []) [(FTitle, node oParagraph (title_tree t))]
        (flat_map par_tree ps ++ map section_tree l) []
  end.
Definition document_tree (ps : list par) (ss : list section) : sem :=
  node oDocument (flat_map par_tree ps ++ map section_tree ss).
