(** Specification of the regrouping of tokens into lists and blocks. *)
From Verif Require Import Base StrModel TokKind TokModel RegroupModel.
Local Open Scope nat_scope.

(** The tokens of a stream without the markers that were added *)
Fixpoint base_tokens (l : list item) : list token :=
  match l with
  | [] => []
  | Base t :: r => t :: base_tokens r
  | Mark _ :: r => base_tokens r
  end.

(** What may happen to a token: nothing, or characters are removed from its beginning. These are spaces unless
    the token is the marker of a list item, a clock, an indentation or the end of a line (which can only happen
    when such a token is the first one of a line in a source block). *)
Definition marker_token (k : tk) : bool :=
  match k with
  | kLeadingSpace | kLeadingPlus | kLeadingNumber | kLeadingMinus | kTreeClock
  | kNewline | kMediumNewline | kLongNewline | kEndOfFile => true
  | _ => false
  end.
Inductive kept : token -> token -> Prop :=
| kept_same : forall t, kept t t
| kept_less : forall k a b p c l,
    marker_token k = true \/ Forall (eq 32%Z) a -> kept (Token k (a ++ b) p c l) (Token k b p c l).

(** ** Indentation markers *)
(** How many levels are open after a stream, if it never closes one that is not open. *)
Fixpoint levels (d : nat) (l : list item) : option nat :=
  match l with
  | [] => Some d
  | Mark kIndent :: r => levels (S d) r
  | Mark kDedent :: r => match d with O => None | S d' => levels d' r end
  | _ :: r => levels d r
  end.

(** The indentations of the lists that are open after the groups of one block: an item closes the deeper ones and
    opens its own, anything else closes the deeper ones. *)
Fixpoint open_lists (gs : list (bool * nat)) (open : list nat) : list nat :=
  match gs with
  | [] => open
  | (is_list_item, i) :: r =>
      open_lists r (if is_list_item then filter (fun j => j <? i) open ++ [i] else filter (fun j => j <=? i) open)
  end.
(** Every item is either indented more than all lists that are open, or exactly as one of them. *)
Fixpoint regular_indents (gs : list (bool * nat)) (open : list nat) : Prop :=
  match gs with
  | [] => True
  | (is_list_item, i) :: r =>
      (is_list_item = true -> In i open \/ Forall (fun j => j < i) open) /\
      regular_indents r (open_lists [(is_list_item, i)] open)
  end.

(** A line of a plain list: the marker with its indentation, a space, anything, the end of the line. The items
    are compared by the column where their text begins. *)
Definition item_line (l : list token) (i : nat) : Prop :=
  exists m w body e, l = m :: w :: body ++ [e] /\
    In (kind m) [kLeadingMinus; kLeadingPlus; kLeadingNumber] /\ i = length (filter (Z.eqb 32) (text m)) + 2 /\
    kind w = kWhitespace /\ Forall (fun t => line_end (kind t) = false) body /\ line_end (kind e) = true.
Definition ends_with_marker (l : list item) : Prop :=
  exists l' k, l = l' ++ [Mark k] /\ In k [kIndent; kSameIndent; kListItemEnd].
(** What separates an item from the next one with the same indentation: two empty lines end the list. *)
Definition long_end (l : list token) : bool :=
  match rev l with t :: _ => match kind t with kLongNewline => true | _ => false end | [] => false end.
Definition between (l : list token) : list item :=
  if long_end l then [Mark kDedent; Mark kIndent] else [Mark kSameIndent].

(** ** Source blocks *)
(** A line of source code as the lexer gives it: the text or a reference to another block, whatever follows, the
    end of the line *)
Definition code_line (l : list token) : Prop :=
  exists t body e, l = t :: body ++ [e] /\ (kind t = kSrcContent \/ kind t = kDoubleAngleBegin /\ text t = [60; 60]%Z) /\
    Forall (fun t => line_end (kind t) = false) body /\ line_end (kind e) = true.
(** Nothing is written on the line *)
Definition empty_code (l : list token) : bool :=
  match l with [t; e] => match text t with [] => true | _ => false end | _ => false end.
Definition code_indent (l : list token) : nat := match l with t :: _ => run_len (Z.eqb 32) (text t) | [] => 0 end.
(** The line without its first [n] characters *)
Definition strip (n : nat) (l : list token) : list token :=
  match l with
  | t :: r => Token (kind t) (skipn n (text t)) (tpos t) (tcol t) (tline t) :: r
  | [] => []
  end.
(** The line that begins a source block, with the given indentation, and the line that ends it *)
Definition begin_src (l : list token) (i : nat) : Prop :=
  exists sp cmd b rest e, l = sp ++ cmd :: b :: rest ++ [e] /\
    (sp = [] /\ i = 0 \/ exists s, sp = [s] /\ kind s = kLeadingSpace /\ i = length (text s)) /\
    kind cmd = kLineCommand /\ kind b = kCmdSrcBegin /\
    Forall (fun t => line_end (kind t) = false) rest /\ line_end (kind e) = true.
Definition end_src (l : list token) : Prop :=
  exists b rest e, l = b :: rest ++ [e] /\ kind b = kCmdSrcEnd /\
    Forall (fun t => line_end (kind t) = false) rest /\ line_end (kind e) = true.
(** [n] is the indentation that all of the source has in common with its first line. *)
Definition common_indent (n i : nat) (ls : list (list token)) : Prop :=
  n <= i /\ (forall l, In l ls -> empty_code l = false -> n <= code_indent l) /\
  (n = i \/ exists l, In l ls /\ empty_code l = false /\ n = code_indent l).
