(** What a report should show. *)
From Coq Require Import ZArith List Bool Arith.
From Verif Require Import Base ReportModel.
Import ListNotations.

(** Number of line breaks before a position, and the distance to the last one. *)
Definition breaks (t : list Z) : nat := length (filter (Z.eqb 10) t).
Definition line_of (t : list Z) (p : nat) : nat := breaks (firstn p t).
Fixpoint until_break (t : list Z) : nat :=
  match t with [] => 0 | c :: t' => if Z.eqb c 10 then 0 else Datatypes.S (until_break t') end.
Definition col_of (t : list Z) (p : nat) : nat := until_break (rev (firstn p t)).
(** The text of the line a position is in. *)
Definition text_around (t : list Z) (p : nat) : list Z :=
  firstn (col_of t p + until_break (skipn p t)) (skipn (p - col_of t p) t).

(** A position of the text, but not the one behind a line break at its end. *)
Definition inside (t : list Z) (p : nat) : Prop := p <= length t /\ (p = length t -> forall t', t <> t' ++ [10%Z]).
Definition label_inside (t : list Z) (l : label) : Prop := inside t (from l) /\ from l <= to l <= length t.
(** A label that does not end with a line break. *)
Definition clear (t : list Z) (l : label) : Prop := to l = from l \/ nth_error t (to l - 1) <> Some 10%Z.

(** The last character of a label. *)
Definition final (l : label) : nat := Nat.max (to l - 1) (from l).
Definition many (t : list Z) (l : label) : Prop := line_of t (from l) <> line_of t (final l).

(** The labels written in a report, each with the number of the line above it
    and its column, for one label. *)
Fixpoint notes (id : nat) (cur : nat) (is : list item) : list (nat * nat) :=
  match is with
  | [] => []
  | Gap :: is' => notes id cur is'
  | Src n _ :: is' => notes id n is'
  | Note l :: is' => (if lid (lab l) =? id then [(cur, lcol l)] else []) ++ notes id cur is'
  end.
(** Every line written has the number and the text of a line of the source. *)
Definition true_lines (t : list Z) (is : list item) : Prop :=
  forall n x, In (Src n x) is -> exists p, p <= length t /\ n = line_of t p + 1 /\ x = text_around t p.
(** The sources of labels, in the order in which they are mentioned first. *)
Fixpoint mentioned (seen : list nat) (ls : list label) : list nat :=
  match ls with
  | [] => []
  | l :: ls' => if existsb (Nat.eqb (lsrc l)) seen then mentioned seen ls' else lsrc l :: mentioned (seen ++ [lsrc l]) ls'
  end.
Definition about (id : nat) (ls : list label) : list label := filter (fun l => lsrc l =? id) ls.
(** The name of a place in a header. *)
Definition location (t : list Z) (p : nat) : nat * nat := (line_of t p + 1, col_of t p + 1).
