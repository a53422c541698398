(** What comment blocks are. *)
From Coq Require Import ZArith List Bool Lia Sorted.
From Verif Require Import Base StrModel StrSpec CommentModel.
Import ListNotations.
Local Open Scope nat_scope.

(** The lines of a text: a final line break does not start a line. *)
Definition has_lines (text : list Z) (lines : list (list Z)) : Prop :=
  Forall (fun l => ~ In nl l) lines /\
  (text = [] /\ lines = [] \/
   text <> [] /\ lines <> [] /\ last text 0%Z = nl /\ text = join [nl] lines ++ [nl] \/
   text <> [] /\ last text 0%Z <> nl /\ text = join [nl] lines).

(** A line without any of the prefixes; a comment line: where its leftmost
    prefix is and what follows it. *)
Definition plain (prefixes : list (list Z)) (line : list Z) : Prop := forall p, In p prefixes -> ~ occurs p line.
Definition comment (prefixes : list (list Z)) (line : list Z) (col : nat) (body : list Z) : Prop :=
  exists ps p ps' a, prefixes = ps ++ p :: ps' /\ line = a ++ p ++ body /\ length a = col /\
    (forall q j, In q prefixes -> occurs_at q line j -> col <= j) /\ forall q, In q ps -> ~ occurs_at q line col.

(** Maximal runs of comment lines, each with the number of its first line. *)
Inductive runs (prefixes : list (list Z)) : nat -> list (list Z) -> list (nat * list (nat * list Z)) -> Prop :=
| runs_none : forall i ls, Forall (plain prefixes) ls -> runs prefixes i ls []
| runs_more : forall i ps cs bodies rest rs, Forall (plain prefixes) ps ->
    Forall2 (fun l b => comment prefixes l (fst b) (snd b)) cs bodies -> cs <> [] ->
    (rest = [] \/ exists l r, rest = l :: r /\ plain prefixes l) ->
    runs prefixes (i + length ps + length cs) rest rs ->
    runs prefixes i (ps ++ cs ++ rest) ((i + length ps, bodies) :: rs).

(** A text that starts, blanks apart, with a prefix. *)
Definition starts_comment (prefixes : list (list Z)) (t : list Z) : Prop :=
  exists p a b, In p prefixes /\ t = a ++ p ++ b /\ forallb blank a = true.

Definition one_space_off (t t' : list Z) : Prop := t = 32%Z :: t' \/ (t' = t /\ forall r, t <> 32%Z :: r).

(** The fragment of a run.  Its text is that of its lines, one space each taken
    off, unless the last is empty or a later one repeats a prefix. *)
Definition fragment_of (prefixes : list (list Z)) (r : nat * list (nat * list Z)) (f : frag) : Prop :=
  base_line f = fst r /\ (exists c b bs, snd r = (c, b) :: bs /\ base_col f = c) /\
  (last (map snd (snd r)) [] <> [] -> (forall t, In t (tl (map snd (snd r))) -> ~ starts_comment prefixes t) ->
   exists ts, Forall2 one_space_off (map snd (snd r)) ts /\ ftext f = join [nl] ts).
