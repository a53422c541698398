(** What the text layout properties talk about. *)
From Coq Require Import ZArith List Bool Lia Sorting.Sorted.
From Verif Require Import Base LayoutModel.
Import ListNotations.
Local Open Scope Z_scope.

Section Spec.
Context {L : Type}.
Implicit Types (s : list (piece L)) (p : piece L).

(** The piece in force at column [m]: the last one starting at or before it. *)
Definition piece_at s (m : Z) : option (piece L) :=
  last (map Some (filter (fun p => pknot p <=? m) s)) None.

(** Cost, width and layout a solution gives for start column [m]. *)
Definition cost s m : option Z :=
  option_map (fun p => pint p + pgrad p * (m - pknot p)) (piece_at s m).
Definition span_at s m : option Z := option_map (@pspan L) (piece_at s m).
Definition slope_at s m : option Z := option_map (@pgrad L) (piece_at s m).
Definition layout_at s m : option L := option_map (@plyt L) (piece_at s m).

(** Solutions as the library documents them: the first knot is 0, knots
    increase (and are below the "infinite" column), nothing is negative. *)
Definition proper s : Prop :=
  (exists p s', s = p :: s' /\ pknot p = 0) /\
  StronglySorted Z.lt (map (@pknot L) s) /\
  Forall (fun p => pknot p < infty /\ 0 <= pspan p /\ 0 <= pint p /\ 0 <= pgrad p) s.

(** Columns a solution is asked about. *)
Definition column (m : Z) : Prop := 0 <= m < infty.

(** [v] is the least cost of the alternatives at [m], reached by one of them
    with width [w]. *)
Definition cheapest (ss : list (list (piece L))) (m v w : Z) : Prop :=
  (exists s, In s ss /\ cost s m = Some v /\ span_at s m = Some w) /\
  (forall s v', In s ss -> cost s m = Some v' -> v <= v').

(** The first of the cheapest alternatives at [m] grows faster than another
    one that is just as cheap there. *)
Definition steeper_tie (ss : list (list (piece L))) (m : Z) : Prop :=
  exists i j si sj v gi gj,
    nth_error ss i = Some si /\ nth_error ss j = Some sj /\
    cost si m = Some v /\ cost sj m = Some v /\
    (forall s v', In s ss -> cost s m = Some v' -> v <= v') /\
    (forall i' s v', (i' < i)%nat -> nth_error ss i' = Some s -> cost s m = Some v' -> v < v') /\
    slope_at si m = Some gi /\ slope_at sj m = Some gj /\ gj < gi.

(** Sums of optional numbers. *)
Fixpoint osum (l : list (option Z)) : option Z :=
  match l with
  | [] => Some 0
  | Some x :: l' => option_map (Z.add x) (osum l')
  | None :: _ => None
  end.

(** Cost of overhanging the two margins at column [c]. *)
Definition overhang (o : options) (c : Z) : Z :=
  left_cost o * Z.max 0 (c - left_margin o) + right_cost o * Z.max 0 (c - right_margin o).
(** What one more column of overhang costs at column [c]. *)
Definition overhang_rate (o : options) (c : Z) : Z :=
  (if left_margin o <=? c then left_cost o else 0) + (if right_margin o <=? c then right_cost o else 0).

Definition options_ok (o : options) : Prop :=
  0 <= left_margin o /\ left_margin o < right_margin o /\ 0 <= left_cost o /\ 0 <= right_cost o.

(** No piece of [s] ends its line before a margin at its own knot and after
    the margin at the next one; the last piece ends at or after the margins. *)
Fixpoint aligned (o : options) s : Prop :=
  match s with
  | [] => True
  | p :: s' =>
      match s' with
      | [] => right_margin o <= pknot p + pspan p
      | q :: _ =>
          (pknot p + pspan p < left_margin o -> pknot q + pspan p <= left_margin o) /\
          (pknot p + pspan p < right_margin o -> pknot q + pspan p <= right_margin o)
      end /\ aligned o s'
  end.

(** At every column [s] costs at least the overhang of that column. *)
Definition pays (o : options) s : Prop :=
  forall m c g, 0 <= m -> cost s m = Some c -> slope_at s m = Some g ->
    overhang o m <= c /\ overhang_rate o m <= g.

(** Knots and widths well below the "infinite" column. *)
Definition small s : Prop := Forall (fun p => pknot p <= 2 ^ 28 /\ pspan p <= 2 ^ 28) s.

(** Putting [s2] right of [s1], started at column [m]. *)
Definition beside (o : options) s1 s2 (m : Z) (c w g : Z) : Prop :=
  exists c1 w1 g1 c2 w2 g2,
    cost s1 m = Some c1 /\ span_at s1 m = Some w1 /\ slope_at s1 m = Some g1 /\
    cost s2 (m + w1) = Some c2 /\ span_at s2 (m + w1) = Some w2 /\ slope_at s2 (m + w1) = Some g2 /\
    c = c1 + c2 - overhang o (m + w1) /\ w = w1 + w2 /\ g = g1 + g2 - overhang_rate o (m + w1).

End Spec.

(** ** Printed text *)

(** The text of a layout printed at column [col] with left margin [mar]: the
    events and the column reached.  A nested layout takes the column it starts
    at as its margin; after a line break printing continues at the margin. *)
Fixpoint print_strs (strs : list lytstr) (col : Z) : list event * Z :=
  match strs with
  | [] => ([], col)
  | x :: strs' =>
      let here := match lid x with
                  | NilId => []
                  | SpacesId => if llen x =? 0 then [] else [EvSpaces (llen x)]
                  | TextId n => [EvText n (llen x)]
                  end in
      let w := match lid x with NilId => 0 | _ => llen x end in
      let '(ev, c) := print_strs strs' (col + w) in (here ++ ev, c)
  end.

Definition spaces (n : Z) : list event := if n =? 0 then [] else [EvSpaces n].

Fixpoint print_elem (e : elem) (mar col : Z) : list event * Z :=
  match e with
  | EString strs => print_strs strs col
  | ENewline => (EvNewline :: spaces mar, mar)
  | ENewlineSpace n => (EvNewline :: spaces mar ++ spaces n, mar + n)
  | EPrint l =>
      (fix go (l : list elem) (c : Z) : list event * Z :=
         match l with
         | [] => ([], c)
         | e' :: l' =>
             let '(ev, c1) := print_elem e' col c in
             let '(ev', c2) := go l' c1 in (ev ++ ev', c2)
         end) l col
  end.
Fixpoint print_list (l : list elem) (mar col : Z) : list event * Z :=
  match l with
  | [] => ([], col)
  | e :: l' =>
      let '(ev, c1) := print_elem e mar col in
      let '(ev', c2) := print_list l' mar c1 in (ev ++ ev', c2)
  end.

(** The column after a list of events started at column [c]. *)
Definition col_after (c : Z) (ev : list event) : Z :=
  fold_left (fun c e => match e with EvText _ n => c + n | EvSpaces n => c + n | EvNewline => 0 end) ev c.

(** Widths in a layout are not negative. *)
Definition widths_ok (strs : list lytstr) : Prop := Forall (fun x => 0 <= llen x) strs.
Fixpoint elem_ok (e : elem) : Prop :=
  match e with
  | EString strs => widths_ok strs
  | ENewline => True
  | ENewlineSpace n => 0 <= n
  | EPrint l => (fix all (l : list elem) : Prop := match l with [] => True | e :: l' => elem_ok e /\ all l' end) l
  end.

(** ** What a block may print as *)

(** Strings and line breaks, indentation left out. *)
Inductive tok := TStr (x : lytstr) | TNl.
Fixpoint toks_of (e : elem) : list tok :=
  match e with
  | EString strs => map TStr strs
  | ENewline => [TNl]
  | ENewlineSpace n => [TNl; TStr (mkStr SpacesId n)]
  | EPrint l => flat_map toks_of l
  end.
Definition toks (l : list elem) : list tok := flat_map toks_of l.

Fixpoint lines (tss : list (list tok)) : list tok :=
  match tss with
  | [] => []
  | [ts] => ts
  | ts :: tss' => ts ++ TNl :: lines tss'
  end.

(** [reads b ts]: resolving every choice in [b] to one of its alternatives
    gives the text [ts]. *)
Inductive reads : block -> list tok -> Prop :=
| reads_text : forall strs, reads (BText strs) (map TStr strs)
| reads_line : forall l tss, Forall2 reads l tss -> reads (BLine l) (concat tss)
| reads_stack : forall k l tss, Forall2 reads l tss -> reads (BStack k l) (lines tss)
| reads_choice : forall l b ts, In b l -> reads b ts -> reads (BChoice l) ts.

(** No Empty block and no line, stack or choice without elements. *)
Fixpoint solid (b : block) : Prop :=
  match b with
  | BText _ => True
  | BEmpty => False
  | BLine l | BStack _ l | BChoice l =>
      l <> [] /\ (fix all (l : list block) : Prop := match l with [] => True | e :: l' => solid e /\ all l' end) l
  end.

(** Texts ([Some]) and line breaks ([None]) in printing order. *)
Definition ev_words (e : event) : list (option nat) :=
  match e with EvText n _ => [Some n] | EvSpaces _ => [] | EvNewline => [None] end.
Definition tok_words (t : tok) : list (option nat) :=
  match t with TStr x => match lid x with TextId n => [Some n] | _ => [] end | TNl => [None] end.
