(** Edit scripts, independent of how they are computed. *)
From Coq Require Import ZArith List Bool.
From Verif Require Import Base DiffModel.
Import ListNotations.
Local Open Scope Z_scope.

(** [script eq i j ops i' j']: reading [ops] from the left, with the cursors
    at position [i] of the old and [j] of the new sequence, consumes exactly
    the old items [i, i') and produces exactly the new items [j, j').
    The unused coordinate of an insertion / deletion is unconstrained. *)
Inductive script (eq : Z -> Z -> bool) : Z -> Z -> list edit -> Z -> Z -> Prop :=
| sc_nil i j : script eq i j [] i j
| sc_keep i j ops i' j' :
    eq i j = true -> script eq (i + 1) (j + 1) ops i' j' ->
    script eq i j (mkE Keep i j :: ops) i' j'
| sc_del i j t ops i' j' :
    script eq (i + 1) j ops i' j' -> script eq i j (mkE Delete i t :: ops) i' j'
| sc_ins i j s ops i' j' :
    script eq i (j + 1) ops i' j' -> script eq i j (mkE Insert s j :: ops) i' j'
| sc_rep i j ops i' j' :
    script eq (i + 1) (j + 1) ops i' j' ->
    script eq i j (mkE Replace i j :: ops) i' j'.

(** A script turning a sequence of [N] items into one of [M] items. *)
Definition rewrites (eq : Z -> Z -> bool) (N M : Z) (ops : list edit) : Prop :=
  script eq 0 0 ops N M.

(** Every operation but a keep costs one. *)
Definition op_cost (e : edit) : Z := match ekind e with Keep => 0 | _ => 1 end.
Definition cost (ops : list edit) : Z := fold_right (fun e c => op_cost e + c) 0 ops.

Definition no_replace (ops : list edit) : Prop := forall e, In e ops -> ekind e <> Replace.

(** Executing a script on actual sequences: [old] is consumed from the
    front, inserted and replacing items are looked up in [new]. *)
Fixpoint execute {A} (old new : list A) (ops : list edit) : option (list A) :=
  match ops with
  | [] => match old with [] => Some [] | _ => None end
  | e :: ops' =>
      match ekind e, old with
      | Keep, x :: old' => option_map (cons x) (execute old' new ops')
      | Delete, _ :: old' => execute old' new ops'
      | Insert, _ =>
          match nth_error new (Z.to_nat (etgt e)) with
          | Some y => option_map (cons y) (execute old new ops')
          | None => None
          end
      | Replace, _ :: old' =>
          match nth_error new (Z.to_nat (etgt e)) with
          | Some y => option_map (cons y) (execute old' new ops')
          | None => None
          end
      | _, _ => None
      end
  end.

(** The comparison callback obtained from two sequences and an equality test. *)
Definition cmp_of {A} (eqA : A -> A -> bool) (a b : list A) (i j : Z) : bool :=
  match nth_error a (Z.to_nat i), nth_error b (Z.to_nat j) with
  | Some x, Some y => eqA x y
  | _, _ => false
  end.

(** Strictly increasing positions inside [lo, hi). *)
Fixpoint increasing (lo hi : Z) (l : list Z) : Prop :=
  match l with
  | [] => True
  | x :: l' => lo <= x < hi /\ increasing (x + 1) hi l'
  end.

(** A common subsequence, given by two index lists. *)
Definition common (eq : Z -> Z -> bool) (N M : Z) (ls rs : list Z) : Prop :=
  increasing 0 N ls /\ increasing 0 M rs /\ Forall2 (fun l r => eq l r = true) ls rs.

(** [positions eq p s e l]: [l] are strictly increasing positions in [s, e]
    whose items equal the pattern items p, p+1, ... *)
Fixpoint positions (eq : Z -> Z -> bool) (p s e : Z) (l : list Z) : Prop :=
  match l with
  | [] => True
  | x :: l' => s <= x <= e /\ eq p x = true /\ positions eq (p + 1) (x + 1) e l'
  end.

(** The items shown on one side of a side-by-side diff. *)
Definition side (l : list item) : list Z :=
  map snd (filter (fun p => match fst p with KNone => false | _ => true end) l).

(** 0, 1, ..., n-1 *)
Definition upto (n : Z) : list Z := map Z.of_nat (seq 0 (Z.to_nat n)).

(** Rows in which the old side shows a kept item are exactly the rows in
    which the new side does. *)
Definition keeps_aligned (o n : list item) : Prop :=
  forall i, (exists x, nth_error o i = Some (Keep, x)) <-> (exists y, nth_error n i = Some (Keep, y)).

(** A row of the gap-filled form: one of kept / deleted / inserted. *)
Definition row_ok (pairs : list (Z * Z)) (row : item * item) : Prop :=
  match row with
  | ((Keep, l), (Keep, r)) => In (l, r) pairs
  | ((Delete, _), (KNone, _)) => True
  | ((KNone, _), (Insert, _)) => True
  | _ => False
  end.
