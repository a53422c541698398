(** What demoting a heading should do to a document. *)
From Coq Require Import List Bool Arith ZArith.
From Verif Require Import Base ImmModel ImmSpec.
Import ListNotations.
Local Open Scope nat_scope.

(** Field 0 of a node is the list of its subtrees. *)
Definition is_sub (st : step) : bool := match st with (0, Idx _) => true | _ => false end.
Definition subtrees (t : tree) : list tree :=
  match t with Nil => [] | Node _ _ _ kids => map snd (filter (fun c => is_sub (fst c)) kids) end.
Definition with_subtrees (t : tree) (cs : list tree) : tree :=
  match t with
  | Nil => Nil
  | Node k d l kids => Node k d l (combine (map (fun i => (0, Idx i)) (seq 0 (length cs))) cs ++
                                   filter (fun c => negb (is_sub (fst c))) kids)
  end.
(** Nothing but that list is in field 0. *)
Definition listed (t : tree) : Prop :=
  match t with Nil => True | Node _ _ _ kids => forall st c, In (st, c) kids -> fst st = 0 -> is_sub st = true end.

Section Headings.
  Variable hkind : nat.
  Variable level : nat -> Z.
  Variable deeper : nat -> nat.

  (** A heading with nothing but headings under it. *)
  Inductive headings : tree -> Prop :=
  | headings_node : forall d l kids, (forall st c, In (st, c) kids -> is_sub st = true -> headings c) ->
      headings (Node hkind d l kids).
  (** Every heading of it one level deeper, and nothing else changed *)
  Fixpoint lowered (t : tree) : tree :=
    match t with
    | Nil => Nil
    | Node k d l kids => Node k (deeper d) l (map (fun c => if is_sub (fst c) then (fst c, lowered (snd c)) else c) kids)
    end.
  Definition tree_level (t : tree) : Z := match t with Nil => 0%Z | Node _ d _ _ => level d end.
  Definition tree_kind (t : tree) : nat := match t with Nil => 0 | Node k _ _ _ => k end.
  (** [A] can take [T], one level deeper, as its last subtree. *)
  Definition above (A T : tree) : Prop := tree_kind A = hkind /\ (tree_level A < tree_level T + 1)%Z.
End Headings.
