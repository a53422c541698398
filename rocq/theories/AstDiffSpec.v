(** Places of nodes, for what is said about the comparison of two trees. *)
From Coq Require Import List Bool Arith ZArith Lia.
From Verif Require Import EagerModel EagerSpec.
Import ListNotations.

Section Places.
Context {A : Type}.
(** The nodes of a tree, each with what is below it, in preorder. The number of a node is its place in this list. *)
Fixpoint nodes (t : tree A) : list (tree A) := match t with T _ l => t :: flat_map nodes l end.
Definition count (t : tree A) : nat := length (nodes t).
(** Where subtrees that follow each other start *)
Fixpoint places (n : nat) (l : list (tree A)) : list nat :=
  match l with [] => [] | c :: r => n :: places (n + count c) r end.
(** Node [i] is the child number [k] of node [p]. *)
Definition child (t : tree A) (p k i : nat) : Prop :=
  exists u, nth_error (nodes t) p = Some u /\ nth_error (places (S p) (sub u)) k = Some i.
(** The parent of a node and its place there, in the way that changes give them: nothing and 0 for the root *)
Definition stands (t : tree A) (i : nat) (at_ : option nat * Z) : Prop :=
  match at_ with
  | (Some p, z) => exists k, z = Z.of_nat k /\ child t p k i
  | (None, z) => i = 0 /\ z = 0%Z
  end.
(** The height of a tree: 1 for a leaf *)
Fixpoint levels (t : tree A) : nat := match t with T _ l => fold_right (fun c h => Nat.max (S (levels c)) h) 1 l end.
End Places.

(** * What a comparison reports *)
From Verif Require Import AstDiffModel.
Section Reports.
Context {A : Type}.
Variables (allowed equal : A -> A -> bool) (s d : tree A).
(** The values of two nodes *)
Definition values (i j : nat) (R : A -> A -> Prop) : Prop :=
  exists u v, nth_error (nodes s) i = Some u /\ nth_error (nodes d) j = Some v /\ R (val u) (val v).
(** A matching: one to one, and of nodes that can be matched *)
Definition matching (m : mapping) : Prop :=
  (forall i j, get_dst m i = Some j <-> get_src m j = Some i) /\
  (forall i j, get_dst m i = Some j -> values i j (fun v w => allowed v w = true)).
(** The parents of matched nodes are matched. *)
Definition keeps_parent (m : mapping) (i j : nat) : Prop :=
  i = 0 /\ j = 0 \/ exists p k q k', child s p k i /\ child d q k' j /\ get_dst m p = Some q.
Definition below (t : tree A) (p : option nat) (i : nat) : Prop :=
  match p with Some p => exists k, child t p k i | None => i = 0 end.
(** What one reported change says *)
Definition says (m : mapping) (x : option nat * option nat * change_data) : Prop :=
  match x with
  | (Some i, None, CDelete) => i < count s /\ get_dst m i = None
  | (None, Some j, CInsert p) => j < count d /\ get_src m j = None /\ stands d j p
  | (Some i, Some j, CUpdate) => get_dst m i = Some j /\ values i j (fun v w => equal v w = false) /\ keeps_parent m i j
  | (Some i, Some j, CMove from to _) => get_dst m i = Some j /\ below s (fst from) i /\ below d (fst to) j
  | _ => False
  end.
(** The changes say what is so, each node has at most one of them, and nodes without a partner, with another value or under
    another parent have one. *)
Record reports (m : mapping) (ch : list (option nat * option nat * change_data)) : Prop := {
  reports_true : forall x, In x ch -> says m x;
  reports_once : NoDup (map (fun x => fst x) ch);
  reports_src : forall i y c y' c', In (Some i, y, c) ch -> In (Some i, y', c') ch -> y = y' /\ c = c';
  reports_dst : forall j x c x' c', In (x, Some j, c) ch -> In (x', Some j, c') ch -> x = x' /\ c = c';
  reports_deleted : forall i, i < count s -> get_dst m i = None -> In (Some i, None, CDelete) ch;
  reports_inserted : forall j, j < count d -> get_src m j = None -> exists p, In (None, Some j, CInsert p) ch;
  reports_changed : forall i j, get_dst m i = Some j -> values i j (fun v w => equal v w = false) ->
    In (Some i, Some j, CUpdate) ch \/ exists from to b, In (Some i, Some j, CMove from to b) ch;
  reports_moved : forall i j, get_dst m i = Some j -> ~ keeps_parent m i j -> exists from to b, In (Some i, Some j, CMove from to b) ch
}.
End Reports.
(** Two children of [p], the first before the second *)
Definition in_order {A} (t : tree A) (p x y : nat) : Prop := exists k k', child t p k x /\ child t p k' y /\ k < k'.
