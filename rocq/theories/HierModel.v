(** Vertex hierarchy: src/hstd/ext/graph/base/graph_hierarchy.{hpp,cpp} and the
    vertex removal of graph_base.cpp.

    Vertex and edge ids are natural numbers.  Hash sets are duplicate-free
    lists in an unspecified order, hash maps are functions to [option].
    A call that throws may already have changed the object, so every operation
    returns the state it leaves behind together with its status. *)
From Coq Require Import List Bool Arith Lia.
From Verif Require Import Base BimapModel.
Import ListNotations.

Definition memb (x : nat) (l : list nat) : bool := existsb (Nat.eqb x) l.
(** set.insert / set.erase *)
Definition incl_ (x : nat) (l : list nat) : list nat := if memb x l then l else l ++ [x].
Definition excl_ (x : nat) (l : list nat) : list nat := filter (fun y => negb (Nat.eqb x y)) l.
(** map assignment / erase *)
Definition upd {A} (f : nat -> option A) (k : nat) (v : option A) : nat -> option A :=
  fun k' => if Nat.eqb k' k then v else f k'.

Definition pair_eqb (a b : nat * nat) : bool := Nat.eqb (fst a) (fst b) && Nat.eqb (snd a) (snd b).

(** graph_hierarchy.hpp:22-33; [objects] stands for the edge objects known to
    the derived class (hasEdge(EdgeID), graph_hierarchy.hpp:221, 241). *)
Record hier := mkH {
  ids : list nat;
  roots : list nat;
  parent : nat -> option nat;
  nested : nat -> option (list nat);
  tracker : bimap (nat * nat) nat;
  objects : list nat }.

Definition empty_hier : hier := mkH [] [] (fun _ => None) (fun _ => None) [] [].

Inductive status := Done | Raised | NoReturn.

(** graph_hierarchy.cpp:125-133 trackVertex *)
Definition track_vertex (h : hier) (v : nat) : hier * status :=
  if memb v (ids h) then (h, Raised)
  else (mkH (incl_ v (ids h)) (incl_ v (roots h)) (parent h) (nested h) (tracker h) (objects h), Done).

(** graph_hierarchy.cpp:135-168 trackSubVertexRelation *)
Definition track_relation (h : hier) (e p s : nat) : hier * status :=
  if negb (memb p (ids h)) then (h, Raised)
  else if negb (memb s (ids h)) then (h, Raised)
  else if negb (memb e (objects h)) then (h, Raised)
  else match parent h s with
  | Some _ => (h, Raised)
  | None =>
      let par := upd (parent h) s (Some p) in
      let cur := match nested h p with Some l => l | None => [] end in
      let nes := upd (nested h) p (Some (incl_ s cur)) in
      let h1 := mkH (ids h) (excl_ s (roots h)) par nes (tracker h) (objects h) in
      match add_unique_11 pair_eqb Nat.eqb (tracker h) (p, s) e with
      | Some t => (mkH (ids h) (excl_ s (roots h)) par nes t (objects h), Done)
      | None => (h1, Raised)
      end
  end.

(** graph_hierarchy.cpp:497-501 and graph_hierarchy.hpp:248: registering an
    edge object. *)
Definition add_object (h : hier) (e : nat) : hier :=
  mkH (ids h) (roots h) (parent h) (nested h) (tracker h) (incl_ e (objects h)).

(** graph_hierarchy.cpp:503-514 TrivialHierarchy::trackSubVertexRelation;
    [hash] is the 48-bit hash of getNestingEdgeID (171-183), whose own vertex
    checks come first. *)
Definition track_relation_hashed (hash : nat -> nat -> nat) (h : hier) (p s : nat) : hier * status :=
  if negb (memb p (ids h)) then (h, Raised)
  else if negb (memb s (ids h)) then (h, Raised)
  else track_relation (add_object h (hash p s)) (hash p s) p s.

(** graph_hierarchy.cpp:200-205: the effect of removing a relation. *)
Definition drop_child (nes : nat -> option (list nat)) (p s : nat) : nat -> option (list nat) :=
  match nes p with
  | None => nes
  | Some l => match excl_ s l with [] => upd nes p None | l' => upd nes p (Some l') end
  end.

(** graph_hierarchy.cpp:186-206 untrackSubVertexRelation *)
Definition untrack_relation (h : hier) (p s : nat) : hier * status :=
  if negb (memb p (ids h)) then (h, Raised)
  else if negb (memb s (ids h)) then (h, Raised)
  else match parent h s with
  | None => (h, Raised)
  | Some q =>
      if negb (Nat.eqb q p) then (h, Raised)
      else (mkH (ids h) (incl_ s (roots h)) (upd (parent h) s None) (drop_child (nested h) p s)
                (tracker h) (objects h), Done)
  end.

(** graph_hierarchy.cpp:20-25: the recursive collection of [v] and everything
    below it, in visiting order, each vertex once. *)
Fixpoint collect (fuel : nat) (h : hier) (v : nat) (acc : list nat) : option (list nat) :=
  match fuel with
  | O => None
  | S f =>
      let acc := incl_ v acc in
      match nested h v with
      | None => Some acc
      | Some l => fold_left (fun a s => match a with Some a => collect f h s a | None => None end) l (Some acc)
      end
  end.

(** graph_hierarchy.cpp:29-50: one iteration of the removal loop. *)
Definition remove_one (h : hier) (v : nat) : hier :=
  let '(par, nes) :=
    match parent h v with
    | Some p => (upd (parent h) v None, drop_child (nested h) p v)
    | None => (parent h, nested h)
    end in
  match nes v with
  | Some l =>
      mkH (excl_ v (ids h)) (excl_ v (fold_left (fun r s => incl_ s r) l (roots h)))
          (fold_left (fun f s => upd f s None) l par) (upd nes v None) (tracker h) (objects h)
  | None => mkH (excl_ v (ids h)) (excl_ v (roots h)) par nes (tracker h) (objects h)
  end.

(** graph_hierarchy.cpp:14-53 untrackVertex; [ord] is the iteration order of
    the hash set of collected vertices. *)
Definition untrack_vertex (fuel : nat) (ord : list nat -> list nat) (h : hier) (v : nat) : hier * status :=
  if negb (memb v (ids h)) then (h, Raised)
  else match collect fuel h v [] with
       | None => (h, NoReturn)
       | Some vs => (fold_left remove_one (ord vs) h, Done)
       end.

(** Queries: graph_hierarchy.cpp:214-231. *)
Definition root_vertices (h : hier) : list nat := roots h.
Definition sub_vertices (h : hier) (v : nat) : list nat :=
  match nested h v with Some l => l | None => [] end.
Definition parent_vertex (h : hier) (v : nat) : option nat := parent h v.

(** graph_hierarchy.cpp:401-409 getParentChain *)
Fixpoint parent_chain (fuel : nat) (h : hier) (v : nat) : option (list nat) :=
  match fuel with
  | O => None
  | S f => match parent h v with
           | None => Some []
           | Some p => option_map (cons p) (parent_chain f h p)
           end
  end.

(** graph_hierarchy.cpp:411-422 getParentChainUntil: the test against
    [finish] is in the increment position of the [for], its value is unused. *)
Fixpoint parent_chain_until (fuel : nat) (h : hier) (start finish : nat) : option (list nat) :=
  match fuel with
  | O => None
  | S f => match parent h start with
           | None => Some []
           | Some p => option_map (cons p) (parent_chain_until f h p finish)
           end
  end.

(** graph_hierarchy.cpp:431-445 getOutgoing / getIncoming; [None] is the key
    error of at_right. *)
Definition outgoing (h : hier) (v : nat) : option (list nat) :=
  fold_right (fun s acc => match at_right pair_eqb (tracker h) (v, s), acc with
                           | Some e, Some l => Some (incl_ e l)
                           | _, _ => None end) (Some []) (sub_vertices h v).
Definition incoming (h : hier) (v : nat) : option (list nat) :=
  match parent h v with
  | Some p => option_map (fun e => [e]) (at_right pair_eqb (tracker h) (p, v))
  | None => Some []
  end.

(** graph_hierarchy.cpp:350-376 getCommonAncestor; [vs] is the id set in
    iteration order.  The outer option is non-termination. *)
Definition chain_with_self (fuel : nat) (h : hier) (v : nat) : option (list nat) :=
  option_map (fun c => c ++ [v]) (parent_chain fuel h v).
Fixpoint common_loop (fuel : nat) (h : hier) (common : list nat) (vs : list nat) : option (option nat) :=
  match vs with
  | [] => Some (hd_error common)
  | v :: vs' =>
      match chain_with_self fuel h v with
      | None => None
      | Some c =>
          match filter (fun a => memb a c) common with
          | [] => Some None
          | next => common_loop fuel h next vs'
          end
      end
  end.
Definition common_ancestor (fuel : nat) (h : hier) (vs : list nat) : option (option nat) :=
  match vs with
  | [] => Some None
  | v :: vs' => match chain_with_self fuel h v with
                | None => None
                | Some c => common_loop fuel h c vs'
                end
  end.

(** graph_hierarchy.cpp:379-399 getMaxNestingLevel *)
Fixpoint nesting_level (fuel : nat) (h : hier) (v : nat) : option nat :=
  match fuel with
  | O => None
  | S f =>
      match sub_vertices h v with
      | [] => Some 1
      | l => option_map S
               (fold_left (fun a s => match a, nesting_level f h s with
                                      | Some m, Some n => Some (Nat.max m n)
                                      | _, _ => None end) l (Some 0))
      end
  end.
Definition max_nesting_level (fuel : nat) (h : hier) : option nat :=
  fold_left (fun a s => match a, nesting_level fuel h s with
                        | Some m, Some n => Some (Nat.max m n)
                        | _, _ => None end) (roots h) (Some 0).

(** graph_hierarchy.cpp:59-69 findLCA *)
Fixpoint find_lca (fuel : nat) (h : hier) (seen : list nat) (u v : nat) : option nat :=
  match fuel with
  | O => None
  | S f =>
      let seen := u :: seen in
      let u := match parent h u with Some p => p | None => u end in
      if memb v seen then Some v
      else match parent h v with
           | None => Some u
           | Some v' => find_lca f h seen u v'
           end
  end.

(** graph_hierarchy.cpp:87-91, 100-104, 109-112: walking up to [lca]; [Throw]
    is [parentMap.at] on a vertex without parent.  Returns the vertices
    visited before reaching [lca], the start included. *)
Fixpoint walk_up (fuel : nat) (h : hier) (cur lca : nat) : outcome (list nat) :=
  match fuel with
  | O => Fuel
  | S f =>
      if Nat.eqb cur lca then Ok []
      else match parent h cur with
           | None => Throw
           | Some p => obind (walk_up f h p lca) (fun l => Ok (cur :: l))
           end
  end.

(** graph_hierarchy.cpp:56-122 getHierarchyCrossings *)
Definition crossings (fuel : nat) (h : hier) (source target : nat) : outcome (list nat) :=
  match parent h source, parent h target with
  | None, None => Ok []
  | ps, pt =>
      if (match ps, pt with Some a, Some b => Nat.eqb a b | _, _ => false end) then Ok []
      else match find_lca fuel h [] source target with
      | None => Fuel
      | Some lca =>
          let without x := filter (fun y => negb (Nat.eqb y x)) in
          if Nat.eqb lca source then
            obind (walk_up fuel h target lca) (fun l => Ok (without target l))
          else if Nat.eqb lca target then
            obind (walk_up fuel h source lca) (fun l => Ok (without source l))
          else
            obind (walk_up fuel h source lca) (fun a =>
            obind (walk_up fuel h target lca) (fun b =>
            Ok (without source a ++ without target (rev b))))
      end
  end.

(** Operations of a history. *)
Inductive hop :=
| HTrack (v : nat)
| HObject (e : nat)
| HRelate (e p s : nat)
| HUnrelate (p s : nat)
| HUntrack (v : nat).

Definition hstep (fuel : nat) (ord : list nat -> list nat) (h : hier) (o : hop) : hier * status :=
  match o with
  | HTrack v => track_vertex h v
  | HObject e => (add_object h e, Done)
  | HRelate e p s => track_relation h e p s
  | HUnrelate p s => untrack_relation h p s
  | HUntrack v => untrack_vertex fuel ord h v
  end.

(** A history goes on after an exception (the caller may catch it), with the
    state the failed call left behind. *)
Definition hrun (fuel : nat) (ord : list nat -> list nat) (h : hier) (os : list hop) : hier :=
  fold_left (fun h o => fst (hstep fuel ord h o)) os h.
