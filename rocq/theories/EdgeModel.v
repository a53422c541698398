(** Edge collection: src/hstd/ext/graph/base/graph_edge.{hpp,cpp}.

    Ids and stable ids are natural numbers.  A hash map is an association
    list with distinct keys; its listing order is unspecified in the code and
    insertion order here. *)
From Coq Require Import List Bool Arith Lia.
From Verif Require Import Base HierModel.
Import ListNotations.

(** Hash map operations: find/at, insert_or_assign, erase. *)
Fixpoint aget {A} (m : list (nat * A)) (k : nat) : option A :=
  match m with [] => None | (k', v) :: m' => if Nat.eqb k' k then Some v else aget m' k end.
Fixpoint aset {A} (m : list (nat * A)) (k : nat) (v : A) : list (nat * A) :=
  match m with
  | [] => [(k, v)]
  | (k', v') :: m' => if Nat.eqb k' k then (k, v) :: m' else (k', v') :: aset m' k v
  end.
Definition adel {A} (m : list (nat * A)) (k : nat) : list (nat * A) :=
  filter (fun kv => negb (Nat.eqb (fst kv) k)) m.

(** graph_edge.hpp:67, 153-157; [estore] is the object store of the derived
    class, edge id to stable id. *)
Record ecoll := mkE {
  incidence : list (nat * list (nat * list nat));
  incoming_from : list (nat * list nat);
  source_target : list (nat * (nat * nat));
  stable_used : list nat;
  estore : list (nat * nat) }.

Definition empty_ecoll : ecoll := mkE [] [] [] [] [].

(** Object registration, TrivialEdgeCollection::addEdge graph_edge.hpp:265-267:
    the store hands out a new id. *)
Definition e_object (c : ecoll) (id st : nat) : ecoll :=
  match aget (estore c) id with
  | Some _ => c
  | None => mkE (incidence c) (incoming_from c) (source_target c) (stable_used c) (aset (estore c) id st)
  end.

(** graph_edge.cpp:45-54 *)
Definition e_track_vertex (c : ecoll) (v : nat) : ecoll :=
  mkE (match aget (incidence c) v with Some _ => incidence c | None => aset (incidence c) v [] end)
      (match aget (incoming_from c) v with Some _ => incoming_from c | None => aset (incoming_from c) v [] end)
      (source_target c) (stable_used c) (estore c).

(** graph_edge.cpp:100-136 trackEdge *)
Definition e_track (c : ecoll) (id s t : nat) : ecoll * status :=
  match aget (estore c) id with
  | None => (c, Raised)
  | Some st =>
      if memb st (stable_used c) then (c, Raised)
      else
        let inc1 := match aget (incidence c) s with Some _ => incidence c | None => aset (incidence c) s [] end in
        let row := match aget inc1 s with Some r => r | None => [] end in
        let row1 := match aget row t with Some _ => row | None => aset row t [] end in
        let cell := match aget row1 t with Some l => l | None => [] end in
        let frm := match aget (incoming_from c) t with Some l => l | None => [] end in
        (mkE (aset inc1 s (aset row1 t (cell ++ [id])))
             (aset (incoming_from c) t (frm ++ [s]))
             (aset (source_target c) id (s, t))
             (incl_ st (stable_used c)) (estore c), Done)
  end.

(** graph_edge.cpp:139-157 untrackEdge *)
Definition drop_cell (inc : list (nat * list (nat * list nat))) (id s t : nat) :=
  match aget inc s with
  | None => inc
  | Some row =>
      match aget row t with
      | None => inc
      | Some cell =>
          match excl_ id cell with
          | [] => match adel row t with
                  | [] => adel inc s
                  | row' => aset inc s row'
                  end
          | cell' => aset inc s (aset row t cell')
          end
      end
  end.
Definition drop_source (frm : list (nat * list nat)) (s t : nat) :=
  match aget frm t with
  | None => frm
  | Some l => match excl_ s l with [] => adel frm t | l' => aset frm t l' end
  end.
Definition e_untrack (c : ecoll) (id : nat) : ecoll * status :=
  match aget (source_target c) id with
  | None => (c, Raised)
  | Some (s, t) =>
      (mkE (drop_cell (incidence c) id s t) (drop_source (incoming_from c) s t)
           (source_target c) (stable_used c) (estore c), Done)
  end.

(** graph_edge.cpp:21-43, 184-192 *)
Definition cell_of (c : ecoll) (s t : nat) : list nat :=
  match aget (incidence c) s with
  | Some row => match aget row t with Some l => l | None => [] end
  | None => []
  end.
Definition e_outgoing (c : ecoll) (v : nat) : list nat :=
  match aget (incidence c) v with Some row => flat_map snd row | None => [] end.
Definition e_incoming (c : ecoll) (v : nat) : list nat :=
  match aget (incoming_from c) v with Some l => flat_map (fun s => cell_of c s v) l | None => [] end.
Definition e_edges (c : ecoll) : list nat := flat_map (fun kr => flat_map snd (snd kr)) (incidence c).

(** graph_edge.cpp:56-80 untrackVertex; [ord] is the order of the hash set of
    edges to remove. *)
Definition e_untrack_vertex (ord : list nat -> list nat) (c : ecoll) (v : nat) : ecoll :=
  let es := ord (nodup Nat.eq_dec (e_outgoing c v ++ e_incoming c v)) in
  let c1 := fold_left (fun c e => fst (e_untrack c e)) es c in
  mkE (adel (incidence c1) v) (adel (incoming_from c1) v) (source_target c1) (stable_used c1) (estore c1).

(** graph_edge.hpp:185-187 hasEdge(source, target) *)
Definition e_has_edge (c : ecoll) (s t : nat) : bool :=
  match aget (incidence c) s with
  | Some row => match aget row t with Some _ => true | None => false end
  | None => false
  end.
(** graph_edge.hpp:170-182 isTrackingEdge; Throw is the failed lookup or the
    failed assertion. *)
Definition e_is_tracking (c : ecoll) (id : nat) : outcome bool :=
  match aget (source_target c) id with
  | None => Ok false
  | Some (s, t) =>
      match aget (incidence c) s with
      | None => Throw
      | Some row => match aget row t with
                    | None => Throw
                    | Some l => if memb id l then Ok true else Throw
                    end
      end
  end.
(** graph_edge.hpp:203-209 *)
Definition e_source (c : ecoll) (id : nat) : option nat := option_map fst (aget (source_target c) id).
Definition e_target (c : ecoll) (id : nat) : option nat := option_map snd (aget (source_target c) id).
(** graph_edge.cpp:163-174 getOutNodes, getInNodes: both map the target. *)
Definition e_out_nodes (c : ecoll) (v : nat) : list (option nat) := map (e_target c) (e_outgoing c v).
Definition e_in_nodes (c : ecoll) (v : nat) : list (option nat) := map (e_target c) (e_incoming c v).

Inductive eop :=
| EObject (id st : nat)
| ETrackVertex (v : nat)
| ETrack (id s t : nat)
| EUntrack (id : nat)
| EUntrackVertex (v : nat).
Definition estep (ord : list nat -> list nat) (c : ecoll) (o : eop) : ecoll * status :=
  match o with
  | EObject id st => (e_object c id st, Done)
  | ETrackVertex v => (e_track_vertex c v, Done)
  | ETrack id s t => e_track c id s t
  | EUntrack id => e_untrack c id
  | EUntrackVertex v => (e_untrack_vertex ord c v, Done)
  end.
Definition erun (ord : list nat -> list nat) (c : ecoll) (os : list eop) : ecoll :=
  fold_left (fun c o => fst (estep ord c o)) os c.
