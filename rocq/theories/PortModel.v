(** Ports (src/hstd/ext/graph/base/graph_port.{hpp,cpp}) and removal of a
    vertex from a whole graph (graph_base.cpp). *)
From Coq Require Import List Bool Arith Lia.
From Verif Require Import Base HierModel EdgeModel.
Import ListNotations.

(** graph_port.hpp:37-49, 60-102.  [ports] holds (vertex, port), [conns]
    (port, edge, is_source), both in insertion order: boost's ordered
    non-unique indices keep equal keys in insertion order. *)
Record pcoll := mkP { ports : list (nat * nat); conns : list (nat * nat * bool) }.
Definition empty_pcoll : pcoll := mkP [] [].

(** graph_port.cpp:63-71 getPortIterator and graph_port.hpp:162
    getVertexForPort; None is the thrown error. *)
Definition vertex_for_port (c : pcoll) (p : nat) : option nat :=
  option_map fst (find (fun vp => Nat.eqb (snd vp) p) (ports c)).

(** graph_port.cpp:73-81 addPort *)
Definition p_add (c : pcoll) (v p : nat) : pcoll * status :=
  match vertex_for_port c p with
  | Some _ => (c, Raised)
  | None => (mkP (ports c ++ [(v, p)]) (conns c), Done)
  end.

Definition conn_eqb (a b : nat * nat * bool) : bool :=
  Nat.eqb (fst (fst a)) (fst (fst b)) && Nat.eqb (snd (fst a)) (snd (fst b)) && Bool.eqb (snd a) (snd b).

(** graph_port.cpp:92-119 connectPort *)
Definition p_connect (c : pcoll) (v e : nat) (side : bool) (p : nat) : pcoll * status :=
  match vertex_for_port c p with
  | None => (c, Raised)
  | Some v' =>
      if negb (Nat.eqb v' v) then (c, Raised)
      else if existsb (conn_eqb (p, e, side)) (conns c) then (c, Raised)
      else (mkP (ports c) (conns c ++ [(p, e, side)]), Done)
  end.

(** graph_port.cpp:83-90: add and connect; the port stays when connecting
    fails. *)
Definition p_add_connect (c : pcoll) (v e : nat) (side : bool) (p : nat) : pcoll * status :=
  match p_add c v p with
  | (c1, Done) => p_connect c1 v e side p
  | r => r
  end.

(** graph_port.hpp:190-194 delPort *)
Definition p_del (c : pcoll) (p : nat) : pcoll * status :=
  match vertex_for_port c p with
  | None => (c, Raised)
  | Some _ => (mkP (filter (fun vp => negb (Nat.eqb (snd vp) p)) (ports c))
                   (filter (fun x => negb (Nat.eqb (fst (fst x)) p)) (conns c)), Done)
  end.

(** graph_port.cpp:3-20 getPortForConnection and 152-163 hasPortConnection.
    [Throw] is either no connection or a connection of an unknown port. *)
Fixpoint scan_conns (c : pcoll) (l : list (nat * nat * bool)) (v e : nat) (side : bool) : outcome (option nat) :=
  match l with
  | [] => Ok None
  | (p, e', side') :: l' =>
      if negb (Nat.eqb e' e) then scan_conns c l' v e side
      else if negb (Bool.eqb side' side) then scan_conns c l' v e side
      else match vertex_for_port c p with
           | None => Throw
           | Some v' => if Nat.eqb v' v then Ok (Some p) else scan_conns c l' v e side
           end
  end.
Definition port_for_connection (c : pcoll) (v e : nat) (side : bool) : outcome nat :=
  obind (scan_conns c (conns c) v e side) (fun r => match r with Some p => Ok p | None => Throw end).
Definition has_connection (c : pcoll) (v e : nat) (side : bool) : outcome bool :=
  obind (scan_conns c (conns c) v e side) (fun r => Ok (match r with Some _ => true | None => false end)).

(** graph_port.cpp:22-39 getPortsForEdge: the last entry of each side. *)
Definition ports_for_edge (c : pcoll) (e : nat) : (option nat * option nat)%type :=
  fold_left (fun (st : option nat * option nat) (x : nat * nat * bool) => let '(p, e', side) := x in
               if negb (Nat.eqb e' e) then st
               else if side then (Some p, snd st) else (fst st, Some p)) (conns c) (@None nat, @None nat).

(** graph_port.cpp:41-58 *)
Definition ports_for_vertex (c : pcoll) (v : nat) : list nat :=
  map snd (filter (fun vp => Nat.eqb (fst vp) v) (ports c)).
Definition edges_for_port (c : pcoll) (p : nat) : option (list nat) :=
  match vertex_for_port c p with
  | None => None
  | Some _ => Some (map (fun x => snd (fst x)) (filter (fun x => Nat.eqb (fst (fst x)) p) (conns c)))
  end.

Inductive pop :=
| PAdd (v p : nat)
| PConnect (v e : nat) (side : bool) (p : nat)
| PAddConnect (v e : nat) (side : bool) (p : nat)
| PDel (p : nat).
Definition pstep (c : pcoll) (o : pop) : pcoll * status :=
  match o with
  | PAdd v p => p_add c v p
  | PConnect v e side p => p_connect c v e side p
  | PAddConnect v e side p => p_add_connect c v e side p
  | PDel p => p_del c p
  end.
Definition prun (c : pcoll) (os : list pop) : pcoll := fold_left (fun c o => fst (pstep c o)) os c.

(** graph_base.hpp:66-71: the vertices, hierarchies and edge collections of a
    graph (ports and trackers are left out). *)
Record graph := mkG { g_ids : list nat; g_hier : list hier; g_coll : list ecoll }.

(** Calling untrackVertex on every hierarchy in turn, stopping at the first
    exception. *)
Fixpoint untrack_hiers (fuel : nat) (ord : list nat -> list nat) (hs : list hier) (v : nat) : list hier * status :=
  match hs with
  | [] => ([], Done)
  | h :: hs' =>
      match untrack_vertex fuel ord h v with
      | (h1, Done) => let '(r, st) := untrack_hiers fuel ord hs' v in (h1 :: r, st)
      | (h1, st) => (h1 :: hs', st)
      end
  end.

(** graph_base.cpp:211-234 IGraph::untrackVertex; getEdgeProviders (105-112)
    lists the collections and then the hierarchies again. *)
Definition g_untrack (fuel : nat) (ord : list nat -> list nat) (g : graph) (v : nat) : graph * status :=
  if negb (memb v (g_ids g)) then (g, Raised)
  else match untrack_hiers fuel ord (g_hier g) v with
       | (hs1, Done) =>
           let cs1 := map (fun c => e_untrack_vertex ord c v) (g_coll g) in
           let cs2 := map (fun c => e_untrack_vertex ord c v) cs1 in
           match untrack_hiers fuel ord hs1 v with
           | (hs2, Done) => (mkG (excl_ v (g_ids g)) hs2 cs2, Done)
           | (hs2, st) => (mkG (g_ids g) hs2 cs2, st)
           end
       | (hs1, st) => (mkG (g_ids g) hs1 (g_coll g), st)
       end.
