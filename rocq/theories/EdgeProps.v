(** Edge collection properties C34. *)
From Coq Require Import List Bool Arith Lia Permutation.
From Verif Require Import Base HierModel HierSpec HierProofs EdgeModel EdgeSpec EdgeProofs.
Import ListNotations.

(** After any history, outgoing lists, successor lists, the edge list and the
    vertex-pair test describe the same edges, and incoming lists are sound. *)
Theorem C34_views_agree : forall ord os, some_order ord ->
  let c := erun ord empty_ecoll os in
  (forall e, In e (e_edges c) -> exists s t, runs c e s t) /\
  (forall e v, In e (e_outgoing c v) <-> exists t, runs c e v t) /\
  (forall v x, In x (e_out_nodes c v) <-> exists e t, runs c e v t /\ x = Some t) /\
  (forall s t, e_has_edge c s t = true <-> exists e, runs c e s t) /\
  (forall e v, In e (e_incoming c v) -> exists s, runs c e s v).
Proof.
  exact (fun ord os O => let I := erun_inv ord os O empty_ecoll empty_inv in
    conj (fun e => edge_ends _ e I) (conj (fun e v => outgoing_runs _ e v I)
    (conj (fun v x => out_nodes_runs _ v x I) (conj (fun s t => has_edge_runs _ s t I) (fun e v => incoming_runs _ e v I))))).
Qed.
Print Assumptions C34_views_agree.

(** What an accepted addition or removal does. *)
Theorem C34_add_remove_exact : forall ord os, some_order ord ->
  let c := erun ord empty_ecoll os in
  (forall id s t, snd (e_track c id s t) = Done ->
     forall e a b, runs (fst (e_track c id s t)) e a b <-> runs c e a b \/ (e = id /\ a = s /\ b = t)) /\
  (forall id s t, snd (e_track c id s t) <> Done -> fst (e_track c id s t) = c) /\
  (forall id e a b, runs (fst (e_untrack c id)) e a b <-> runs c e a b /\ e <> id).
Proof.
  exact (fun ord os O => let I := erun_inv ord os O empty_ecoll empty_inv in
    conj (fun id s t => track_runs _ id s t I) (conj (fun id s t => e_track_raised _ id s t) (fun id => untrack_runs _ id I))).
Qed.
Print Assumptions C34_add_remove_exact.

(** Asking whether an edge is tracked: true for the listed edges, false for
    edges never added, and an exception for every removed edge. *)
Theorem C34_is_tracking : forall ord os e, some_order ord ->
  let c := erun ord empty_ecoll os in
  e_is_tracking c e = match e_source c e with
                      | None => Ok false
                      | Some _ => if in_dec Nat.eq_dec e (e_edges c) then Ok true else Throw
                      end.
Proof. exact (fun ord os e O => is_tracking_runs _ e (erun_inv ord os O empty_ecoll empty_inv)). Qed.
Print Assumptions C34_is_tracking.

(** Incoming lists are complete, and removing a vertex removes exactly the
    edges touching it, if no edge was ever removed next to a parallel one. *)
Theorem C34_incoming_partial : forall ord os, some_order ord -> no_parallel_removal ord empty_ecoll os ->
  let c := erun ord empty_ecoll os in
  (forall e v, In e (e_incoming c v) <-> exists s, runs c e s v) /\
  (forall v e a b, runs (e_untrack_vertex ord c v) e a b <-> runs c e a b /\ a <> v /\ b <> v).
Proof.
  exact (fun ord os O N => let I := erun_inv ord os O empty_ecoll empty_inv in
    let V := erun_visible ord os O empty_ecoll empty_inv empty_visible N in
    conj (fun e v => incoming_runs_iff _ e v I V) (fun v => untrack_vertex_runs ord _ v O I V)).
Qed.
Print Assumptions C34_incoming_partial.

Definition parallel : list eop :=
  [EObject 7 1; EObject 8 2; EObject 9 3; ETrack 7 0 1; ETrack 8 0 1; ETrack 9 2 1].
(** Two parallel edges, one removed: the other is still an edge 0 -> 1 but is
    not listed as incoming, and survives the removal of its target vertex. *)
Theorem C34_incoming_refuted :
  let c := erun (fun l => l) empty_ecoll (parallel ++ [EUntrack 7]) in
  runs c 8 0 1 /\ e_incoming c 1 = [9] /\ e_outgoing c 0 = [8] /\
  runs (e_untrack_vertex (fun l => l) c 1) 8 0 1.
Proof. unfold runs. vm_compute. repeat split; auto. Qed.
Print Assumptions C34_incoming_refuted.

(** The predecessor query never returns a predecessor: only the vertex
    itself. *)
Theorem C34_predecessors_refuted : forall ord os v x, some_order ord ->
  In x (e_in_nodes (erun ord empty_ecoll os) v) -> x = Some v.
Proof. exact (fun ord os v x O => in_nodes_self _ v x (erun_inv ord os O empty_ecoll empty_inv)). Qed.
Print Assumptions C34_predecessors_refuted.

Example C34_demo : let c := erun (fun l => l) empty_ecoll (parallel ++ [ETrackVertex 5; EUntrack 9]) in
  e_edges c = [7; 8] /\ e_outgoing c 0 = [7; 8] /\ e_incoming c 1 = [7; 8; 7; 8] /\
  e_is_tracking c 7 = Ok true /\ e_is_tracking c 9 = Throw /\ e_is_tracking c 4 = Ok false /\
  e_in_nodes (erun (fun l => l) empty_ecoll parallel) 1 <> [].
Proof. vm_compute. repeat split. discriminate. Qed.
Example C34_demo_history : no_parallel_removal (fun l => l) empty_ecoll (parallel ++ [ETrackVertex 5; EUntrack 9]).
Proof.
  cbn [parallel app no_parallel_removal removal_ok]. do 7 (split; [exact I|]). split; [|exact I].
  intros e s t (H & H1 & H2) S_ T_. vm_compute in S_. injection S_ as <-.
  vm_compute in H. destruct H as [<-|[<-|[<-|[]]]]; vm_compute in H1; congruence.
Qed.
