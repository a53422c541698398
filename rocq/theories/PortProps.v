(** Port properties C35 and graph vertex removal C50. *)
From Coq Require Import List Bool Arith Lia Permutation.
From Verif Require Import Base HierModel HierSpec HierProofs EdgeModel EdgeSpec EdgeProofs PortModel PortProofs.
Import ListNotations.

(** ** C35 *)
(** Every port is listed once and every connection once, and connections only
    mention listed ports. *)
Theorem C35_recorded_once : forall os, let c := prun empty_pcoll os in
  NoDup (map snd (ports c)) /\ NoDup (conns c) /\
  (forall p e side, In (p, e, side) (conns c) -> exists v, vertex_for_port c p = Some v).
Proof.
  intros os c. pose proof (prun_pinv os empty_pcoll empty_pinv) as [I1 I2 I3].
  split; [exact I1|]. split; [exact I2|]. intros p e side H. destruct (vertex_for_port c p) as [v|] eqn:E; [eauto|].
  apply vertex_none in E. now apply I3 in H.
Qed.
Print Assumptions C35_recorded_once.
(** Until it is deleted a port belongs to the vertex it was added for. *)
Theorem C35_port_keeps_vertex : forall os os' p v, vertex_for_port (prun empty_pcoll os) p = Some v ->
  ~ In (PDel p) os' -> vertex_for_port (prun (prun empty_pcoll os) os') p = Some v.
Proof. exact (fun os os' p v H N => prun_keeps os' _ p v (prun_pinv os empty_pcoll empty_pinv) N H). Qed.
Print Assumptions C35_port_keeps_vertex.
Theorem C35_add_port : forall c v p, snd (p_add c v p) = Done -> vertex_for_port c p = None /\ vertex_for_port (fst (p_add c v p)) p = Some v.
Proof.
  intros c v p. unfold p_add. destruct (vertex_for_port c p) eqn:E; [discriminate|]. intros _. split; auto.
  cbn [fst]. unfold vertex_for_port in *. cbn [ports]. rewrite find_app.
  destruct (find _ (ports c)); [discriminate|]. cbn. now rewrite Nat.eqb_refl.
Qed.
Print Assumptions C35_add_port.
(** Lookup by vertex, edge and side: the first connected port of that vertex;
    an exception exactly when there is none; the test agrees. *)
Theorem C35_lookup : forall os v e side, let c := prun empty_pcoll os in
  match port_for_connection c v e side with
  | Ok p => (exists l1 l2, conns c = l1 ++ (p, e, side) :: l2 /\ vertex_for_port c p = Some v /\
               forall q, In (q, e, side) l1 -> vertex_for_port c q <> Some v) /\
            has_connection c v e side = Ok true
  | Throw => (forall q, In (q, e, side) (conns c) -> vertex_for_port c q <> Some v) /\
             has_connection c v e side = Ok false
  | _ => False
  end.
Proof.
  intros os v e side c. pose proof (scan_spec c v e side (prun_pinv os empty_pcoll empty_pinv) (conns c) (incl_refl _)) as H.
  unfold port_for_connection, has_connection. destruct (scan_conns c (conns c) v e side) as [[p|]| | |]; cbn [obind]; try tauto; split; auto.
Qed.
Print Assumptions C35_lookup.
(** Right after an accepted connection of a side that was free at that vertex,
    lookup finds the connected port. *)
Theorem C35_connect_then_lookup : forall os v e side p, let c := prun empty_pcoll os in
  snd (p_connect c v e side p) = Done -> has_connection c v e side = Ok false ->
  port_for_connection (fst (p_connect c v e side p)) v e side = Ok p.
Proof.
  intros os v e side p c D F. pose proof (prun_pinv os empty_pcoll empty_pinv) as I. fold c in I.
  pose proof (C35_lookup os v e side) as L. cbv zeta in L. fold c in L. rewrite F in L.
  assert (No : forall q, In (q, e, side) (conns c) -> vertex_for_port c q <> Some v).
  { destruct (port_for_connection c v e side); try tauto. destruct L as [_ L]. discriminate. }
  pose proof (C35_lookup (os ++ [PConnect v e side p]) v e side) as L2. cbv zeta in L2.
  assert (E : prun empty_pcoll (os ++ [PConnect v e side p]) = fst (p_connect c v e side p)).
  { unfold prun. rewrite fold_left_app. reflexivity. }
  rewrite E in L2. clear E L F.
  unfold p_connect in *. destruct (vertex_for_port c p) as [v'|] eqn:V; [|discriminate].
  destruct (Nat.eqb_spec v' v) as [->|]; cbn [negb] in *; [|discriminate].
  destruct (existsb (conn_eqb (p, e, side)) (conns c)); [discriminate|]. cbn [fst] in *.
  change (vertex_for_port (mkP (ports c) (conns c ++ [(p, e, side)]))) with (vertex_for_port c) in L2. cbn [conns] in L2.
  destruct (port_for_connection (mkP (ports c) (conns c ++ [(p, e, side)])) v e side) as [q| | |]; try tauto.
  - destruct L2 as [(l1 & l2 & E & Q & _) _]. f_equal.
    assert (In (q, e, side) (conns c ++ [(p, e, side)])) by (rewrite E; apply in_or_app; right; now left).
    apply in_app_or in H. destruct H as [H|[H|[]]]; [now apply No in H|congruence].
  - destruct L2 as [L2 _]. exfalso. apply (L2 p); auto. apply in_or_app. right. now left.
Qed.
Print Assumptions C35_connect_then_lookup.
(** The listings: the ports of a vertex are exactly those belonging to it, each
    once, in the order they were added; the edges of a port are those it is
    connected to, and asking for an unknown port throws. *)
Theorem C35_listings : forall os v p e, let c := prun empty_pcoll os in
  NoDup (ports_for_vertex c v) /\
  (In p (ports_for_vertex c v) <-> vertex_for_port c p = Some v) /\
  match edges_for_port c p with
  | Some l => (exists w, vertex_for_port c p = Some w) /\ (In e l <-> exists side, In (p, e, side) (conns c))
  | None => vertex_for_port c p = None
  end.
Proof.
  intros os v p e c. pose proof (prun_pinv os empty_pcoll empty_pinv) as [I1 I2 I3]. fold c in I1, I2, I3.
  split; [|split].
  - unfold ports_for_vertex. now apply nodup_map_filter.
  - unfold ports_for_vertex, vertex_for_port. clear I2 I3. induction (ports c) as [|[a b] l IH]; [cbn; split; [tauto|discriminate]|].
    cbn [map snd] in I1. inversion I1 as [|? ? N1 N2]; subst. specialize (IH N2). cbn [filter fst find snd].
    destruct (Nat.eqb_spec b p) as [->|].
    + cbn [option_map fst]. destruct (Nat.eqb_spec a v) as [->|].
      * cbn [map snd In]. split; auto.
      * split; [|congruence]. intros H. exfalso. apply N1. apply in_map_iff in H. destruct H as ([x y] & E & H).
        apply filter_In in H. apply in_map_iff. exists (x, y). tauto.
    + destruct (Nat.eqb_spec a v) as [->|]; cbn [map snd In]; rewrite <- IH; [|tauto]. split; [intros [H|H]; [congruence|auto]|auto].
  - unfold edges_for_port. destruct (vertex_for_port c p) as [w|] eqn:E; [|reflexivity]. split; [eauto|].
    rewrite in_map_iff. split.
    + intros (x & <- & H). apply filter_In in H. destruct x as [[q e'] side]. cbn [fst snd] in *. destruct H as [H Q].
      apply Nat.eqb_eq in Q. subst. eauto.
    + intros [side H]. exists (p, e, side). split; [reflexivity|]. apply filter_In. cbn. now rewrite Nat.eqb_refl.
Qed.
Print Assumptions C35_listings.
(** The lookup by edge alone is a different matter: the connection call does
    not look at the edge's end points, so two vertices can own the source side
    of one edge and the lookup silently returns the later one. *)
Theorem C35_edge_side_refuted : exists os e p q,
  p <> q /\ ports_for_edge (prun empty_pcoll os) e = (Some q, None) /\
  In (p, e, true) (conns (prun empty_pcoll os)) /\ In (q, e, true) (conns (prun empty_pcoll os)).
Proof.
  exists [PAddConnect 0 5 true 10; PAddConnect 1 5 true 11], 5, 10, 11. vm_compute. repeat split; auto. discriminate.
Qed.
Print Assumptions C35_edge_side_refuted.

Example C35_demo : let c := prun empty_pcoll [PAdd 0 10; PAdd 0 11; PAdd 1 12; PConnect 0 5 true 11; PConnect 0 5 true 10;
     PConnect 1 5 false 12; PConnect 1 5 true 10; PDel 11] in
  port_for_connection c 0 5 true = Ok 10 /\ port_for_connection c 1 5 false = Ok 12 /\
  port_for_connection c 1 5 true = Throw /\ ports_for_edge c 5 = (Some 10, Some 12).
Proof. vm_compute. repeat split. Qed.

(** ** C50: removing a vertex from a graph *)
(** Without hierarchies the call succeeds and every collection loses exactly
    the edges touching the vertex. *)
Theorem C50_remove_vertex_partial : forall fuel ord vs histories v, In v vs -> some_order ord ->
  (forall os, In os histories -> no_parallel_removal ord empty_ecoll os) ->
  let cs := map (erun ord empty_ecoll) histories in
  exists cs', g_untrack fuel ord (mkG vs [] cs) v = (mkG (excl_ v vs) [] cs', Done) /\
    Forall2 (fun c c' => forall e a b, runs c' e a b <-> runs c e a b /\ a <> v /\ b <> v) cs cs'.
Proof.
  intros fuel ord vs histories v Hv O N. cbv zeta. apply g_untrack_plain; auto.
  intros c H. apply in_map_iff in H. destruct H as (os & <- & H). split.
  - apply erun_inv; auto using empty_inv.
  - apply erun_visible; auto using empty_inv, empty_visible.
Qed.
Print Assumptions C50_remove_vertex_partial.
(** With at least one hierarchy it never succeeds: hierarchies are asked
    twice, and the second request is for a vertex they no longer have. *)
Theorem C50_remove_vertex_refuted : forall fuel ord vs histories cs v, some_order ord -> histories <> [] ->
  snd (g_untrack fuel ord (mkG vs (map (hrun fuel ord empty_hier) histories) cs) v) <> Done.
Proof.
  intros fuel ord vs histories cs v O N. apply g_untrack_with_hierarchy; auto.
  - intros h H. apply in_map_iff in H. destruct H as (os & <- & H). apply hrun_agree, empty_agree.
  - cbn. destruct histories; [congruence|discriminate].
Qed.
Print Assumptions C50_remove_vertex_refuted.
Example C50_demo :
  let h := hrun 9 (fun l => l) empty_hier [HTrack 0; HTrack 1] in
  let g := mkG [0; 1] [h] [] in
  snd (g_untrack 9 (fun l => l) g 1) = Raised /\ g_ids (fst (g_untrack 9 (fun l => l) g 1)) = [0; 1] /\
  map ids (g_hier (fst (g_untrack 9 (fun l => l) g 1))) = [[0]].
Proof. vm_compute. repeat split. Qed.
