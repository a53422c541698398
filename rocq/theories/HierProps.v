(** Hierarchy properties C31-C33, C49, C51-C53. *)
From Coq Require Import List Bool Arith Lia Permutation.
From Verif Require Import Base BimapModel HierModel HierSpec HierProofs HierQueries.
Import ListNotations.

(** ** C31 *)
Theorem C31_views_agree : forall fuel ord os, views_agree (hrun fuel ord empty_hier os).
Proof. exact (fun fuel ord os => hrun_agree fuel ord os empty_hier empty_agree). Qed.
Print Assumptions C31_views_agree.

(** Removing a vertex removes exactly it and what is below it, and leaves the
    parents of the others alone. *)
Theorem C31_remove_exact : forall fuel ord os v, some_order ord ->
  let h := hrun fuel ord empty_hier os in
  let r := untrack_vertex fuel ord h v in
  snd r = Done ->
  (forall u, In u (ids (fst r)) <-> In u (ids h) /\ ~ at_or_above h v u) /\
  (forall u, In u (ids (fst r)) -> parent_vertex (fst r) u = parent_vertex h u).
Proof. exact (fun fuel ord os v O => untrack_vertex_effect fuel ord _ v (hrun_agree fuel ord os empty_hier empty_agree) O). Qed.
Print Assumptions C31_remove_exact.

(** An accepted relation makes [p] the parent of [s] and changes nothing else
    a caller can see through the parent query; removing it undoes that. *)
Theorem C31_relate_effect : forall h e p s, snd (track_relation h e p s) = Done ->
  forall v, parent_vertex (fst (track_relation h e p s)) v = (if Nat.eqb v s then Some p else parent_vertex h v).
Proof.
  exact (fun h e p s => ltac:(unfold track_relation; destruct (negb _); [discriminate|]; destruct (negb _); [discriminate|];
    destruct (negb _); [discriminate|]; destruct (parent h s); [discriminate|];
    destruct (add_unique_11 _ _ _ _ _); [reflexivity|discriminate])).
Qed.
Print Assumptions C31_relate_effect.
Theorem C31_unrelate_effect : forall h p s, snd (untrack_relation h p s) = Done ->
  parent_vertex h s = Some p /\
  forall v, parent_vertex (fst (untrack_relation h p s)) v = (if Nat.eqb v s then None else parent_vertex h v).
Proof.
  exact (fun h p s => ltac:(unfold untrack_relation, parent_vertex; destruct (negb _); [discriminate|]; destruct (negb _); [discriminate|];
    destruct (parent h s) as [q|]; [|discriminate]; destruct (Nat.eqb_spec q p) as [->|]; cbn; [split; reflexivity|discriminate])).
Qed.
Print Assumptions C31_unrelate_effect.

Definition demo : list hop :=
  [HTrack 0; HTrack 1; HTrack 2; HTrack 3; HTrack 4; HObject 10; HObject 11; HObject 12;
   HRelate 10 0 1; HRelate 11 1 2; HRelate 12 1 3].
Example C31_demo : let h := hrun 9 (@rev nat) empty_hier demo in
  sub_vertices h 1 = [2; 3] /\ root_vertices h = [0; 4] /\
  ids (fst (untrack_vertex 9 (@rev nat) h 1)) = [0; 4] /\ snd (untrack_vertex 9 (@rev nat) h 1) = Done /\
  root_vertices (fst (untrack_vertex 9 (@rev nat) h 1)) = [0; 4].
Proof. vm_compute. repeat split. Qed.
Example C31_rev_order : some_order (@rev nat).
Proof. exact (fun l => Permutation_rev l). Qed.

(** ** C32 *)
(** Two accepted requests put a vertex above itself, and then the ancestor
    query never returns, nor does the removal of the vertex. *)
Theorem C32_acyclic_refuted : exists os v,
  all_done 9 (fun l => l) empty_hier os /\
  let h := hrun 9 (fun l => l) empty_hier os in
  above h v v /\ (forall fuel, parent_chain fuel h v = None) /\
  (forall fuel ord, snd (untrack_vertex fuel ord h v) = NoReturn).
Proof.
  exists [HTrack 0; HTrack 1; HObject 5; HObject 6; HRelate 5 0 1; HRelate 6 1 0], 0.
  split; [vm_compute; repeat split|]. cbv zeta. set (h := hrun _ _ _ _).
  assert (P0 : parent h 0 = Some 1) by (vm_compute; reflexivity).
  assert (P1 : parent h 1 = Some 0) by (vm_compute; reflexivity).
  assert (N0 : nested h 0 = Some [1]) by (vm_compute; reflexivity).
  assert (N1 : nested h 1 = Some [0]) by (vm_compute; reflexivity).
  assert (I0 : memb 0 (ids h) = true) by (vm_compute; reflexivity).
  clearbody h. split; [apply above_step with 1; [exact P0|constructor; exact P1]|]. split.
  - assert (K : forall n, parent_chain n h 0 = None /\ parent_chain n h 1 = None).
    { induction n as [|n [IH0 IH1]]; cbn [parent_chain]; [split; reflexivity|]. rewrite P0, P1, IH0, IH1. split; reflexivity. }
    intros fuel. apply K.
  - assert (K : forall n acc, collect n h 0 acc = None /\ collect n h 1 acc = None).
    { induction n as [|n IH]; intros acc; cbn [collect]; [split; reflexivity|].
      rewrite N0, N1. cbn [fold_left]. split; apply IH. }
    intros fuel ord. unfold untrack_vertex. rewrite I0. cbn [negb]. rewrite (proj1 (K fuel [])). reflexivity.
Qed.
Print Assumptions C32_acyclic_refuted.

(** Missing for the full claim: nothing in the code rejects a loop.  When the
    caller never requests one, every chain query returns the ancestors in
    order, no vertex is its own ancestor, and removal returns. *)
Theorem C32_acyclic_partial : forall fuel ord os, no_loop_requests fuel ord empty_hier os ->
  let h := hrun fuel ord empty_hier os in
  forall v, exists c, ancestors_upward h v c /\ NoDup (v :: c) /\
    (forall n, length c < n -> parent_chain n h v = Some c) /\
    (forall a, In a c <-> above h a v) /\
    (In v (ids h) -> snd (untrack_vertex (length (ids h)) ord h v) = Done).
Proof.
  exact (fun fuel ord os N v =>
    let W := hrun_agree fuel ord os empty_hier empty_agree in
    let A := hrun_all_end fuel ord os empty_hier empty_agree empty_all_end N in
    match A v with
    | ex_intro _ c Hc => ex_intro _ c (conj Hc (conj (upward_nodup _ _ _ Hc)
        (conj (fun n L => chain_complete _ c v n Hc L)
        (conj (upward_in _ _ _ Hc) (untrack_vertex_done ord _ v W A)))))
    end).
Qed.
Print Assumptions C32_acyclic_partial.
Example C32_demo : parent_chain 9 (hrun 9 (fun l => l) empty_hier demo) 3 = Some [1; 0].
Proof. reflexivity. Qed.
Lemma demo_no_loop : no_loop_requests 9 (fun l => l) empty_hier demo.
Proof.
  unfold demo. cbn [no_loop_requests].
  assert (K : forall h p s, parent_vertex h p = None -> p <> s -> p <> s /\ ~ above h s p).
  { intros h p s E N. split; auto. intros Q. destruct Q; congruence. }
  split; [exact I|]. split; [exact I|]. split; [exact I|]. split; [exact I|]. split; [exact I|].
  split; [exact I|]. split; [exact I|]. split; [exact I|].
  split; [apply K; [reflexivity|discriminate]|].
  assert (K2 : forall h p q s, parent_vertex h p = Some q -> parent_vertex h q = None -> p <> s -> q <> s -> p <> s /\ ~ above h s p).
  { intros h p q s E E2 N1 N2. split; auto. intros Q. destruct Q as [? ? Q|? ? ? Q R]; [congruence|].
    rewrite E in Q. injection Q as <-. destruct R; congruence. }
  split; [apply (K2 _ 1 0); [reflexivity|reflexivity|discriminate|discriminate]|].
  split; [apply (K2 _ 1 0); [reflexivity|reflexivity|discriminate|discriminate]|].
  exact I.
Qed.

(** ** C33 *)
(** After removing a recorded relation, adding it again always throws, with
    any edge; the failed call has put everything back as it was. *)
Theorem C33_readd_throws : forall fuel ord os p s e e',
  let h := hrun fuel ord empty_hier os in
  parent_vertex h s = Some p -> at_right pair_eqb (tracker h) (p, s) = Some e -> In e' (objects h) ->
  snd (untrack_relation h p s) = Done /\
  snd (track_relation (fst (untrack_relation h p s)) e' p s) = Raised /\
  same_hierarchy (fst (track_relation (fst (untrack_relation h p s)) e' p s)) h.
Proof. exact (fun fuel ord os p s e e' => readd_refused _ p s e e' (hrun_agree fuel ord os empty_hier empty_agree)). Qed.
Print Assumptions C33_readd_throws.

(** The claim itself is false, whatever the hash of the edge id is. *)
Theorem C33_readd_refuted : forall hash : nat -> nat -> nat,
  let h0 := fst (track_vertex (fst (track_vertex empty_hier 0)) 1) in
  let r1 := track_relation_hashed hash h0 0 1 in
  let r2 := untrack_relation (fst r1) 0 1 in
  let r3 := track_relation_hashed hash (fst r2) 0 1 in
  snd r1 = Done /\ snd r2 = Done /\ snd r3 = Raised /\
  (* between removal and re-adding the edge is still listed *)
  contains_left pair_eqb (tracker (fst r2)) (0, 1) = true.
Proof.
  intros hash. unfold track_relation_hashed, track_relation, add_object. cbn. rewrite Nat.eqb_refl. cbn.
  unfold incl_, memb. cbn [existsb]. rewrite Nat.eqb_refl. cbn [orb existsb]. rewrite Nat.eqb_refl. cbn. repeat split.
Qed.
Print Assumptions C33_readd_refuted.

(** As long as no call failed, every relation has its edge, and the edge
    queries list exactly the edges of the current relations. *)
Theorem C33_edge_queries_partial : forall fuel ord os, all_done fuel ord empty_hier os ->
  let h := hrun fuel ord empty_hier os in
  (forall v, exists l, outgoing h v = Some l /\
     forall e, In e l <-> exists s, parent_vertex h s = Some v /\ at_right pair_eqb (tracker h) (v, s) = Some e) /\
  (forall v, exists l, incoming h v = Some l /\
     forall e, In e l <-> exists p, parent_vertex h v = Some p /\ at_right pair_eqb (tracker h) (p, v) = Some e).
Proof.
  exact (fun fuel ord os D =>
    let W := hrun_agree fuel ord os empty_hier empty_agree in
    let H := hrun_has_edges fuel ord os empty_hier empty_agree empty_has_edges D in
    conj (fun v => outgoing_spec _ v H W) (fun v => incoming_spec _ v H)).
Qed.
Print Assumptions C33_edge_queries_partial.
Example C33_demo : all_done 9 (fun l => l) empty_hier demo /\
  outgoing (hrun 9 (fun l => l) empty_hier demo) 1 = Some [12; 11] /\
  incoming (hrun 9 (fun l => l) empty_hier demo) 3 = Some [12].
Proof. vm_compute. repeat split. Qed.

(** ** C49: calls that fail *)
Theorem C49_failed_call_partial : forall fuel ord h o, snd (hstep fuel ord h o) <> Done ->
  (forall e p s, o = HRelate e p s ->
     contains_left pair_eqb (tracker h) (p, s) = false /\ contains_right Nat.eqb (tracker h) e = false) ->
  fst (hstep fuel ord h o) = h.
Proof. exact failed_unchanged. Qed.
Print Assumptions C49_failed_call_partial.
(** With an edge id that is already in use the call throws, yet the vertex has
    a parent now, and asking for the parent's edges throws from then on. *)
Theorem C49_failed_call_refuted : exists os e p s,
  let h := hrun 9 (fun l => l) empty_hier os in
  snd (track_relation h e p s) = Raised /\
  parent_vertex h s = None /\ parent_vertex (fst (track_relation h e p s)) s = Some p /\
  outgoing h p = Some [] /\ outgoing (fst (track_relation h e p s)) p = None.
Proof.
  exists [HTrack 0; HTrack 1; HTrack 2; HObject 5; HRelate 5 0 1], 5, 1, 2. vm_compute. repeat split.
Qed.
Print Assumptions C49_failed_call_refuted.
Example C49_demo : let h := hrun 9 (fun l => l) empty_hier demo in
  hstep 9 (fun l => l) h (HTrack 2) = (h, Raised) /\ hstep 9 (fun l => l) h (HUnrelate 0 2) = (h, Raised).
Proof. vm_compute. split; reflexivity. Qed.

(** ** C51: vertices crossed by an edge *)
(** Two-sided case: correct when the common vertex is no farther from the
    source than from the target. *)
Theorem C51_crossings_partial : forall fuel ord os s t w a b n,
  no_loop_requests fuel ord empty_hier os ->
  let h := hrun fuel ord empty_hier os in
  lowest_common h [s; t] w -> strictly_between h s w a -> strictly_between h t w b ->
  length a <= length b -> S (length b) < n ->
  crossings n h s t = Ok (a ++ rev b).
Proof.
  exact (fun fuel ord os s t w a b n N =>
    crossings_two_sided _ s t w a b n (hrun_all_end fuel ord os empty_hier empty_agree empty_all_end N)).
Qed.
Print Assumptions C51_crossings_partial.
(** From a vertex to one below it the same vertices come out, but listed from
    the target's side. *)
Theorem C51_crossings_downward : forall fuel ord os s t b n,
  no_loop_requests fuel ord empty_hier os ->
  let h := hrun fuel ord empty_hier os in
  strictly_between h t s b -> S (length b) < n -> crossings n h s t = Ok b.
Proof.
  exact (fun fuel ord os s t b n N =>
    crossings_source_above _ s t b n (hrun_all_end fuel ord os empty_hier empty_agree empty_all_end N)).
Qed.
Print Assumptions C51_crossings_downward.
(** Between two trees, as soon as one end is nested, the query throws. *)
Theorem C51_different_trees_throw : forall h s t cs ct n,
  ancestors_upward h s cs -> ancestors_upward h t ct ->
  (forall w, at_or_above h w s -> ~ at_or_above h w t) -> cs <> [] \/ ct <> [] ->
  length cs < n -> length ct < n -> crossings n h s t = Throw.
Proof. exact crossings_different_trees. Qed.
Print Assumptions C51_different_trees_throw.

Definition deep : list hop :=
  map HTrack (seq 0 7) ++ map HObject (seq 20 6) ++
  [HRelate 20 0 1; HRelate 21 1 2; HRelate 22 2 3; HRelate 23 1 4; HRelate 24 3 5; HRelate 25 0 6].
(** The tree is 0(1(2(3(5)) 4) 6).
    - from 3 to 4 (common vertex 1) the path goes through 1 twice instead of
      just 2;
    - from 5 up to 6 the walk runs past the root and throws;
    - from 0 down to 5 the path is listed bottom-up. *)
Theorem C51_crossings_refuted :
  let h := hrun 9 (fun l => l) empty_hier deep in
  (strictly_between h 3 1 [2] /\ strictly_between h 4 1 [] /\ crossings 20 h 3 4 = Ok [2; 1; 1]) /\
  (strictly_between h 5 0 [3; 2; 1] /\ strictly_between h 6 0 [] /\ crossings 20 h 5 6 = Throw) /\
  (strictly_between h 5 0 [3; 2; 1] /\ crossings 20 h 0 5 = Ok [3; 2; 1]).
Proof. exact ltac:(vm_compute; repeat split). Qed.
Print Assumptions C51_crossings_refuted.
Example C51_demo : let h := hrun 9 (fun l => l) empty_hier deep in
  strictly_between h 4 1 [] /\ strictly_between h 3 1 [2] /\ crossings 20 h 4 3 = Ok [2] /\ crossings 20 h 6 5 = Ok [1; 2; 3].
Proof. vm_compute. repeat split. Qed.

(** ** C52: common ancestor *)
Theorem C52_common_ancestor_partial : forall fuel ord os vs n,
  no_loop_requests fuel ord empty_hier os ->
  let h := hrun fuel ord empty_hier os in
  (forall v, In v vs -> exists d, depth h v d /\ d < n) ->
  (exists a b, In a vs /\ In b vs /\ a <> b) ->
  (forall a b, In a vs -> In b vs -> ~ above h a b) ->
  exists r, common_ancestor n h vs = Some r /\
    match r with
    | Some w => lowest_common h vs w
    | None => forall w, ~ (forall v, In v vs -> at_or_above h w v)
    end.
Proof.
  exact (fun fuel ord os vs n N D => common_ancestor_spec _ n vs
    (fun v Hv => match D v Hv with ex_intro _ d (conj (ex_intro _ c (conj Hc E)) L) =>
        ex_intro _ c (conj Hc (eq_ind_r (fun k => k < n) L E)) end)).
Qed.
Print Assumptions C52_common_ancestor_partial.
(** A single vertex, or a vertex listed before one of its descendants, gives
    the vertex above; with the other listing order (the order of a hash set)
    the answer differs. *)
Theorem C52_common_ancestor_refuted :
  let h := hrun 9 (fun l => l) empty_hier deep in
  common_ancestor 20 h [3] = Some (Some 2) /\
  common_ancestor 20 h [2; 5] = Some (Some 1) /\ common_ancestor 20 h [5; 2] = Some (Some 2) /\
  at_or_above h 2 2 /\ above h 2 5.
Proof.
  exact ltac:(split; [reflexivity|]; split; [reflexivity|]; split; [reflexivity|]; split; [left; reflexivity|];
    apply above_step with 3; [reflexivity|constructor; reflexivity]).
Qed.
Print Assumptions C52_common_ancestor_refuted.
Example C52_demo : let h := hrun 9 (fun l => l) empty_hier deep in
  common_ancestor 20 h [5; 4] = Some (Some 1) /\ common_ancestor 20 h [4; 5; 6] = Some (Some 0).
Proof. vm_compute. split; reflexivity. Qed.

(** ** C53: bounded chains and nesting level *)
(** The bound of the chain query has no effect. *)
Theorem C53_chain_until_refuted : forall n h start finish, parent_chain_until n h start finish = parent_chain n h start.
Proof. exact chain_until_is_chain. Qed.
Print Assumptions C53_chain_until_refuted.
Theorem C53_nesting_level : forall fuel ord os, no_loop_requests fuel ord empty_hier os ->
  let h := hrun fuel ord empty_hier os in
  exists n, max_nesting_level (length (ids h)) h = Some n /\
    (forall v d, In v (ids h) -> depth h v d -> d < n) /\
    (n = 0 \/ exists v, In v (ids h) /\ depth h v (n - 1)).
Proof.
  exact (fun fuel ord os N => max_nesting_level_spec _ (hrun_agree fuel ord os empty_hier empty_agree)
    (hrun_all_end fuel ord os empty_hier empty_agree empty_all_end N)).
Qed.
Print Assumptions C53_nesting_level.
Example C53_demo : let h := hrun 9 (fun l => l) empty_hier deep in
  parent_chain_until 20 h 5 2 = Some [3; 2; 1; 0] /\ max_nesting_level 7 h = Some 5.
Proof. vm_compute. split; reflexivity. Qed.
