(** C41: mind-map links. *)
From Coq Require Import List Bool Arith Lia Permutation.
From Verif Require Import Base MmapModel MmapSpec MmapProofs.
Import ListNotations.
Local Open Scope nat_scope.

Section Statements.
  Variable links_of : uniq -> list uniq.
  Variable radios_of : uniq -> list uniq.
  Variable targets : uniq -> outcome (list uniq).
  Variable found : list (uniq * uniq) -> uniq * uniq -> bool.
  Variable order : list nat -> list nat.
  Notation add_node := (add_node links_of radios_of targets found order).
  Notation add_nodes := (add_nodes links_of radios_of targets found order).
  Notation item := (item links_of radios_of).
  Notation refers := (refers targets).

  (** For every history: vertices are the added nodes in order, every edge
      leads from a node to one that its text refers to, everything listed as
      unresolved is in the text of its node, and the nodes tracked as unresolved
      are those with something listed. *)
Theorem C41_sound : forall xs s, (forall l, Permutation (order l) l) -> add_nodes empty xs = Ok s ->
    map node (vertices s) = xs /\
    (forall a b, In (a, b) (edges s) -> exists u t l, nth_error xs a = Some u /\ nth_error xs b = Some t /\ item u l /\ refers l t) /\
    (forall i v l, nth_error (vertices s) i = Some v -> In l (pending v) -> item (node v) l) /\
    (forall i, In i (unresolved s) <-> exists v, nth_error (vertices s) i = Some v /\ pending v <> []).
Proof.
    intros xs s O E. destruct (inv_all links_of radios_of targets found order O xs empty [] s (inv_empty _ _ _) E) as [I1 I2 I3 I4 I5]. cbn [app] in *.
    split; [exact I1|]. split; [exact I5|]. split; [exact I3|]. intros i. rewrite I4. unfold has_pending. split.
    - intros H. destruct (nth_error (vertices s) i) as [v|]; [|discriminate]. exists v. split; [reflexivity|]. destruct (pending v); discriminate.
    - intros (v & -> & H). destruct (pending v); [congruence|reflexivity].
Qed.

  (** When adding a node completes at most one reference, at every step, nothing
      is lost: two nodes are joined exactly when the text of one refers to the
      other, and a reference is listed as unresolved exactly when what it refers
      to was not added.  Partial: of several references completed together only
      one is kept. *)
Theorem C41_complete_partial : forall xs, (forall l, Permutation (order l) l) -> search_ok found -> NoDup xs ->
    (forall u k, In u xs -> In k (links_of u) -> targets k = Ok [] \/ exists t, targets k = Ok [t]) ->
    (forall before x after, xs = before ++ x :: after -> completed links_of radios_of targets before x <= 1) ->
    exists s, add_nodes empty xs = Ok s /\
      (forall i j u t, nth_error xs i = Some u -> nth_error xs j = Some t -> (In (i, j) (edges s) <-> exists l, item u l /\ refers l t)) /\
      (forall i u, nth_error xs i = Some u -> exists p, nth_error (vertices s) i = Some (Vertex u p) /\
         forall l, In l p <-> item u l /\ ~ exists t, refers l t /\ In t xs).
Proof.
    intros xs O F ND OT C.
    destruct (complete_all links_of radios_of targets found order O (proj1 F) xs empty []) as (s & E & I).
    - constructor; cbn; try (intros; destruct i; discriminate); [apply inv_empty|constructor].
    - exact ND.
    - intros u Hu k Hk. exact (OT u k Hu Hk).
    - intros a x b H _. apply (C a x b). exact H.
    - exists s. split; [exact E|]. cbn [app] in I. destruct I as [[I1 I2 I3 I4 I5] CM CP CN CE].
      assert (PL : forall u l, In u xs -> item u l -> plain targets l).
      { intros u l Hu Hl. eapply (items_plain links_of radios_of targets u); [intros k Hk; eapply OT; eauto|]. now apply items_item. }
      assert (RF : forall u l t, In u xs -> item u l -> (refers l t <-> goal_of targets l = Some t)) by (intros u l t Hu Hl; apply plain_refers; eapply PL; eauto).
      split.
      + intros i j u t Hi Hj. split.
        * intros H. destruct (I5 i j H) as (u' & t' & l & Hu & Ht & Hl & Hr). rewrite Hi in Hu. rewrite Hj in Ht. injection Hu as <-. injection Ht as <-. eauto.
        * intros (l & Hl & Hr). apply (CE i j u t l Hi Hj); [now apply items_item|]. apply (RF u l t); [eapply nth_error_In; eauto|exact Hl|exact Hr].
      + intros i u Hi. pose proof Hi as Hi'. rewrite <- I1, nth_error_map in Hi'. destruct (nth_error (vertices s) i) as [v|] eqn:V; [|discriminate]. injection Hi' as Hv.
        exists (pending v). destruct v as [w p]. cbn in *. subst w. split; [reflexivity|]. intros l. pose proof (CP i _ V) as CPi. cbn [node pending] in CPi. rewrite CPi, filter_In, items_item.
        assert (Hu : In u xs) by (eapply nth_error_In; eauto).
        split; intros [Hl K]; (split; [exact Hl|]).
        * intros (t & Hr & Ht). apply (RF u l t Hu Hl) in Hr. unfold waiting in K. rewrite Hr in K. destruct (in_dec uniq_dec t xs); [discriminate|contradiction].
        * unfold waiting. destruct (goal_of targets l) as [t|] eqn:G; [|reflexivity]. destruct (in_dec uniq_dec t xs) as [H|H]; [|reflexivity]. exfalso. apply K. exists t. split; [|exact H]. now apply (RF u l t Hu Hl).
Qed.

  (** In one document adding a node adds at most one edge, whatever it refers to
      and whatever refers to it. *)
Theorem C41_one_edge : forall xs x s s' k, (forall l, Permutation (order l) l) -> search_ok found -> (forall u, In u (xs ++ [x]) -> root u = k) ->
    add_nodes empty xs = Ok s -> add_node s x = Ok s' -> length (edges s') <= S (length (edges s)).
Proof.
    intros xs x s s' k O F R E E'. eapply one_edge; eauto. exact (inv_all links_of radios_of targets found order O xs empty [] s (inv_empty _ _ _) E).
Qed.
End Statements.

(** ** Examples *)
Definition here (n : nat) : uniq := Uniq 0 [n] n.
Definition search (l : list (uniq * uniq)) (k : uniq * uniq) : bool := existsb (fun x => negb (pair_less x k) && negb (pair_less k x)) l.
Example C41_ex_search : search_ok search.
Proof.
  repeat split.
  - intros l k H. apply existsb_exists in H. destruct H as (x & Hx & E). apply andb_true_iff in E. destruct E as [E1 E2]. apply negb_true_iff in E1. apply negb_true_iff in E2. eauto.
  - intros l k N H. apply existsb_exists. destruct l as [|x l]; [congruence|]. exists x. split; [now left|]. destruct (H x (or_introl eq_refl)) as [-> ->]. reflexivity.
Qed.
(** The link with number 10 n + i is a link to the node n. *)
Definition tgt (k : uniq) : outcome (list uniq) := Ok [here (id k / 10)].
Definition no_radio (_ : uniq) : list uniq := [].

(** A chain: 1 links to 2, 2 to 3, 3 to a node that is never added. *)
Definition chain (u : uniq) : list uniq := match id u with 1 => [here 20] | 2 => [here 30] | 3 => [here 90] | _ => [] end.
Example C41_ex_chain : forall before x after, [here 2; here 1; here 3] = before ++ x :: after -> completed chain no_radio tgt before x <= 1.
Proof.
  intros before x after H. destruct before as [|a [|b [|c before]]]; cbn [app] in H; injection H as <-; subst.
  - vm_compute. lia.
  - vm_compute. subst. lia.
  - subst. vm_compute. lia.
  - destruct before; discriminate.
Qed.
Example C41_ex_chain_ok : option_map edges (match add_nodes chain no_radio tgt search (fun l => l) empty [here 2; here 1; here 3] with Ok s => Some s | _ => None end) = Some [(1, 0); (0, 2)].
Proof. vm_compute. reflexivity. Qed.

(** FINDING: a node with links to two nodes already present gets one edge, and
    the other link is not listed as unresolved either. *)
Definition two (u : uniq) : list uniq := match id u with 3 => [here 10; here 20] | _ => [] end.
Theorem C41_lost_refuted : exists s, add_nodes two no_radio tgt search (fun l => l) empty [here 1; here 2; here 3] = Ok s /\
  edges s = [(2, 0)] /\ unresolved s = [] /\ map pending (vertices s) = [[]; []; []].
Proof. eexists. split; [vm_compute; reflexivity|]. repeat split. Qed.

(** FINDING: two nodes waiting for the same one: a link of the second stays
    unresolved though its target is there, a radio mention is lost. *)
Definition both (u : uniq) : list uniq := match id u with 1 => [here 30] | 2 => [here 31] | _ => [] end.
Definition both_radio (u : uniq) : list uniq := match id u with 1 | 2 => [here 3] | _ => [] end.
Theorem C41_waiting_refuted :
  (exists s, add_nodes both no_radio tgt search (fun l => l) empty [here 1; here 2; here 3] = Ok s /\ edges s = [(0, 2)] /\ map pending (vertices s) = [[]; [Link (here 31)]; []]) /\
  (exists s, add_nodes no_radio both_radio tgt search (fun l => l) empty [here 1; here 2; here 3] = Ok s /\ edges s = [(0, 2)] /\ map pending (vertices s) = [[]; []; []]).
Proof. split; eexists; (split; [vm_compute; reflexivity|]); repeat split. Qed.

(** FINDING: a link that refers to a heading found at two places is resolved
    with the first of them that is there, and the other never gets an edge. *)
Definition at_two (k : uniq) : outcome (list uniq) := Ok [here 1; here 2].
Definition last_links (u : uniq) : list uniq := match id u with 3 => [here 40] | _ => [] end.
Theorem C41_places_refuted : exists s, add_nodes last_links no_radio at_two search (fun l => l) empty [here 1; here 3; here 2] = Ok s /\
  edges s = [(1, 0)] /\ unresolved s = [].
Proof. eexists. split; [vm_compute; reflexivity|]. repeat split. Qed.

(** FINDING: the order these keys are compared by is not one: nodes of one
    document are all equivalent, and of two paths each can be less than the
    other. *)
Theorem C41_order_refuted :
  (forall a b, root a = root b -> uniq_less a b = false /\ uniq_less b a = false) /\
  itemwise_less [0; 1] [1; 0] = true /\ itemwise_less [1; 0] [0; 1] = true.
Proof. split; [|split; reflexivity]. intros a b E. split; now apply same_root. Qed.

Print Assumptions C41_sound.
Print Assumptions C41_complete_partial.
Print Assumptions C41_one_edge.
Print Assumptions C41_lost_refuted.
Print Assumptions C41_waiting_refuted.
Print Assumptions C41_places_refuted.
Print Assumptions C41_order_refuted.
