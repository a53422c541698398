(** Proofs about the edge collection. *)
From Coq Require Import List Bool Arith Lia Permutation.
From Verif Require Import Base HierModel HierSpec HierProofs EdgeModel EdgeSpec.
Import ListNotations.

(** ** Association lists *)
Lemma aget_aset {A} (m : list (nat * A)) k v k' : aget (aset m k v) k' = if Nat.eqb k k' then Some v else aget m k'.
Proof.
  induction m as [|[k0 v0] m IH]; simpl; auto.
  destruct (Nat.eqb_spec k0 k) as [->|N]; simpl.
  - destruct (Nat.eqb_spec k k'); auto.
  - rewrite IH. destruct (Nat.eqb_spec k0 k') as [->|]; auto. destruct (Nat.eqb_spec k k'); auto. congruence.
Qed.
Lemma aget_adel {A} (m : list (nat * A)) k k' : aget (adel m k) k' = if Nat.eqb k k' then None else aget m k'.
Proof.
  induction m as [|[k0 v0] m IH]; simpl; [destruct (Nat.eqb k k'); auto|].
  destruct (Nat.eqb_spec k0 k) as [->|N]; simpl; rewrite IH.
  - destruct (Nat.eqb k k'); auto.
  - destruct (Nat.eqb_spec k0 k') as [->|]; auto. destruct (Nat.eqb_spec k k'); auto. congruence.
Qed.
Definition keys {A} (m : list (nat * A)) := map fst m.
Lemma aset_keys {A} (m : list (nat * A)) k v x : In x (keys (aset m k v)) <-> x = k \/ In x (keys m).
Proof.
  induction m as [|[k0 v0] m IH]; simpl; [intuition|].
  destruct (Nat.eqb_spec k0 k) as [->|N]; simpl; [intuition|]. unfold keys in IH. rewrite IH. intuition.
Qed.
Lemma aset_nodup {A} (m : list (nat * A)) k v : NoDup (keys m) -> NoDup (keys (aset m k v)).
Proof.
  induction m as [|[k0 v0] m IH]; simpl; intros N; [constructor; auto; constructor|].
  apply NoDup_cons_iff in N. destruct N as [N1 N2]. destruct (Nat.eqb_spec k0 k) as [->|E]; simpl.
  - constructor; auto.
  - constructor; auto. intros Q. apply aset_keys in Q. destruct Q as [->|Q]; auto.
Qed.
Lemma adel_nodup {A} (m : list (nat * A)) k : NoDup (keys m) -> NoDup (keys (adel m k)).
Proof.
  induction m as [|[k0 v0] m IH]; simpl; intros N; [constructor|].
  apply NoDup_cons_iff in N. destruct N as [N1 N2]. destruct (Nat.eqb_spec k0 k) as [->|E]; simpl; auto.
  constructor; auto. intros Q. apply N1. unfold keys in *. apply in_map_iff in Q. destruct Q as (y & <- & Q).
  apply filter_In in Q. apply in_map. tauto.
Qed.
Lemma aget_in {A} (m : list (nat * A)) k v : NoDup (keys m) -> (aget m k = Some v <-> In (k, v) m).
Proof.
  induction m as [|[k0 v0] m IH]; simpl; intros N; [split; [discriminate|tauto]|].
  apply NoDup_cons_iff in N. destruct N as [N1 N2]. specialize (IH N2). destruct (Nat.eqb_spec k0 k) as [->|E].
  - split; [intros Q; injection Q as ->; auto|]. intros [Q|Q]; [congruence|].
    exfalso. apply N1. change k with (fst (k, v)). now apply in_map.
  - rewrite IH. split; auto. intros [Q|]; auto. congruence.
Qed.

(** ** Shape of the incidence map *)
Definition shape (inc : list (nat * list (nat * list nat))) : Prop :=
  NoDup (keys inc) /\
  forall s row, aget inc s = Some row -> NoDup (keys row) /\ forall t l, aget row t = Some l -> l <> [].
Definition cell (inc : list (nat * list (nat * list nat))) (s t : nat) : list nat :=
  match aget inc s with
  | Some row => match aget row t with Some l => l | None => [] end
  | None => []
  end.

Lemma shape_aset inc s row : shape inc -> NoDup (keys row) -> (forall t l, aget row t = Some l -> l <> []) ->
  shape (aset inc s row).
Proof.
  intros [H1 H2] R1 R2. split; [now apply aset_nodup|]. intros s' row'. rewrite aget_aset.
  destruct (Nat.eqb_spec s s'); [|apply H2]. intros Q. injection Q as <-. auto.
Qed.
Lemma shape_adel inc s : shape inc -> shape (adel inc s).
Proof.
  intros [H1 H2]. split; [now apply adel_nodup|]. intros s' row'. rewrite aget_adel.
  destruct (Nat.eqb s s'); [discriminate|apply H2].
Qed.
Lemma cell_aset inc s row s' t' : cell (aset inc s row) s' t' =
  if Nat.eqb s s' then match aget row t' with Some l => l | None => [] end else cell inc s' t'.
Proof. unfold cell. rewrite aget_aset. destruct (Nat.eqb s s'); auto. Qed.
Lemma cell_adel inc s s' t' : cell (adel inc s) s' t' = if Nat.eqb s s' then [] else cell inc s' t'.
Proof. unfold cell. rewrite aget_adel. destruct (Nat.eqb s s'); auto. Qed.
Lemma cell_new_row inc s s' t' : aget inc s = None -> cell (aset inc s []) s' t' = cell inc s' t'.
Proof.
  intros H. rewrite cell_aset. destruct (Nat.eqb_spec s s') as [->|]; auto. unfold cell. now rewrite H.
Qed.
Lemma shape_new_row inc s : shape inc -> shape (aset inc s []).
Proof. intros H. apply shape_aset; auto; [constructor|discriminate]. Qed.

Lemma drop_cell_shape inc id s t : shape inc -> shape (drop_cell inc id s t).
Proof.
  intros H. unfold drop_cell. destruct (aget inc s) as [row|] eqn:R; auto. destruct (aget row t) as [l|] eqn:L; auto.
  destruct (proj2 H s row R) as [N E]. destruct (excl_ id l) as [|x xs] eqn:X.
  - destruct (adel row t) as [|y ys] eqn:D; [now apply shape_adel|]. rewrite <- D.
    apply shape_aset; auto; [now apply adel_nodup|]. intros t' l'. rewrite aget_adel. destruct (Nat.eqb t t'); [discriminate|apply E].
  - apply shape_aset; auto; [now apply aset_nodup|]. intros t' l'. rewrite aget_aset.
    destruct (Nat.eqb t t'); [|apply E]. intros Q. injection Q as <-. discriminate.
Qed.
Lemma drop_cell_cell inc id s t s' t' :
  cell (drop_cell inc id s t) s' t' = if Nat.eqb s s' && Nat.eqb t t' then excl_ id (cell inc s' t') else cell inc s' t'.
Proof.
  unfold drop_cell. destruct (aget inc s) as [row|] eqn:R.
  2:{ destruct (Nat.eqb_spec s s') as [->|]; cbn [andb]; auto. destruct (Nat.eqb t t'); auto. unfold cell. rewrite R. reflexivity. }
  destruct (aget row t) as [l|] eqn:L.
  2:{ destruct (Nat.eqb_spec s s') as [->|]; cbn [andb]; auto. destruct (Nat.eqb_spec t t') as [->|]; auto. unfold cell. rewrite R, L. reflexivity. }
  assert (C : cell inc s t = l) by (unfold cell; now rewrite R, L).
  destruct (excl_ id l) as [|x xs] eqn:X.
  - assert (Q : cell (match adel row t with [] => adel inc s | row' => aset inc s row' end) s' t' =
               if Nat.eqb s s' then match aget (adel row t) t' with Some l => l | None => [] end else cell inc s' t').
    { destruct (adel row t) as [|y ys] eqn:D; [rewrite cell_adel|rewrite cell_aset]; destruct (Nat.eqb s s'); auto. }
    rewrite Q. destruct (Nat.eqb_spec s s') as [<-|]; cbn [andb]; auto. rewrite aget_adel.
    destruct (Nat.eqb_spec t t') as [<-|]; [now rewrite C, X|]. unfold cell. now rewrite R.
  - rewrite cell_aset. destruct (Nat.eqb_spec s s') as [<-|]; cbn [andb]; auto. rewrite aget_aset.
    destruct (Nat.eqb_spec t t') as [<-|]; [now rewrite C, X|]. unfold cell. now rewrite R.
Qed.

Definition from (frm : list (nat * list nat)) (t : nat) : list nat :=
  match aget frm t with Some l => l | None => [] end.
Lemma drop_source_from frm s t t' : from (drop_source frm s t) t' = if Nat.eqb t t' then excl_ s (from frm t') else from frm t'.
Proof.
  unfold drop_source. destruct (aget frm t) as [l|] eqn:L.
  - destruct (excl_ s l) as [|x xs] eqn:X; unfold from; [rewrite aget_adel|rewrite aget_aset];
      (destruct (Nat.eqb_spec t t') as [<-|]; auto; now rewrite L, X).
  - destruct (Nat.eqb_spec t t') as [<-|]; auto. unfold from. now rewrite L.
Qed.

(** ** Queries in terms of cells *)
Lemma edges_cell c e : shape (incidence c) -> (In e (e_edges c) <-> exists s t, In e (cell (incidence c) s t)).
Proof.
  intros [H1 H2]. unfold e_edges. rewrite in_flat_map. split.
  - intros ((s & row) & Hr & He). apply (aget_in _ _ _ H1) in Hr. cbn [snd] in He. rewrite in_flat_map in He.
    destruct He as ((t & l) & Hl & He). cbn [snd] in He. destruct (H2 s row Hr) as [N _].
    apply (aget_in _ _ _ N) in Hl. exists s, t. unfold cell. now rewrite Hr, Hl.
  - intros (s & t & He). unfold cell in He. destruct (aget (incidence c) s) as [row|] eqn:R; [|destruct He].
    destruct (aget row t) as [l|] eqn:L; [|destruct He]. destruct (H2 s row R) as [N _].
    exists (s, row). split; [now apply aget_in|]. cbn [snd]. apply in_flat_map. exists (t, l). split; auto. now apply aget_in.
Qed.
Lemma outgoing_cell c e s : shape (incidence c) -> (In e (e_outgoing c s) <-> exists t, In e (cell (incidence c) s t)).
Proof.
  intros [H1 H2]. unfold e_outgoing, cell. destruct (aget (incidence c) s) as [row|] eqn:R.
  - destruct (H2 s row R) as [N _]. rewrite in_flat_map. split.
    + intros ((t & l) & Hl & He). apply (aget_in _ _ _ N) in Hl. exists t. now rewrite Hl.
    + intros (t & He). destruct (aget row t) as [l|] eqn:L; [|destruct He]. exists (t, l). split; auto. now apply aget_in.
  - split; [intros []|intros (t & [])].
Qed.
Lemma incoming_cell c e t : In e (e_incoming c t) <-> exists s, In s (from (incoming_from c) t) /\ In e (cell (incidence c) s t).
Proof.
  unfold e_incoming, from. destruct (aget (incoming_from c) t) as [l|].
  - rewrite in_flat_map. reflexivity.
  - split; [intros []|intros (s & [] & _)].
Qed.

(** ** Invariant *)
Record einv (c : ecoll) : Prop := {
  ei_shape : shape (incidence c);
  ei_st : forall s t e, In e (cell (incidence c) s t) -> aget (source_target c) e = Some (s, t);
  ei_used : forall e p, aget (source_target c) e = Some p -> exists st, aget (estore c) e = Some st /\ In st (stable_used c) }.
(** Every non-empty cell is reachable from its target. *)
Definition visible (c : ecoll) : Prop :=
  forall s t, cell (incidence c) s t <> [] -> In s (from (incoming_from c) t).

Lemma empty_inv : einv empty_ecoll.
Proof.
  split; cbn.
  - split; [constructor|discriminate].
  - intros s t e [].
  - discriminate.
Qed.
Lemma empty_visible : visible empty_ecoll.
Proof. intros s t H. now contradiction H. Qed.

Lemma e_object_inv c id st : einv c -> einv (e_object c id st).
Proof.
  intros [I1 I2 I3]. unfold e_object. destruct (aget (estore c) id) eqn:E; [split; auto|].
  split; cbn [incidence source_target estore stable_used]; auto.
  intros e p H. destruct (I3 e p H) as (st' & Q & R). exists st'. split; auto.
  rewrite aget_aset. destruct (Nat.eqb_spec id e) as [->|]; congruence.
Qed.
Lemma e_object_visible c id st : visible c -> visible (e_object c id st).
Proof. unfold e_object. destruct (aget (estore c) id); auto. Qed.

Lemma e_track_vertex_cell c v s t : cell (incidence (e_track_vertex c v)) s t = cell (incidence c) s t.
Proof.
  unfold e_track_vertex. cbn [incidence]. destruct (aget (incidence c) v) eqn:E; auto. now apply cell_new_row.
Qed.
Lemma e_track_vertex_inv c v : einv c -> einv (e_track_vertex c v).
Proof.
  intros [I1 I2 I3]. split.
  - unfold e_track_vertex. cbn [incidence]. destruct (aget (incidence c) v); auto. now apply shape_new_row.
  - intros s t e H. rewrite e_track_vertex_cell in H. now apply I2.
  - exact I3.
Qed.
Lemma e_track_vertex_visible c v : visible c -> visible (e_track_vertex c v).
Proof.
  intros V s t H. rewrite e_track_vertex_cell in H. specialize (V s t H).
  unfold e_track_vertex. cbn [incoming_from]. destruct (aget (incoming_from c) v) eqn:E; auto.
  unfold from in *. rewrite aget_aset. destruct (Nat.eqb_spec v t) as [->|]; auto. rewrite E in V. destruct V.
Qed.

Lemma e_track_effect c id s t : shape (incidence c) -> snd (e_track c id s t) = Done ->
  let c' := fst (e_track c id s t) in
  shape (incidence c') /\
  (forall s' t', cell (incidence c') s' t' = if Nat.eqb s s' && Nat.eqb t t' then cell (incidence c) s' t' ++ [id] else cell (incidence c) s' t') /\
  (forall t', from (incoming_from c') t' = if Nat.eqb t t' then from (incoming_from c) t' ++ [s] else from (incoming_from c) t') /\
  source_target c' = aset (source_target c) id (s, t) /\ estore c' = estore c /\
  exists st, aget (estore c) id = Some st /\ ~ In st (stable_used c) /\ stable_used c' = incl_ st (stable_used c).
Proof.
  intros Sh. unfold e_track. destruct (aget (estore c) id) as [st|] eqn:E; [|discriminate].
  destruct (memb_spec st (stable_used c)) as [|Nst]; [discriminate|]. intros _. cbv zeta.
  cbn [fst incidence incoming_from source_target estore stable_used].
  set (inc1 := match aget (incidence c) s with Some _ => incidence c | None => aset (incidence c) s [] end).
  assert (Sh1 : shape inc1) by (unfold inc1; destruct (aget (incidence c) s); auto using shape_new_row).
  assert (C1 : forall s' t', cell inc1 s' t' = cell (incidence c) s' t').
  { intros. unfold inc1. destruct (aget (incidence c) s) eqn:R; auto. now apply cell_new_row. }
  assert (R1 : exists row, aget inc1 s = Some row).
  { unfold inc1. destruct (aget (incidence c) s) eqn:R; eauto. rewrite aget_aset, Nat.eqb_refl. eauto. }
  destruct R1 as [row R1]. rewrite R1. destruct (proj2 Sh1 s row R1) as [Nr Er].
  set (row1 := match aget row t with Some _ => row | None => aset row t [] end).
  assert (A1 : forall t', t <> t' -> aget row1 t' = aget row t').
  { intros t' N. unfold row1. destruct (aget row t); auto. rewrite aget_aset. destruct (Nat.eqb_spec t t'); tauto. }
  assert (K1 : NoDup (keys row1)) by (unfold row1; destruct (aget row t); auto using aset_nodup).
  assert (L1 : match aget row1 t with Some l => l | None => [] end = cell (incidence c) s t).
  { rewrite <- C1. unfold cell. rewrite R1. unfold row1. destruct (aget row t) eqn:L; [now rewrite L|].
    now rewrite aget_aset, Nat.eqb_refl. }
  rewrite L1.
  split. { apply shape_aset; auto using aset_nodup. intros t' l. rewrite aget_aset. destruct (Nat.eqb_spec t t') as [->|N].
    - intros Q. injection Q as <-. destruct (cell (incidence c) s t'); discriminate.
    - rewrite A1 by auto. apply Er. }
  split. { intros s' t'. rewrite cell_aset. destruct (Nat.eqb_spec s s') as [<-|]; cbn [andb]; [|apply C1].
    rewrite aget_aset. destruct (Nat.eqb_spec t t') as [<-|N]; auto. rewrite A1 by auto. rewrite <- C1. unfold cell. now rewrite R1. }
  split. { intros t'. unfold from. rewrite aget_aset. destruct (Nat.eqb_spec t t') as [<-|]; auto. }
  split; auto. split; auto. exists st. auto.
Qed.
Lemma e_track_raised c id s t : snd (e_track c id s t) <> Done -> fst (e_track c id s t) = c.
Proof.
  unfold e_track. destruct (aget (estore c) id); auto. destruct (memb n (stable_used c)); auto. cbn. tauto.
Qed.

Lemma status_done (x : status) : {x = Done} + {x <> Done}.
Proof. destruct x; [left|right|right]; congruence. Qed.

Lemma track_fresh c id s t : einv c -> snd (e_track c id s t) = Done -> aget (source_target c) id = None.
Proof.
  intros [I1 I2 I3] D. destruct (e_track_effect c id s t I1 D) as (_ & _ & _ & _ & _ & st & E & N & _).
  destruct (aget (source_target c) id) as [p|] eqn:Q; auto. destruct (I3 id p Q) as (st' & E' & U). congruence.
Qed.

Lemma e_track_inv c id s t : einv c -> einv (fst (e_track c id s t)).
Proof.
  intros I. destruct (status_done (snd (e_track c id s t))) as [D|D]; [|now rewrite e_track_raised].
  pose proof (track_fresh c id s t I D) as F. destruct I as [I1 I2 I3].
  destruct (e_track_effect c id s t I1 D) as (S1 & C1 & _ & T1 & E1 & st & Es & Ns & U). split; auto.
  - intros s' t' e. rewrite C1, T1, aget_aset. intros H.
    destruct (Nat.eqb_spec s s') as [->|Hs]; [destruct (Nat.eqb_spec t t') as [->|Ht]|]; cbn [andb] in H.
    + apply in_app_or in H. destruct H as [H|[->|[]]]; [|now rewrite Nat.eqb_refl].
      specialize (I2 _ _ _ H). destruct (Nat.eqb_spec id e); congruence.
    + specialize (I2 _ _ _ H). destruct (Nat.eqb_spec id e); congruence.
    + specialize (I2 _ _ _ H). destruct (Nat.eqb_spec id e); congruence.
  - intros e p. rewrite T1, E1, U, aget_aset. destruct (Nat.eqb_spec id e) as [<-|]; intros Q.
    + exists st. split; auto. apply incl_in. auto.
    + destruct (I3 e p Q) as (st' & Q1 & Q2). exists st'. split; auto. apply incl_in. auto.
Qed.
Lemma e_track_visible c id s t : einv c -> visible c -> visible (fst (e_track c id s t)).
Proof.
  intros I V. destruct (status_done (snd (e_track c id s t))) as [D|D]; [|now rewrite e_track_raised].
  destruct (e_track_effect c id s t (ei_shape _ I) D) as (_ & C1 & F1 & _). intros s' t'. rewrite C1, F1.
  destruct (Nat.eqb_spec t t') as [->|Ht].
  - rewrite in_app_iff. destruct (Nat.eqb_spec s s') as [->|Hs]; cbn [andb]; [intros; right; now left|]. intros H. left. now apply V.
  - rewrite andb_false_r. apply V.
Qed.

Lemma e_untrack_effect c id s t : aget (source_target c) id = Some (s, t) ->
  e_untrack c id = (mkE (drop_cell (incidence c) id s t) (drop_source (incoming_from c) s t)
           (source_target c) (stable_used c) (estore c), Done).
Proof. intros H. unfold e_untrack. now rewrite H. Qed.

Lemma e_untrack_inv c id : einv c -> einv (fst (e_untrack c id)).
Proof.
  intros [I1 I2 I3]. unfold e_untrack. destruct (aget (source_target c) id) as [[s t]|] eqn:Q; [|split; auto].
  cbn [fst]. split; cbn [incidence source_target estore stable_used]; auto using drop_cell_shape.
  intros s' t' e. rewrite drop_cell_cell. destruct (_ && _); [|apply I2]. rewrite excl_in. intros [_ H]. now apply I2.
Qed.
Lemma e_untrack_cell c id s t : einv c ->
  cell (incidence (fst (e_untrack c id))) s t = excl_ id (cell (incidence c) s t).
Proof.
  intros [I1 I2 I3]. unfold e_untrack. destruct (aget (source_target c) id) as [[s0 t0]|] eqn:Q; cbn [fst incidence].
  - rewrite drop_cell_cell. destruct (Nat.eqb_spec s0 s) as [->|]; [destruct (Nat.eqb_spec t0 t) as [->|]|]; cbn [andb]; auto;
      (symmetry; apply excl_notin; intros H; apply I2 in H; congruence).
  - symmetry. apply excl_notin. intros H. apply I2 in H. congruence.
Qed.
Lemma e_untrack_st c id : source_target (fst (e_untrack c id)) = source_target c.
Proof. unfold e_untrack. destruct (aget (source_target c) id) as [[s t]|]; auto. Qed.
Lemma e_untrack_from c id t : from (incoming_from (fst (e_untrack c id))) t =
  match aget (source_target c) id with
  | Some (s0, t0) => if Nat.eqb t0 t then excl_ s0 (from (incoming_from c) t) else from (incoming_from c) t
  | None => from (incoming_from c) t
  end.
Proof. unfold e_untrack. destruct (aget (source_target c) id) as [[s0 t0]|]; cbn [fst incoming_from]; auto. apply drop_source_from. Qed.

Lemma fold_untrack es : forall c, einv c ->
  let c' := fold_left (fun c e => fst (e_untrack c e)) es c in
  einv c' /\ source_target c' = source_target c /\
  (forall s t e, In e (cell (incidence c') s t) <-> In e (cell (incidence c) s t) /\ ~ In e es) /\
  (forall s t, In s (from (incoming_from c) t) -> (forall e, In e es -> aget (source_target c) e <> Some (s, t)) ->
     In s (from (incoming_from c') t)).
Proof.
  induction es as [|x es IH]; intros c I; cbn [fold_left]; cbv zeta.
  - split; auto. split; auto. split; [intros; simpl; tauto|auto].
  - destruct (IH _ (e_untrack_inv c x I)) as (I' & T & C & F). split; auto. rewrite T, e_untrack_st. split; auto. split.
    + intros s t e. rewrite C, e_untrack_cell, excl_in by auto. simpl. intuition.
    + intros s t H N. apply F.
      * rewrite e_untrack_from. destruct (aget (source_target c) x) as [[s0 t0]|] eqn:Q; auto.
        destruct (Nat.eqb_spec t0 t) as [->|]; auto. apply excl_in. split; auto. intros ->. apply (N x); simpl; auto.
      * intros e He. rewrite e_untrack_st. apply N. now right.
Qed.

Lemma e_untrack_vertex_effect ord c v : some_order ord -> einv c ->
  let c' := e_untrack_vertex ord c v in
  einv c' /\ source_target c' = source_target c /\
  (forall s t e, In e (cell (incidence c') s t) <->
      In e (cell (incidence c) s t) /\ ~ In e (e_outgoing c v ++ e_incoming c v)) /\
  (visible c -> visible c').
Proof.
  intros O I. cbv zeta. unfold e_untrack_vertex.
  set (es := ord (nodup Nat.eq_dec (e_outgoing c v ++ e_incoming c v))).
  assert (Es : forall e, In e es <-> In e (e_outgoing c v ++ e_incoming c v)).
  { intros e. rewrite <- (nodup_In Nat.eq_dec (e_outgoing c v ++ e_incoming c v)). split; intros H.
    - eapply Permutation_in; [symmetry; apply O|exact H].
    - eapply Permutation_in; [apply O|exact H]. }
  destruct (fold_untrack es c I) as (I' & T & C & F).
  set (c1 := fold_left (fun c e => fst (e_untrack c e)) es c) in *.
  assert (Row : forall t, cell (incidence c1) v t = []).
  { intros t. destruct (cell (incidence c1) v t) as [|e l] eqn:Q; auto. exfalso.
    assert (H : In e (cell (incidence c1) v t)) by (rewrite Q; now left).
    apply C in H. destruct H as [H1 H2]. apply H2, Es, in_or_app. left. apply outgoing_cell; [apply I|eauto]. }
  assert (C2 : forall s t, cell (adel (incidence c1) v) s t = cell (incidence c1) s t).
  { intros s t. rewrite cell_adel. destruct (Nat.eqb_spec v s) as [<-|]; auto. }
  assert (Cf : forall s t e, In e (cell (incidence c1) s t) <->
      In e (cell (incidence c) s t) /\ ~ In e (e_outgoing c v ++ e_incoming c v)).
  { intros. rewrite C, Es. reflexivity. }
  split.
  { destruct I' as [J1 J2 J3]. split; cbn [incidence source_target estore stable_used]; auto using shape_adel.
    intros s t e. rewrite C2. apply J2. }
  split; [exact T|]. split.
  { intros s t e. cbn [incidence]. rewrite C2. apply Cf. }
  intros V s t. cbn [incidence incoming_from]. rewrite C2. intros H.
  destruct (cell (incidence c1) s t) as [|e l] eqn:Q; [congruence|]. clear H.
  assert (H : In e (cell (incidence c1) s t)) by (rewrite Q; now left).
  assert (Ne : cell (incidence c) s t <> []).
  { apply C in H. destruct H as [H _]. intros Z. rewrite Z in H. destruct H. }
  apply Cf in H. destruct H as [H1 H2]. rewrite in_app_iff in H2.
  assert (Hs : s <> v). { intros ->. apply H2. left. apply outgoing_cell; [apply I|eauto]. }
  assert (Ht : t <> v). { intros ->. apply H2. right. apply incoming_cell. exists s. split; auto. }
  assert (In s (from (incoming_from c1) t)).
  { apply F; auto. intros x Hx. apply Es in Hx. intros Z. apply in_app_or in Hx. destruct Hx as [Hx|Hx].
    - apply outgoing_cell in Hx; [|apply I]. destruct Hx as [t' Hx]. apply (ei_st _ I) in Hx. congruence.
    - apply incoming_cell in Hx. destruct Hx as (s' & _ & Hx). apply (ei_st _ I) in Hx. congruence. }
  unfold from in *. rewrite aget_adel. destruct (Nat.eqb_spec v t); [congruence|auto].
Qed.

Lemma estep_inv ord c o : some_order ord -> einv c -> einv (fst (estep ord c o)).
Proof.
  intros O I. destruct o; cbn [estep fst].
  - now apply e_object_inv.
  - now apply e_track_vertex_inv.
  - now apply e_track_inv.
  - now apply e_untrack_inv.
  - now apply e_untrack_vertex_effect.
Qed.
Lemma erun_inv ord os : some_order ord -> forall c, einv c -> einv (erun ord c os).
Proof.
  intros O. induction os as [|o os IH]; intros c I; [exact I|]. unfold erun. cbn [fold_left]. apply IH. now apply estep_inv.
Qed.

Lemma cell_runs c e s t : einv c -> (In e (cell (incidence c) s t) <-> runs c e s t).
Proof.
  intros I. unfold runs, e_source, e_target. rewrite edges_cell by apply I. split.
  - intros H. rewrite (ei_st _ I _ _ _ H). cbn. eauto.
  - intros ((s' & t' & H) & E1 & E2). pose proof (ei_st _ I _ _ _ H) as Q. rewrite Q in E1, E2. cbn in *.
    injection E1 as <-. injection E2 as <-. exact H.
Qed.

Lemma e_untrack_visible c id : einv c -> visible c -> removal_ok c (EUntrack id) -> visible (fst (e_untrack c id)).
Proof.
  intros I V R s t. rewrite e_untrack_cell, e_untrack_from by auto. intros H.
  assert (N : cell (incidence c) s t <> []) by (intros Z; rewrite Z in H; now apply H).
  specialize (V s t N). destruct (aget (source_target c) id) as [[s0 t0]|] eqn:Q; auto.
  destruct (Nat.eqb_spec t0 t) as [->|]; auto. apply excl_in. split; auto. intros ->.
  destruct (excl_ id (cell (incidence c) s0 t)) as [|x l] eqn:X; [congruence|].
  assert (Hx : In x (excl_ id (cell (incidence c) s0 t))) by (rewrite X; now left).
  apply excl_in in Hx. destruct Hx as [Hx1 Hx2]. apply Hx1. cbn in R. apply (R x s0 t).
  - now apply cell_runs.
  - unfold e_source. now rewrite Q.
  - unfold e_target. now rewrite Q.
Qed.
Lemma estep_visible ord c o : some_order ord -> einv c -> visible c -> removal_ok c o -> visible (fst (estep ord c o)).
Proof.
  intros O I V R. destruct o; cbn [estep fst].
  - now apply e_object_visible.
  - now apply e_track_vertex_visible.
  - now apply e_track_visible.
  - now apply e_untrack_visible.
  - now apply e_untrack_vertex_effect.
Qed.
Lemma erun_visible ord os : some_order ord -> forall c, einv c -> visible c -> no_parallel_removal ord c os -> visible (erun ord c os).
Proof.
  intros O. induction os as [|o os IH]; intros c I V R; [exact V|]. destruct R as [R1 R2].
  unfold erun. cbn [fold_left]. apply IH; auto; [now apply estep_inv|now apply estep_visible].
Qed.

(** ** Query statements *)
Lemma outgoing_runs c e v : einv c -> (In e (e_outgoing c v) <-> exists t, runs c e v t).
Proof. intros I. rewrite outgoing_cell by apply I. split; intros [t H]; exists t; now apply cell_runs. Qed.
Lemma incoming_runs c e v : einv c -> In e (e_incoming c v) -> exists s, runs c e s v.
Proof. intros I H. apply incoming_cell in H. destruct H as (s & _ & H). exists s. now apply cell_runs. Qed.
Lemma incoming_runs_iff c e v : einv c -> visible c -> (In e (e_incoming c v) <-> exists s, runs c e s v).
Proof.
  intros I V. split; [now apply incoming_runs|]. intros [s H]. apply cell_runs in H; auto. apply incoming_cell. exists s.
  split; auto. apply V. intros Z. rewrite Z in H. destruct H.
Qed.
Lemma edge_ends c e : einv c -> In e (e_edges c) -> exists s t, runs c e s t.
Proof. intros I H. apply edges_cell in H; [|apply I]. destruct H as (s & t & H). exists s, t. now apply cell_runs. Qed.
Lemma has_edge_runs c s t : einv c -> (e_has_edge c s t = true <-> exists e, runs c e s t).
Proof.
  intros I. split.
  - unfold e_has_edge. destruct (aget (incidence c) s) as [row|] eqn:R; [|discriminate].
    destruct (aget row t) as [l|] eqn:L; [|discriminate]. intros _. destruct (proj2 (ei_shape _ I) s row R) as [_ E].
    destruct l as [|e l]; [now apply E in L|]. exists e. apply cell_runs; auto. unfold cell. rewrite R, L. now left.
  - intros [e H]. apply cell_runs in H; auto. unfold cell in H. unfold e_has_edge.
    destruct (aget (incidence c) s) as [row|]; [|destruct H]. destruct (aget row t); [auto|destruct H].
Qed.
Lemma is_tracking_runs c e : einv c ->
  e_is_tracking c e = match e_source c e with
                      | None => Ok false
                      | Some _ => if in_dec Nat.eq_dec e (e_edges c) then Ok true else Throw
                      end.
Proof.
  intros I. unfold e_is_tracking, e_source. destruct (aget (source_target c) e) as [[s t]|] eqn:Q; cbn; auto.
  destruct (in_dec Nat.eq_dec e (e_edges c)) as [H|H].
  - assert (K : In e (cell (incidence c) s t)).
    { apply cell_runs; auto. unfold runs, e_source, e_target. rewrite Q. auto. }
    unfold cell in K. destruct (aget (incidence c) s) as [row|]; [|destruct K]. destruct (aget row t); [|destruct K].
    apply memb_in in K. now rewrite K.
  - destruct (aget (incidence c) s) as [row|] eqn:R; auto. destruct (aget row t) as [l|] eqn:L; auto.
    destruct (memb_spec e l) as [K|]; auto. exfalso. apply H. apply edges_cell; [apply I|]. exists s, t. unfold cell. now rewrite R, L.
Qed.
Lemma track_runs c id s t : einv c -> snd (e_track c id s t) = Done ->
  forall e a b, runs (fst (e_track c id s t)) e a b <-> runs c e a b \/ (e = id /\ a = s /\ b = t).
Proof.
  intros I D e a b. rewrite <- !cell_runs by auto using e_track_inv.
  destruct (e_track_effect c id s t (ei_shape _ I) D) as (_ & C & _). rewrite C.
  destruct (Nat.eqb_spec s a) as [->|]; [destruct (Nat.eqb_spec t b) as [->|]|]; cbn [andb].
  - rewrite in_app_iff. simpl. intuition.
  - intuition; congruence.
  - intuition; congruence.
Qed.
Lemma untrack_runs c id : einv c ->
  forall e a b, runs (fst (e_untrack c id)) e a b <-> runs c e a b /\ e <> id.
Proof.
  intros I e a b. rewrite <- !cell_runs by auto using e_untrack_inv. rewrite e_untrack_cell, excl_in by auto. tauto.
Qed.
Lemma untrack_vertex_runs ord c v : some_order ord -> einv c -> visible c ->
  forall e a b, runs (e_untrack_vertex ord c v) e a b <-> runs c e a b /\ a <> v /\ b <> v.
Proof.
  intros O I V e a b. destruct (e_untrack_vertex_effect ord c v O I) as (I' & _ & C & _).
  rewrite <- !cell_runs by auto. rewrite C, in_app_iff, outgoing_runs, (incoming_runs_iff c e v I V) by auto. split.
  - intros [H1 H2]. split; auto. apply cell_runs in H1; auto. split; intros ->; apply H2; [left|right]; eauto.
  - intros (H1 & H2 & H3). split; auto. apply cell_runs in H1; auto. destruct H1 as (_ & S1 & T1).
    intros [[t (_ & S2 & _)]|[s (_ & _ & T2)]]; congruence.
Qed.
Lemma in_nodes_self c v x : einv c -> In x (e_in_nodes c v) -> x = Some v.
Proof.
  intros I H. unfold e_in_nodes in H. apply in_map_iff in H. destruct H as (e & <- & H).
  apply incoming_runs in H; auto. destruct H as (s & _ & _ & T). exact T.
Qed.
Lemma out_nodes_runs c v x : einv c -> (In x (e_out_nodes c v) <-> exists e t, runs c e v t /\ x = Some t).
Proof.
  intros I. unfold e_out_nodes. rewrite in_map_iff. split.
  - intros (e & <- & H). apply outgoing_runs in H; auto. destruct H as [t H]. exists e, t. split; auto. apply H.
  - intros (e & t & H & ->). exists e. split; [apply H|]. apply outgoing_runs; eauto.
Qed.
