(** Proofs about ports and about removing a vertex from a graph. *)
From Coq Require Import List Bool Arith Lia Permutation.
From Verif Require Import Base HierModel HierSpec HierProofs EdgeModel EdgeSpec EdgeProofs PortModel.
Import ListNotations.

Record pinv (c : pcoll) : Prop := {
  pi_once : NoDup (map snd (ports c));
  pi_conns : NoDup (conns c);
  pi_known : forall p e side, In (p, e, side) (conns c) -> In p (map snd (ports c)) }.

Lemma conn_eqb_spec a b : reflect (a = b) (conn_eqb a b).
Proof.
  destruct a as [[a1 a2] a3], b as [[b1 b2] b3]. unfold conn_eqb. cbn [fst snd].
  destruct (Nat.eqb_spec a1 b1), (Nat.eqb_spec a2 b2), (Bool.eqb_spec a3 b3); cbn; constructor; congruence.
Qed.

Lemma vertex_some c p v : vertex_for_port c p = Some v -> In (v, p) (ports c).
Proof.
  unfold vertex_for_port. destruct (find _ _) as [[v' p']|] eqn:F; [|discriminate]. cbn. intros Q. injection Q as <-.
  apply find_some in F. cbn in F. destruct F as [F E]. apply Nat.eqb_eq in E. congruence.
Qed.
Lemma vertex_none c p : vertex_for_port c p = None <-> ~ In p (map snd (ports c)).
Proof.
  unfold vertex_for_port. destruct (find (fun vp => Nat.eqb (snd vp) p) (ports c)) as [[v' p']|] eqn:F; cbn.
  - split; [discriminate|]. intros N. exfalso. apply N. apply find_some in F. destruct F as [F E].
    cbn in E. apply Nat.eqb_eq in E. subst. change p with (snd (v', p)). now apply in_map.
  - split; auto. intros _ H. apply in_map_iff in H. destruct H as ((v & p') & E & H). cbn in E. subst.
    apply (find_none _ _ F) in H. cbn in H. now rewrite Nat.eqb_refl in H.
Qed.
Lemma vertex_iff c p v : NoDup (map snd (ports c)) -> (vertex_for_port c p = Some v <-> In (v, p) (ports c)).
Proof.
  intros N. split; [apply vertex_some|]. intros H. destruct (vertex_for_port c p) as [v'|] eqn:E.
  - apply vertex_some in E. f_equal. clear -N E H. induction (ports c) as [|[a b] l IH]; [destruct H|].
    cbn in N. apply NoDup_cons_iff in N. destruct N as [N1 N2].
    destruct E as [E|E], H as [H|H]; try congruence.
    + injection E as -> ->. exfalso. apply N1. change p with (snd (v, p)). now apply in_map.
    + injection H as -> ->. exfalso. apply N1. change p with (snd (v', p)). now apply in_map.
    + auto.
  - exfalso. apply vertex_none in E. apply E. change p with (snd (v, p)). now apply in_map.
Qed.

Lemma empty_pinv : pinv empty_pcoll.
Proof. split; cbn; [constructor|constructor|]. intros p e side []. Qed.

Lemma nodup_snoc {A} (l : list A) x : NoDup l -> ~ In x l -> NoDup (l ++ [x]).
Proof.
  intros N H. apply Permutation_NoDup with (x :: l); [|now constructor].
  rewrite Permutation_app_comm. reflexivity.
Qed.

Lemma p_add_pinv c v p : pinv c -> pinv (fst (p_add c v p)).
Proof.
  intros [I1 I2 I3]. unfold p_add. destruct (vertex_for_port c p) eqn:E; [split; auto|]. apply vertex_none in E.
  split; cbn [fst ports conns]; auto.
  - rewrite map_app. cbn. now apply nodup_snoc.
  - intros p' e side H. rewrite map_app, in_app_iff. left. eauto.
Qed.
Lemma p_connect_pinv c v e side p : pinv c -> pinv (fst (p_connect c v e side p)).
Proof.
  intros [I1 I2 I3]. unfold p_connect. destruct (vertex_for_port c p) eqn:E; [|split; auto].
  destruct (negb _); [split; auto|]. destruct (existsb _ _) eqn:X; [split; auto|]. split; cbn [fst ports conns]; auto.
  - apply nodup_snoc; auto. intros H. assert (Q : existsb (conn_eqb (p, e, side)) (conns c) = true).
    { apply existsb_exists. exists (p, e, side). split; auto. now destruct (conn_eqb_spec (p, e, side) (p, e, side)). }
    congruence.
  - intros p' e' side' H. apply in_app_or in H. destruct H as [H|[H|[]]]; [eauto|]. injection H as <- <- <-.
    apply vertex_some in E. change p with (snd (n, p)). now apply in_map.
Qed.
Lemma nodup_map_filter {A B} (f : A -> B) (g : A -> bool) l : NoDup (map f l) -> NoDup (map f (filter g l)).
Proof.
  induction l as [|x l IH]; simpl; intros N; auto. apply NoDup_cons_iff in N. destruct N as [N1 N2].
  destruct (g x); simpl; auto. constructor; auto. intros H. apply N1. apply in_map_iff in H. destruct H as (y & E & H).
  apply filter_In in H. rewrite <- E. apply in_map. tauto.
Qed.
Lemma p_del_pinv c p : pinv c -> pinv (fst (p_del c p)).
Proof.
  intros [I1 I2 I3]. unfold p_del. destruct (vertex_for_port c p); [|split; auto]. split; cbn [fst ports conns].
  - now apply nodup_map_filter.
  - now apply NoDup_filter.
  - intros p' e side H. apply filter_In in H. destruct H as [H E]. cbn in E. specialize (I3 _ _ _ H).
    apply in_map_iff in I3. destruct I3 as ((v & q) & Q & J). cbn in Q. subst. apply in_map_iff. exists (v, p'). split; auto.
    apply filter_In. auto.
Qed.
Lemma pstep_pinv c o : pinv c -> pinv (fst (pstep c o)).
Proof.
  intros I. destruct o; cbn [pstep]; auto using p_add_pinv, p_connect_pinv, p_del_pinv.
  unfold p_add_connect. pose proof (p_add_pinv c v p I) as A. destruct (p_add c v p) as [c1 []]; cbn [fst] in *; auto using p_connect_pinv.
Qed.
Lemma prun_pinv os : forall c, pinv c -> pinv (prun c os).
Proof. induction os as [|o os IH]; intros c I; [exact I|]. unfold prun. cbn [fold_left]. apply IH. now apply pstep_pinv. Qed.

(** A port keeps its vertex through every operation that does not delete it. *)
Lemma find_app {A} (f : A -> bool) l l' : find f (l ++ l') = match find f l with Some x => Some x | None => find f l' end.
Proof. induction l as [|x l IH]; simpl; auto. destruct (f x); auto. Qed.
Lemma pstep_keeps c o p v : pinv c -> o <> PDel p -> vertex_for_port c p = Some v -> vertex_for_port (fst (pstep c o)) p = Some v.
Proof.
  intros I N H.
  assert (A : forall v' p', vertex_for_port (fst (p_add c v' p')) p = Some v).
  { intros v' p'. unfold p_add. destruct (vertex_for_port c p'); auto. cbn [fst]. unfold vertex_for_port in *. cbn [ports].
    rewrite find_app. destruct (find _ (ports c)); auto. discriminate. }
  assert (C : forall c' v' e side p', vertex_for_port c' p = Some v -> vertex_for_port (fst (p_connect c' v' e side p')) p = Some v).
  { intros c' v' e side p' Q. unfold p_connect. destruct (vertex_for_port c' p'); auto. destruct (negb _); auto. destruct (existsb _ _); auto. }
  destruct o as [v' p'|v' e side p'|v' e side p'|p']; cbn [pstep].
  - apply A.
  - now apply C.
  - unfold p_add_connect. specialize (A v' p'). destruct (p_add c v' p') as [c1 []]; cbn [fst] in *; auto.
  - unfold p_del. destruct (vertex_for_port c p'); auto. cbn [fst]. apply vertex_iff; cbn [ports].
    + apply nodup_map_filter, I.
    + apply filter_In. split; [now apply vertex_some|]. cbn. destruct (Nat.eqb_spec p p') as [->|]; [now contradiction N|reflexivity].
Qed.
Lemma prun_keeps os : forall c p v, pinv c -> ~ In (PDel p) os -> vertex_for_port c p = Some v -> vertex_for_port (prun c os) p = Some v.
Proof.
  induction os as [|o os IH]; intros c p v I N H; [exact H|]. unfold prun. cbn [fold_left]. apply IH.
  - now apply pstep_pinv.
  - intros Q. apply N. now right.
  - apply pstep_keeps; auto. intros ->. apply N. now left.
Qed.

(** Lookup. *)
Lemma scan_spec c v e side : pinv c -> forall l, incl l (conns c) ->
  match scan_conns c l v e side with
  | Ok (Some p) => exists l1 l2, l = l1 ++ (p, e, side) :: l2 /\ vertex_for_port c p = Some v /\
                     forall q, In (q, e, side) l1 -> vertex_for_port c q <> Some v
  | Ok None => forall q, In (q, e, side) l -> vertex_for_port c q <> Some v
  | _ => False
  end.
Proof.
  intros I. induction l as [|[[p e'] side'] l IH]; intros Hl; cbn [scan_conns].
  - intros q [].
  - assert (Hl' : incl l (conns c)) by (intros x Hx; apply Hl; now right). specialize (IH Hl').
    assert (Skip : (p, e', side') <> (p, e, side) \/ vertex_for_port c p <> Some v ->
      match scan_conns c l v e side with
      | Ok (Some p0) => exists l1 l2, (p, e', side') :: l = l1 ++ (p0, e, side) :: l2 /\ vertex_for_port c p0 = Some v /\
                     forall q, In (q, e, side) l1 -> vertex_for_port c q <> Some v
      | Ok None => forall q, In (q, e, side) ((p, e', side') :: l) -> vertex_for_port c q <> Some v
      | _ => False end).
    { intros D. destruct (scan_conns c l v e side) as [[p0|]| | |]; auto.
      - destruct IH as (l1 & l2 & -> & H1 & H2). exists ((p, e', side') :: l1), l2. split; auto. split; auto.
        intros q [E|E]; auto. destruct D as [D|D]; congruence.
      - intros q [E|E]; auto. destruct D as [D|D]; congruence. }
    destruct (Nat.eqb_spec e' e) as [->|]; cbn [negb]; [|apply Skip; left; congruence].
    destruct (Bool.eqb_spec side' side) as [->|]; cbn [negb]; [|apply Skip; left; congruence].
    destruct (vertex_for_port c p) as [v'|] eqn:V.
    + destruct (Nat.eqb_spec v' v) as [->|]; [|apply Skip; right; congruence].
      exists [], l. split; auto.
    + apply vertex_none in V. apply V. apply (pi_known _ I p e side). apply Hl. now left.
Qed.

(** ** Removing a vertex from a graph *)
Lemma untrack_vertex_gone fuel ord h v : views_agree h -> some_order ord -> snd (untrack_vertex fuel ord h v) = Done ->
  ~ In v (ids (fst (untrack_vertex fuel ord h v))).
Proof.
  intros W O D H. destruct (untrack_vertex_effect fuel ord h v W O D) as [I _]. apply I in H. destruct H as [_ H].
  apply H. now left.
Qed.
Lemma untrack_hiers_done fuel ord v : forall hs, snd (untrack_hiers fuel ord hs v) = Done ->
  fst (untrack_hiers fuel ord hs v) = map (fun h => fst (untrack_vertex fuel ord h v)) hs /\
  (forall h, In h hs -> snd (untrack_vertex fuel ord h v) = Done).
Proof.
  induction hs as [|h hs IH]; cbn [untrack_hiers]; intros D; [split; [auto|intros h []]|].
  destruct (untrack_vertex fuel ord h v) as [h1 s1] eqn:E. destruct s1; cbn [snd] in D; try discriminate.
  destruct (untrack_hiers fuel ord hs v) as [r st] eqn:R. cbn [snd fst] in *. destruct (IH D) as [IH1 IH2].
  split.
  - cbn [map]. rewrite E. cbn [fst]. congruence.
  - intros x [<-|Hx]; [now rewrite E|auto].
Qed.
Lemma g_untrack_with_hierarchy fuel ord g v : some_order ord -> (forall h, In h (g_hier g) -> views_agree h) ->
  g_hier g <> [] -> snd (g_untrack fuel ord g v) <> Done.
Proof.
  intros O W N. unfold g_untrack. destruct (negb _); [discriminate|].
  destruct (untrack_hiers fuel ord (g_hier g) v) as [hs1 s1] eqn:E. destruct s1; cbn [snd]; try discriminate.
  assert (D : snd (untrack_hiers fuel ord (g_hier g) v) = Done) by now rewrite E.
  destruct (untrack_hiers_done _ _ _ _ D) as [Eq All]. rewrite E in Eq. cbn [fst] in Eq.
  destruct (g_hier g) as [|h hs] eqn:Gh; [congruence|]. subst hs1. cbn [map untrack_hiers].
  pose proof (untrack_vertex_gone fuel ord h v (W h (or_introl eq_refl)) O (All h (or_introl eq_refl))) as G.
  unfold untrack_vertex at 1. destruct (memb_spec v (ids (fst (untrack_vertex fuel ord h v)))); [tauto|]. cbn. discriminate.
Qed.
Lemma g_untrack_plain fuel ord ids_ cs v : In v ids_ -> some_order ord -> (forall c, In c cs -> einv c /\ visible c) ->
  exists cs', g_untrack fuel ord (mkG ids_ [] cs) v = (mkG (excl_ v ids_) [] cs', Done) /\
    Forall2 (fun c c' => forall e a b, runs c' e a b <-> runs c e a b /\ a <> v /\ b <> v) cs cs'.
Proof.
  intros Hv O I. unfold g_untrack. cbn [g_ids g_hier g_coll untrack_hiers].
  destruct (memb_spec v ids_); [|tauto]. cbn [negb].
  eexists. split; [reflexivity|]. rewrite map_map. induction cs as [|c cs IH]; cbn [map]; constructor.
  - destruct (I c (or_introl eq_refl)) as [I1 I2]. intros e a b.
    destruct (e_untrack_vertex_effect ord c v O I1) as (I1' & _ & _ & V').
    rewrite (untrack_vertex_runs ord _ v O I1' (V' I2)), (untrack_vertex_runs ord c v O I1 I2). tauto.
  - apply IH. intros c' H. apply I. now right.
Qed.
