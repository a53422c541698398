(** Proofs about the vertex hierarchy. *)
From Coq Require Import List Bool Arith Lia Permutation.
From Verif Require Import Base BimapModel HierModel HierSpec.
Import ListNotations.

(** ** Sets and maps *)
Lemma memb_in x l : memb x l = true <-> In x l.
Proof.
  unfold memb. rewrite existsb_exists. split.
  - intros (y & Hy & E). apply Nat.eqb_eq in E. congruence.
  - intros H. exists x. rewrite Nat.eqb_refl. auto.
Qed.
Lemma memb_false x l : memb x l = false <-> ~ In x l.
Proof. rewrite <- memb_in. destruct (memb x l); split; congruence. Qed.
Lemma memb_spec x l : reflect (In x l) (memb x l).
Proof. destruct (memb x l) eqn:E; constructor; [apply memb_in | apply memb_false]; auto. Qed.

Lemma incl_in x y l : In y (incl_ x l) <-> y = x \/ In y l.
Proof.
  unfold incl_. destruct (memb_spec x l) as [H|H].
  - split; auto. intros [->|]; auto.
  - rewrite in_app_iff. simpl. intuition.
Qed.
Lemma excl_in x y l : In y (excl_ x l) <-> y <> x /\ In y l.
Proof.
  unfold excl_. rewrite filter_In, negb_true_iff, Nat.eqb_neq. intuition.
Qed.
Lemma incl_nodup x l : NoDup l -> NoDup (incl_ x l).
Proof.
  intros H. unfold incl_. destruct (memb_spec x l) as [Hx|Hx]; auto.
  apply Permutation_NoDup with (x :: l).
  - rewrite Permutation_app_comm. reflexivity.
  - constructor; auto.
Qed.
Lemma excl_nodup x l : NoDup l -> NoDup (excl_ x l).
Proof. apply NoDup_filter. Qed.
Lemma excl_notin x l : ~ In x l -> excl_ x l = l.
Proof.
  induction l as [|y l IH]; [reflexivity|]. simpl. intros H.
  destruct (Nat.eqb_spec x y) as [->|]; [tauto|]. simpl. f_equal. apply IH. tauto.
Qed.

Lemma upd_eq {A} (f : nat -> option A) k v : upd f k v k = v.
Proof. unfold upd. now rewrite Nat.eqb_refl. Qed.
Lemma upd_neq {A} (f : nat -> option A) k v k' : k' <> k -> upd f k v k' = f k'.
Proof. intros H. unfold upd. now destruct (Nat.eqb_spec k' k). Qed.

Lemma fold_incl_in l r y : In y (fold_left (fun r s => incl_ s r) l r) <-> In y l \/ In y r.
Proof.
  revert r. induction l as [|x l IH]; simpl; intros r; [intuition|].
  rewrite IH, incl_in. intuition.
Qed.
Lemma fold_incl_nodup l r : NoDup r -> NoDup (fold_left (fun r s => incl_ s r) l r).
Proof. revert r. induction l; simpl; auto using incl_nodup. Qed.
Lemma fold_upd_none {A} l (f : nat -> option A) y :
  fold_left (fun f s => upd f s None) l f y = if memb y l then None else f y.
Proof.
  revert f. induction l as [|x l IH]; simpl; intros f; auto.
  rewrite IH. unfold upd. change (memb y l) with (existsb (Nat.eqb y) l).
  destruct (Nat.eqb_spec y x); simpl; [destruct (existsb _ l)|]; auto.
Qed.

Definition subs (n : nat -> option (list nat)) (p : nat) : list nat :=
  match n p with Some l => l | None => [] end.

Lemma drop_child_subs n p s q :
  subs (drop_child n p s) q = if Nat.eqb q p then excl_ s (subs n p) else subs n q.
Proof.
  unfold drop_child, subs. destruct (n p) as [l|] eqn:E.
  - destruct (excl_ s l) as [|a l'] eqn:E2; unfold upd; destruct (Nat.eqb_spec q p); auto.
  - destruct (Nat.eqb_spec q p); auto. subst. now rewrite E.
Qed.

(** ** Every operation keeps the views in agreement *)
Lemma empty_agree : views_agree empty_hier.
Proof.
  unfold views_agree, sub_vertices, parent_vertex, root_vertices. cbn.
  split; [intros; split; [tauto|discriminate]|].
  split; [intros; tauto|].
  split; [discriminate|].
  split; [constructor|]. split; [constructor|]. intros; constructor.
Qed.

Lemma track_vertex_agree h v : views_agree h -> views_agree (fst (track_vertex h v)).
Proof.
  intros W. unfold track_vertex. destruct (memb_spec v (ids h)) as [H|H]; auto.
  destruct W as (A & B & C & D & E & F).
  unfold views_agree, sub_vertices, parent_vertex, root_vertices in *. cbn [fst ids roots parent nested].
  split; [exact A|]. split.
  { intros x. rewrite !incl_in, B. split.
    - intros [->|[G1 G2]]; auto. split; auto. destruct (parent h v) eqn:P; auto.
      apply C in P. tauto.
    - intros [[->|G] Q]; auto. }
  split. { intros p s Hp. apply C in Hp. rewrite !incl_in. tauto. }
  split; [now apply incl_nodup|]. split; [now apply incl_nodup|]. exact F.
Qed.

Definition linked (h : hier) (p s : nat) : hier :=
  mkH (ids h) (excl_ s (roots h)) (upd (parent h) s (Some p))
      (upd (nested h) p (Some (incl_ s (match nested h p with Some l => l | None => [] end))))
      (tracker h) (objects h).

Lemma linked_agree h p s t o : views_agree h -> In p (ids h) -> In s (ids h) -> parent h s = None ->
  views_agree (mkH (ids h) (roots (linked h p s)) (parent (linked h p s)) (nested (linked h p s)) t o).
Proof.
  intros (A & B & C & D & E & F) Hp Hs N.
  unfold views_agree, sub_vertices, parent_vertex, root_vertices, linked in *.
  cbn [ids roots parent nested].
  split.
  { intros q x. unfold upd. destruct (Nat.eqb_spec q p) as [->|Hq].
    - rewrite incl_in. destruct (Nat.eqb_spec x s) as [->|Hx].
      + split; auto.
      + rewrite (A p x). intuition.
    - rewrite A. destruct (Nat.eqb_spec x s) as [->|Hx]; [|tauto].
      rewrite N. split; [discriminate|congruence]. }
  split.
  { intros x. rewrite excl_in, B. unfold upd. destruct (Nat.eqb_spec x s); intuition; discriminate. }
  split.
  { intros q x. unfold upd. destruct (Nat.eqb_spec x s) as [->|]; intros Q; [|now apply C].
    injection Q as <-. auto. }
  split; [auto|]. split; [now apply excl_nodup|].
  intros q. unfold upd. destruct (Nat.eqb_spec q p) as [->|]; [|apply F].
  apply incl_nodup, (F p).
Qed.

Lemma track_relation_agree h e p s : views_agree h -> views_agree (fst (track_relation h e p s)).
Proof.
  intros W. unfold track_relation.
  destruct (memb_spec p (ids h)) as [Hp|]; cbn [negb]; auto.
  destruct (memb_spec s (ids h)) as [Hs|]; cbn [negb]; auto.
  destruct (negb (memb e (objects h))); auto.
  destruct (parent h s) eqn:N; auto.
  destruct (add_unique_11 _ _ _ _ _); cbn [fst];
    apply (linked_agree h p s _ _ W Hp Hs N).
Qed.

Lemma add_object_agree h e : views_agree h -> views_agree (add_object h e).
Proof. exact (fun W => W). Qed.

Lemma untrack_relation_agree h p s : views_agree h -> views_agree (fst (untrack_relation h p s)).
Proof.
  intros W. unfold untrack_relation.
  destruct (memb_spec p (ids h)) as [Hp|]; cbn [negb]; auto.
  destruct (memb_spec s (ids h)) as [Hs|]; cbn [negb]; auto.
  destruct (parent h s) as [q|] eqn:N; auto.
  destruct (Nat.eqb_spec q p) as [->|]; cbn [negb]; auto. cbn [fst].
  destruct W as (A & B & C & D & E & F).
  unfold views_agree, sub_vertices, parent_vertex, root_vertices in *.
  cbn [ids roots parent nested].
  split.
  { intros q x. change (In x (subs (drop_child (nested h) p s) q) <-> upd (parent h) s None x = Some q).
    rewrite drop_child_subs. unfold upd. destruct (Nat.eqb_spec q p) as [->|Hq].
    - rewrite excl_in. unfold subs. rewrite A. destruct (Nat.eqb_spec x s); intuition; discriminate.
    - unfold subs. rewrite A. destruct (Nat.eqb_spec x s) as [->|]; [|tauto].
      rewrite N. split; [congruence|discriminate]. }
  split.
  { intros x. rewrite incl_in, B. unfold upd. destruct (Nat.eqb_spec x s) as [->|]; intuition. }
  split.
  { intros q x. unfold upd. destruct (Nat.eqb_spec x s); [discriminate|]. apply C. }
  split; [auto|]. split; [now apply incl_nodup|].
  intros q. change (NoDup (subs (drop_child (nested h) p s) q)). rewrite drop_child_subs.
  destruct (Nat.eqb_spec q p); [apply excl_nodup, (F p)|apply F].
Qed.

(** One removal: children become roots. *)
Definition cut_parent (h : hier) (v u : nat) : option nat :=
  match parent h u with
  | Some p => if Nat.eqb u v || Nat.eqb p v then None else Some p
  | None => None
  end.

Lemma remove_one_effect h v : views_agree h ->
  let h' := remove_one h v in
  ids h' = excl_ v (ids h) /\
  (forall u, parent h' u = cut_parent h v u) /\
  (forall q, sub_vertices h' q = if Nat.eqb q v then [] else excl_ v (sub_vertices h q)) /\
  (forall x, In x (roots h') <-> x <> v /\ (In x (roots h) \/ parent h x = Some v)) /\
  NoDup (roots h') /\ tracker h' = tracker h /\ objects h' = objects h.
Proof.
  intros (A & B & C & D & E & F). cbv zeta.
  unfold sub_vertices, parent_vertex, root_vertices in *.
  set (par := match parent h v with Some p => upd (parent h) v None | None => parent h end).
  set (nes := match parent h v with Some p => drop_child (nested h) p v | None => nested h end).
  assert (R : remove_one h v = match nes v with
    | Some l => mkH (excl_ v (ids h)) (excl_ v (fold_left (fun r s => incl_ s r) l (roots h)))
          (fold_left (fun f s => upd f s None) l par) (upd nes v None) (tracker h) (objects h)
    | None => mkH (excl_ v (ids h)) (excl_ v (roots h)) par nes (tracker h) (objects h) end).
  { unfold remove_one, par, nes. destruct (parent h v); reflexivity. }
  assert (Hpar : forall u, par u = if Nat.eqb u v then None else parent h u).
  { intros u. unfold par. destruct (parent h v) eqn:P.
    - unfold upd. reflexivity.
    - destruct (Nat.eqb_spec u v) as [->|]; auto. }
  assert (Hnes : forall q, subs nes q = excl_ v (subs (nested h) q)).
  { intros q. unfold nes. destruct (parent h v) as [p|] eqn:P.
    - rewrite drop_child_subs. destruct (Nat.eqb_spec q p) as [->|Hq]; auto.
      symmetry. apply excl_notin. unfold subs. rewrite A, P. congruence.
    - symmetry. apply excl_notin. unfold subs. rewrite A, P. discriminate. }
  assert (Hl : forall x, In x (subs nes v) <-> x <> v /\ parent h x = Some v).
  { intros x. rewrite Hnes, excl_in. unfold subs. now rewrite A. }
  rewrite R. unfold subs in Hl. destruct (nes v) as [l|] eqn:En; cbn [ids roots parent nested tracker objects].
  - split; [auto|]. split.
    { intros u. rewrite fold_upd_none. unfold cut_parent. rewrite Hpar.
      destruct (memb_spec u l) as [Hu|Hu].
      - apply Hl in Hu. destruct Hu as [Hu ->]. rewrite Nat.eqb_refl, orb_true_r. reflexivity.
      - destruct (Nat.eqb_spec u v); cbn [orb].
        + now destruct (parent h u).
        + destruct (parent h u) as [q|] eqn:Q; auto. destruct (Nat.eqb_spec q v) as [->|]; auto.
          exfalso. apply Hu, Hl. auto. }
    split.
    { intros q. unfold upd. destruct (Nat.eqb_spec q v) as [->|Hq]; auto. apply Hnes. }
    split.
    { intros x. rewrite excl_in, fold_incl_in, Hl. intuition. }
    split; [apply excl_nodup, fold_incl_nodup; auto|auto].
  - split; [auto|]. split.
    { intros u. rewrite Hpar. unfold cut_parent. destruct (Nat.eqb_spec u v); cbn [orb].
      + now destruct (parent h u).
      + destruct (parent h u) as [q|] eqn:Q; auto. destruct (Nat.eqb_spec q v) as [->|]; auto.
        exfalso. apply (Hl u). auto. }
    split.
    { intros q. destruct (Nat.eqb_spec q v) as [->|Hq]; [now rewrite En|]. apply Hnes. }
    split.
    { intros x. rewrite excl_in. split; [tauto|]. intros [H [H2|H2]]; auto.
      exfalso. apply (Hl x). auto. }
    split; [apply excl_nodup; auto|auto].
Qed.

Lemma cut_parent_some h v u q : cut_parent h v u = Some q <-> parent h u = Some q /\ u <> v /\ q <> v.
Proof.
  unfold cut_parent. destruct (parent h u) as [p|].
  - destruct (Nat.eqb_spec u v), (Nat.eqb_spec p v); cbn [orb]; split; try discriminate.
    + intros (_ & N & _). tauto.
    + intros (_ & N & _). tauto.
    + intros (Q & _ & N). congruence.
    + intros Q. injection Q as <-. auto.
    + tauto.
  - split; [discriminate|]. intros [Q _]. discriminate.
Qed.

Lemma remove_one_agree h v : views_agree h -> views_agree (remove_one h v).
Proof.
  intros W. destruct (remove_one_effect h v W) as (I & P & S_ & R & N & _).
  destruct W as (A & B & C & D & E & F).
  unfold views_agree, parent_vertex, root_vertices in *.
  split.
  { intros p s. rewrite S_, P, cut_parent_some. destruct (Nat.eqb_spec p v).
    - simpl. tauto.
    - rewrite excl_in, A. tauto. }
  split.
  { intros x. rewrite R, I, excl_in, P, B.
    destruct (cut_parent h v x) as [q|] eqn:Q.
    - apply cut_parent_some in Q. destruct Q as (Q & ? & ?). rewrite Q.
      split; [intros [? [[? Y]|Y]]; [discriminate|congruence]|intros [? Y]; discriminate].
    - split.
      + intros [? [[? ?]|Y]]; auto. apply C in Y. tauto.
      + intros [[? ?] _]. split; auto. unfold cut_parent in Q. destruct (parent h x) as [q|]; auto.
        destruct (Nat.eqb_spec x v) as [|_]; [tauto|]. cbn [orb] in Q.
        destruct (Nat.eqb_spec q v) as [Y|]; [right; congruence|discriminate]. }
  split.
  { intros p s Q. rewrite P in Q. apply cut_parent_some in Q. destruct Q as (Q & ? & ?).
    apply C in Q. rewrite I, !excl_in. tauto. }
  split. { rewrite I. now apply excl_nodup. }
  split; [auto|].
  intros p. rewrite S_. destruct (Nat.eqb p v); [constructor|apply excl_nodup, F].
Qed.

Lemma remove_all_agree vs h : views_agree h -> views_agree (fold_left remove_one vs h).
Proof. revert h. induction vs; simpl; auto using remove_one_agree. Qed.

Lemma untrack_vertex_agree fuel ord h v : views_agree h -> views_agree (fst (untrack_vertex fuel ord h v)).
Proof.
  intros W. unfold untrack_vertex. destruct (negb _); auto.
  destruct (collect _ _ _ _); cbn [fst]; auto using remove_all_agree.
Qed.

Lemma hstep_agree fuel ord h o : views_agree h -> views_agree (fst (hstep fuel ord h o)).
Proof.
  intros W. destruct o; cbn [hstep].
  - now apply track_vertex_agree.
  - now apply add_object_agree.
  - now apply track_relation_agree.
  - now apply untrack_relation_agree.
  - now apply untrack_vertex_agree.
Qed.

Lemma hrun_agree fuel ord os h : views_agree h -> views_agree (hrun fuel ord h os).
Proof.
  revert h. induction os as [|o os IH]; intros h W; [exact W|].
  unfold hrun. cbn [fold_left]. apply IH. now apply hstep_agree.
Qed.

(** ** Ancestors *)
Lemma above_trans h a b c : above h a b -> above h b c -> above h a c.
Proof.
  intros H1 H2. induction H2 as [b c E|b p c E H2 IH].
  - now apply above_step with b.
  - apply above_step with p; auto.
Qed.

Lemma above_down h a v : above h a v -> parent_vertex h v = Some a \/ exists s, parent_vertex h s = Some a /\ above h s v.
Proof.
  induction 1 as [a v E|a p v E H IH]; auto. right. destruct IH as [Q|(s & Q & R)].
  - exists p. split; auto. now constructor.
  - exists s. split; auto. now apply above_step with p.
Qed.

(** Removal of a vertex: exactly it and everything below. *)
Lemma collect_in fuel : forall h v acc vs, views_agree h -> collect fuel h v acc = Some vs ->
  forall w, In w vs <-> In w acc \/ at_or_above h v w.
Proof.
  induction fuel as [|f IH]; intros h v acc vs W; cbn [collect]; [discriminate|].
  assert (K : forall l acc0 vs, fold_left (fun a s => match a with Some a => collect f h s a | None => None end) l (Some acc0) = Some vs ->
            forall w, In w vs <-> In w acc0 \/ exists s, In s l /\ at_or_above h s w).
  { induction l as [|x l IHl]; cbn [fold_left]; intros acc0 vs0 Q w.
    - injection Q as <-. split; auto. intros [?|(s & [] & _)]; auto.
    - destruct (collect f h x acc0) as [a|] eqn:Ca.
      + specialize (IH h x acc0 a W Ca w). specialize (IHl a vs0 Q w). rewrite IHl, IH. split.
        * intros [[H|H]|(s & H & H2)]; auto; right; [exists x|exists s]; simpl; auto.
        * intros [H|(s & [->|H] & H2)]; auto. right. exists s. auto.
      + exfalso. clear -Q. induction l; cbn [fold_left] in Q; [discriminate|auto]. }
  assert (Sub : forall w, above h v w <-> exists s, In s (sub_vertices h v) /\ at_or_above h s w).
  { destruct W as (A & _). intros w. split.
    - intros H. apply above_down in H. destruct H as [H|(s & H & R)].
      + exists w. rewrite A. split; auto. now left.
      + exists s. rewrite A. split; auto. now right.
    - intros (s & H & R). rewrite A in H. destruct R as [->|R]; [now constructor|].
      apply above_trans with s; auto. now constructor. }
  unfold at_or_above at 1. unfold sub_vertices in Sub.
  destruct (nested h v) as [l|] eqn:En; intros Q w.
  - rewrite (K _ _ _ Q w), incl_in, Sub. intuition congruence.
  - injection Q as <-. rewrite incl_in, Sub. split; [intuition congruence|].
    intros [H|[->|(s & [] & _)]]; auto.
Qed.

Lemma remove_all_effect vs : forall h, views_agree h ->
  (forall u, In u (ids (fold_left remove_one vs h)) <-> In u (ids h) /\ ~ In u vs) /\
  (forall u, ~ In u vs -> (forall p, parent h u = Some p -> ~ In p vs) ->
             parent (fold_left remove_one vs h) u = parent h u) /\
  tracker (fold_left remove_one vs h) = tracker h /\ objects (fold_left remove_one vs h) = objects h.
Proof.
  induction vs as [|v vs IH]; intros h W; cbn [fold_left].
  - simpl. intuition.
  - destruct (remove_one_effect h v W) as (I & P & _ & _ & _ & T & O).
    destruct (IH _ (remove_one_agree h v W)) as (I2 & P2 & T2 & O2).
    split. { intros u. rewrite I2, I, excl_in. simpl. intuition. }
    split; [|split; congruence].
    intros u Hu Hp.
    assert (Q : parent (remove_one h v) u = parent h u).
    { rewrite P. unfold cut_parent. destruct (parent h u) as [q|]; auto.
      destruct (Nat.eqb_spec u v) as [->|]; [simpl in Hu; tauto|].
      destruct (Nat.eqb_spec q v) as [->|]; auto. specialize (Hp v eq_refl). simpl in Hp. tauto. }
    rewrite P2; auto.
    + simpl in Hu. tauto.
    + intros p R. rewrite Q in R. apply Hp in R. simpl in R. tauto.
Qed.

Lemma untrack_vertex_effect fuel ord h v : views_agree h -> some_order ord ->
  snd (untrack_vertex fuel ord h v) = Done ->
  let h' := fst (untrack_vertex fuel ord h v) in
  (forall u, In u (ids h') <-> In u (ids h) /\ ~ at_or_above h v u) /\
  (forall u, In u (ids h') -> parent_vertex h' u = parent_vertex h u).
Proof.
  intros W O. unfold untrack_vertex. destruct (memb_spec v (ids h)) as [Hv|]; cbn [negb snd]; [|discriminate].
  destruct (collect fuel h v []) as [vs|] eqn:C; cbn [snd fst]; [|discriminate]. intros _.
  assert (K : forall w, In w (ord vs) <-> at_or_above h v w).
  { intros w. pose proof (collect_in _ _ _ _ _ W C w) as Q. cbn in Q.
    split; intros H.
    - assert (In w vs) by (eapply Permutation_in; [symmetry; apply O|exact H]). tauto.
    - eapply Permutation_in; [apply O|]. tauto. }
  destruct (remove_all_effect (ord vs) h W) as (I & P & _).
  split. { intros u. now rewrite I, K. }
  intros u Hu. apply P.
  - apply I in Hu. tauto.
  - apply I in Hu. rewrite K in Hu. intros p Q R. apply Hu. apply K in R. unfold at_or_above in *.
    right. destruct R as [->|R]; [now constructor|]. apply above_step with p; auto.
Qed.

(** ** Chains *)
Lemma chain_sound fuel : forall h v c, parent_chain fuel h v = Some c -> ancestors_upward h v c.
Proof.
  induction fuel as [|f IH]; intros h v c; cbn [parent_chain]; [discriminate|].
  destruct (parent h v) as [p|] eqn:P.
  - destruct (parent_chain f h p) as [c'|] eqn:C; cbn; [|discriminate]. intros Q. injection Q as <-.
    cbn. split; [exact P|now apply IH].
  - intros Q. injection Q as <-. exact P.
Qed.
Lemma chain_complete h c : forall v fuel, ancestors_upward h v c -> length c < fuel -> parent_chain fuel h v = Some c.
Proof.
  induction c as [|p c IH]; intros v fuel H L; (destruct fuel as [|f]; [lia|]); cbn [parent_chain].
  - cbn in H. unfold parent_vertex in H. now rewrite H.
  - cbn in H. destruct H as [H1 H2]. unfold parent_vertex in H1. rewrite H1, (IH p f); auto. simpl in L. lia.
Qed.
Lemma upward_in h c : forall v, ancestors_upward h v c -> forall a, In a c <-> above h a v.
Proof.
  induction c as [|p c IH]; intros v H a; cbn in H.
  - split; [intros []|]. intros Q. destruct Q; congruence.
  - destruct H as [H1 H2]. specialize (IH p H2 a). split.
    + intros [->|H]; [now constructor|]. apply above_step with p; auto. now apply IH.
    + intros Q. destruct Q as [a v E|a q v E Q]; [left; congruence|].
      right. apply IH. congruence.
Qed.
Lemma upward_unique h c : forall v c', ancestors_upward h v c -> ancestors_upward h v c' -> c = c'.
Proof.
  induction c as [|p c IH]; intros v [|p' c'] H1 H2; cbn in *; auto.
  - destruct H2; congruence.
  - destruct H1; congruence.
  - destruct H1 as [E1 H1], H2 as [E2 H2]. rewrite E1 in E2. injection E2 as <-. f_equal. eauto.
Qed.
Lemma upward_suffix h c : forall v a, ancestors_upward h v c -> In a c ->
  exists c1 c2, c = c1 ++ a :: c2 /\ ancestors_upward h a c2.
Proof.
  induction c as [|p c IH]; intros v a H Q; [destruct Q|]. cbn in H; destruct H as [_ H].
  destruct Q as [->|Q].
  - exists [], c. auto.
  - destruct (IH _ _ H Q) as (c1 & c2 & -> & R). exists (p :: c1), c2. auto.
Qed.
Lemma upward_acyclic h c v : ancestors_upward h v c -> ~ above h v v.
Proof.
  intros H Q. apply (upward_in _ _ _ H) in Q. destruct (upward_suffix _ _ _ _ H Q) as (c1 & c2 & E & R).
  pose proof (upward_unique _ _ _ _ H R) as U. subst c. apply (f_equal (@length nat)) in U.
  rewrite app_length in U. simpl in U. lia.
Qed.
Lemma upward_nodup h c : forall v, ancestors_upward h v c -> NoDup (v :: c).
Proof.
  induction c as [|p c IH]; intros v H.
  - constructor; auto. constructor.
  - constructor.
    + rewrite (upward_in _ _ _ H). eauto using upward_acyclic.
    + cbn in H. apply IH. tauto.
Qed.

Definition all_end (h : hier) : Prop := forall v, exists c, ancestors_upward h v c.

Lemma all_end_sub h h' : all_end h -> (forall v, parent h' v = parent h v \/ parent h' v = None) -> all_end h'.
Proof.
  intros A S_ v. destruct (A v) as [c Hc]. revert v Hc. induction c as [|p c IH]; intros v Hc; cbn in Hc.
  - exists []. cbn. unfold parent_vertex in *. destruct (S_ v); congruence.
  - destruct Hc as [E Hc]. destruct (S_ v) as [Q|Q].
    + destruct (IH _ Hc) as [c' Hc']. exists (p :: c'). cbn. unfold parent_vertex in *. split; [congruence|auto].
    + exists []. exact Q.
Qed.

Lemma all_end_link h h' p s : all_end h -> p <> s -> ~ above h s p ->
  (forall v, parent h' v = if Nat.eqb v s then Some p else parent h v) -> all_end h'.
Proof.
  intros A N1 N2 Q.
  assert (K : forall c v, ancestors_upward h v c -> v <> s -> ~ above h s v -> ancestors_upward h' v c).
  { induction c as [|q c IH]; intros v H Hv Ha; cbn in *; unfold parent_vertex in *; rewrite Q;
      destruct (Nat.eqb_spec v s); try tauto.
    destruct H as [E H]. split; auto. apply IH; auto.
    - intros ->. apply Ha. now constructor.
    - intros Y. apply Ha. now apply above_step with q. }
  destruct (A p) as [cp Hcp]. pose proof (K _ _ Hcp N1 N2) as Kp.
  assert (Ks : ancestors_upward h' s (p :: cp)).
  { cbn. unfold parent_vertex. rewrite Q, Nat.eqb_refl. auto. }
  intros v. destruct (A v) as [c Hc]. revert v Hc. induction c as [|q c IH]; intros v Hc; cbn in Hc.
  - destruct (Nat.eq_dec v s) as [->|Hv]; [eauto|]. exists []. cbn. unfold parent_vertex in *. rewrite Q.
    destruct (Nat.eqb_spec v s); tauto.
  - destruct (Nat.eq_dec v s) as [->|Hv]; [eauto|]. destruct Hc as [E Hc].
    destruct (IH _ Hc) as [c' Hc']. exists (q :: c'). cbn. unfold parent_vertex in *. rewrite Q.
    destruct (Nat.eqb_spec v s); tauto.
Qed.

Lemma remove_all_sub vs : forall h, views_agree h -> forall v,
  parent (fold_left remove_one vs h) v = parent h v \/ parent (fold_left remove_one vs h) v = None.
Proof.
  induction vs as [|x vs IH]; intros h W v; cbn [fold_left]; auto.
  destruct (remove_one_effect h x W) as (_ & P & _).
  destruct (IH _ (remove_one_agree h x W) v) as [->| ->]; auto. rewrite P. unfold cut_parent.
  destruct (parent h v) as [p|]; auto. destruct (_ || _); auto.
Qed.

Lemma hstep_all_end fuel ord h o : views_agree h -> all_end h ->
  match o with HRelate _ p s => p <> s /\ ~ above h s p | _ => True end ->
  all_end (fst (hstep fuel ord h o)).
Proof.
  intros W A H. destruct o as [v|e|e p s|p s|v]; cbn [hstep].
  - unfold track_vertex. destruct (memb v (ids h)); [exact A|]. apply (all_end_sub h _ A). now left.
  - apply (all_end_sub h _ A). now left.
  - unfold track_relation. destruct (negb _); auto. destruct (negb _); auto. destruct (negb _); auto.
    destruct (parent h s); auto.
    destruct (add_unique_11 _ _ _ _ _); cbn [fst];
      (apply (all_end_link h _ p s A (proj1 H) (proj2 H)); intros v; reflexivity).
  - unfold untrack_relation. destruct (negb _); auto. destruct (negb _); auto.
    destruct (parent h s) eqn:E; auto. destruct (negb _); auto. cbn [fst].
    apply (all_end_sub h _ A). intros v. cbn [parent]. unfold upd. destruct (Nat.eqb v s); auto.
  - unfold untrack_vertex. destruct (negb _); auto. destruct (collect _ _ _ _); auto. cbn [fst].
    apply (all_end_sub h _ A). now apply remove_all_sub.
Qed.

Lemma hrun_all_end fuel ord os : forall h, views_agree h -> all_end h -> no_loop_requests fuel ord h os ->
  all_end (hrun fuel ord h os).
Proof.
  induction os as [|o os IH]; intros h W A H; [exact A|].
  cbn in H. destruct H as [H1 H2]. unfold hrun. cbn [fold_left]. apply IH; auto.
  - now apply hstep_agree.
  - now apply hstep_all_end.
Qed.

Lemma empty_all_end : all_end empty_hier.
Proof. intros v. exists []. reflexivity. Qed.
