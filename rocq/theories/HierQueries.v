(** Proofs about the hierarchy queries: chains, common ancestors, crossings,
    nesting level, removal and re-adding. *)
From Coq Require Import List Bool Arith Lia Permutation.
From Verif Require Import Base BimapModel HierModel HierSpec HierProofs.
Import ListNotations.

(** ** Bounded depth *)
Lemma upward_ids h c : forall v, views_agree h -> ancestors_upward h v c -> In v (ids h) -> incl (v :: c) (ids h).
Proof.
  induction c as [|p c IH]; intros v W H Hv x [<-|Q]; auto; [destruct Q|].
  cbn in H. destruct H as [E H]. apply (IH p W H); auto.
  destruct W as (_ & _ & C & _). now apply C in E.
Qed.
Lemma upward_short h c v : views_agree h -> ancestors_upward h v c -> In v (ids h) -> length c < length (ids h).
Proof.
  intros W H Hv. pose proof (NoDup_incl_length (upward_nodup _ _ _ H) (upward_ids _ _ _ W H Hv)) as Q.
  simpl in Q. lia.
Qed.

Lemma child_in h v s : views_agree h -> In s (sub_vertices h v) -> parent_vertex h s = Some v /\ In s (ids h).
Proof. intros (A & _ & C & _) H. apply A in H. split; auto. now apply C in H. Qed.

Lemma collect_ends h : views_agree h -> all_end h -> forall fuel v c acc,
  In v (ids h) -> ancestors_upward h v c -> length (ids h) <= length c + fuel ->
  exists vs, collect fuel h v acc = Some vs.
Proof.
  intros W A. induction fuel as [|f IH]; intros v c acc Hv Hc L.
  { pose proof (upward_short _ _ _ W Hc Hv). lia. }
  cbn [collect]. destruct (nested h v) as [l|] eqn:En; [|eauto].
  assert (K : forall l acc, incl l (sub_vertices h v) ->
    exists vs, fold_left (fun a s => match a with Some a => collect f h s a | None => None end) l (Some acc) = Some vs).
  { induction l0 as [|x l0 IHl]; intros acc0 I; cbn [fold_left]; [eauto|].
    destruct (child_in h v x W (I x (or_introl eq_refl))) as [P X].
    destruct (IH x (v :: c) acc0 X) as [vs Q].
    - cbn. auto.
    - cbn [length]. lia.
    - rewrite Q. apply IHl. intros y Hy. apply I. now right. }
  apply K. unfold sub_vertices. rewrite En. apply incl_refl.
Qed.

Lemma untrack_vertex_done ord h v : views_agree h -> all_end h -> In v (ids h) ->
  snd (untrack_vertex (length (ids h)) ord h v) = Done.
Proof.
  intros W A Hv. unfold untrack_vertex. destruct (memb_spec v (ids h)); [|tauto]. cbn [negb].
  destruct (A v) as [c Hc]. destruct (collect_ends h W A (length (ids h)) v c [] Hv Hc) as [vs ->]; [lia|]. reflexivity.
Qed.

(** ** Nesting level *)
Lemma nesting_level_spec h : views_agree h -> forall fuel v c,
  In v (ids h) -> ancestors_upward h v c -> length (ids h) <= length c + fuel ->
  exists n, nesting_level fuel h v = Some n /\ 1 <= n /\
    (forall u d, at_or_above h v u -> ancestors_upward h u d -> length d < length c + n) /\
    (exists u d, at_or_above h v u /\ In u (ids h) /\ ancestors_upward h u d /\ length d + 1 = length c + n).
Proof.
  intros W. induction fuel as [|f IH]; intros v c Hv Hc L.
  { pose proof (upward_short _ _ _ W Hc Hv). lia. }
  cbn [nesting_level].
  assert (Down : forall u, above h v u -> exists s, In s (sub_vertices h v) /\ at_or_above h s u).
  { intros u H. destruct (above_down _ _ _ H) as [Q|(s & Q & R)].
    - exists u. split; [now apply W|now left].
    - exists s. split; [now apply W|now right]. }
  assert (K : forall l m0, incl l (sub_vertices h v) ->
    exists m, fold_left (fun a s => match a, nesting_level f h s with
                                    | Some m, Some n => Some (Nat.max m n) | _, _ => None end) l (Some m0) = Some m /\
      m0 <= m /\ (forall s u d, In s l -> at_or_above h s u -> ancestors_upward h u d -> length d <= length c + m) /\
      (m = m0 \/ exists s u d, In s l /\ at_or_above h s u /\ In u (ids h) /\ ancestors_upward h u d /\ length d = length c + m) /\
      (l <> [] -> 1 <= m)).
  { induction l as [|x l IHl]; intros m0 I; cbn [fold_left].
    - exists m0. split; auto. split; auto. split; [intros s u d []|]. split; auto. congruence.
    - destruct (child_in h v x W (I x (or_introl eq_refl))) as [P X].
      destruct (IH x (v :: c) X) as (n & -> & N1 & B & u & d & U1 & U2 & U3 & U4).
      { cbn. auto. } { cbn [length]. lia. }
      cbn [length] in B, U4.
      destruct (IHl (Nat.max m0 n)) as (m & -> & M1 & M2 & M3 & M4).
      { intros y Hy. apply I. now right. }
      exists m. split; auto. split; [lia|]. split.
      { intros s u' d' [->|H] R T; [|eauto]. specialize (B u' d' R T). lia. }
      split; [|intros _; lia].
      destruct M3 as [->|(s & u' & d' & ? & ? & ? & ? & ?)].
      + destruct (Nat.max_spec m0 n) as [[? ->]|[? ->]]; auto.
        right. exists x, u, d. split; [now left|]. repeat (split; auto). lia.
      + right. exists s, u', d'. split; [now right|]. auto. }
  destruct (sub_vertices h v) as [|x l] eqn:Es.
  - exists 1. split; auto. split; auto. split.
    + intros u d [<-|R] T.
      * pose proof (upward_unique _ _ _ _ Hc T). subst. lia.
      * destruct (Down u R) as (s & [] & _).
    + exists v, c. split; [now left|]. split; [exact Hv|]. split; [exact Hc|reflexivity].
  - destruct (K (x :: l) 0 (incl_refl _)) as (m & -> & _ & M2 & M3 & M4). cbn [option_map].
    exists (S m). split; auto. split; [lia|]. split.
    + intros u d [<-|R] T.
      * pose proof (upward_unique _ _ _ _ Hc T). subst. lia.
      * destruct (Down u R) as (s & Hs & Q). specialize (M2 s u d Hs Q T). lia.
    + destruct M3 as [M3|(s & u & d & Hs & U1 & U2 & U3 & U4)].
      * specialize (M4 ltac:(discriminate)). lia.
      * exists u, d. split; [|split; [exact U2|split; [exact U3|lia]]].
        right. assert (P : parent_vertex h s = Some v) by (apply W; rewrite Es; auto).
        destruct U1 as [<-|U1]; [now constructor|]. apply above_trans with s; auto. now constructor.
Qed.

Lemma last_upward h c : forall v, ancestors_upward h v c -> In v (ids h) -> views_agree h ->
  exists r, In r (roots h) /\ at_or_above h r v /\ ancestors_upward h r [].
Proof.
  induction c as [|p c IH]; intros v H Hv W.
  - exists v. split; [|split; [now left|exact H]]. apply W. auto.
  - cbn in H. destruct H as [E H].
    assert (Hp : In p (ids h)) by (destruct W as (_ & _ & C & _); now apply C in E).
    destruct (IH p H Hp W) as (r & R1 & R2 & R3). exists r. split; auto. split; auto.
    right. destruct R2 as [->|R2]; [now constructor|now apply above_step with p].
Qed.

Lemma max_nesting_level_spec h : views_agree h -> all_end h ->
  exists n, max_nesting_level (length (ids h)) h = Some n /\
    (forall v d, In v (ids h) -> depth h v d -> d < n) /\
    (n = 0 \/ exists v, In v (ids h) /\ depth h v (n - 1)).
Proof.
  intros W A. unfold max_nesting_level.
  assert (K : forall l m0, incl l (roots h) ->
    exists m, fold_left (fun a s => match a, nesting_level (length (ids h)) h s with
                                    | Some m, Some n => Some (Nat.max m n) | _, _ => None end) l (Some m0) = Some m /\
      m0 <= m /\ (forall s u d, In s l -> at_or_above h s u -> depth h u d -> d < m) /\
      (m = m0 \/ exists v, In v (ids h) /\ depth h v (m - 1))).
  { induction l as [|x l IHl]; intros m0 I; cbn [fold_left].
    - exists m0. split; auto. split; auto. split; auto. intros s u d [].
    - assert (X : In x (ids h) /\ parent_vertex h x = None) by (apply W, I; now left).
      destruct X as [X P].
      destruct (nesting_level_spec h W (length (ids h)) x [] X P) as (n & -> & N1 & B & u & d & U1 & U2 & U3 & U4); [simpl; lia|].
      destruct (IHl (Nat.max m0 n)) as (m & -> & M1 & M2 & M3).
      { intros y Hy. apply I. now right. }
      exists m. split; auto. split; [lia|]. split.
      { intros s u' d' [->|H] R (c' & T & T2); [|eapply M2; eauto; exists c'; auto].
        specialize (B u' c' R T). simpl in B. lia. }
      destruct M3 as [->|]; auto. destruct (Nat.max_spec m0 n) as [[? ->]|[? ->]]; auto.
      right. exists u. split; auto. exists d. split; auto. simpl in U4. lia. }
  destruct (K (roots h) 0 (incl_refl _)) as (m & E & _ & M2 & M3). exists m. split; auto. split; auto.
  intros v d Hv Hd. destruct (A v) as [c Hc]. destruct (last_upward h c v Hc Hv W) as (r & R1 & R2 & _). eauto.
Qed.

(** ** Chain "until" *)
Lemma chain_until_is_chain fuel : forall h v f, parent_chain_until fuel h v f = parent_chain fuel h v.
Proof.
  induction fuel as [|k IH]; intros h v f; cbn; auto. destruct (parent h v); auto. now rewrite IH.
Qed.

(** ** Common ancestor *)
Lemma filter_filter_and {A} (f g : A -> bool) l : filter f (filter g l) = filter (fun x => g x && f x) l.
Proof.
  induction l as [|x l IH]; simpl; auto. destruct (g x); simpl; [destruct (f x)|]; simpl; rewrite IH; auto.
Qed.

Lemma common_loop_exact h fuel vs : (forall v, In v vs -> exists c, ancestors_upward h v c /\ length c < fuel) ->
  forall common, common <> [] ->
  exists keep, (forall a, keep a = true <-> forall v, In v vs -> at_or_above h a v) /\
    common_loop fuel h common vs = Some (hd_error (filter keep common)).
Proof.
  induction vs as [|v vs IH]; intros Hvs common Hne.
  - exists (fun _ => true). split. { intros a. split; auto. intros _ v []. }
    cbn. f_equal. f_equal. clear. induction common; simpl; congruence.
  - cbn [common_loop]. unfold chain_with_self.
    destruct (Hvs v (or_introl eq_refl)) as (c & Hc & Lc). rewrite (chain_complete _ _ _ _ Hc Lc). cbn [option_map].
    assert (M : forall a, memb a (c ++ [v]) = true <-> at_or_above h a v).
    { intros a. rewrite memb_in, in_app_iff, (upward_in _ _ _ Hc). unfold at_or_above. simpl. intuition. }
    destruct (filter (fun a => memb a (c ++ [v])) common) as [|y ys] eqn:F.
    + exists (fun a => memb a (c ++ [v]) && forallb (fun w => match parent_chain fuel h w with
                 | Some d => memb a (d ++ [w]) | None => false end) vs).
      split.
      { intros a. rewrite andb_true_iff, M, forallb_forall. split.
        - intros [H1 H2] w [<-|Hw]; auto. specialize (H2 w Hw).
          destruct (Hvs w (or_intror Hw)) as (d & Hd & Ld). rewrite (chain_complete _ _ _ _ Hd Ld) in H2.
          apply memb_in in H2. rewrite in_app_iff, (upward_in _ _ _ Hd) in H2. unfold at_or_above. simpl in H2. intuition.
        - intros H. split; [apply H; now left|]. intros w Hw.
          destruct (Hvs w (or_intror Hw)) as (d & Hd & Ld). rewrite (chain_complete _ _ _ _ Hd Ld).
          apply memb_in. rewrite in_app_iff, (upward_in _ _ _ Hd). specialize (H w (or_intror Hw)).
          unfold at_or_above in H. simpl. intuition. }
      rewrite <- filter_filter_and. now rewrite F.
    + destruct (IH (fun w Hw => Hvs w (or_intror Hw)) (y :: ys)) as (keep & K1 & K2); [discriminate|].
      exists (fun a => memb a (c ++ [v]) && keep a). split.
      { intros a. rewrite andb_true_iff, M, K1. split.
        - intros [H1 H2] w [<-|Hw]; auto.
        - intros H. split; [apply H; now left|]. intros w Hw. apply H. now right. }
      rewrite <- filter_filter_and, F. exact K2.
Qed.

Lemma upward_order h c1 : forall v a b c2, ancestors_upward h v (c1 ++ a :: c2) -> In b (c1 ++ a :: c2) ->
  ~ In b c1 -> at_or_above h b a.
Proof.
  intros v a b c2 H Hb N. apply in_app_or in Hb. destruct Hb as [?|[->|Hb]]; [tauto|now left|].
  right. clear N. revert v H. induction c1 as [|x c1 IH]; intros v H; cbn in H.
  - destruct H as [_ H]. now apply (upward_in _ _ _ H).
  - destruct H as [_ H]. eauto.
Qed.

Lemma filter_front {A} (f : A -> bool) l x r : filter f l = x :: r ->
  exists l1 l2, l = l1 ++ x :: l2 /\ (forall y, In y l1 -> f y = false) /\ f x = true.
Proof.
  induction l as [|y l IH]; simpl; [discriminate|]. destruct (f y) eqn:E.
  - intros Q. injection Q as <- Q. exists [], l. split; auto. split; auto. intros ? [].
  - intros Q. destruct (IH Q) as (l1 & l2 & -> & H1 & H2). exists (y :: l1), l2. split; auto. split; auto.
    intros z [<-|]; auto.
Qed.

Lemma common_ancestor_spec h fuel vs : (forall v, In v vs -> exists c, ancestors_upward h v c /\ length c < fuel) ->
  (exists a b, In a vs /\ In b vs /\ a <> b) ->
  (forall a b, In a vs -> In b vs -> ~ above h a b) ->
  exists r, common_ancestor fuel h vs = Some r /\
    match r with
    | Some w => lowest_common h vs w
    | None => forall w, ~ (forall v, In v vs -> at_or_above h w v)
    end.
Proof.
  intros Hvs (x & y & Hx & Hy & Nxy) Hna. unfold common_ancestor. destruct vs as [|v vs]; [destruct Hx|].
  unfold chain_with_self. destruct (Hvs v (or_introl eq_refl)) as (c & Hc & Lc).
  rewrite (chain_complete _ _ _ _ Hc Lc). cbn [option_map].
  destruct (common_loop_exact h fuel vs (fun w Hw => Hvs w (or_intror Hw)) (c ++ [v])) as (keep & K1 & ->).
  { destruct c; discriminate. }
  exists (hd_error (filter keep (c ++ [v]))). split; auto.
  assert (Kv : keep v = false).
  { destruct (keep v) eqn:E; auto. exfalso. rewrite K1 in E.
    assert (exists z, In z vs /\ z <> v) as (z & Hz & Nz).
    { destruct (Nat.eq_dec x v) as [->|Nx].
      - exists y. split; auto. destruct Hy as [->|Hy]; [tauto|auto].
      - exists x. split; auto. destruct Hx as [->|Hx]; [tauto|auto]. }
    destruct (E z Hz) as [->|Q]; [tauto|]. apply (Hna v z); simpl; auto. }
  assert (All : forall a, (forall u, In u (v :: vs) -> at_or_above h a u) <-> In a c /\ keep a = true).
  { intros a. rewrite K1. split.
    - intros H. split; [|intros; apply H; now right]. destruct (H v (or_introl eq_refl)) as [->|Q].
      + exfalso. assert (keep v = true) by (apply K1; intros; apply H; now right). congruence.
      + now apply (upward_in _ _ _ Hc).
    - intros [H1 H2] u [<-|Hu]; auto. right. now apply (upward_in _ _ _ Hc). }
  rewrite filter_app. simpl. rewrite Kv, app_nil_r.
  destruct (filter keep c) as [|w r] eqn:F; cbn [hd_error].
  - intros w H. apply All in H. destruct H as [H1 H2].
    assert (In w (filter keep c)) by (apply filter_In; auto). rewrite F in H. destruct H.
  - destruct (filter_front _ _ _ _ F) as (c1 & c2 & -> & H1 & H2). split.
    + apply All. split; auto. apply in_or_app. simpl. auto.
    + intros a Ha. apply All in Ha. destruct Ha as [A1 A2].
      apply (upward_order h c1 v w a c2 Hc A1). intros Q. rewrite (H1 a Q) in A2. discriminate.
Qed.

(** ** Crossings *)
Definition upo (h : hier) (v : nat) : nat := match parent h v with Some p => p | None => v end.
Fixpoint upn (h : hier) (n : nat) (v : nat) : nat := match n with O => v | S m => upo h (upn h m v) end.
Fixpoint seen_upto (h : hier) (n : nat) (v : nat) : list nat :=
  match n with O => [] | S m => upn h m v :: seen_upto h m v end.

Lemma seen_in h n v x : In x (seen_upto h n v) <-> exists m, m < n /\ x = upn h m v.
Proof.
  induction n as [|n IH]; simpl.
  - split; [intros []|]. intros (m & ? & _). lia.
  - rewrite IH. split.
    + intros [<-|(m & ? & ->)]; [exists n|exists m]; split; auto.
    + intros (m & L & ->). destruct (Nat.eq_dec m n) as [->|]; auto. right. exists m. split; auto. lia.
Qed.
Lemma upn_above h n v : at_or_above h (upn h n v) v.
Proof.
  induction n as [|n IH]; simpl; [now left|]. unfold upo. destruct (parent h (upn h n v)) as [p|] eqn:P; auto.
  right. destruct IH as [IH|IH].
  - rewrite IH in P. now constructor.
  - eapply above_trans; [|exact IH]. now constructor.
Qed.
Lemma upn_shift h n v : upn h n (upo h v) = upn h (S n) v.
Proof. induction n as [|n IH]; [reflexivity|]. cbn [upn] in *. now rewrite IH. Qed.

Lemma find_lca_steps h s t k : forall i fuel,
  (forall j, i <= j < i + k -> parent h (upn h j t) <> None /\ ~ In (upn h j t) (seen_upto h (S j) s)) ->
  find_lca (k + fuel) h (seen_upto h i s) (upn h i s) (upn h i t) =
  find_lca fuel h (seen_upto h (i + k) s) (upn h (i + k) s) (upn h (i + k) t).
Proof.
  induction k as [|k IH]; intros i fuel H.
  - now rewrite Nat.add_0_r.
  - cbn [Nat.add find_lca]. destruct (H i) as [P N]; [lia|].
    change (upn h i s :: seen_upto h i s) with (seen_upto h (S i) s).
    destruct (memb_spec (upn h i t) (seen_upto h (S i) s)); [tauto|].
    destruct (parent h (upn h i t)) as [q|] eqn:Q; [|tauto].
    change (match parent h (upn h i s) with Some p => p | None => upn h i s end) with (upn h (S i) s).
    replace q with (upn h (S i) t) by (cbn [upn]; unfold upo; now rewrite Q).
    rewrite IH.
    + now rewrite Nat.add_succ_comm.
    + intros j L. apply H. lia.
Qed.

Lemma between_upn h top path : forall v, strictly_between h v top path ->
  upn h (S (length path)) v = top /\
  (forall j, j <= length path -> parent h (upn h j v) <> None /\ (j = 0 \/ In (upn h j v) path)) /\
  above h top v.
Proof.
  induction path as [|p path IH]; intros v H; cbn in H; unfold parent_vertex in *.
  - split; [|split; [|now constructor]].
    + cbn. unfold upo. now rewrite H.
    + intros j L. destruct j; [|simpl in L; lia]. cbn. split; [congruence|auto].
  - destruct H as [E H]. destruct (IH p H) as (H1 & H2 & H3).
    assert (U : upo h v = p) by (unfold upo; now rewrite E).
    split; [|split].
    + cbn [length]. rewrite <- upn_shift, U. exact H1.
    + intros j L. destruct j as [|j].
      * cbn. split; [congruence|auto].
      * rewrite <- upn_shift, U. cbn [length] in L. destruct (H2 j) as [Q R]; [lia|]. split; auto.
        right. destruct R as [->|R]; simpl; auto.
    + now apply above_step with p.
Qed.
Lemma between_above h top path : forall v x, strictly_between h v top path -> In x (v :: path) -> above h top x.
Proof.
  induction path as [|p path IH]; intros v x H [<-|Hx]; cbn in H.
  - now constructor.
  - destruct Hx.
  - destruct H as [E H]. apply above_step with p; auto. apply (IH p p H). now left.
  - destruct H as [E H]. apply (IH p x H). exact Hx.
Qed.
Lemma between_walk h top path : forall v fuel, strictly_between h v top path -> ~ above h top top ->
  S (length path) < fuel -> walk_up fuel h v top = Ok (v :: path).
Proof.
  induction path as [|p path IH]; intros v fuel H N L; (destruct fuel as [|fuel]; [lia|]); cbn [walk_up].
  - destruct (Nat.eqb_spec v top) as [->|]. { exfalso. apply N. constructor. exact H. }
    cbn in H. unfold parent_vertex in H. rewrite H. destruct fuel as [|fuel]; [simpl in L; lia|].
    cbn [walk_up]. rewrite Nat.eqb_refl. reflexivity.
  - destruct (Nat.eqb_spec v top) as [->|].
    { exfalso. apply N. apply (between_above h top (p :: path) top top H). now left. }
    cbn in H. destruct H as [E H]. unfold parent_vertex in E. rewrite E.
    rewrite (IH p fuel H N); [|simpl in L; lia]. reflexivity.
Qed.
Lemma between_notin h top path v : all_end h -> strictly_between h v top path -> ~ In v path.
Proof.
  intros A H Q. destruct (A v) as [c Hc]. apply (upward_acyclic _ _ _ Hc).
  clear Hc c. assert (K : forall path v x, strictly_between h v top path -> In x path -> above h x v).
  { clear. induction path as [|p path IH]; intros v x H Hx; [destruct Hx|]. cbn in H. destruct H as [E H].
    destruct Hx as [<-|Hx]; [now constructor|]. apply above_step with p; auto. }
  eauto.
Qed.
Lemma acyclic h v : all_end h -> ~ above h v v.
Proof. intros A. destruct (A v) as [c Hc]. eauto using upward_acyclic. Qed.

(** The lowest common vertex is found when it is no farther from the source
    than from the target. *)
Lemma find_lca_found h s t w a b fuel : all_end h -> lowest_common h [s; t] w ->
  upn h a s = w -> strictly_between h t w b -> a <= S (length b) -> S (length b) < fuel ->
  find_lca fuel h [] s t = Some w.
Proof.
  intros A (C1 & C2) Ha Hb L Lf. destruct (between_upn h w b t Hb) as (U & P & _).
  replace fuel with (S (length b) + (fuel - S (length b))) by lia.
  change (find_lca (S (length b) + (fuel - S (length b))) h (seen_upto h 0 s) (upn h 0 s) (upn h 0 t) = Some w).
  rewrite find_lca_steps.
  - cbn [Nat.add]. destruct (fuel - S (length b)) as [|f] eqn:F; [lia|]. cbn [find_lca].
    change (upn h (S (length b)) s :: seen_upto h (S (length b)) s) with (seen_upto h (S (S (length b))) s).
    rewrite U. destruct (memb_spec w (seen_upto h (S (S (length b))) s)) as [|N]; auto.
    exfalso. apply N. apply seen_in. exists a. split; [lia|auto].
  - intros j Hj. destruct (P j) as [Q R]; [lia|]. split; auto. intros Y.
    apply seen_in in Y. destruct Y as (m & Hm & E).
    assert (at_or_above h (upn h j t) w).
    { apply C2. intros v [<-|[<-|[]]]; [rewrite E|]; apply upn_above. }
    assert (above h w (upn h j t)).
    { apply (between_above h w b t); auto. destruct R as [->|R]; simpl; auto. }
    destruct H as [H|H].
    + rewrite H in H0. now apply (acyclic h w A) in H0.
    + apply (acyclic h w A). eapply above_trans; eauto.
Qed.

Lemma filter_not_in v (l : list nat) : ~ In v l -> filter (fun y => negb (Nat.eqb y v)) l = l.
Proof.
  induction l as [|x l IH]; simpl; intros N; auto. destruct (Nat.eqb_spec x v) as [->|]; [tauto|].
  simpl. f_equal. apply IH. tauto.
Qed.
Lemma filter_self v (l : list nat) : ~ In v l -> filter (fun y => negb (Nat.eqb y v)) (v :: l) = l.
Proof. intros N. simpl. rewrite Nat.eqb_refl. simpl. now apply filter_not_in. Qed.
Lemma filter_self_rev v (l : list nat) : ~ In v l -> filter (fun y => negb (Nat.eqb y v)) (rev (v :: l)) = rev l.
Proof.
  intros N. simpl. rewrite filter_app, filter_not_in; [|now rewrite <- in_rev].
  simpl. rewrite Nat.eqb_refl. simpl. apply app_nil_r.
Qed.

Lemma lowest_not_above_both h s t w q : all_end h -> lowest_common h [s; t] w ->
  at_or_above h q s -> at_or_above h q t -> ~ above h w q.
Proof.
  intros A (_ & C2) Q1 Q2 Q3.
  assert (at_or_above h q w) by (apply C2; intros v [<-|[<-|[]]]; auto).
  destruct H as [<-|H]; [now apply acyclic in Q3|]. apply (acyclic h w A). eapply above_trans; eauto.
Qed.

Lemma crossings_two_sided h s t w a b fuel : all_end h -> lowest_common h [s; t] w ->
  strictly_between h s w a -> strictly_between h t w b -> length a <= length b -> S (length b) < fuel ->
  crossings fuel h s t = Ok (a ++ rev b).
Proof.
  intros A C Ha Hb L Lf. destruct (between_upn h w a s Ha) as (Ua & _ & Wa).
  destruct (between_upn h w b t Hb) as (_ & _ & Wb).
  pose proof (find_lca_found h s t w (S (length a)) b fuel A C Ua Hb ltac:(lia) Lf) as FL.
  assert (Ns : w <> s) by (intros ->; now apply acyclic in Wa).
  assert (Nt : w <> t) by (intros ->; now apply acyclic in Wb).
  assert (Main : obind (walk_up fuel h s w) (fun x => obind (walk_up fuel h t w) (fun y =>
     Ok (filter (fun z => negb (Nat.eqb z s)) x ++ filter (fun z => negb (Nat.eqb z t)) (rev y)))) = Ok (a ++ rev b)).
  { rewrite (between_walk h w a s fuel Ha (acyclic h w A)) by lia. cbn [obind].
    rewrite (between_walk h w b t fuel Hb (acyclic h w A)) by lia. cbn [obind].
    rewrite filter_self by eauto using between_notin. rewrite filter_self_rev by eauto using between_notin. reflexivity. }
  assert (EqP : forall p, parent h s = Some p -> parent h t = Some p -> a ++ rev b = []).
  { intros p P1 P2.
    assert (Q : ~ above h w p).
    { apply (lowest_not_above_both h s t w p A C); right; now constructor. }
    assert (Z : forall x v, strictly_between h v w x -> parent h v = Some p -> x = []).
    { intros [|q x] v Hx Hp; auto. exfalso. cbn in Hx. destruct Hx as [E Hx]. unfold parent_vertex in E.
      rewrite Hp in E. injection E as <-. apply Q. now destruct (between_upn h w x p Hx) as (_ & _ & ?). }
    rewrite (Z a s Ha P1), (Z b t Hb P2). reflexivity. }
  unfold crossings. destruct (parent h s) as [p|] eqn:P1.
  2: { exfalso. destruct a; cbn in Ha; unfold parent_vertex in Ha; [congruence|destruct Ha; congruence]. }
  destruct (parent h t) as [q|] eqn:P2.
  2: { exfalso. destruct b; cbn in Hb; unfold parent_vertex in Hb; [congruence|destruct Hb; congruence]. }
  destruct (Nat.eqb_spec p q) as [->|Npq].
  - now rewrite (EqP q eq_refl eq_refl).
  - rewrite FL. destruct (Nat.eqb_spec w s); [tauto|]. destruct (Nat.eqb_spec w t); [tauto|]. exact Main.
Qed.

(** Source above target: the path comes out from the target upwards. *)
Lemma crossings_source_above h s t b fuel : all_end h ->
  strictly_between h t s b -> S (length b) < fuel -> crossings fuel h s t = Ok b.
Proof.
  intros A Hb Lf. destruct (between_upn h s b t Hb) as (_ & _ & Wb).
  assert (C : lowest_common h [s; t] s).
  { split.
    - intros v [<-|[<-|[]]]; [now left|now right].
    - intros x H. apply H. now left. }
  pose proof (find_lca_found h s t s 0 b fuel A C eq_refl Hb ltac:(lia) Lf) as FL.
  unfold crossings. destruct (parent h t) as [q|] eqn:P2.
  2: { exfalso. destruct b; cbn in Hb; unfold parent_vertex in Hb; [congruence|destruct Hb; congruence]. }
  assert (R : obind (walk_up fuel h t s) (fun l => Ok (filter (fun y => negb (Nat.eqb y t)) l)) = Ok b).
  { rewrite (between_walk h s b t fuel Hb (acyclic h s A)) by lia. cbn [obind].
    now rewrite filter_self by eauto using between_notin. }
  assert (Np : forall p, parent h s = Some p -> p <> q).
  { intros p P1 ->. assert (Q : above h s q \/ q = s).
    { destruct b as [|q' b]; cbn in Hb; unfold parent_vertex in Hb.
      - right. congruence.
      - left. destruct Hb as [E Hb]. rewrite P2 in E. injection E as <-. now destruct (between_upn h s b q Hb) as (_ & _ & ?). }
    apply (acyclic h q A). destruct Q as [Q| ->].
    - eapply above_trans; [|exact Q]. now constructor.
    - now constructor. }
  destruct (parent h s) as [p|] eqn:P1.
  - destruct (Nat.eqb_spec p q) as [E|]; [now apply Np in E|]. rewrite FL, Nat.eqb_refl. exact R.
  - rewrite FL, Nat.eqb_refl. exact R.
Qed.

(** Source and target in different trees. *)
Lemma walk_up_miss h top c : forall v fuel, ancestors_upward h v c -> ~ at_or_above h top v -> length c < fuel ->
  walk_up fuel h v top = Throw.
Proof.
  induction c as [|p c IH]; intros v fuel H N L; (destruct fuel as [|f]; [lia|]); cbn [walk_up];
    (destruct (Nat.eqb_spec v top) as [->|]; [exfalso; apply N; now left|]); cbn in H; unfold parent_vertex in H.
  - now rewrite H.
  - destruct H as [E H]. rewrite E, (IH p f H); auto.
    + intros [->|Q]; apply N; right; [now constructor|now apply above_step with p].
    + simpl in L. lia.
Qed.
Lemma walk_up_hit h top c : forall v fuel, ancestors_upward h v c -> at_or_above h top v -> length c < fuel ->
  exists l, walk_up fuel h v top = Ok l.
Proof.
  induction c as [|p c IH]; intros v fuel H N L; (destruct fuel as [|f]; [lia|]); cbn [walk_up];
    (destruct (Nat.eqb_spec v top) as [->|]; [eauto|]); cbn in H; unfold parent_vertex in H.
  - destruct N as [->|N]; [tauto|]. exfalso. destruct N as [? ? E|? ? ? E]; unfold parent_vertex in E; congruence.
  - destruct H as [E H]. rewrite E. destruct (IH p f H) as [l ->].
    + destruct N as [->|N]; [tauto|]. destruct N as [? ? E'|? ? ? E']; unfold parent_vertex in E'.
      * left. congruence.
      * right. congruence.
    + simpl in L. lia.
    + cbn. eauto.
Qed.
Lemma upward_parents h c : forall v, ancestors_upward h v c ->
  (forall j, j < length c -> parent h (upn h j v) <> None) /\ parent h (upn h (length c) v) = None.
Proof.
  induction c as [|p c IH]; intros v H; cbn in H; unfold parent_vertex in *.
  - split; [simpl; lia|exact H].
  - destruct H as [E H]. destruct (IH p H) as [I1 I2].
    assert (U : upo h v = p) by (unfold upo; now rewrite E).
    split.
    + intros [|j] L; [cbn; congruence|]. rewrite <- upn_shift, U. apply I1. simpl in L. lia.
    + cbn [length]. now rewrite <- upn_shift, U.
Qed.

Lemma crossings_different_trees h s t cs ct fuel : ancestors_upward h s cs -> ancestors_upward h t ct ->
  (forall w, at_or_above h w s -> ~ at_or_above h w t) -> (cs <> [] \/ ct <> []) ->
  length cs < fuel -> length ct < fuel -> crossings fuel h s t = Throw.
Proof.
  intros Hs Ht D Ne Ls Lt.
  destruct (upward_parents h ct t Ht) as [Pt Et].
  assert (FL : find_lca fuel h [] s t = Some (upn h (S (length ct)) s)).
  { replace fuel with (length ct + (fuel - length ct)) by lia.
    change (find_lca (length ct + (fuel - length ct)) h (seen_upto h 0 s) (upn h 0 s) (upn h 0 t) = Some (upn h (S (length ct)) s)).
    assert (No : forall j n, ~ In (upn h j t) (seen_upto h n s)).
    { intros j n Y. apply seen_in in Y. destruct Y as (m & _ & E). apply (D (upn h j t)); [rewrite E|]; apply upn_above. }
    rewrite find_lca_steps by (intros j Hj; split; [apply Pt; lia|apply No]).
    cbn [Nat.add]. destruct (fuel - length ct) as [|f] eqn:F; [lia|]. cbn [find_lca].
    change (upn h (length ct) s :: seen_upto h (length ct) s) with (seen_upto h (S (length ct)) s).
    destruct (memb_spec (upn h (length ct) t) (seen_upto h (S (length ct)) s)) as [Y|]; [now apply No in Y|].
    rewrite Et. reflexivity. }
  set (l := upn h (S (length ct)) s) in *.
  assert (Ll : at_or_above h l s) by apply upn_above.
  assert (Main : (if Nat.eqb l s then obind (walk_up fuel h t l) (fun x => Ok (filter (fun y => negb (Nat.eqb y t)) x))
          else if Nat.eqb l t then obind (walk_up fuel h s l) (fun x => Ok (filter (fun y => negb (Nat.eqb y s)) x))
          else obind (walk_up fuel h s l) (fun a => obind (walk_up fuel h t l) (fun b =>
            Ok (filter (fun y => negb (Nat.eqb y s)) a ++ filter (fun y => negb (Nat.eqb y t)) (rev b))))) = Throw).
  { pose proof (walk_up_miss h l ct t fuel Ht (D l Ll) Lt) as WM.
    destruct (Nat.eqb_spec l s). { now rewrite WM. }
    destruct (Nat.eqb_spec l t) as [E|]. { exfalso. apply (D l Ll). now left. }
    destruct (walk_up_hit h l cs s fuel Hs Ll Ls) as [x ->]. cbn [obind]. now rewrite WM. }
  unfold crossings. rewrite FL.
  destruct (parent h s) as [p|] eqn:P1, (parent h t) as [q|] eqn:P2.
  - destruct (Nat.eqb_spec p q) as [->|]; [|exact Main]. exfalso. apply (D q); right; now constructor.
  - exact Main.
  - exact Main.
  - exfalso. destruct cs as [|c cs]; [|cbn in Hs; destruct Hs; unfold parent_vertex in *; congruence].
    destruct ct as [|c ct]; [|cbn in Ht; destruct Ht; unfold parent_vertex in *; congruence]. tauto.
Qed.

(** ** Removing and re-adding a relation *)
Lemma pair_eqb_spec a b : reflect (a = b) (pair_eqb a b).
Proof.
  unfold pair_eqb. destruct a as [a1 a2], b as [b1 b2]. cbn [fst snd].
  destruct (Nat.eqb_spec a1 b1), (Nat.eqb_spec a2 b2); cbn; constructor; congruence.
Qed.

Lemma excl_incl_perm x l : NoDup l -> In x l -> Permutation (incl_ x (excl_ x l)) l.
Proof.
  intros N H. apply NoDup_Permutation; auto using incl_nodup, excl_nodup.
  intros y. rewrite incl_in, excl_in. split; [intros [->|]; tauto|].
  destruct (Nat.eq_dec y x); auto.
Qed.
Lemma incl_excl_perm x l : NoDup l -> ~ In x l -> Permutation (excl_ x (incl_ x l)) l.
Proof.
  intros N H. apply NoDup_Permutation; auto using incl_nodup, excl_nodup.
  intros y. rewrite excl_in, incl_in. split; [tauto|].
  intros Hy. split; auto. intros ->. tauto.
Qed.

Lemma readd_refused h p s e e' : views_agree h -> parent_vertex h s = Some p ->
  at_right pair_eqb (tracker h) (p, s) = Some e -> In e' (objects h) ->
  snd (untrack_relation h p s) = Done /\
  snd (track_relation (fst (untrack_relation h p s)) e' p s) = Raised /\
  same_hierarchy (fst (track_relation (fst (untrack_relation h p s)) e' p s)) h.
Proof.
  intros W P T O. pose proof W as (A & B & C & D & E & F).
  destruct (C p s P) as [Hp Hs]. unfold parent_vertex in P.
  assert (U : untrack_relation h p s = (mkH (ids h) (incl_ s (roots h)) (upd (parent h) s None)
              (drop_child (nested h) p s) (tracker h) (objects h), Done)).
  { unfold untrack_relation. destruct (memb_spec p (ids h)); [|tauto]. destruct (memb_spec s (ids h)); [|tauto].
    cbn [negb]. rewrite P, Nat.eqb_refl. reflexivity. }
  rewrite U. cbn [fst snd]. split; auto.
  unfold track_relation. cbn [ids objects parent nested tracker roots].
  destruct (memb_spec p (ids h)); [|tauto]. destruct (memb_spec s (ids h)); [|tauto]. cbn [negb].
  destruct (memb_spec e' (objects h)); [|tauto]. cbn [negb]. rewrite upd_eq.
  assert (CL : contains_left pair_eqb (tracker h) (p, s) = true).
  { unfold at_right in T. destruct (contains_left pair_eqb (tracker h) (p, s)); auto. discriminate. }
  unfold add_unique_11. rewrite CL. cbn [orb fst snd]. split; auto.
  unfold same_hierarchy, root_vertices, parent_vertex. cbn [ids roots parent tracker objects].
  split; [reflexivity|]. split.
  { apply incl_excl_perm; auto. intros Q. apply B in Q. unfold parent_vertex in Q. destruct Q. congruence. }
  split. { intros v. unfold upd. destruct (Nat.eqb_spec v s) as [->|]; auto. }
  split; auto.
  intros v. unfold sub_vertices at 1. cbn [nested]. unfold upd at 1.
  destruct (Nat.eqb_spec v p) as [->|Hv].
  - change (match drop_child (nested h) p s p with Some l => l | None => [] end) with (subs (drop_child (nested h) p s) p).
    rewrite drop_child_subs, Nat.eqb_refl. apply excl_incl_perm; [apply F|]. apply A. exact P.
  - change (match drop_child (nested h) p s v with Some l => l | None => [] end) with (subs (drop_child (nested h) p s) v).
    rewrite drop_child_subs. destruct (Nat.eqb_spec v p); [tauto|]. reflexivity.
Qed.

(** ** Failed calls *)
Lemma failed_unchanged fuel ord h o :
  snd (hstep fuel ord h o) <> Done ->
  (forall e p s, o = HRelate e p s -> contains_left pair_eqb (tracker h) (p, s) = false /\ contains_right Nat.eqb (tracker h) e = false) ->
  fst (hstep fuel ord h o) = h.
Proof.
  intros N R. destruct o as [v|e|e p s|p s|v]; cbn [hstep] in *.
  - unfold track_vertex in *. destruct (memb v (ids h)); auto. cbn in N. tauto.
  - cbn in N. tauto.
  - destruct (R e p s eq_refl) as [R1 R2]. unfold track_relation, add_unique_11 in *. rewrite R1, R2 in *. cbn [orb] in *.
    destruct (negb _); auto. destruct (negb _); auto. destruct (negb _); auto.
    destruct (parent h s); auto. cbn in N. tauto.
  - unfold untrack_relation in *. destruct (negb _); auto. destruct (negb _); auto.
    destruct (parent h s); auto. destruct (negb _); auto. cbn in N. tauto.
  - unfold untrack_vertex in *. destruct (negb _); auto. destruct (collect _ _ _ _); auto. cbn in N. tauto.
Qed.

(** ** Every recorded relation has its edge *)
Definition has_edges (h : hier) : Prop :=
  forall p s, parent_vertex h s = Some p -> exists e, at_right pair_eqb (tracker h) (p, s) = Some e.

Lemma find_left_app {L R} (eql : L -> L -> bool) (m m' : bimap L R) k :
  find_left eql (m ++ m') k = match find_left eql m k with Some x => Some x | None => find_left eql m' k end.
Proof. induction m as [|x m IH]; simpl; auto. destruct (eql (fst x) k); auto. Qed.

Lemma at_right_find m k : at_right pair_eqb m k = option_map snd (find_left pair_eqb m k) :> option nat.
Proof. unfold at_right, contains_left, get_right. destruct (find_left pair_eqb m k); auto. Qed.

Lemma hstep_has_edges fuel ord h o : views_agree h -> has_edges h -> snd (hstep fuel ord h o) = Done ->
  has_edges (fst (hstep fuel ord h o)).
Proof.
  intros W H. destruct o as [v|e|e p s|p s|v]; cbn [hstep].
  - unfold track_vertex. destruct (memb v (ids h)); cbn; [discriminate|]. intros _. exact H.
  - intros _. exact H.
  - unfold track_relation. destruct (negb _); [discriminate|]. destruct (negb _); [discriminate|].
    destruct (negb _); [discriminate|]. destruct (parent h s) eqn:P; [discriminate|].
    unfold add_unique_11, boost_insert_11.
    destruct (contains_left pair_eqb (tracker h) (p, s) || contains_right Nat.eqb (tracker h) e) eqn:C; [discriminate|].
    intros _. cbn [fst]. intros q x. unfold parent_vertex. cbn [parent tracker]. rewrite at_right_find, find_left_app.
    unfold upd. destruct (Nat.eqb_spec x s) as [->|Hx].
    + intros Q. injection Q as <-. destruct (find_left pair_eqb (tracker h) (p, s)) as [y|]; cbn; [eauto|].
      destruct (pair_eqb_spec (p, s) (p, s)); [|congruence]. cbn. eauto.
    + intros Q. destruct (H q x Q) as [e' He]. rewrite at_right_find in He.
      destruct (find_left pair_eqb (tracker h) (q, x)); cbn in *; [eauto|discriminate].
  - unfold untrack_relation. destruct (negb _); [discriminate|]. destruct (negb _); [discriminate|].
    destruct (parent h s) eqn:P; [|discriminate]. destruct (negb _); [discriminate|]. intros _. cbn [fst].
    intros q x. unfold parent_vertex. cbn [parent tracker]. unfold upd. destruct (Nat.eqb x s); [discriminate|]. apply H.
  - unfold untrack_vertex. destruct (negb _); [discriminate|]. destruct (collect _ _ _ _) as [vs|]; [|discriminate].
    intros _. cbn [fst]. intros q x Q. destruct (remove_all_effect (ord vs) h W) as (_ & _ & T & _). rewrite T.
    destruct (remove_all_sub (ord vs) h W x) as [E|E]; unfold parent_vertex in Q; rewrite E in Q; [now apply H|discriminate].
Qed.

Fixpoint all_done (fuel : nat) (ord : list nat -> list nat) (h : hier) (os : list hop) : Prop :=
  match os with
  | [] => True
  | o :: os' => snd (hstep fuel ord h o) = Done /\ all_done fuel ord (fst (hstep fuel ord h o)) os'
  end.
Lemma hrun_has_edges fuel ord os : forall h, views_agree h -> has_edges h -> all_done fuel ord h os ->
  has_edges (hrun fuel ord h os).
Proof.
  induction os as [|o os IH]; intros h W H D; [exact H|]. destruct D as [D1 D2].
  unfold hrun. cbn [fold_left]. apply IH; auto.
  - now apply hstep_agree.
  - now apply hstep_has_edges.
Qed.
Lemma empty_has_edges : has_edges empty_hier.
Proof. discriminate. Qed.

Lemma outgoing_spec h v : has_edges h -> views_agree h ->
  exists l, outgoing h v = Some l /\
    forall e, In e l <-> exists s, parent_vertex h s = Some v /\ at_right pair_eqb (tracker h) (v, s) = Some e.
Proof.
  intros H W. unfold outgoing.
  assert (K : forall l0, incl l0 (sub_vertices h v) ->
    exists l, fold_right (fun s acc => match at_right pair_eqb (tracker h) (v, s), acc with
         | Some e, Some l => Some (incl_ e l) | _, _ => None end) (Some []) l0 = Some l /\
      forall e, In e l <-> exists s, In s l0 /\ at_right pair_eqb (tracker h) (v, s) = Some e).
  { induction l0 as [|x l0 IH]; intros I; cbn [fold_right].
    - exists []. split; auto. intros e. split; [intros []|intros (s & [] & _)].
    - destruct IH as (l & -> & Hl). { intros y Hy. apply I. now right. }
      destruct (H v x) as [e He]. { apply W, I. now left. }
      rewrite He. exists (incl_ e l). split; auto. intros e'. rewrite incl_in, Hl. split.
      + intros [->|(s & ? & ?)]; [exists x|exists s]; simpl; auto.
      + intros (s & [->|?] & Q); [left; congruence|right; eauto]. }
  destruct (K _ (incl_refl _)) as (l & E & Hl). exists l. split; auto. intros e. rewrite Hl.
  split; intros (s & H1 & H2); exists s; split; auto; now apply W.
Qed.
Lemma incoming_spec h v : has_edges h ->
  exists l, incoming h v = Some l /\
    forall e, In e l <-> exists p, parent_vertex h v = Some p /\ at_right pair_eqb (tracker h) (p, v) = Some e.
Proof.
  intros H. unfold incoming. destruct (parent h v) as [p|] eqn:P.
  - destruct (H p v P) as [e He]. rewrite He. exists [e]. split; auto. intros e'. simpl. split.
    + intros [<-|[]]. exists p. auto.
    + intros (q & Q & E). unfold parent_vertex in Q. left. congruence.
  - exists []. split; auto. intros e. split; [intros []|]. intros (q & Q & _). unfold parent_vertex in Q. congruence.
Qed.
