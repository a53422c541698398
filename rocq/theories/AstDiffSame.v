(** Proofs about the comparison of trees that are the same. *)
From Coq Require Import List Bool Arith ZArith Lia Permutation.
From Verif Require Import EagerModel EagerSpec EagerProofs AstDiffModel AstDiffSpec AstDiffTree AstDiffMap AstDiffZs AstDiffDist AstDiffMarks AstDiffReports.
Import ListNotations.

(** * The tables of a tree and the same tree *)
Section Diagonal.
Context {A : Type}.
Variables allowed equal : A -> A -> bool.
Variable ucost : A -> A -> Z.
Variable opts : options.
Variables src dst : list (@node A).
Variable z : subtree.
Hypothesis shape : shaped z.
Hypothesis del1 : del_cost opts = 1%Z.
Hypothesis ins1 : ins_cost opts = 1%Z.
Notation lm := (lmd0 z).
Notation cost := (update_cost allowed equal ucost src dst z z).
Notation fdist := (forest_dist allowed equal ucost opts src dst z z).
Notation eqn := (eqn allowed equal ucost opts src dst z z).
Hypothesis cost_pos : forall a b, match cost a b with Some u => (0 <= u)%Z | None => True end.
Hypothesis cost_same : forall k, 0 < k <= sub_size z -> cost k k = Some 0%Z.
Lemma lm_less i : 0 < i <= sub_size z -> lm i < i.
Proof. intros B. apply (shaped_lmd z i shape B). Qed.
Lemma lm_above i k : 0 < i <= sub_size z -> lm i < k -> k <= i -> lm i <= lm k.
Proof. intros B. apply (shaped_lmd z i shape B). Qed.
Lemma fd_pos i j fd td : 0 < i <= sub_size z -> 0 < j <= sub_size z ->
  (forall a b, lm i <= a <= i -> lm j <= b <= j -> eqn i j fd td a b) -> (forall a b, spans z z i j a b = false -> (0 <= td a b)%Z) ->
  forall n a b, a + b <= n -> lm i <= a <= i -> lm j <= b <= j -> (0 <= fd a b)%Z.
Proof.
  intros BI BJ E T. induction n as [|n IH]; intros a b N HA HB; pose proof (E a b HA HB) as Q; unfold AstDiffDist.eqn in Q.
  - destruct (Nat.eqb_spec a (lm i)); [|lia]. destruct (Nat.eqb_spec b (lm j)); lia.
  - destruct (Nat.eqb_spec a (lm i)).
    + destruct (Nat.eqb_spec b (lm j)); [lia|]. pose proof (IH a (Nat.pred b)). lia.
    + destruct (Nat.eqb_spec b (lm j)); [pose proof (IH (Nat.pred a) b); lia|].
      assert (DR : (0 <= drop opts fd a b)%Z) by (unfold drop; pose proof (IH a (Nat.pred b)); pose proof (IH (Nat.pred a) b); lia).
      destruct (spans z z i j a b) eqn:SP.
      * destruct Q as [Q _]. pose proof (cost_pos a b) as CP. destruct (cost a b) as [u|]; [|lia]. pose proof (IH (Nat.pred a) (Nat.pred b)). lia.
      * pose proof (T a b SP). assert (lm a < a) by (apply lm_less; lia). assert (lm b < b) by (apply lm_less; lia).
        assert (lm i <= lm a) by (apply lm_above; lia). assert (lm j <= lm b) by (apply lm_above; lia).
        pose proof (IH (lm a) (lm b)). lia.
Qed.
Lemma fd_zero i j fd td : 0 < i <= sub_size z -> 0 < j <= sub_size z -> lm i = lm j ->
  (forall a b, lm i <= a <= i -> lm j <= b <= j -> eqn i j fd td a b) -> (forall a b, spans z z i j a b = false -> (0 <= td a b)%Z) ->
  (forall k, spans z z i j k k = false -> td k k = 0%Z) ->
  forall n k, k <= n -> lm i <= k <= i -> k <= j -> fd k k = 0%Z.
Proof.
  intros BI BJ L E T T0. pose proof (fd_pos i j fd td BI BJ E T) as P. induction n as [|n IH]; intros k N HI HJ.
  - pose proof (E k k HI ltac:(lia)) as Q. unfold AstDiffDist.eqn in Q. destruct (Nat.eqb_spec k (lm i)); [|lia]. destruct (Nat.eqb_spec k (lm j)); [|lia]. exact Q.
  - pose proof (E k k HI ltac:(lia)) as Q. unfold AstDiffDist.eqn in Q. destruct (Nat.eqb_spec k (lm i)), (Nat.eqb_spec k (lm j)); try lia.
    assert (D1 : (1 <= drop opts fd k k)%Z).
    { unfold drop. pose proof (P (Nat.pred k + k) (Nat.pred k) k ltac:(lia) ltac:(lia) ltac:(lia)). pose proof (P (k + Nat.pred k) k (Nat.pred k) ltac:(lia) ltac:(lia) ltac:(lia)). lia. }
    destruct (spans z z i j k k) eqn:SP.
    + destruct Q as [Q _]. rewrite cost_same in Q by lia. rewrite (IH (Nat.pred k)) in Q by lia. lia.
    + assert (lm k < k) by (apply lm_less; lia). assert (lm i <= lm k) by (apply lm_above; lia).
      rewrite (IH (lm k)), (T0 k SP) in Q by lia. lia.
Qed.
Definition td_ok (td : table) : Prop := (forall a b, 0 <= td a b)%Z /\ (forall k, td k k = 0%Z).
Lemma fdist_keeps t i j : 0 < i <= sub_size z -> 0 < j <= sub_size z -> td_ok (snd t) -> td_ok (snd (fdist t i j)).
Proof.
  intros BI BJ [T1 T2]. destruct (forest_dist_eqn allowed equal ucost opts src dst z z shape shape t i j BI BJ) as [E O]. cbn zeta in *.
  assert (T1' : forall a b, spans z z i j a b = false -> (0 <= snd (fdist t i j) a b)%Z).
  { intros a b SP. destruct (O a b) as [(_ & _ & X)|X]; [congruence|]. rewrite X. apply T1. }
  assert (T2' : forall k, spans z z i j k k = false -> snd (fdist t i j) k k = 0%Z).
  { intros k SP. destruct (O k k) as [(_ & _ & X)|X]; [congruence|]. rewrite X. apply T2. }
  assert (TD : forall a b, lm i < a <= i -> lm j < b <= j -> spans z z i j a b = true -> snd (fdist t i j) a b = fst (fdist t i j) a b).
  { intros a b HA HB SP. pose proof (E a b ltac:(lia) ltac:(lia)) as Q. unfold AstDiffDist.eqn in Q. destruct (Nat.eqb_spec a (lm i)); [lia|]. destruct (Nat.eqb_spec b (lm j)); [lia|]. rewrite SP in Q. apply Q. }
  split.
  - intros a b. destruct (O a b) as [(HA & HB & SP)|X]; [|rewrite X; apply T1]. rewrite TD by assumption.
    apply (fd_pos i j _ _ BI BJ E T1' (a + b)); lia.
  - intros k. destruct (O k k) as [(HA & HB & SP)|X]; [|rewrite X; apply T2]. rewrite TD by assumption.
    unfold spans in SP. apply andb_true_iff in SP as [S1 S2]. apply Nat.eqb_eq in S1, S2.
    apply (fd_zero i j _ _ BI BJ ltac:(lia) E T1' T2' k); lia.
Qed.
Lemma key_valid k : In k (key_roots z) -> 0 < k <= sub_size z.
Proof.
  unfold key_roots. assert (G : forall i v acc, i <= sub_size z -> (forall x, In x acc -> 0 < x <= sub_size z) -> forall x, In x (key_loop z i v acc) -> 0 < x <= sub_size z).
  { induction i as [|i IH]; intros v acc L H x; cbn [key_loop]; [apply H|]. destruct (nth_error (lmds z) i); [|apply H]. destruct (mem n v); apply IH; [lia|exact H|lia|].
    intros y [<-|Y]; [lia|apply H; exact Y]. }
  apply G; [lia|]. intros x [].
Qed.
Lemma tree_dist_last : 0 < sub_size z -> exists t, tree_dist allowed equal ucost opts src dst z z = fdist t (sub_size z) (sub_size z) /\ td_ok (snd t).
Proof.
  intros P. unfold tree_dist. pose proof key_valid as V.
  destruct (key_last z (proj1 shape) P) as (l & E). rewrite E in *.
  assert (V' : forall k, In k l -> 0 < k <= sub_size z) by (intros k I; apply V, in_or_app; left; exact I).
  assert (ROW : forall i l t, 0 < i <= sub_size z -> (forall k, In k l -> 0 < k <= sub_size z) -> td_ok (snd t) -> td_ok (snd (fold_left (fun t j => fdist t i j) l t))).
  { clear l E V V'. intros i. induction l as [|j r IH]; intros t BI V T; [exact T|]. cbn [fold_left]. apply IH; [exact BI|intros k K; apply V; right; exact K|]. apply fdist_keeps; [exact BI|apply V; left; reflexivity|exact T]. }
  assert (ALL : forall l2 l t, (forall k, In k l2 -> 0 < k <= sub_size z) -> (forall k, In k l -> 0 < k <= sub_size z) -> td_ok (snd t) ->
    td_ok (snd (fold_left (fun t i => fold_left (fun t j => fdist t i j) l2 t) l t))).
  { clear l E V V'. intros l2. induction l as [|i r IH]; intros t V2 V T; [exact T|]. cbn [fold_left]. apply IH; [exact V2|intros k K; apply V; right; exact K|]. apply ROW; [apply V; left; reflexivity|exact V2|exact T]. }
  rewrite fold_left_app. cbn [fold_left]. rewrite fold_left_app. cbn [fold_left].
  eexists. split; [reflexivity|]. apply ROW; [lia|exact V'|]. apply ALL; [exact V|exact V'|]. split; reflexivity.
Qed.
(** ** The matches *)
Definition twice (p : nat * nat) : Prop := fst p = snd p /\ 0 < fst p <= sub_size z.
Definition within (k : nat) (p : nat * nat) : Prop := lm (fst p) < k <= fst p.
Notation trace := (trace z z).
Lemma trace_diag r fd td : 0 < r <= sub_size z -> (forall a b, lm r <= a <= r -> lm r <= b <= r -> eqn r r fd td a b) -> td_ok td ->
  forall n row acc res, lm r <= row <= r -> AstDiffModel.trace n z z fd r r (lm r) (lm r) row row acc = Some res ->
  (exists ms ps, res = (ms ++ fst acc, ps ++ snd acc) /\ Forall (fun p => fst p = snd p) ms /\ Forall twice ps /\
   forall k, lm r < k <= row -> (exists a, id_in_root z k = Some a /\ In (a, a) ms) \/ exists p, In p ps /\ within k p).
Proof.
  intros BR E [T1 T2].
  assert (P : forall a b, lm r <= a <= r -> lm r <= b <= r -> (0 <= fd a b)%Z) by (intros a b HA HB; apply (fd_pos r r fd td BR BR E ltac:(intros; apply T1) (a + b)); lia).
  assert (Z0 : forall k, lm r <= k <= r -> fd k k = 0%Z) by (intros k HK; apply (fd_zero r r fd td BR BR eq_refl E ltac:(intros; apply T1) ltac:(intros; apply T2) k); lia).
  induction n as [|n IH]; intros row acc res HR; cbn [AstDiffModel.trace].
  - destruct (Nat.ltb_spec (lm r) row); cbn [orb negb]; [discriminate|]. intros [= <-]. exists [], []. destruct acc. split; [reflexivity|]. split; [constructor|]. split; [constructor|]. intros k K. lia.
  - destruct (Nat.ltb_spec (lm r) row) as [LT|GE]; cbn [orb negb andb].
    2: { intros [= <-]. exists [], []. destruct acc. split; [reflexivity|]. split; [constructor|]. split; [constructor|]. intros k K. lia. }
    rewrite (Z0 row HR). pose proof (P (Nat.pred row) row ltac:(lia) ltac:(lia)). pose proof (P row (Nat.pred row) ltac:(lia) ltac:(lia)).
    destruct (Z.eqb_spec (fd (Nat.pred row) row + 1) 0); [lia|]. destruct (Z.eqb_spec (fd row (Nat.pred row) + 1) 0); [lia|].
    destruct (shaped_lmd z row shape ltac:(lia)) as (-> & LR & _).
    destruct (Nat.eqb_spec (lm row) (lm r)) as [SL|NL]; cbn [andb].
    + destruct (id_in_root z row) as [a|] eqn:IR; [|discriminate]. intros Q. apply IH in Q as (ms & ps & -> & M & V & C); [|lia]. cbn [fst snd].
      exists (ms ++ [(a, a)]), ps. rewrite <- app_assoc. split; [reflexivity|]. split; [apply Forall_app; split; [exact M|constructor; [reflexivity|constructor]]|]. split; [exact V|].
      intros k K. destruct (Nat.eq_dec k row) as [->|NE].
      * left. exists a. split; [exact IR|]. apply in_or_app. right. left. reflexivity.
      * destruct (C k ltac:(lia)) as [(b & B & I)|X]; [left; exists b; split; [exact B|apply in_or_app; left; exact I]|right; exact X].
    + assert (lm r <= lm row) by (apply lm_above; lia). intros Q. apply IH in Q as (ms & ps & -> & M & V & C); [|lia]. cbn [fst snd].
      exists ms, (ps ++ [(row, row)]). rewrite <- app_assoc. split; [reflexivity|]. split; [exact M|]. split; [apply Forall_app; split; [exact V|constructor; [split; cbn; lia|constructor]]|].
      intros k K. destruct (Nat.le_gt_cases k (lm row)).
      * destruct (C k ltac:(lia)) as [X|(p & I & W)]; [left; exact X|right; exists p; split; [apply in_or_app; left; exact I|exact W]].
      * right. exists (row, row). split; [apply in_or_app; right; left; reflexivity|]. unfold within. cbn. lia.
Qed.
Lemma pairs_diag n : forall t again pairs matches ms, Forall twice pairs -> Forall (fun p => fst p = snd p) matches -> td_ok (snd t) ->
  (again = false -> match pairs with (r, c) :: _ => forall a b, lm r <= a <= r -> lm c <= b <= c -> eqn r c (fst t) (snd t) a b | [] => True end) ->
  pairs_loop allowed equal ucost opts src dst n z z t again pairs matches = Some ms ->
  Forall (fun p => fst p = snd p) ms /\ incl matches ms /\ forall k p, In p pairs -> within k p -> exists a, id_in_root z k = Some a /\ In (a, a) ms.
Proof.
  induction n as [|n IH]; intros t again pairs matches ms V M T E; destruct pairs as [|[r c] rest]; cbn [pairs_loop]; try discriminate.
  - intros [= <-]. split; [apply Forall_rev; exact M|]. split; [intros x I; apply -> in_rev; exact I|]. intros k p [].
  - intros [= <-]. split; [apply Forall_rev; exact M|]. split; [intros x I; apply -> in_rev; exact I|]. intros k p [].
  - inversion V as [|? ? [VP VR] V']. subst. cbn [fst snd] in VP, VR. subst c.
    set (t' := if again then _ else t).
    assert (EQ : forall a b, lm r <= a <= r -> lm r <= b <= r -> eqn r r (fst t') (snd t') a b).
    { subst t'. destruct again; [apply forest_dist_eqn; assumption|apply E; reflexivity]. }
    assert (T' : td_ok (snd t')) by (subst t'; destruct again; [apply fdist_keeps; assumption|exact T]).
    destruct (shaped_lmd z r shape VR) as (-> & LR & _).
    destruct (AstDiffModel.trace _ z z _ r r _ _ r r _) as [[ms' ps']|] eqn:TR; [|discriminate].
    apply (trace_diag r _ _ VR EQ T') in TR as (ma & pa & X & MA & PA & C); [|lia]. cbn [fst snd] in X. injection X as -> ->.
    intros Q. apply IH in Q as (F & I & K); [| | |exact T'|discriminate].
    + split; [exact F|]. split; [intros x J; apply I, in_or_app; right; exact J|].
      intros k p [<-|J] W.
      * unfold within in W. cbn [fst] in W. destruct (C k W) as [(a & IR & J)|(p & J & W')].
        -- exists a. split; [exact IR|]. apply I, in_or_app. left. exact J.
        -- apply (K k p); [apply in_or_app; left; exact J|exact W'].
      * apply (K k p); [apply in_or_app; right; exact J|exact W].
    + apply Forall_app. split; assumption.
    + apply Forall_app. split; assumption.
Qed.
Lemma matching_diag ms : 0 < sub_size z -> lm (sub_size z) = 0 -> matching_nodes allowed equal ucost opts src dst z z = Some ms ->
  Forall (fun p => fst p = snd p) ms /\ forall a, In a (root_ids z) -> In (a, a) ms.
Proof.
  intros P L Q. unfold matching_nodes in Q. destruct (tree_dist_last P) as (t & E & T). rewrite E in Q.
  apply pairs_diag in Q as (F & _ & C).
  - split; [exact F|]. intros a I. apply In_nth_error in I as (k & K). assert (B : k < sub_size z) by (unfold sub_size; apply nth_error_Some; rewrite K; discriminate).
    destruct (C (S k) (sub_size z, sub_size z)) as (b & IB & J); [left; reflexivity|unfold within; cbn [fst]; lia|]. cbn [id_in_root] in IB. assert (b = a) by congruence. subst b. exact J.
  - constructor; [|constructor]. split; cbn; lia.
  - constructor.
  - apply fdist_keeps; [lia|lia|exact T].
  - intros _. apply forest_dist_eqn; try lia; assumption.
Qed.
End Diagonal.

(** * The same tree *)
Section Same.
Context {A : Type}.
Variables allowed equal : A -> A -> bool.
Variable ucost : A -> A -> Z.
Variable opts : options.
Variables s d : tree A.
Notation src := (from_node s).
Notation dst := (from_node d).
Hypothesis same : alike (both allowed equal) s d.
Lemma same_at i u : nth_error (nodes s) i = Some u -> exists w, nth_error (nodes d) i = Some w /\ alike (both allowed equal) u w.
Proof. apply f2_nth, alike_nodes. exact same. Qed.
Lemma same_count : count s = count d.
Proof. apply (alike_count allowed equal). exact same. Qed.
Lemma same_places l m : Forall2 (alike (both allowed equal)) l m -> forall n, places n l = places n m.
Proof. induction 1 as [|c e l m H F IH]; intros n; [reflexivity|]. cbn [places]. rewrite (alike_count allowed equal c e H), IH. reflexivity. Qed.
Lemma same_kids i : node_kids src i = node_kids dst i.
Proof.
  destruct (nth_error (nodes s) i) as [u|] eqn:U.
  - destruct (same_at i u U) as (w & W & H). rewrite (kids_places s i u U), (kids_places d i w W). inversion H. cbn [sub]. apply same_places. assumption.
  - rewrite !kids_none; [reflexivity| |exact U]. apply nth_error_None in U. apply nth_error_None. pose proof same_count. unfold count in *. lia.
Qed.
Lemma same_parent i : node_parent src i = node_parent dst i.
Proof.
  assert (H : forall p, node_parent src i = Some p <-> node_parent dst i = Some p) by (intros p; rewrite !parent_child, <- !kids_child, same_kids; reflexivity).
  destruct (node_parent src i) as [p|]; [symmetry; apply H; reflexivity|]. destruct (node_parent dst i) as [p|]; [|reflexivity]. apply H. reflexivity.
Qed.
Lemma same_position f g i : (forall x, f x = g x) -> position src f i = position dst g i.
Proof.
  intros E. unfold position. rewrite same_parent. destruct (node_parent dst i) as [p|]; [|reflexivity]. rewrite same_kids. generalize 0%Z.
  induction (node_kids dst p) as [|x r IH]; intros k; [reflexivity|]. cbn [position_in]. cbn zeta. rewrite E. destruct (x =? i); [reflexivity|apply IH].
Qed.
Lemma same_values i : i < count s -> possible allowed src dst i i = true /\ values_equal equal src dst i i = true.
Proof.
  intros B. destruct (nth_error (nodes s) i) as [u|] eqn:U; [|apply nth_error_None in U; unfold count in B; lia]. destruct (same_at i u U) as (w & W & H).
  unfold possible, values_equal. rewrite !value_val, U, W. cbn. apply alike_val in H. unfold both in H. apply andb_true_iff in H. exact H.
Qed.
(** Every node is matched with itself. *)
Definition identity (m : mapping) : Prop :=
  (forall i, get_dst m i = if i <? count s then Some i else None) /\ (forall i, get_src m i = if i <? count s then Some i else None).
Section Quiet.
Variable m : mapping.
Hypothesis I : identity m.
Definition flat_marks (k : marks) : Prop := (forall x, src_shift k x = 0%Z) /\ (forall x, dst_shift k x = 0%Z) /\ (forall x, src_change k x = Unchanged) /\ (forall x, dst_change k x = Unchanged).
Lemma identity_moved k i : flat_marks k -> i < count s -> moved src dst m k i i = false.
Proof.
  intros (F1 & F2 & _) B. unfold moved. rewrite (same_position (src_shift k) (dst_shift k)) by (intros x; rewrite F1, F2; reflexivity). rewrite Z.eqb_refl. cbn [negb]. rewrite orb_false_r. apply negb_false_iff.
  unfold same_parents. rewrite same_parent. destruct (node_parent dst i) as [p|] eqn:P; [|reflexivity].
  rewrite <- same_parent in P. apply parent_child in P as (k' & C). apply child_range in C. rewrite (proj1 I). destruct (Nat.ltb_spec p (count s)); [apply Nat.eqb_refl|lia].
Qed.
Lemma identity_quiet : all_changes src dst m (change_kinds equal src dst m) = [].
Proof.
  assert (K1 : forall l, (forall i, In i l -> i < count s) -> fold_left (mark_deleted m) l no_marks = no_marks).
  { induction l as [|i r IH]; intros V; [reflexivity|]. cbn [fold_left]. unfold mark_deleted at 2, has_src. rewrite (proj1 I). pose proof (V i (or_introl eq_refl)) as B. apply Nat.ltb_lt in B. rewrite B. apply IH. intros x X. apply V. right. exact X. }
  assert (K2 : forall l, (forall i, In i l -> i < count s) -> fold_left (mark_inserted m) l no_marks = no_marks).
  { induction l as [|i r IH]; intros V; [reflexivity|]. cbn [fold_left]. unfold mark_inserted at 2, has_dst. rewrite (proj2 I). pose proof (V i (or_introl eq_refl)) as B. apply Nat.ltb_lt in B. rewrite B. apply IH. intros x X. apply V. right. exact X. }
  assert (FL : flat_marks no_marks) by (repeat split).
  assert (K3 : forall l, (forall i, In i l -> i < count s) -> fold_left (mark_shift src dst m) l no_marks = no_marks).
  { induction l as [|i r IH]; intros V; [reflexivity|]. cbn [fold_left]. unfold mark_shift at 2. rewrite (proj1 I). pose proof (V i (or_introl eq_refl)) as B. rewrite (proj2 (Nat.ltb_lt _ _) B), identity_moved by assumption. apply IH. intros x X. apply V. right. exact X. }
  assert (K4 : forall l, (forall i, In i l -> i < count s) -> fold_left (mark_change equal src dst m) l no_marks = no_marks).
  { induction l as [|i r IH]; intros V; [reflexivity|]. cbn [fold_left]. unfold mark_change at 2. rewrite (proj2 I). pose proof (V i (or_introl eq_refl)) as B. rewrite (proj2 (Nat.ltb_lt _ _) B), identity_moved by assumption.
    rewrite (proj2 (same_values i B)). apply IH. intros x X. apply V. right. exact X. }
  assert (ALL : change_kinds equal src dst m = no_marks).
  { unfold change_kinds. rewrite K1; [rewrite K2; [rewrite K3; [apply K4|]|]|].
    - intros i X. apply bfs_in in X. rewrite same_count. exact X.
    - intros i X. apply bfs_in in X. exact X.
    - intros i X. apply in_seq in X. rewrite size_count, <- same_count in X. lia.
    - intros i X. apply in_seq in X. rewrite size_count in X. lia. }
  rewrite ALL. unfold all_changes. cbn [dst_change src_change no_marks is_change negb]. rewrite !filter_none by (intros; reflexivity). reflexivity.
Qed.
End Quiet.
Lemma top_down_identity : min_height opts < tall s -> exists m, match_top_down allowed equal opts src dst = Some m /\ identity m.
Proof.
  intros H. unfold match_top_down.
  assert (TS : node_height src 0 = tall s) by apply (height_tall s 0 s (nodes_head s)). assert (TD : node_height dst 0 = tall d) by apply (height_tall d 0 d (nodes_head d)).
  assert (TT : tall s = tall d).
  { clear - same. revert d same. induction s as [v l IH] using tree_ind'. intros d H. inversion H as [? x ? m E F]. subst. cbn [tall]. clear H E. revert m F.
    induction IH as [|c r Hc Hr IHr]; intros m F; inversion F; subst; [reflexivity|]. cbn [fold_right]. rewrite (Hc _ H1), (IHr _ H3). reflexivity. }
  pose proof (tall_pos s) as TP.
  rewrite TS, TD, <- TT. destruct (tall s) as [|n] eqn:TN; [lia|]. cbn [Nat.add top_down]. unfold peek_max at 1 2 3 4 5 6. cbn [fold_right]. rewrite TS, TD, <- TT, !Nat.max_0_r, Nat.min_id.
  rewrite (proj2 (Nat.ltb_lt _ _) H), Nat.ltb_irrefl. cbn [negb].
  assert (PS : pop src [0] = ([0], [])) by (unfold pop, peek_max; cbn [fold_right filter]; rewrite Nat.max_0_r, Nat.eqb_refl; reflexivity).
  assert (PD : pop dst [0] = ([0], [])) by (unfold pop, peek_max; cbn [fold_right filter]; rewrite Nat.max_0_r, Nat.eqb_refl; reflexivity).
  rewrite PS, PD. unfold try_pairs. cbn [fold_left]. unfold try_pair.
  rewrite (alike_identical allowed equal s d (size_of src) 0 0 s d (nodes_head s) (nodes_head d) same) by (apply tall_size with (i := 0), nodes_head).
  cbn [andb negb has_src has_dst no_mapping get_dst get_src].
  rewrite (descendants_count s 0 s (nodes_head s)).
  destruct (link_range_spec allowed s d (count s) no_mapping 0 0) as (_ & D & R).
  { apply good_none. }
  { intros k K. split; [reflexivity|]. split; [reflexivity|]. apply same_values. exact K. }
  cbn zeta in D, R. set (m := link_range no_mapping 0 0 (count s)) in *.
  assert (ID : identity m).
  { split; intros i; rewrite ?D, ?R; cbn [Nat.leb andb Nat.add no_mapping get_dst get_src]; rewrite Nat.sub_0_r; reflexivity. }
  exists m. split; [|exact ID].
  assert (HS : has_src m 0 = true) by (unfold has_src; rewrite (proj1 ID), (proj2 (Nat.ltb_lt _ _) (count_pos s)); reflexivity).
  assert (HD : has_dst m 0 = true) by (unfold has_dst; rewrite (proj2 ID), (proj2 (Nat.ltb_lt _ _) (count_pos s)); reflexivity).
  cbn [filter]. rewrite HS, HD. cbn [negb]. unfold open_all. cbn [app flat_map].
  destruct (n + S n); cbn [top_down]; unfold peek_max; cbn [fold_right Nat.min]; rewrite (proj2 (Nat.ltb_ge _ _)) by lia; reflexivity.
Qed.
Lemma identity_good m : identity m -> good allowed s d m.
Proof.
  intros [D R]. split.
  - intros i j. rewrite D, R. destruct (Nat.ltb_spec i (count s)), (Nat.ltb_spec j (count s)); split; intros [= ->]; try lia; reflexivity.
  - intros i j. rewrite D. destruct (Nat.ltb_spec i (count s)) as [B|]; [|discriminate]. intros [= <-]. apply same_values. exact B.
Qed.
Lemma bottom_up_identity order : forall m, identity m -> (forall i, In i order -> i < count s) -> bottom_up allowed equal ucost opts src dst order m = Some m.
Proof.
  induction order as [|i r IH]; intros m I V; [reflexivity|]. cbn [bottom_up].
  assert (H : forall i, i < count s -> has_src m i = true) by (intros x B; unfold has_src; rewrite (proj1 I), (proj2 (Nat.ltb_lt _ _) B); reflexivity).
  rewrite (H 0 (count_pos s)), (H i) by (apply V; left; reflexivity). cbn [negb]. rewrite andb_false_r. cbn [andb orb]. apply IH; [exact I|]. intros x X. apply V. right. exact X.
Qed.
Lemma same_post : forall u w, alike (both allowed equal) u w -> forall i, post u i = post w i /\ lms u i = lms w i.
Proof.
  induction u as [v l IH] using tree_ind'. intros w H. inversion H as [? x ? m E F]. subst. intros i. rewrite !post_node, !lms_node.
  assert (G : forall n, posts l n = posts m n /\ lmss l n = lmss m n).
  { clear H E i. revert m F. induction IH as [|c r Hc Hr IHr]; intros m F; inversion F; subst; intros n; [split; reflexivity|].
    rewrite !posts_cons, !lmss_cons. rewrite (alike_count allowed equal c y H1). destruct (Hc y H1 n) as [-> ->]. destruct (IHr l' H3 (n + count y)) as [-> ->]. split; reflexivity. }
  split; f_equal; apply G.
Qed.
Lemma bottom_up_empty : del_cost opts = 1%Z -> ins_cost opts = 1%Z -> (forall x y, 0 <= ucost x y)%Z -> count s <= max_size opts ->
  exists m, bottom_up allowed equal ucost opts src dst (postorder src (size_of src) 0) no_mapping = Some m /\ identity m.
Proof.
  intros D1 I1 U M.
  rewrite (postorder_post s _ 0 s (nodes_head s) (tall_size s 0 s (nodes_head s))).
  assert (ST : subtree_of src 0 = Subtree (post s 0) (lms s 0)) by apply (subtree_lmds s 0 s (nodes_head s)).
  assert (DT : subtree_of dst 0 = Subtree (post s 0) (lms s 0)).
  { rewrite (subtree_lmds d 0 d (nodes_head d)). destruct (same_post s d same 0) as [-> ->]. reflexivity. }
  set (z := Subtree (post s 0) (lms s 0)) in *.
  destruct (subtree_shaped s 0 (count_pos s)) as [SH SP]. rewrite ST in SH, SP.
  assert (IDS : forall a, In a (root_ids z) <-> a < count s).
  { intros a. subst z. cbn [root_ids]. split; intros X.
    - apply (Permutation_in _ (post_perm s 0)), in_seq in X. lia.
    - apply (Permutation_in _ (Permutation_sym (post_perm s 0))), in_seq. lia. }
  assert (CP : forall a b, match update_cost allowed equal ucost src dst z z a b with Some u => (0 <= u)%Z | None => True end).
  { intros a b. unfold update_cost. destruct (id_in_root z a), (id_in_root z b); try exact Logic.I. destruct (negb _); [exact Logic.I|]. destruct (values_equal _ _ _ _ _); [lia|]. destruct (value_at src n), (value_at dst n0); try exact Logic.I. apply U. }
  assert (CS : forall k, 0 < k <= sub_size z -> update_cost allowed equal ucost src dst z z k k = Some 0%Z).
  { intros k K. unfold update_cost. destruct k as [|k]; [lia|]. cbn [id_in_root]. destruct (nth_error (root_ids z) k) as [a|] eqn:NA; [|apply nth_error_None in NA; unfold sub_size in K; lia].
    destruct (same_values a) as [-> ->]; [apply IDS; apply nth_error_In in NA; exact NA|]. reflexivity. }
  destruct (matching_ok allowed equal ucost opts src dst z z SH SH D1 I1 SP SP) as (ms & MS & _).
  assert (LZ : lmd0 z (sub_size z) = 0).
  { unfold lmd0. destruct (sub_size z) as [|n] eqn:N; [lia|]. cbn [lmd_of]. subst z. cbn [lmds]. unfold sub_size in N. cbn [root_ids] in N. rewrite post_length in N.
    destruct s as [v l]. rewrite lms_node. pose proof (lms_length (T v l) 0) as LL. rewrite lms_node, app_length in LL. cbn [length] in LL. rewrite nth_error_app2 by lia. replace (n - length (lmss l 0)) with 0 by lia. reflexivity. }
  destruct (matching_diag allowed equal ucost opts src dst z SH D1 I1 CP CS ms SP LZ MS) as [DG CV].
  assert (OPT : exists m, add_optimal allowed equal ucost opts src dst (link no_mapping 0 0) 0 0 = Some m /\ identity m).
  { unfold add_optimal. rewrite (descendants_count s 0 s (nodes_head s)), (descendants_count d 0 d (nodes_head d)), <- same_count, Nat.max_id, (proj2 (Nat.ltb_ge _ _) M), ST, DT, MS.
    eexists. split; [reflexivity|].
    assert (G : forall ms, Forall (fun p => fst p = snd p) ms -> forall m, (forall i, get_dst m i = get_src m i) -> (forall i, get_dst m i = None \/ get_dst m i = Some i) ->
      let m' := fold_left (fun m p => if negb (has_src m (fst p)) && negb (has_dst m (snd p)) then link m (fst p) (snd p) else m) ms m in
      (forall i, get_dst m' i = get_src m' i) /\ (forall i, get_dst m' i = None \/ get_dst m' i = Some i) /\ (forall i, get_dst m' i <> None <-> get_dst m i <> None \/ In (i, i) ms)).
    { clear. induction 1 as [|[a b] r E F IH]; intros m H1 H2; [cbn; repeat split; auto; tauto|]. cbn [fst snd] in E. subst b. cbn [fold_left fst snd].
      assert (C : negb (has_src m a) && negb (has_dst m a) = match get_dst m a with None => true | Some _ => false end) by (unfold has_src, has_dst; rewrite <- H1; destruct (get_dst m a); reflexivity).
      cbn zeta. rewrite !C. destruct (H2 a) as [N|N]; rewrite N.
      - destruct (IH (link m a a)) as (X & Y & Z).
        + intros i. cbn. unfold set_at. destruct (i =? a); [reflexivity|apply H1].
        + intros i. cbn. unfold set_at. destruct (Nat.eqb_spec i a) as [->|]; [right; reflexivity|apply H2].
        + cbn zeta in *. split; [exact X|]. split; [exact Y|]. intros i. rewrite Z. cbn [link get_dst]. unfold set_at. destruct (Nat.eqb_spec i a) as [->|NE].
          * split; [intros _; right; left; reflexivity|intros _; left; discriminate].
          * cbn [In]. split; intros [Q|Q]; auto. destruct Q as [[= E]|Q]; [congruence|auto].
      - destruct (IH m H1 H2) as (X & Y & Z). cbn zeta in *. split; [exact X|]. split; [exact Y|]. intros i. rewrite Z. cbn [In]. split; intros [Q|Q]; auto. destruct Q as [[= <-]|Q]; [left; congruence|auto]. }
    destruct (G ms DG (link no_mapping 0 0)) as (X & Y & Z).
    { reflexivity. }
    { intros i. cbn. unfold set_at. destruct (Nat.eqb_spec i 0) as [->|]; auto. }
    cbn zeta in *. set (m' := fold_left _ ms _) in *.
    assert (Q : forall i, get_dst m' i = if i <? count s then Some i else None).
    { intros i. destruct (Nat.ltb_spec i (count s)) as [B|B].
      - destruct (Y i) as [N|N]; [|exact N]. exfalso. apply (proj2 (Z i)); [right; apply CV, IDS; exact B|exact N].
      - destruct (Y i) as [N|N]; [exact N|]. exfalso. assert (NN : get_dst m' i <> None) by congruence. apply Z in NN as [NN|NN].
        + cbn in NN. unfold set_at in NN. destruct (Nat.eqb_spec i 0) as [->|]; [pose proof (count_pos s); lia|congruence].
        + assert (IN : exists k, matching_nodes allowed equal ucost opts src dst z z = Some ms) by (exists 0; exact MS). clear IN.
          pose proof (matching_ok allowed equal ucost opts src dst z z SH SH D1 I1 SP SP) as (ms' & MS' & MM). assert (ms' = ms) by congruence. subst ms'.
          rewrite Forall_forall in MM. specialize (MM _ NN). unfold matchable in MM. cbn [fst snd] in MM. apply possible_range in MM. lia. }
    split; [exact Q|]. intros i. rewrite <- X. apply Q. }
  assert (G : forall l, (forall i, In i l -> i <> 0) -> bottom_up allowed equal ucost opts src dst (l ++ [0]) no_mapping = bottom_up allowed equal ucost opts src dst [0] no_mapping).
  { induction l as [|i r IH]; intros V; [reflexivity|]. cbn [app bottom_up].
    destruct (Nat.eqb_spec i 0) as [E|_]; [exfalso; apply (V i); [left; reflexivity|exact E]|]. cbn [andb has_src no_mapping get_dst orb].
    assert (EX : forall l, existsb (has_src no_mapping) l = false) by (induction l; [reflexivity|exact IHl]). rewrite EX. cbn [negb]. apply IH. intros x X. apply V. right. exact X. }
  assert (PO : exists l, post s 0 = l ++ [0] /\ forall i, In i l -> i <> 0).
  { pose proof (Permutation_NoDup (Permutation_sym (post_perm s 0)) (seq_NoDup _ _)) as ND. destruct s as [v l]. rewrite post_node in *. exists (posts l 1). split; [reflexivity|].
    intros i X ->. apply nodup_app in ND as (_ & _ & ND). apply (ND 0 X). left. reflexivity. }
  destruct PO as (l & -> & V). rewrite (G l V). cbn [bottom_up Nat.eqb has_src has_dst no_mapping get_dst get_src negb andb].
  rewrite (proj1 (same_values 0 (count_pos s))). exact OPT.
Qed.
Lemma top_down_low : tall s <= min_height opts -> match_top_down allowed equal opts src dst = Some no_mapping.
Proof.
  intros H. unfold match_top_down. assert (TS : node_height src 0 = tall s) by apply (height_tall s 0 s (nodes_head s)).
  destruct (node_height src 0 + node_height dst 0) eqn:E; cbn [top_down]; unfold peek_max; cbn [fold_right]; rewrite TS, !Nat.max_0_r; rewrite (proj2 (Nat.ltb_ge _ _)) by lia; reflexivity.
Qed.
Definition found : Prop :=
  (greedy opts = false /\ min_height opts < tall s) \/
  (stop_after_top_down opts = false /\ count s <= max_size opts /\ del_cost opts = 1%Z /\ ins_cost opts = 1%Z /\ (forall x y, 0 <= ucost x y)%Z).
Lemma same_identity : found -> exists m, compute_mapping allowed equal ucost opts src dst = Some m /\ identity m.
Proof.
  intros H. unfold compute_mapping.
  assert (UP : forall m, identity m -> bottom_up allowed equal ucost opts src dst (postorder src (size_of src) 0) m = Some m).
  { intros m I. apply bottom_up_identity; [exact I|]. intros i X. rewrite (postorder_post s _ 0 s (nodes_head s) (tall_size s 0 s (nodes_head s))) in X. apply (Permutation_in _ (post_perm s 0)), in_seq in X. lia. }
  destruct H as [[-> H]|(-> & H & D1 & I1 & U)].
  - destruct (top_down_identity H) as (m & -> & I). destruct (stop_after_top_down opts); [eauto|]. rewrite (UP m I). eauto.
  - destruct (bottom_up_empty D1 I1 U H) as (m & BU & I). destruct (greedy opts); [eauto|].
    destruct (Nat.le_gt_cases (tall s) (min_height opts)) as [L|L].
    + rewrite (top_down_low L). eauto.
    + destruct (top_down_identity L) as (m' & -> & I'). rewrite (UP m' I'). eauto.
Qed.
Lemma same_quiet : found -> changes allowed equal ucost opts s d = Some [].
Proof. intros H. destruct (same_identity H) as (m & E & I). unfold changes, ast_diff. rewrite E, identity_quiet; [reflexivity|exact I]. Qed.
End Same.
