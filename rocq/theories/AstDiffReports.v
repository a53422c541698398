(** Proofs about the list of changes. *)
From Coq Require Import List Bool Arith ZArith Lia Permutation.
From Verif Require Import EagerModel EagerSpec EagerProofs AstDiffModel AstDiffSpec AstDiffTree AstDiffMap AstDiffZs AstDiffDist AstDiffMarks.
Import ListNotations.

Section Reports.
Context {A : Type}.
Variables allowed equal : A -> A -> bool.
Variables s d : tree A.
Notation src := (from_node s).
Notation dst := (from_node d).
Variable m : mapping.
Hypothesis G : good allowed s d m.
Notation k4 := (change_kinds equal src dst m).
Notation ch := (all_changes src dst m k4).
Lemma possible_values i j : possible allowed src dst i j = true <-> values s d i j (fun v w => allowed v w = true).
Proof.
  unfold possible, values. rewrite !value_val. destruct (nth_error (nodes s) i) as [u|], (nth_error (nodes d) j) as [v|]; cbn; split; intros H; try discriminate; eauto.
  all: destruct H as (u' & v' & E & F & H); try discriminate. injection E as <-. injection F as <-. exact H.
Qed.
Lemma good_matching : matching allowed s d m.
Proof. split; [apply G|]. intros i j D. apply possible_values, G. exact D. Qed.
Lemma differ_values i j : i < count s -> j < count d -> values_equal equal src dst i j = false <-> values s d i j (fun v w => equal v w = false).
Proof.
  intros BI BJ. unfold values_equal, values. rewrite !value_val.
  destruct (nth_error (nodes s) i) as [u|] eqn:U; [|apply nth_error_None in U; unfold count in BI; lia].
  destruct (nth_error (nodes d) j) as [v|] eqn:V; [|apply nth_error_None in V; unfold count in BJ; lia]. cbn. split; intros H; eauto.
  destruct H as (u' & v' & E & F & H). injection E as <-. injection F as <-. exact H.
Qed.
Lemma is_change_eq a b : is_change a b = true <-> a = b.
Proof. destruct a, b; cbn; split; congruence. Qed.
Lemma in_changes x : In x ch <->
  (exists j, j < count d /\ dst_change k4 j <> Unchanged /\ x = change_from_dst src dst m k4 j) \/
  (exists i, i < count s /\ src_change k4 i = Deleted /\ x = (Some i, get_dst m i, CDelete)).
Proof.
  unfold all_changes. rewrite in_app_iff, !in_map_iff. setoid_rewrite filter_In. setoid_rewrite in_seq. rewrite !size_count. split.
  - intros [(j & <- & B & H)|(i & <- & B & H)]; [left; exists j|right; exists i].
    + split; [lia|]. split; [|reflexivity]. intros E. apply is_change_eq in E. rewrite E in H. discriminate.
    + split; [lia|]. split; [|reflexivity]. apply is_change_eq. exact H.
  - intros [(j & B & H & ->)|(i & B & H & ->)]; [left; exists j|right; exists i]; (split; [reflexivity|]); (split; [lia|]).
    + destruct (is_change (dst_change k4 j) Unchanged) eqn:E; [|reflexivity]. apply is_change_eq in E. contradiction.
    + apply is_change_eq. exact H.
Qed.
Lemma kind_of_cases i j : get_dst m i = Some j -> dst_change k4 j = 
  if moved src dst m k4 i j then if values_equal equal src dst i j then Moved else UpdateMoved else if values_equal equal src dst i j then Unchanged else Updated.
Proof. intros D. apply (kinds_matched allowed equal s d m G i j D). Qed.
Lemma src_deleted i : i < count s -> (src_change k4 i = Deleted <-> get_dst m i = None).
Proof.
  intros B. split.
  - intros H. destruct (get_dst m i) as [j|] eqn:D; [|reflexivity]. destruct (kinds_matched allowed equal s d m G i j D) as [E _]. rewrite E in H. unfold kind_of in H.
    destruct (moved _ _ _ _ _ _), (values_equal _ _ _ _ _); discriminate.
  - apply (kinds_src_none allowed equal s d m G). exact B.
Qed.
Lemma move_from_dst i j : get_dst m i = Some j -> moved src dst m k4 i j = true ->
  change_from_dst src dst m k4 j = (Some i, Some j, CMove (node_parent src i, position src (src_shift k4) i) (node_parent dst j, position dst (dst_shift k4) j) false).
Proof.
  intros D M. unfold change_from_dst. rewrite (kind_of_cases i j D), M, (proj1 (proj1 G i j) D). destruct (values_equal _ _ _ _ _); reflexivity.
Qed.
Lemma below_parent (t : tree A) i : i < count t -> below t (node_parent (from_node t) i) i.
Proof.
  intros B. destruct (node_parent (from_node t) i) as [p|] eqn:P; cbn.
  - apply parent_child. exact P.
  - apply parent_none in P; assumption.
Qed.
Lemma from_dst_first j : exists c, change_from_dst src dst m k4 j = (get_src m j, Some j, c).
Proof. eexists. reflexivity. Qed.
Lemma one_list_src i y c : In (Some i, y, c) ch -> (get_dst m i = None /\ y = None /\ c = CDelete) \/ exists j, get_dst m i = Some j /\ y = Some j /\ (Some i, y, c) = change_from_dst src dst m k4 j.
Proof.
  intros I. apply in_changes in I as [(j & B & H & E)|(i' & B & H & E)].
  - destruct (from_dst_first j) as (c' & F). rewrite F in E. injection E as X -> ->. right. exists j. rewrite <- X in F. split; [apply G; auto|]. split; [reflexivity|]. symmetry. exact F.
  - injection E as -> -> ->. apply src_deleted in H; [|exact B]. left. auto.
Qed.
Lemma list_reports : reports equal s d m ch.
Proof.
  split.
  - intros x I. apply in_changes in I as [(j & B & H & ->)|(i & B & H & ->)].
    + destruct (get_src m j) as [i|] eqn:R.
      * pose proof (proj2 (proj1 G i j) R) as D. destruct (matched_range allowed s d m G i j D) as [BI BJ]. unfold change_from_dst. rewrite R, (kind_of_cases i j D) in *.
        destruct (moved src dst m k4 i j) eqn:M, (values_equal equal src dst i j) eqn:V; cbn; [| |contradiction|].
        -- split; [exact D|]. split; apply below_parent; assumption.
        -- split; [exact D|]. split; apply below_parent; assumption.
        -- split; [exact D|]. split; [apply differ_values; assumption|].
           apply (same_parents_spec allowed s d m G i j D). unfold moved in M. apply orb_false_iff in M as [M _]. apply negb_false_iff in M. exact M.
      * unfold change_from_dst. rewrite R, (kinds_dst_none equal s d m j B R). cbn. split; [exact B|]. split; [exact R|]. apply position_stands. exact B.
    + apply src_deleted in H; [|exact B]. rewrite H. split; assumption.
  - unfold all_changes. rewrite map_app, !map_map. apply nodup_app. split; [|split].
    + apply FinFun.Injective_map_NoDup; [|apply NoDup_filter, seq_NoDup]. intros x y E. cbn in E. congruence.
    + apply FinFun.Injective_map_NoDup; [|apply NoDup_filter, seq_NoDup]. intros x y E. cbn in E. congruence.
    + intros x I J. apply in_map_iff in I as (j & <- & I). apply in_map_iff in J as (i & E & J). cbn in E. apply filter_In in J as [J H]. apply in_seq in J. rewrite size_count in J.
      apply is_change_eq in H. apply src_deleted in H; [|lia]. congruence.
  - intros i y c y' c' I J. apply one_list_src in I as [(N & -> & ->)|(j & D & -> & E)]; apply one_list_src in J as [(N' & -> & ->)|(j' & D' & -> & E')]; try congruence; [auto|].
    assert (j' = j) by congruence. subst j'. rewrite <- E in E'. injection E' as ->. auto.
  - intros j x c x' c' I J. apply in_changes in I as [(j1 & B & H & E)|(i1 & B & H & E)]; [|apply src_deleted in H; [congruence|exact B]].
    apply in_changes in J as [(j2 & B' & H' & E')|(i2 & B' & H' & E')]; [|apply src_deleted in H'; [congruence|exact B']].
    destruct (from_dst_first j1) as (c1 & F). destruct (from_dst_first j2) as (c2 & F'). rewrite F in E. rewrite F' in E'.
    assert (j1 = j) by congruence. assert (j2 = j) by congruence. subst j1 j2. rewrite F in F'. split; congruence.
  - intros i B D. apply in_changes. right. exists i. split; [exact B|]. split; [apply src_deleted; assumption|]. rewrite D. reflexivity.
  - intros j B R. exists (node_parent dst j, position dst (fun _ => 0%Z) j). apply in_changes. left. exists j. split; [exact B|].
    unfold change_from_dst. rewrite (kinds_dst_none equal s d m j B R), R. split; [discriminate|reflexivity].
  - intros i j D V. destruct (matched_range allowed s d m G i j D) as [BI BJ]. apply differ_values in V; [|assumption|assumption].
    destruct (moved src dst m k4 i j) eqn:M.
    + right. exists (node_parent src i, position src (src_shift k4) i), (node_parent dst j, position dst (dst_shift k4) j), false. apply in_changes. left. exists j. split; [exact BJ|].
      rewrite (move_from_dst i j D M). split; [|reflexivity]. rewrite (kind_of_cases i j D), M, V. discriminate.
    + left. apply in_changes. left. exists j. split; [exact BJ|]. unfold change_from_dst. rewrite (kind_of_cases i j D), M, V, (proj1 (proj1 G i j) D). split; [discriminate|reflexivity].
  - intros i j D K. destruct (matched_range allowed s d m G i j D) as [BI BJ].
    assert (M : moved src dst m k4 i j = true).
    { destruct (moved src dst m k4 i j) eqn:M; [reflexivity|]. exfalso. apply K. apply (same_parents_spec allowed s d m G i j D). unfold moved in M. apply orb_false_iff in M as [M _]. apply negb_false_iff in M. exact M. }
    exists (node_parent src i, position src (src_shift k4) i), (node_parent dst j, position dst (dst_shift k4) j), false. apply in_changes. left. exists j. split; [exact BJ|].
    rewrite (move_from_dst i j D M). split; [|reflexivity]. rewrite (kind_of_cases i j D), M. destruct (values_equal _ _ _ _ _); discriminate.
Qed.
(** An empty list of changes *)
Lemma quiet_alike : ch = [] -> alike (both allowed equal) s d.
Proof.
  intros E.
  assert (Q : forall x, ~ In x ch) by (rewrite E; intros x []).
  assert (AS : forall i, i < count s -> exists j, get_dst m i = Some j).
  { intros i B. destruct (get_dst m i) as [j|] eqn:D; [eauto|]. exfalso. apply (Q (Some i, None, CDelete)). apply (reports_deleted _ _ _ _ _ list_reports i B D). }
  assert (AD : forall j, j < count d -> exists i, get_src m j = Some i).
  { intros j B. destruct (get_src m j) as [i|] eqn:D; [eauto|]. exfalso. destruct (reports_inserted _ _ _ _ _ list_reports j B D) as (p & I). apply (Q _ I). }
  assert (UN : forall i j, get_dst m i = Some j -> dst_change k4 j = Unchanged).
  { intros i j D. destruct (matched_range allowed s d m G i j D) as [BI BJ]. destruct (is_change (dst_change k4 j) Unchanged) eqn:U; [apply is_change_eq; exact U|].
    exfalso. apply (Q (change_from_dst src dst m k4 j)). apply in_changes. left. exists j. split; [exact BJ|]. split; [|reflexivity]. intros X. apply is_change_eq in X. congruence. }
  assert (ST : forall i j, get_dst m i = Some j -> moved src dst m k4 i j = false /\ values_equal equal src dst i j = true).
  { intros i j D. pose proof (UN i j D) as H. rewrite (kind_of_cases i j D) in H. destruct (moved _ _ _ _ _ _), (values_equal _ _ _ _ _); try discriminate; auto. }
  assert (R : get_dst m 0 = Some 0).
  { destruct (AS 0 (count_pos s)) as (j & D). pose proof (still_parents equal s d m (fun i j D => proj1 (ST i j D)) 0 j D) as H.
    apply (same_parents_spec allowed s d m G 0 j D) in H as [[_ ->]|(p & k & q & k' & C & _)]; [exact D|]. apply child_range in C. lia. }
  assert (W : forall i j, get_dst m i = Some j -> values_equal (both allowed equal) src dst i j = true).
  { intros i j D. destruct (ST i j D) as [_ V]. pose proof (proj2 G i j D) as P. unfold values_equal, possible, both in *. destruct (value_at src i), (value_at dst j); try discriminate. rewrite P, V. reflexivity. }
  assert (KK : forall i j, get_dst m i = Some j -> moved src dst m (change_kinds (both allowed equal) src dst m) i j = false).
  { intros i j D. rewrite <- (proj1 (ST i j D)). apply moved_ext.
    - rewrite (proj1 (k4_shifts (both allowed equal) s d m)), (proj1 (k4_shifts equal s d m)). reflexivity.
    - rewrite (proj2 (k4_shifts (both allowed equal) s d m)), (proj2 (k4_shifts equal s d m)). reflexivity. }
  apply (matched_alike allowed (both allowed equal) s d m G AS AD KK W s 0 0 d (nodes_head s) (nodes_head d) R).
Qed.
End Reports.
