(** Proofs about the changes that are computed from the matching. *)
From Coq Require Import List Bool Arith ZArith Lia Permutation.
From Verif Require Import EagerModel EagerSpec EagerProofs AstDiffModel AstDiffSpec AstDiffTree AstDiffMap AstDiffZs AstDiffDist.
Import ListNotations.

(** * Nodes level by level *)
Section Bfs.
Context {A : Type}.
Variable t : tree A.
Notation ns := (from_node t).
Lemma bfs_perm n : forall q, (forall i, In i q -> i < count t) -> length (flat_map (range t) q) <= n -> Permutation (bfs_loop ns n q) (flat_map (range t) q).
Proof.
  induction n as [|n IH]; intros q V L.
  - destruct q as [|x r]; [reflexivity|]. exfalso. pose proof (range_head t x (V x (or_introl eq_refl))). cbn [flat_map] in L. destruct (range t x); [contradiction|cbn in L; lia].
  - destruct q as [|x r]; [reflexivity|]. cbn [bfs_loop flat_map] in *. rewrite (range_open t x (V x (or_introl eq_refl))) in *. cbn [app length] in *. constructor.
    rewrite IH.
    + rewrite flat_map_app. apply Permutation_app_comm.
    + intros i I. apply in_app_or in I as [I|I]; [apply V; right; exact I|apply (kids_valid t x i I)].
    + rewrite flat_map_app, app_length in *. lia.
Qed.
Lemma bfs_all : Permutation (bfs ns) (seq 0 (count t)).
Proof.
  unfold bfs. assert (R : flat_map (range t) [0] = seq 0 (count t)).
  { cbn [flat_map]. rewrite app_nil_r. unfold range. rewrite (descendants_count t 0 t (nodes_head t)). reflexivity. }
  rewrite bfs_perm, R; [reflexivity| |].
  - intros i [<-|[]]. apply count_pos.
  - rewrite R, seq_length, size_count. lia.
Qed.
Lemma bfs_queue n : forall q, (forall i, In i q -> i < count t) -> length (flat_map (range t) q) <= n -> exists suf, bfs_loop ns n q = q ++ suf.
Proof.
  induction n as [|n IH]; intros q V L.
  - destruct q as [|x r]; [exists []; reflexivity|]. exfalso. pose proof (range_head t x (V x (or_introl eq_refl))). cbn [flat_map] in L. destruct (range t x); [contradiction|cbn in L; lia].
  - destruct q as [|x r]; [exists []; reflexivity|]. cbn [bfs_loop flat_map] in *. rewrite (range_open t x (V x (or_introl eq_refl))) in *. cbn [app length] in *.
    destruct (IH (r ++ node_kids ns x)) as (suf & ->).
    + intros i I. apply in_app_or in I as [I|I]; [apply V; right; exact I|apply (kids_valid t x i I)].
    + rewrite flat_map_app, app_length in *. lia.
    + exists (node_kids ns x ++ suf). rewrite <- app_assoc. reflexivity.
Qed.
Lemma bfs_kids n : forall q p, (forall i, In i q -> i < count t) -> length (flat_map (range t) q) <= n -> In p (bfs_loop ns n q) ->
  exists pre suf, bfs_loop ns n q = pre ++ node_kids ns p ++ suf.
Proof.
  induction n as [|n IH]; intros q p V L I; [destruct I|]. destruct q as [|x r]; [destruct I|].
  cbn [bfs_loop flat_map] in *. rewrite (range_open t x (V x (or_introl eq_refl))) in *. cbn [app length] in *.
  assert (V' : forall i, In i (r ++ node_kids ns x) -> i < count t).
  { intros i J. apply in_app_or in J as [J|J]; [apply V; right; exact J|apply (kids_valid t x i J)]. }
  assert (L' : length (flat_map (range t) (r ++ node_kids ns x)) <= n) by (rewrite flat_map_app, app_length in *; lia).
  destruct I as [<-|I].
  - destruct (bfs_queue n _ V' L') as (suf & ->). exists (x :: r), suf. rewrite <- app_assoc. reflexivity.
  - destruct (IH _ p V' L' I) as (pre & suf & ->). exists (x :: pre), suf. reflexivity.
Qed.
Lemma bfs_siblings p : p < count t -> exists pre suf, bfs ns = pre ++ node_kids ns p ++ suf.
Proof.
  intros B. unfold bfs. apply bfs_kids.
  - intros i [<-|[]]. apply count_pos.
  - cbn [flat_map]. rewrite app_nil_r. unfold range. rewrite (descendants_count t 0 t (nodes_head t)), seq_length, size_count. lia.
  - apply (Permutation_in _ (Permutation_sym bfs_all)). apply in_seq. lia.
Qed.
Lemma bfs_nodup : NoDup (bfs ns).
Proof. apply (Permutation_NoDup (Permutation_sym bfs_all)), seq_NoDup. Qed.
Lemma bfs_in i : In i (bfs ns) <-> i < count t.
Proof.
  split; intros I.
  - apply (Permutation_in _ bfs_all), in_seq in I. lia.
  - apply (Permutation_in _ (Permutation_sym bfs_all)), in_seq. lia.
Qed.
(** * Positions *)
Definition total (shift : nat -> Z) (l : list nat) : Z := fold_right (fun x z => (1 + shift x + z)%Z) 0%Z l.
Lemma position_split shift i pre suf : forall k, ~ In i pre -> position_in shift i (pre ++ i :: suf) k = (k + total shift pre + shift i)%Z.
Proof.
  induction pre as [|x r IH]; intros k N; cbn [app position_in total fold_right].
  - rewrite Nat.eqb_refl. lia.
  - destruct (Nat.eqb_spec x i); [exfalso; apply N; left; exact e|]. rewrite IH; [fold (total shift r); lia|]. intros I. apply N. right. exact I.
Qed.
Lemma position_child shift p i pre suf : node_kids ns p = pre ++ i :: suf -> position ns shift i = (total shift pre + shift i)%Z.
Proof.
  intros K. unfold position.
  assert (P : node_parent ns i = Some p) by (apply parent_child, kids_child; rewrite K; apply in_or_app; right; left; reflexivity).
  rewrite P, K, position_split; [lia|]. intros I.
  assert (N : NoDup (node_kids ns p)).
  { destruct (nth_error (nodes t) p) as [u|] eqn:U; [rewrite (kids_places t p u U); apply places_nodup|rewrite kids_none by exact U; constructor]. }
  rewrite K in N. apply nodup_app in N as (_ & _ & D). apply (D i I). left. reflexivity.
Qed.
Lemma total_zero shift l : (forall x, In x l -> shift x = 0%Z) -> total shift l = Z.of_nat (length l).
Proof. induction l as [|x r IH]; intros H; [reflexivity|]. cbn [total fold_right length]. fold (total shift r). rewrite IH, (H x) by (auto with datatypes). lia. Qed.
Lemma total_ext f g l : (forall x, In x l -> f x = g x) -> total f l = total g l.
Proof. induction l as [|x r IH]; intros H; [reflexivity|]. cbn [total fold_right]. fold (total f r) (total g r). rewrite IH, (H x) by (auto with datatypes). lia. Qed.
Lemma position_stands i : i < count t -> stands t i (node_parent ns i, position ns (fun _ => 0%Z) i).
Proof.
  intros B. unfold stands. destruct (node_parent ns i) as [p|] eqn:P.
  - apply parent_child in P as (k & C). exists k. split; [|exact C]. destruct C as (u & U & N).
    apply nth_error_split in N as (pre & suf & E & L). rewrite (position_child _ p i pre suf); [rewrite total_zero; [lia|reflexivity]|]. rewrite (kids_places t p u U). exact E.
  - apply parent_none in P; [|exact B]. split; [exact P|]. unfold position. subst i. destruct (node_parent ns 0) eqn:Q; [|reflexivity].
    apply parent_child in Q as (k & C). apply child_range in C. lia.
Qed.
End Bfs.

(** * Marks *)
Section Marks.
Context {A : Type}.
Variables allowed equal : A -> A -> bool.
Variables s d : tree A.
Notation src := (from_node s).
Notation dst := (from_node d).
Variable m : mapping.
Hypothesis G : good allowed s d m.
Notation k1 := (fold_left (mark_deleted m) (seq 0 (size_of src)) no_marks).
Notation k2 := (fold_left (mark_inserted m) (seq 0 (size_of dst)) k1).
Notation k3 := (fold_left (mark_shift src dst m) (bfs src) k2).
Notation k4 := (change_kinds equal src dst m).
Lemma matched_range i j : get_dst m i = Some j -> i < count s /\ j < count d.
Proof. intros H. apply (possible_range allowed s d). apply (proj2 G). exact H. Qed.
Lemma deleted_fold l : NoDup l -> forall k, 
  let k' := fold_left (mark_deleted m) l k in
  (forall i, src_change k' i = if mem i l && negb (has_src m i) then Deleted else src_change k i) /\
  (forall i, src_shift k' i = if mem i l && negb (has_src m i) then (src_shift k i - 1)%Z else src_shift k i) /\
  dst_change k' = dst_change k /\ dst_shift k' = dst_shift k.
Proof.
  induction 1 as [|x l N D IH]; intros k k'; [repeat split; reflexivity|]. subst k'. cbn [fold_left].
  destruct (IH (mark_deleted m k x)) as (H1 & H2 & H3 & H4). cbn zeta in *.
  assert (E : dst_change (mark_deleted m k x) = dst_change k /\ dst_shift (mark_deleted m k x) = dst_shift k) by (unfold mark_deleted; destruct (has_src m x); split; reflexivity).
  split; [|split; [|rewrite H3, H4; exact E]].
  - intros i. rewrite H1. change (mem i (x :: l)) with ((i =? x) || mem i l). unfold mark_deleted. destruct (Nat.eqb_spec i x) as [->|NE]; cbn [orb].
    + destruct (mem x l) eqn:M; [apply mem_in in M; contradiction|]. cbn [andb]. destruct (has_src m x); cbn; [reflexivity|apply set_at_same].
    + destruct (mem i l && negb (has_src m i)); [reflexivity|]. destruct (has_src m x); [reflexivity|]. cbn. apply set_at_other. exact NE.
  - intros i. rewrite H2. change (mem i (x :: l)) with ((i =? x) || mem i l). unfold mark_deleted. destruct (Nat.eqb_spec i x) as [->|NE]; cbn [orb].
    + destruct (mem x l) eqn:M; [apply mem_in in M; contradiction|]. cbn [andb]. destruct (has_src m x); cbn; [reflexivity|]. unfold less. apply set_at_same.
    + assert (Q : src_shift (if has_src m x then k else Marks (set_at (src_change k) x Deleted) (dst_change k) (less src_shift k x) (dst_shift k)) i = src_shift k i).
      { destruct (has_src m x); [reflexivity|]. cbn. unfold less. apply set_at_other. exact NE. }
      rewrite Q. reflexivity.
Qed.
Lemma inserted_fold l : NoDup l -> forall k, 
  let k' := fold_left (mark_inserted m) l k in
  (forall i, dst_change k' i = if mem i l && negb (has_dst m i) then Inserted else dst_change k i) /\
  (forall i, dst_shift k' i = if mem i l && negb (has_dst m i) then (dst_shift k i - 1)%Z else dst_shift k i) /\
  src_change k' = src_change k /\ src_shift k' = src_shift k.
Proof.
  induction 1 as [|x l N D IH]; intros k k'; [repeat split; reflexivity|]. subst k'. cbn [fold_left].
  destruct (IH (mark_inserted m k x)) as (H1 & H2 & H3 & H4). cbn zeta in *.
  assert (E : src_change (mark_inserted m k x) = src_change k /\ src_shift (mark_inserted m k x) = src_shift k) by (unfold mark_inserted; destruct (has_dst m x); split; reflexivity).
  split; [|split; [|rewrite H3, H4; exact E]].
  - intros i. rewrite H1. change (mem i (x :: l)) with ((i =? x) || mem i l). unfold mark_inserted. destruct (Nat.eqb_spec i x) as [->|NE]; cbn [orb].
    + destruct (mem x l) eqn:M; [apply mem_in in M; contradiction|]. cbn [andb]. destruct (has_dst m x); cbn; [reflexivity|apply set_at_same].
    + destruct (mem i l && negb (has_dst m i)); [reflexivity|]. destruct (has_dst m x); [reflexivity|]. cbn. apply set_at_other. exact NE.
  - intros i. rewrite H2. change (mem i (x :: l)) with ((i =? x) || mem i l). unfold mark_inserted. destruct (Nat.eqb_spec i x) as [->|NE]; cbn [orb].
    + destruct (mem x l) eqn:M; [apply mem_in in M; contradiction|]. cbn [andb]. destruct (has_dst m x); cbn; [reflexivity|]. unfold less. apply set_at_same.
    + assert (Q : dst_shift (if has_dst m x then k else Marks (src_change k) (set_at (dst_change k) x Inserted) (src_shift k) (less dst_shift k x)) i = dst_shift k i).
      { destruct (has_dst m x); [reflexivity|]. cbn. unfold less. apply set_at_other. exact NE. }
      rewrite Q. reflexivity.
Qed.
Lemma mem_seq i n : mem i (seq 0 n) = (i <? n).
Proof.
  destruct (Nat.ltb_spec i n) as [L|L].
  - apply mem_in, in_seq. lia.
  - apply mem_out. rewrite in_seq. lia.
Qed.
Lemma k2_marks :
  (forall i, src_change k2 i = if (i <? count s) && negb (has_src m i) then Deleted else Unchanged) /\
  (forall i, src_shift k2 i = if (i <? count s) && negb (has_src m i) then (-1)%Z else 0%Z) /\
  (forall j, dst_change k2 j = if (j <? count d) && negb (has_dst m j) then Inserted else Unchanged) /\
  (forall j, dst_shift k2 j = if (j <? count d) && negb (has_dst m j) then (-1)%Z else 0%Z).
Proof.
  destruct (deleted_fold (seq 0 (size_of src)) (seq_NoDup _ _) no_marks) as (D1 & D2 & D3 & D4).
  destruct (inserted_fold (seq 0 (size_of dst)) (seq_NoDup _ _) k1) as (I1 & I2 & I3 & I4). cbn zeta in *.
  rewrite I3, I4. repeat split; intros i.
  - rewrite D1, mem_seq, size_count. reflexivity.
  - rewrite D2, mem_seq, size_count. reflexivity.
  - rewrite I1, mem_seq, size_count, D3. reflexivity.
  - rewrite I2, mem_seq, size_count, D4. reflexivity.
Qed.
(** ** Shifts *)
Notation mshift := (mark_shift src dst m).
Lemma shift_changes l : forall k, src_change (fold_left mshift l k) = src_change k /\ dst_change (fold_left mshift l k) = dst_change k.
Proof.
  induction l as [|x r IH]; intros k; [split; reflexivity|]. cbn [fold_left]. destruct (IH (mshift k x)) as [-> ->].
  unfold mark_shift. destruct (get_dst m x); [|split; reflexivity]. destruct (moved _ _ _ _ _ _); split; reflexivity.
Qed.
Lemma shift_src_out l i : ~ In i l -> forall k, src_shift (fold_left mshift l k) i = src_shift k i.
Proof.
  induction l as [|x r IH]; intros N k; [reflexivity|]. cbn [fold_left]. rewrite IH by (intros I; apply N; right; exact I).
  unfold mark_shift. destruct (get_dst m x); [|reflexivity]. destruct (moved _ _ _ _ _ _); [|reflexivity]. cbn. unfold less. apply set_at_other. intros ->. apply N. left. reflexivity.
Qed.
Lemma shift_dst_out l j : (forall i, get_dst m i = Some j -> ~ In i l) -> forall k, dst_shift (fold_left mshift l k) j = dst_shift k j.
Proof.
  induction l as [|x r IH]; intros N k; [reflexivity|]. cbn [fold_left]. rewrite IH by (intros i D I; apply (N i D); right; exact I).
  unfold mark_shift. destruct (get_dst m x) as [y|] eqn:D; [|reflexivity]. destruct (moved _ _ _ _ _ _); [|reflexivity]. cbn. unfold less. apply set_at_other. intros ->. apply (N x D). left. reflexivity.
Qed.
(** The shift of a matched node is decided when the node is reached. *)
Lemma shift_decided i j pre suf : get_dst m i = Some j -> bfs src = pre ++ i :: suf ->
  let k := fold_left mshift pre k2 in
  src_shift k i = 0%Z /\ dst_shift k j = 0%Z /\
  src_shift k3 i = (if moved src dst m k i j then -1 else 0)%Z /\ dst_shift k3 j = (if moved src dst m k i j then -1 else 0)%Z.
Proof.
  intros D E k. pose proof (bfs_nodup s) as N. rewrite E in N. apply NoDup_remove_2 in N. rewrite in_app_iff in N.
  destruct (matched_range i j D) as [BI BJ].
  assert (NP : forall i', get_dst m i' = Some j -> i' = i) by (intros i' D'; apply (proj1 G) in D, D'; congruence).
  assert (HS : has_src m i = true) by (unfold has_src; rewrite D; reflexivity). assert (HD : has_dst m j = true) by (unfold has_dst; rewrite (proj1 (proj1 G i j) D); reflexivity).
  destruct k2_marks as (_ & S2 & _ & D2).
  assert (KS : src_shift k i = 0%Z) by (subst k; rewrite shift_src_out by tauto; rewrite S2, HS; cbn; rewrite andb_false_r; reflexivity).
  assert (KD : dst_shift k j = 0%Z).
  { subst k. rewrite shift_dst_out by (intros i' D'; rewrite (NP i' D'); tauto). rewrite D2, HD. cbn. rewrite andb_false_r. reflexivity. }
  split; [exact KS|]. split; [exact KD|]. rewrite E, fold_left_app. cbn [fold_left]. fold k. split.
  - rewrite shift_src_out by tauto. unfold mark_shift at 1. rewrite D. destruct (moved _ _ _ _ _ _); [|exact KS]. cbn. unfold less. rewrite set_at_same, KS. reflexivity.
  - rewrite shift_dst_out by (intros i' D'; rewrite (NP i' D'); tauto). unfold mark_shift at 1. rewrite D. destruct (moved _ _ _ _ _ _); [|exact KD]. cbn. unfold less. rewrite set_at_same, KD. reflexivity.
Qed.
Lemma bfs_split i : i < count s -> exists pre suf, bfs src = pre ++ i :: suf.
Proof. intros B. apply in_split. apply bfs_in. exact B. Qed.
(** ** Kinds of change *)
Notation mchange := (mark_change equal src dst m).
Lemma change_shifts l : forall k, src_shift (fold_left mchange l k) = src_shift k /\ dst_shift (fold_left mchange l k) = dst_shift k.
Proof.
  induction l as [|x r IH]; intros k; [split; reflexivity|]. cbn [fold_left]. destruct (IH (mchange k x)) as [-> ->].
  unfold mark_change. destruct (get_src m x); [|split; reflexivity]. destruct (values_equal _ _ _ _ _), (moved _ _ _ _ _ _); split; reflexivity.
Qed.
Lemma k4_shifts : src_shift k4 = src_shift k3 /\ dst_shift k4 = dst_shift k3.
Proof. apply change_shifts. Qed.
Lemma moved_ext k k' i j : src_shift k = src_shift k' -> dst_shift k = dst_shift k' -> moved src dst m k i j = moved src dst m k' i j.
Proof. intros E F. unfold moved. rewrite E, F. reflexivity. Qed.
Definition kind_of (k : marks) (i j : nat) : change :=
  if moved src dst m k i j then if values_equal equal src dst i j then Moved else UpdateMoved
  else if values_equal equal src dst i j then Unchanged else Updated.
Lemma mchange_src k j i : get_src m j <> Some i -> src_change (mchange k j) i = src_change k i.
Proof.
  intros N. unfold mark_change. destruct (get_src m j) as [i'|]; [|reflexivity]. assert (i <> i') by congruence.
  destruct (values_equal _ _ _ _ _), (moved _ _ _ _ _ _); cbn; rewrite ?set_at_other by assumption; reflexivity.
Qed.
Lemma mchange_dst k j j' : j' <> j -> dst_change (mchange k j) j' = dst_change k j'.
Proof.
  intros N. unfold mark_change. destruct (get_src m j) as [i'|]; [|reflexivity].
  destruct (values_equal _ _ _ _ _), (moved _ _ _ _ _ _); cbn; rewrite ?set_at_other by assumption; reflexivity.
Qed.
Lemma change_src_out l i : (forall j, get_dst m i = Some j -> ~ In j l) -> forall k, src_change (fold_left mchange l k) i = src_change k i.
Proof.
  induction l as [|x r IH]; intros N k; [reflexivity|]. cbn [fold_left]. rewrite IH by (intros j D I; apply (N j D); right; exact I).
  apply mchange_src. intros E. apply (proj1 G) in E. apply (N x E). left. reflexivity.
Qed.
Lemma change_dst_out l j : (~ In j l \/ get_src m j = None) -> forall k, dst_change (fold_left mchange l k) j = dst_change k j.
Proof.
  induction l as [|x r IH]; intros N k; [reflexivity|]. cbn [fold_left]. rewrite IH by (destruct N as [N|N]; [left; intros I; apply N; right; exact I|right; exact N]).
  destruct (Nat.eq_dec j x) as [->|NE].
  - destruct N as [N|N]; [exfalso; apply N; left; reflexivity|]. unfold mark_change. rewrite N. reflexivity.
  - apply mchange_dst. exact NE.
Qed.
Lemma kinds_matched i j : get_dst m i = Some j -> src_change k4 i = kind_of k4 i j /\ dst_change k4 j = kind_of k4 i j.
Proof.
  intros D. destruct (matched_range i j D) as [BI BJ]. pose proof (proj1 (proj1 G i j) D) as R.
  assert (SP : exists pre suf, bfs dst = pre ++ j :: suf) by (apply in_split, bfs_in; exact BJ). destruct SP as (pre & suf & E).
  pose proof (bfs_nodup d) as N. rewrite E in N. apply NoDup_remove_2 in N. rewrite in_app_iff in N.
  assert (K0 : src_change k3 i = Unchanged /\ dst_change k3 j = Unchanged).
  { destruct (shift_changes (bfs src) k2) as [-> ->]. destruct k2_marks as (C1 & _ & C2 & _). rewrite C1, C2. unfold has_src, has_dst. rewrite D, R. cbn. rewrite !andb_false_r. split; reflexivity. }
  assert (KM : moved src dst m k4 i j = moved src dst m (fold_left mchange pre k3) i j).
  { apply moved_ext; [rewrite (proj1 k4_shifts), (proj1 (change_shifts pre k3))|rewrite (proj2 k4_shifts), (proj2 (change_shifts pre k3))]; reflexivity. }
  assert (U : forall j', get_dst m i = Some j' -> j' = j) by (intros j' D'; congruence).
  unfold kind_of. rewrite KM. unfold change_kinds. rewrite E, fold_left_app. cbn [fold_left].
  rewrite change_src_out by (intros j' D'; rewrite (U j' D'); tauto). rewrite change_dst_out by tauto.
  assert (K1 : src_change (fold_left mchange pre k3) i = Unchanged /\ dst_change (fold_left mchange pre k3) j = Unchanged).
  { rewrite change_src_out by (intros j' D'; rewrite (U j' D'); tauto). rewrite change_dst_out by tauto. exact K0. }
  destruct K1 as [K1 K1']. set (k := fold_left mchange pre k3) in *. clearbody k. unfold mark_change. rewrite R.
  destruct (moved src dst m k i j), (values_equal equal src dst i j); cbn; rewrite ?set_at_same, ?K1, ?K1'; cbn; split; reflexivity.
Qed.
Lemma kinds_src_none i : i < count s -> get_dst m i = None -> src_change k4 i = Deleted.
Proof.
  intros B N. unfold change_kinds. rewrite change_src_out by (intros j D; congruence). destruct (shift_changes (bfs src) k2) as [-> _].
  destruct k2_marks as (-> & _). unfold has_src. rewrite N. apply Nat.ltb_lt in B. rewrite B. reflexivity.
Qed.
Lemma kinds_dst_none j : j < count d -> get_src m j = None -> dst_change k4 j = Inserted.
Proof.
  intros B N. unfold change_kinds. rewrite change_dst_out by (right; exact N). destruct (shift_changes (bfs src) k2) as [_ ->].
  destruct k2_marks as (_ & _ & -> & _). unfold has_dst. rewrite N. apply Nat.ltb_lt in B. rewrite B. reflexivity.
Qed.
Lemma same_parents_spec i j : get_dst m i = Some j -> same_parents src dst m i j = true <->
  (i = 0 /\ j = 0) \/ exists p k q k', child s p k i /\ child d q k' j /\ get_dst m p = Some q.
Proof.
  intros D. destruct (matched_range i j D) as [BI BJ]. unfold same_parents. destruct (node_parent src i) as [p|] eqn:P, (node_parent dst j) as [q|] eqn:Q.
  - apply parent_child in P as (k & C). apply parent_child in Q as (k' & C'). split.
    + intros H. right. exists p, k, q, k'. destruct (get_dst m p) as [q'|]; [|discriminate]. apply Nat.eqb_eq in H. subst. auto.
    + intros [[-> ->]|(p' & k0 & q' & k0' & H1 & H2 & H3)]; [apply child_range in C; lia|].
      destruct (parent_unique s _ _ _ _ _ C H1) as [-> _]. destruct (parent_unique d _ _ _ _ _ C' H2) as [-> _]. rewrite H3. apply Nat.eqb_refl.
  - split; [discriminate|]. intros [[-> ->]|(p' & k0 & q' & k0' & H1 & H2 & H3)].
    + apply parent_child in P as (k & C). apply child_range in C. lia.
    + assert (X : node_parent dst j = Some q') by (apply parent_child; eauto). congruence.
  - split; [discriminate|]. intros [[-> ->]|(p' & k0 & q' & k0' & H1 & H2 & H3)].
    + apply parent_child in Q as (k & C). apply child_range in C. lia.
    + assert (X : node_parent src i = Some p') by (apply parent_child; eauto). congruence.
  - split; [|reflexivity]. intros _. left. apply parent_none in P; [|exact BI]. apply parent_none in Q; [|exact BJ]. auto.
Qed.

(** * Nothing to report *)
Section Quiet.
Hypothesis all_src : forall i, i < count s -> exists j, get_dst m i = Some j.
Hypothesis all_dst : forall j, j < count d -> exists i, get_src m j = Some i.
Hypothesis still : forall i j, get_dst m i = Some j -> moved src dst m k4 i j = false.
Lemma still_k3 i j : get_dst m i = Some j -> moved src dst m k3 i j = false.
Proof. intros D. rewrite <- (still i j D). symmetry. apply moved_ext; apply k4_shifts. Qed.
Lemma still_parents i j : get_dst m i = Some j -> same_parents src dst m i j = true.
Proof. intros D. pose proof (still i j D) as H. unfold moved in H. apply orb_false_iff in H as [H _]. apply negb_false_iff in H. exact H. Qed.
Lemma kid_goes p q x y : get_dst m p = Some q -> get_dst m x = Some y -> (In x (node_kids src p) <-> In y (node_kids dst q)).
Proof.
  intros P X. pose proof (still_parents x y X) as H. apply (same_parents_spec x y X) in H. rewrite !kids_child. destruct H as [[-> ->]|(p' & k & q' & k' & C & C' & E)].
  - split; intros (k & C); apply child_range in C; lia.
  - split; intros (k0 & C0).
    + destruct (parent_unique s _ _ _ _ _ C C0) as [-> _]. assert (q' = q) by congruence. subst. eauto.
    + destruct (parent_unique d _ _ _ _ _ C' C0) as [-> _]. assert (p' = p) by (apply (proj1 G) in E, P; congruence). subst. eauto.
Qed.
Lemma kids_nodup (t : tree A) p : NoDup (node_kids (from_node t) p).
Proof. destruct (nth_error (nodes t) p) as [u|] eqn:U; [rewrite (kids_places t p u U); apply places_nodup|rewrite kids_none by exact U; constructor]. Qed.
(** No child is shifted: going from the last child to the first. *)
Lemma no_shift p q : get_dst m p = Some q -> forall B pre, node_kids src p = pre ++ B -> forall x y, In x B -> get_dst m x = Some y -> src_shift k3 x = 0%Z /\ dst_shift k3 y = 0%Z.
Proof.
  intros P. destruct (matched_range p q P) as [BP BQ]. destruct (bfs_siblings s p BP) as (b1 & b2 & BF).
  induction B as [|y B IH]; intros pre K x z I D; [destruct I|].
  assert (REST : forall x z, In x B -> get_dst m x = Some z -> src_shift k3 x = 0%Z /\ dst_shift k3 z = 0%Z).
  { intros x' z'. apply (IH (pre ++ [y])). rewrite <- app_assoc. exact K. }
  destruct I as [<-|I]; [|apply REST; assumption].
  assert (E : bfs src = (b1 ++ pre) ++ y :: (B ++ b2)) by (rewrite BF, K, <- !app_assoc; reflexivity).
  destruct (shift_decided y z (b1 ++ pre) (B ++ b2) D E) as (Z1 & Z2 & S1 & S2). cbn zeta in *.
  set (k := fold_left mshift (b1 ++ pre) k2) in *.
  enough (MV : moved src dst m k y z = false) by (rewrite MV in *; split; assumption).
  destruct (moved src dst m k y z) eqn:MV; [|reflexivity]. exfalso.
  unfold moved in MV. rewrite (still_parents y z D) in MV. cbn [negb orb] in MV. apply negb_true_iff, Z.eqb_neq in MV. apply MV. clear MV.
  pose proof (still_k3 y z D) as ST. unfold moved in ST. apply orb_false_iff in ST as [_ ST]. apply negb_false_iff, Z.eqb_eq in ST.
  assert (IZ : In z (node_kids dst q)) by (apply (kid_goes p q y z P D); rewrite K; apply in_or_app; right; left; reflexivity).
  apply in_split in IZ as (pre' & suf' & K').
  rewrite (position_child s (src_shift k) p y pre B K), (position_child d (dst_shift k) q z pre' suf' K').
  rewrite (position_child s (src_shift k3) p y pre B K), (position_child d (dst_shift k3) q z pre' suf' K') in ST.
  pose proof (bfs_nodup s) as ND. rewrite E in ND.
  assert (OUT : forall a, In a (b1 ++ pre) -> ~ In a (y :: B ++ b2)) by (apply nodup_app in ND as (_ & _ & ND); exact ND).
  assert (AFTER : forall a, In a (b1 ++ pre) -> src_shift k a = src_shift k3 a).
  { intros a IA. rewrite E, fold_left_app. fold k. rewrite shift_src_out; [reflexivity|]. apply OUT. exact IA. }
  assert (AFTERD : forall a b, In a (b1 ++ pre) -> get_dst m a = Some b -> dst_shift k b = dst_shift k3 b).
  { intros a b IA DA. rewrite E, fold_left_app. fold k. rewrite shift_dst_out; [reflexivity|]. intros a' D'. assert (a' = a) by (apply (proj1 G) in DA, D'; congruence). subst a'. apply OUT. exact IA. }
  rewrite (total_ext (src_shift k) (src_shift k3) pre) by (intros a IA; apply AFTER, in_or_app; right; exact IA).
  rewrite (total_ext (dst_shift k) (dst_shift k3) pre').
  - rewrite Z1, Z2, S1, S2 in *. lia.
  - intros b IB. assert (BB : b < count d) by (apply (kids_valid d q); rewrite K'; apply in_or_app; left; exact IB).
    destruct (all_dst b BB) as (a & GA). apply (proj1 G) in GA as DA.
    assert (IA : In a (node_kids src p)) by (apply (kid_goes p q a b P DA); rewrite K'; apply in_or_app; left; exact IB).
    rewrite K in IA. apply in_app_or in IA as [IA|[IA|IA]].
    + apply (AFTERD a b); [apply in_or_app; right; exact IA|exact DA].
    + subst a. assert (b = z) by congruence. subst b. exfalso. pose proof (kids_nodup d q) as ND'. rewrite K' in ND'. apply NoDup_remove_2 in ND'. apply ND'. apply in_or_app. left. exact IB.
    + destruct (REST a b IA DA) as [_ R]. rewrite R.
      subst k. rewrite shift_dst_out.
      * destruct k2_marks as (_ & _ & _ & ->). unfold has_dst. rewrite GA. cbn. rewrite andb_false_r. reflexivity.
      * intros a' D'. assert (a' = a) by (apply (proj1 G) in D'; congruence). subst a'. intros IP. apply (OUT a IP). right. apply in_or_app. left. exact IA.
Qed.
Lemma kid_index p q n x y : get_dst m p = Some q -> get_dst m x = Some y -> (nth_error (node_kids src p) n = Some x <-> nth_error (node_kids dst q) n = Some y).
Proof.
  intros P X.
  assert (H : forall a b n n', get_dst m a = Some b -> nth_error (node_kids src p) n = Some a -> nth_error (node_kids dst q) n' = Some b -> n = n').
  { clear x y X n. intros a b n n' D NA NB. apply nth_error_split in NA as (pre & suf & K & L). apply nth_error_split in NB as (pre' & suf' & K' & L').
    pose proof (still_k3 a b D) as ST. unfold moved in ST. apply orb_false_iff in ST as [_ ST]. apply negb_false_iff, Z.eqb_eq in ST.
    rewrite (position_child s _ p a pre suf K), (position_child d _ q b pre' suf' K') in ST.
    assert (Z : forall a b, In a (node_kids src p) -> get_dst m a = Some b -> src_shift k3 a = 0%Z /\ dst_shift k3 b = 0%Z) by (intros a0 b0; apply (no_shift p q P _ []); reflexivity).
    destruct (Z a b) as [Z1 Z2]; [rewrite K; apply in_or_app; right; left; reflexivity|exact D|]. rewrite Z1, Z2 in ST.
    rewrite !total_zero in ST; [lia| |].
    - intros b' I. assert (BB : b' < count d) by (apply (kids_valid d q); rewrite K'; apply in_or_app; left; exact I).
      destruct (all_dst b' BB) as (a' & GA). apply (proj1 G) in GA. apply (Z a' b'); [|exact GA]. apply (kid_goes p q a' b' P GA). rewrite K'. apply in_or_app. left. exact I.
    - intros a' I. assert (BA : a' < count s) by (apply (kids_valid s p); rewrite K; apply in_or_app; left; exact I).
      destruct (all_src a' BA) as (b' & DA). apply (Z a' b'); [|exact DA]. rewrite K. apply in_or_app. left. exact I. }
  split; intros N.
  - assert (I : In y (node_kids dst q)) by (apply (kid_goes p q x y P X); apply nth_error_In in N; exact N). apply In_nth_error in I as (n' & N'). rewrite (H x y n n' X N N'). exact N'.
  - assert (I : In x (node_kids src p)) by (apply (kid_goes p q x y P X); apply nth_error_In in N; exact N). apply In_nth_error in I as (n' & N'). rewrite <- (H x y n' n X N' N). exact N'.
Qed.
Hypothesis same : forall i j, get_dst m i = Some j -> values_equal equal src dst i j = true.
Lemma matched_alike : forall u i j w, nth_error (nodes s) i = Some u -> nth_error (nodes d) j = Some w -> get_dst m i = Some j -> alike equal u w.
Proof.
  induction u as [v l IH] using tree_ind'. intros i j [x l'] U W D.
  pose proof (same i j D) as V. unfold values_equal in V. rewrite !value_val, U, W in V. cbn in V. constructor; [exact V|].
  assert (KS : node_kids src i = places (S i) l) by apply (kids_places s i _ U). assert (KD : node_kids dst j = places (S j) l') by apply (kids_places d j _ W).
  assert (H : forall n c, nth_error l n = Some c -> exists e, nth_error l' n = Some e /\ alike equal c e).
  { intros n c C. destruct (nth_error (places (S i) l) n) as [a|] eqn:NA.
    2: { apply nth_error_None in NA. rewrite places_length in NA. assert (n < length l) by (apply nth_error_Some; rewrite C; discriminate). lia. }
    destruct (child_sub s i n a _ U NA) as (c' & C' & SA & _). cbn [sub] in C'. assert (c' = c) by congruence. subst c'.
    destruct (all_src a) as (b & AB); [apply nth_error_Some; rewrite SA; discriminate|]. rewrite <- KS in NA. apply (kid_index i j n a b D AB) in NA. rewrite KD in NA.
    destruct (child_sub d j n b _ W NA) as (e & E & SB & _). cbn [sub] in E. exists e. split; [exact E|]. rewrite Forall_forall in IH. apply (IH c (nth_error_In _ _ C) a b e SA SB AB). }
  assert (LEN : length l = length l').
  { rewrite <- (places_length (S i) l), <- (places_length (S j) l'), <- KS, <- KD.
    assert (X : forall n, n < length (node_kids src i) <-> n < length (node_kids dst j)).
    { intros n. rewrite <- !nth_error_Some. split; intros H0 E.
      - destruct (nth_error (node_kids src i) n) as [a|] eqn:NA; [|congruence]. destruct (all_src a) as (b & AB); [apply (kids_valid s i), nth_error_In with n; exact NA|].
        apply (kid_index i j n a b D AB) in NA. congruence.
      - destruct (nth_error (node_kids dst j) n) as [b|] eqn:NB; [|congruence]. destruct (all_dst b) as (a & BA); [apply (kids_valid d j), nth_error_In with n; exact NB|].
        apply (proj1 G) in BA. apply (kid_index i j n a b D BA) in NB. congruence. }
    apply Nat.le_antisymm; apply Nat.nlt_ge; intros L; apply X in L; lia. }
  clear - H LEN. revert l' LEN H. induction l as [|c r IHl]; intros [|e q] LEN H; try discriminate; [constructor|]. constructor.
  - destruct (H 0 c eq_refl) as (e' & E & Q). injection E as <-. exact Q.
  - apply IHl; [cbn in LEN; lia|]. intros n c' N. exact (H (S n) c' N).
Qed.
End Quiet.
End Marks.
