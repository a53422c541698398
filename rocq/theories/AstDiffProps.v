(** C89-C94: what changed between two trees. *)
From Coq Require Import List Bool Arith ZArith Lia Permutation.
From Coq Require Import String.
From Verif Require Import Base EagerModel EagerSpec EagerProofs AstDiffModel AstDiffSpec AstDiffTree AstDiffMap AstDiffZs AstDiffDist AstDiffMarks AstDiffReports AstDiffSame AstDiffOrder.
From Verif Require Import StrModel ConvModel AstDiffSem AstDiffRead ParseProps ConvProps.
Import ListNotations.
Local Open Scope nat_scope.

(** A tree with kinds and texts for the examples *)
Definition nd (k t : Z) (l : list (tree (Z * Z))) : tree (Z * Z) := T (k, t) l.
Definition same_kind (a b : Z * Z) : bool := Z.eqb (fst a) (fst b).
Definition same_node (a b : Z * Z) : bool := Z.eqb (fst a) (fst b) && Z.eqb (snd a) (snd b).
Definition one (_ _ : Z * Z) : Z := 1%Z.
Definition big (n : Z) : tree (Z * Z) := nd 8 n [nd 8 1 [nd 8 n []]; nd 8 2 []].
Definition old_doc : tree (Z * Z) := nd 0 0 [big 1; big 2; nd 5 0 [big 3; nd 6 1 []]; nd 7 1 []].
Definition new_doc : tree (Z * Z) := nd 0 1 [big 2; big 1; nd 5 0 [nd 9 1 []; big 3]; nd 5 1 [big 4]].

(** *** C89 *)
(** If removing a node and inserting one cost one each, which is the default, then the comparison ends, and what it matches
    is one to one and between nodes that can be matched. *)
Theorem C89_matching : forall {A} (allowed equal : A -> A -> bool) ucost opts s d,
  del_cost opts = 1%Z -> ins_cost opts = 1%Z ->
  exists m k, ast_diff allowed equal ucost opts s d = Some (m, k) /\ matching allowed s d m.
Proof.
  intros A allowed equal ucost opts s d D I. destruct (compute_good allowed equal ucost opts D I s d) as (m & E & G).
  exists m, (change_kinds equal (from_node s) (from_node d) m). unfold ast_diff. rewrite E. split; [reflexivity|]. apply good_matching. exact G.
Qed.
Print Assumptions C89_matching.
Example C89_matching_example :
  exists m k, ast_diff same_kind same_node one default_options old_doc new_doc = Some (m, k) /\
  map (get_dst m) (seq 0 16) = [Some 0; Some 5; Some 6; Some 7; Some 8; Some 1; Some 2; Some 3; Some 4; Some 9; Some 11; Some 12; Some 13; Some 14; None; None].
Proof. eexists. eexists. split; vm_compute; reflexivity. Qed.
(** With other costs the matches are read from the tables with costs of one. Nodes that must not be matched are matched, *)
Definition costs (del ins : Z) : options := Options 2 1 2 100 false false del ins.
Theorem C89_costs_refuted : exists opts s d m k,
  (0 < del_cost opts)%Z /\ (0 < ins_cost opts)%Z /\ ast_diff same_kind same_node one opts s d = Some (m, k) /\ ~ matching same_kind s d m.
Proof.
  exists (costs 2 2), (nd 0 0 [nd 1 1 []]), (nd 0 0 [nd 2 1 []]). eexists. eexists. split; [reflexivity|]. split; [reflexivity|]. split; [vm_compute; reflexivity|].
  intros [_ H]. specialize (H 1 1 eq_refl). destruct H as (u & v & E & F & Q). injection E as <-. injection F as <-. discriminate Q.
Qed.
Print Assumptions C89_costs_refuted.
(** or the tables are read outside of their bounds. *)
Theorem C89_bounds_refuted : exists opts s d,
  (0 < del_cost opts)%Z /\ (0 < ins_cost opts)%Z /\ ast_diff same_kind same_node one opts s d = None.
Proof. exists (costs 2 2), (nd 0 0 [nd 1 1 []]), (nd 0 0 []). split; [reflexivity|]. split; [reflexivity|]. vm_compute. reflexivity. Qed.
Print Assumptions C89_bounds_refuted.

(** *** C90 *)
Theorem C90_reports : forall {A} (allowed equal : A -> A -> bool) ucost opts s d,
  del_cost opts = 1%Z -> ins_cost opts = 1%Z ->
  exists m k ch, ast_diff allowed equal ucost opts s d = Some (m, k) /\ changes allowed equal ucost opts s d = Some ch /\ reports equal s d m ch.
Proof.
  intros A allowed equal ucost opts s d D I. destruct (compute_good allowed equal ucost opts D I s d) as (m & E & G).
  exists m, (change_kinds equal (from_node s) (from_node d) m). unfold changes, ast_diff. rewrite E. eexists. split; [reflexivity|]. split; [reflexivity|]. apply (list_reports allowed). exact G.
Qed.
Print Assumptions C90_reports.
Example C90_reports_example : changes same_kind same_node one default_options old_doc new_doc =
  Some [(Some 0, Some 0, CUpdate);
        (Some 1, Some 5, CMove (Some 0, (-1)%Z) (Some 0, 0%Z) false);
        (None, Some 10, CInsert (Some 9, 0%Z));
        (None, Some 15, CInsert (Some 0, 3%Z));
        (None, Some 16, CInsert (Some 15, 0%Z));
        (None, Some 17, CInsert (Some 16, 0%Z));
        (None, Some 18, CInsert (Some 17, 0%Z));
        (None, Some 19, CInsert (Some 16, 1%Z));
        (Some 14, None, CDelete); (Some 15, None, CDelete)].
Proof. vm_compute. reflexivity. Qed.
(** Two siblings that are not reported as moved are in the same order in both trees, if no node has come into or gone out of
    their parent by a move. *)
Theorem C90_order_partial : forall {A} (allowed equal : A -> A -> bool) ucost opts s d m k ch p q x y x' y',
  del_cost opts = 1%Z -> ins_cost opts = 1%Z ->
  ast_diff allowed equal ucost opts s d = Some (m, k) -> changes allowed equal ucost opts s d = Some ch ->
  get_dst m p = Some q ->
  (forall i a b, child s p i a -> get_dst m a = Some b -> exists j, child d q j b) ->
  (forall j a b, child d q j b -> get_dst m a = Some b -> exists i, child s p i a) ->
  get_dst m x = Some x' -> get_dst m y = Some y' ->
  (forall from to b, ~ In (Some x, Some x', CMove from to b) ch) -> (forall from to b, ~ In (Some y, Some y', CMove from to b) ch) ->
  in_order s p x y -> in_order d q x' y'.
Proof.
  intros A allowed equal ucost opts s d m k ch p q x y x' y' D I AD CH PQ GO CO X Y NX NY (i & j & C1 & C2 & L).
  destruct (compute_good allowed equal ucost opts D I s d) as (m0 & E & G). unfold changes in CH. rewrite AD in CH. injection CH as <-.
  unfold ast_diff in AD. rewrite E in AD. injection AD as -> <-.
  assert (ST : forall a b, get_dst m a = Some b -> (forall from to u, ~ In (Some a, Some b, CMove from to u) (all_changes (from_node s) (from_node d) m (change_kinds equal (from_node s) (from_node d) m))) ->
    moved (from_node s) (from_node d) m (change_kinds equal (from_node s) (from_node d) m) a b = false).
  { intros a b DA N. destruct (moved _ _ _ _ a b) eqn:M; [|reflexivity]. exfalso. destruct (matched_range allowed s d m G a b DA) as [_ B].
    eapply N. apply in_changes. left. exists b. split; [exact B|]. rewrite (move_from_dst allowed equal s d m G a b DA M). split; [|reflexivity].
    rewrite (kind_of_cases allowed equal s d m G a b DA), M. destruct (values_equal _ _ _ _ _); discriminate. }
  assert (KX : In x (node_kids (from_node s) p)) by (apply kids_child; eauto). assert (KY : In y (node_kids (from_node s) p)) by (apply kids_child; eauto).
  assert (IX : img m x = x') by (unfold img; rewrite X; reflexivity). assert (IY : img m y = y') by (unfold img; rewrite Y; reflexivity).
  assert (GO' : forall a b, In a (node_kids (from_node s) p) -> get_dst m a = Some b -> In b (node_kids (from_node d) q)) by (intros a b J DA; apply kids_child in J as (n & J); apply kids_child; eauto).
  assert (CO' : forall a b, In b (node_kids (from_node d) q) -> get_dst m a = Some b -> In a (node_kids (from_node s) p)) by (intros a b J DA; apply kids_child in J as (n & J); apply kids_child; eauto).
  assert (NTH : forall t p i a, child t p i a -> nth_error (node_kids (@from_node A t) p) i = Some a) by (intros t p0 i0 a (u & U & N); rewrite (kids_places t p0 u U); exact N).
  assert (O : index x' (node_kids (from_node d) q) < index y' (node_kids (from_node d) q)).
  { rewrite <- IX, <- IY. apply (siblings_order allowed equal s d m G p q PQ GO' CO' x y).
    - apply filter_In. split; [exact KX|]. unfold has_src. rewrite X. reflexivity.
    - apply filter_In. split; [exact KY|]. unfold has_src. rewrite Y. reflexivity.
    - rewrite IX. apply ST; assumption.
    - rewrite IY. apply ST; assumption.
    - rewrite (index_at _ i x (kids_nodup s p) (NTH _ _ _ _ C1)), (index_at _ j y (kids_nodup s p) (NTH _ _ _ _ C2)). exact L. }
  assert (AT : forall b, In b (node_kids (from_node d) q) -> child d q (index b (node_kids (from_node d) q)) b).
  { intros b J. pose proof (index_nth _ b J) as N. destruct (nth_error (nodes d) q) as [u|] eqn:U; [|rewrite kids_none in J by exact U; destruct J]. exists u. split; [exact U|]. rewrite <- (kids_places d q u U). exact N. }
  exists (index x' (node_kids (from_node d) q)), (index y' (node_kids (from_node d) q)). split; [|split; [|exact O]]; apply AT.
  - apply (GO' x); assumption.
  - apply (GO' y); assumption.
Qed.
Print Assumptions C90_order_partial.
(** The children of the root: the second keeps its place before the third and is not reported, the first is. *)
Example C90_order_example :
  exists m k ch, ast_diff same_kind same_node one default_options old_doc new_doc = Some (m, k) /\ changes same_kind same_node one default_options old_doc new_doc = Some ch /\
  get_dst m 0 = Some 0 /\ get_dst m 5 = Some 1 /\ get_dst m 9 = Some 9 /\ in_order old_doc 0 5 9 /\
  forallb (fun x => match x with (Some i, _, CMove _ _ _) => negb ((i =? 5) || (i =? 9)) | _ => true end) ch = true.
Proof.
  eexists. eexists. eexists. split; [vm_compute; reflexivity|]. split; [vm_compute; reflexivity|]. split; [vm_compute; reflexivity|]. split; [vm_compute; reflexivity|].
  split; [vm_compute; reflexivity|]. split; [|vm_compute; reflexivity]. exists 1, 2. split; [eexists; split; vm_compute; reflexivity|]. split; [eexists; split; vm_compute; reflexivity|]. lia.
Qed.
(** When nodes come in by a move, siblings can be swapped without a report. *)
Definition pair_doc : tree (Z * Z) := nd 0 0 [nd 5 0 [big 1; big 2]; nd 6 0 [big 3; big 4; nd 7 0 []]].
Definition swapped_doc : tree (Z * Z) := nd 0 0 [nd 5 0 [big 3; big 4; big 2; big 1]; nd 6 0 [nd 7 0 []]].
Theorem C90_order_refuted : exists m k ch,
  ast_diff same_kind same_node one default_options pair_doc swapped_doc = Some (m, k) /\ changes same_kind same_node one default_options pair_doc swapped_doc = Some ch /\
  get_dst m 1 = Some 1 /\ get_dst m 2 = Some 14 /\ get_dst m 6 = Some 10 /\ in_order pair_doc 1 2 6 /\ in_order swapped_doc 1 10 14 /\
  (forall b c, ~ In (Some 2, b, c) ch) /\ (forall b c, ~ In (Some 6, b, c) ch).
Proof.
  eexists. eexists. eexists. split; [vm_compute; reflexivity|]. split; [vm_compute; reflexivity|]. split; [vm_compute; reflexivity|]. split; [vm_compute; reflexivity|].
  split; [vm_compute; reflexivity|]. split; [exists 0, 1; split; [eexists; split; vm_compute; reflexivity|]; split; [eexists; split; vm_compute; reflexivity|lia]|].
  split; [exists 2, 3; split; [eexists; split; vm_compute; reflexivity|]; split; [eexists; split; vm_compute; reflexivity|lia]|].
  split; intros b c H; repeat (destruct H as [H|H]; [discriminate H|]); exact H.
Qed.
Print Assumptions C90_order_refuted.
(** A node that has moved and has another value is reported as moved only. *)
Definition from_doc : tree (Z * Z) := nd 0 0 [nd 5 0 [nd 4 1 [big 1; big 2]]; nd 6 0 [big 3]].
Definition to_doc : tree (Z * Z) := nd 0 0 [nd 5 0 []; nd 6 0 [big 3; nd 4 2 [big 1; big 2]]].
Theorem C90_update_refuted : exists m k ch i j,
  ast_diff same_kind same_node one default_options from_doc to_doc = Some (m, k) /\ changes same_kind same_node one default_options from_doc to_doc = Some ch /\
  get_dst m i = Some j /\ values from_doc to_doc i j (fun v w => same_node v w = false) /\
  ~ In (Some i, Some j, CUpdate) ch /\ forall from to, ~ In (Some i, Some j, CMove from to true) ch.
Proof.
  eexists. eexists. eexists. exists 2, 7. split; [vm_compute; reflexivity|]. split; [vm_compute; reflexivity|]. split; [vm_compute; reflexivity|].
  split; [eexists; eexists; split; [vm_compute; reflexivity|]; split; vm_compute; reflexivity|].
  split; [intros H|intros from to H]; repeat (destruct H as [H|H]; [discriminate H|]); exact H.
Qed.
Print Assumptions C90_update_refuted.
(** The places that a move names are not those of the node, and may not be places at all. *)
Theorem C90_places_refuted : exists ch i j from to b,
  changes same_kind same_node one default_options from_doc to_doc = Some ch /\ In (Some i, Some j, CMove from to b) ch /\
  ~ stands from_doc i from /\ ~ stands to_doc j to /\ (snd from < 0)%Z.
Proof.
  eexists. exists 2, 7, (Some 1, (-1)%Z), (Some 2, (-1)%Z), false. split; [vm_compute; reflexivity|]. split; [right; right; right; left; reflexivity|].
  split; [|split; [|reflexivity]]; intros (k & E & _); lia.
Qed.
Print Assumptions C90_places_refuted.

(** *** C91 *)
(** No changes: the trees are the same, up to values that count as equal. *)
Theorem C91_no_changes : forall {A} (allowed equal : A -> A -> bool) ucost opts s d,
  del_cost opts = 1%Z -> ins_cost opts = 1%Z -> changes allowed equal ucost opts s d = Some [] ->
  alike (fun v w => allowed v w && equal v w) s d.
Proof.
  intros A allowed equal ucost opts s d D I H. destruct (compute_good allowed equal ucost opts D I s d) as (m & E & G).
  unfold changes, ast_diff in H. rewrite E in H. apply (quiet_alike allowed equal s d m G). congruence.
Qed.
Print Assumptions C91_no_changes.
Example C91_no_changes_example : changes same_kind (fun _ _ => true) one default_options
  (nd 0 0 [nd 1 1 []; nd 5 2 [nd 6 1 []]]) (nd 0 9 [nd 1 7 []; nd 5 3 [nd 6 4 []]]) = Some [].
Proof. vm_compute. reflexivity. Qed.

(** *** C92 *)
(** The same tree gives no changes if it is higher than the least height, or not larger than the largest size. *)
Theorem C92_same_partial : forall {A} (allowed equal : A -> A -> bool) ucost opts s d,
  alike (fun v w => allowed v w && equal v w) s d ->
  greedy opts = false /\ min_height opts < levels s \/
  stop_after_top_down opts = false /\ count s <= max_size opts /\ del_cost opts = 1%Z /\ ins_cost opts = 1%Z /\ (forall x y, (0 <= ucost x y)%Z) ->
  changes allowed equal ucost opts s d = Some [].
Proof. intros A allowed equal ucost opts s d H F. apply same_quiet; [exact H|exact F]. Qed.
Print Assumptions C92_same_partial.
(** So with the default options, for any tree that has more than two levels or at most a hundred nodes *)
Theorem C92_default_partial : forall {A} (allowed equal : A -> A -> bool) s d,
  alike (fun v w => allowed v w && equal v w) s d -> 2 < levels s \/ count s <= 100 ->
  changes allowed equal (fun _ _ => 1%Z) default_options s d = Some [].
Proof.
  intros A allowed equal s d H [L|C]; apply C92_same_partial; try exact H; [left; auto|right]. repeat split; auto. intros _ _. lia.
Qed.
Print Assumptions C92_default_partial.
Definition flat (n : nat) : tree (Z * Z) := nd 0 0 (map (fun i => nd 1 (Z.of_nat i) []) (seq 0 n)).
Example C92_examples :
  alike (fun v w => same_kind v w && same_node v w) old_doc old_doc /\ 2 < levels old_doc /\
  alike (fun v w => same_kind v w && same_node v w) (flat 99) (flat 99) /\ count (flat 99) <= 100.
Proof.
  assert (R : forall v, same_kind v v && same_node v v = true) by (intros v; unfold same_kind, same_node; rewrite !Z.eqb_refl; reflexivity).
  split; [apply alike_refl; exact R|]. split; [vm_compute; lia|]. split; [apply alike_refl; exact R|]. apply Nat.leb_le. vm_compute. reflexivity.
Qed.
(** A root with a hundred children is not the same as itself: each of them has been removed and inserted. *)
Theorem C92_flat_refuted : exists ch, changes same_kind same_node one default_options (flat 100) (flat 100) = Some ch /\
  List.length ch = 200 /\ forall i, 0 < i < 101 -> In (Some i, None, CDelete) ch.
Proof.
  eexists. split; [vm_compute; reflexivity|]. split; [vm_compute; reflexivity|]. intros i B.
  match goal with |- In _ ?l => assert (H : forallb (fun i => existsb (fun x => match x with (Some j, None, CDelete) => i =? j | _ => false end) l) (seq 1 100) = true) by (vm_compute; reflexivity) end.
  rewrite forallb_forall in H. specialize (H i). rewrite in_seq in H. specialize (H ltac:(lia)). apply existsb_exists in H as (x & J & E).
  destruct x as [[[j|] [b|]] [| | | |]]; try discriminate E. apply Nat.eqb_eq in E. subst j. exact J.
Qed.
Print Assumptions C92_flat_refuted.

(** *** C93 *)
(** Two documents without changes have nodes of the same kinds in the same places (up to the six kinds of leaves, which can
    stand for each other) and the same words, as far as the subnodes reach. *)
Theorem C93_same_words : forall a b, sem_changes a b = Some [] -> reads_same a b /\ forall l, spells a l -> spells b l.
Proof.
  intros a b H. assert (R : reads_same a b) by (apply reads_iff; apply (C91_no_changes sem_allowed sem_equal (fun _ _ => 1%Z) default_options); auto).
  split; [exact R|]. intros l. apply (reads_spells (store a) a b l eq_refl R).
Qed.
Print Assumptions C93_same_words.
(** The other way round, documents that read the same have no changes, with more than two levels or at most a hundred nodes. *)
Theorem C93_unchanged_partial : forall a b, reads_same a b -> 2 < levels (store a) \/ count (store a) <= 100 -> sem_changes a b = Some [].
Proof. intros a b H L. apply C92_default_partial; [apply reads_iff; exact H|exact L]. Qed.
Print Assumptions C93_unchanged_partial.
Theorem C93_compared : forall a b, exists m k ch,
  ast_diff sem_allowed sem_equal (fun _ _ => 1%Z) default_options (store a) (store b) = Some (m, k) /\ sem_changes a b = Some ch /\
  matching sem_allowed (store a) (store b) m /\ reports sem_equal (store a) (store b) m ch.
Proof.
  intros a b. destruct (C90_reports sem_allowed sem_equal (fun _ _ => 1%Z) default_options (store a) (store b) eq_refl eq_refl) as (m & k & ch & E & F & R).
  exists m, k, ch. split; [exact E|]. split; [exact F|]. split; [|exact R].
  destruct (C89_matching sem_allowed sem_equal (fun _ _ => 1%Z) default_options (store a) (store b) eq_refl eq_refl) as (m' & k' & E' & M). congruence.
Qed.
Print Assumptions C93_compared.
Definition doc_of (s : str) : sem := match run (fun _ _ => true) s with Done (_, d) => d | _ => ConvModel.node oEmpty [] end.
Example C93_example : sem_changes (doc_of (ln "* One" ++ ln "text")) (doc_of (ln "* One" ++ ln "texts here")) =
  Some [(Some 3, Some 3, CUpdate); (None, Some 4, CInsert (Some 2, 1%Z)); (None, Some 5, CInsert (Some 2, 2%Z))].
Proof. vm_compute. reflexivity. Qed.
(** Other titles of headings, languages and code make no change. *)
Theorem C93_titles_refuted :
  sem_changes (doc_of (ln "* One" ++ ln "text")) (doc_of (ln "* Two" ++ ln "text")) = Some [] /\
  doc_of (ln "* One" ++ ln "text") <> doc_of (ln "* Two" ++ ln "text").
Proof. split; [vm_compute; reflexivity|]. intros H. vm_compute in H. discriminate H. Qed.
Print Assumptions C93_titles_refuted.
Theorem C93_code_refuted :
  sem_changes (doc_of (ln "#+begin_src c" ++ ln "f();" ++ ln "#+end_src")) (doc_of (ln "#+begin_src py" ++ ln "g();" ++ ln "#+end_src")) = Some [] /\
  doc_of (ln "#+begin_src c" ++ ln "f();" ++ ln "#+end_src") <> doc_of (ln "#+begin_src py" ++ ln "g();" ++ ln "#+end_src").
Proof. split; [vm_compute; reflexivity|]. intros H. vm_compute in H. discriminate H. Qed.
Print Assumptions C93_code_refuted.

(** *** C94 *)
(** The same tree gives edits that keep each node, or none if these are not asked for. *)
Theorem C94_same_partial : forall {A} (same : A -> A -> bool) s d keeps, alike same s d -> 2 < levels s \/ count s <= 100 ->
  imm_edits same s d keeps = Ok (if keeps then map EKeep (seq 0 (count d)) else []).
Proof.
  intros A same s d keeps H L.
  assert (F : AstDiffSame.found (fun _ _ : A => 1%Z) default_options s) by (destruct L as [L|L]; [left; auto|right; repeat split; auto; intros; lia]).
  destruct (same_identity (fun _ _ => true) same (fun _ _ => 1%Z) default_options s d H F) as (m & E & ID & IS).
  unfold imm_edits, ast_diff. rewrite E. unfold get_edits. pose proof (same_count (fun _ _ => true) same s d H) as C.
  assert (V : forall j, j < count s -> edit_of same s d m keeps j = Ok (if keeps then [EKeep j] else [])).
  { intros j B. unfold edit_of, get_mapped. rewrite ID, (proj2 (Nat.ltb_lt _ _) B).
    destruct (same_values (fun _ _ => true) same s d H j B) as [_ Q]. unfold values_equal in Q. destruct (value_at (from_node s) j), (value_at (from_node d) j); try discriminate. rewrite Q. reflexivity. }
  assert (EO : forall l, (forall j, In j l -> j < count s) -> edits_of same s d m keeps l = Ok (if keeps then map EKeep l else [])).
  { induction l as [|j r IH]; intros B; [destruct keeps; reflexivity|]. cbn [edits_of]. rewrite V by (apply B; left; reflexivity). cbn [obind]. rewrite IH by (intros x X; apply B; right; exact X). destruct keeps; reflexivity. }
  rewrite !size_count, EO by (intros j J; apply in_seq in J; lia). cbn [obind].
  rewrite filter_none; [cbn [map]; rewrite app_nil_r; reflexivity|].
  intros i J. apply in_seq in J. unfold get_mapped. rewrite IS, (proj2 (Nat.ltb_lt _ _)) by lia. reflexivity.
Qed.
Print Assumptions C94_same_partial.
Definition inode (n : Z) : tree Z := T n [T 8%Z [T n []]; T 9%Z []].
Example C94_same_example : alike Z.eqb (T 0%Z [inode 1; inode 2]) (T 0%Z [inode 1; inode 2]) /\ 2 < levels (T 0%Z [inode 1; inode 2]).
Proof. split; [apply alike_refl; apply Z.eqb_refl|]. vm_compute. lia. Qed.
(** A node that is put before the others makes the edits fail: a number of a node of one tree is looked up in the other. *)
Theorem C94_insert_refuted : imm_edits Z.eqb (T 0%Z [inode 1]) (T 0%Z [inode 2; inode 1]) true = Throw.
Proof. vm_compute. reflexivity. Qed.
Print Assumptions C94_insert_refuted.
(** If the first of two is removed, the second is reported as inserted, though it is matched, and its nodes in the first tree
    as deleted. *)
Theorem C94_delete_refuted : exists m k, 
  ast_diff (fun _ _ => true) Z.eqb (fun _ _ => 1%Z) default_options (T 0%Z [inode 2; inode 1]) (T 0%Z [inode 1]) = Some (m, k) /\ get_src m 1 = Some 5 /\
  imm_edits Z.eqb (T 0%Z [inode 2; inode 1]) (T 0%Z [inode 1]) true =
    Ok [EKeep 0; EInsert 1; EInsert 2; EInsert 3; EInsert 4; EDelete 5; EDelete 6; EDelete 7; EDelete 8].
Proof. eexists. eexists. split; [vm_compute; reflexivity|]. split; vm_compute; reflexivity. Qed.
Print Assumptions C94_delete_refuted.
