(** C36-C39, C58: the immutable tree store. *)
From Coq Require Import List Bool Arith ZArith Lia Permutation Sorted.
From Verif Require Import Base ImmModel ImmSpec ImmProofs ImmAssign ImmCascade ImmList.
Import ListNotations.
Local Open Scope nat_scope.

(** A document (kind 1) with two paragraphs (kind 3) of words (kind 4); the
    last number before a child list is the source location. *)
Definition word (w l : nat) : tree := Node 4 w l [].
Definition ex_doc : tree := Node 1 0 7
  [((0, Idx 0), Node 3 0 1 [((0, Idx 0), word 10 1)]);
   ((0, Idx 1), Node 3 0 2 [((0, Idx 0), word 11 2); ((0, Idx 1), word 10 3); ((0, Idx 2), word 12 4)])].
Definition ex_store : store := fst (add_tree [] ex_doc).
Definition ex_root : nat := snd (add_tree [] ex_doc).

(** ** C36 *)
(** Whatever calls are made afterwards, failing ones included, an id denotes
    the tree it denoted, and a path leads where it led. *)
Theorem C36_old_versions_unchanged : forall cs s id t, denotes s id t ->
  denotes (performs s cs) id t /\ (forall t', denotes (performs s cs) id t' -> t' = t) /\
  (forall p i, id_at s id p = Ok i -> id_at (performs s cs) id p = Ok i).
Proof.
  intros cs s id t D. pose proof (performs_ext cs s) as X. split; [now apply (denotes_ext _ _ _ _ X)|]. split.
  - intros t' D'. eapply denotes_fun; [exact D'|]. now apply (denotes_ext _ _ _ _ X).
  - intros p i. now apply id_at_ext.
Qed.
Print Assumptions C36_old_versions_unchanged.
(** Several calls, one of them failing; the old root still shows the old
    words. *)
Example C36_demo :
  let cs := [SetSubnodes (mkU 5 6 [(0, Idx 1)]) [3; 4]; Cascade 9 stable_sort 6 (replacements 6 [([(0, Idx 1)], 5, 7)]);
             SetSubnodes (mkU 5 6 [(0, Idx 1)]) [3; 1; 4]; AddTree (word 99 9)] in
  length (performs ex_store cs) = length ex_store + 3 /\
  get_tree 9 (performs ex_store cs) ex_root = get_tree 9 ex_store ex_root /\
  get_tree 9 (performs ex_store cs) 8 =
    Ok (Node 1 0 7 [((0, Idx 0), Node 3 0 1 [((0, Idx 0), word 10 1)]);
                    ((0, Idx 1), Node 3 0 2 [((0, Idx 0), word 11 2); ((0, Idx 1), word 12 4)])]).
Proof. vm_compute. auto. Qed.

(** ** C37 *)
(** Replacements at several places, none inside another, for any sort that
    keeps the order of equal elements on lists as long as the child lists that
    occur. *)
Theorem C37_replace_partial : forall s root t E TE srt B, wf_store s -> denotes s root t ->
  (kind_of s root = 1 \/ kind_of s root = 2) ->
  (forall p o n, In (p, o, n) E -> p <> [] /\ id_at s root p = Ok o /\ o <> n) ->
  (forall p o n p' o' n', In (p, o, n) E -> In (p', o', n') E -> is_prefix p p' -> (p, o, n) = (p', o', n')) ->
  Forall2 (fun e x => fst (fst e) = fst x /\ denotes s (snd e) (snd x)) E TE ->
  sorts_up_to B srt -> stable_up_to B srt -> (forall id n, node_at s id = Some n -> length (subs n) <= B) ->
  exists F, forall fuel, F <= fuel -> exists s' root' ep t',
    cascade fuel srt s root (replacements root E) = (s', Ok (root', ep)) /\ extends s s' /\ wf_store s' /\
    denotes s' root' t' /\ noloc t' = noloc (replace_all TE t).
Proof.
  intros s root t E TE srt B W D K V A T So St Sm. exists (S (height t)). intros fuel Hf.
  destruct (parents_ok s root E V K) as (ps & P & _).
  destruct (recurse_good s root E TE W V A T K srt B So St Sm ps P fuel [] root t s []) as (s' & id' & ep' & t' & R1 & R2 & R3 & R4 & R5 & _);
    [lia|exact D|reflexivity|exists []; now rewrite app_nil_r|exact W|intros ? ? []|].
  exists s', id', ep', t'. unfold cascade. rewrite P. auto.
Qed.
Print Assumptions C37_replace_partial.

(** One replacement, with the sort of GCC's library, in a document whose nodes
    have at most 16 references each: the new document is the old one with the
    subtree at the path replaced... *)
Theorem C37_replace_one_partial : forall s root t p o n new, wf_store s -> denotes s root t ->
  (kind_of s root = 1 \/ kind_of s root = 2) -> p <> [] -> id_at s root p = Ok o -> o <> n -> denotes s n new ->
  (forall id m, node_at s id = Some m -> length (subs m) <= 16) ->
  exists F, forall fuel, F <= fuel -> exists s' root' ep t',
    cascade fuel std_sort s root (replacements root [(p, o, n)]) = (s', Ok (root', ep)) /\ extends s s' /\
    denotes s' root' t' /\ noloc t' = noloc (replace_at p new t).
Proof.
  intros s root t p o n new W D K P A N Dn Sm.
  destruct (C37_replace_partial s root t [(p, o, n)] [(p, new)] std_sort 16) as [F H]; auto.
  - intros p' o' n' [[= <- <- <-]|[]]. auto.
  - intros p1 o1 n1 p2 o2 n2 [[= <- <- <-]|[]] [[= <- <- <-]|[]] _. reflexivity.
  - intros l L. rewrite std_sort_small by exact L. apply stable_sort_sorts.
  - intros l L f. rewrite std_sort_small by exact L. apply stable_sort_stable.
  - exists F. intros fuel Hf. destruct (H fuel Hf) as (s' & r' & ep & t' & H1 & H2 & _ & H4 & H5).
    exists s', r', ep, t'. rewrite <- replace_all_one. auto.
Qed.
Print Assumptions C37_replace_one_partial.
(** ... where replacing means: the new subtree there, the old one at every
    place that is neither above nor below. *)
Theorem C37_replace_meaning : forall p new t, subtree t p <> None -> subtree (replace_at p new t) p = Some new /\
  forall q, ~ is_prefix p q -> ~ is_prefix q p -> subtree (replace_at p new t) q = subtree t q.
Proof.
  intros p new t H. split; [now apply replace_at_there|]. intros q A B. now apply replace_at_elsewhere.
Qed.
Print Assumptions C37_replace_meaning.
(** Replacing the root itself. *)
Theorem C37_replace_root : forall fuel srt s root new, node_at s new <> None -> root <> new ->
  (kind_of s root = 1 \/ kind_of s root = 2) -> (kind_of s new = 1 \/ kind_of s new = 2) ->
  exists ep, cascade (S (S fuel)) srt s root [(mkU root root [], mkU new root [])] = (s, Ok (new, ep)).
Proof. exact cascade_root. Qed.
Print Assumptions C37_replace_root.

(** The replacements reported with the new document: each is a node of the old
    document with the node that is at the same place in the new one; the places
    of the edits and all places above them are reported. *)
Theorem C37_recorded : forall s root t E TE srt B, wf_store s -> denotes s root t ->
  (kind_of s root = 1 \/ kind_of s root = 2) ->
  (forall p o n, In (p, o, n) E -> p <> [] /\ id_at s root p = Ok o /\ o <> n) ->
  (forall p o n p' o' n', In (p, o, n) E -> In (p', o', n') E -> is_prefix p p' -> (p, o, n) = (p', o', n')) ->
  Forall2 (fun e x => fst (fst e) = fst x /\ denotes s (snd e) (snd x)) E TE ->
  sorts_up_to B srt -> stable_up_to B srt -> (forall id n, node_at s id = Some n -> length (subs n) <= B) ->
  exists F, forall fuel, F <= fuel -> exists s' root' ep,
    cascade fuel srt s root (replacements root E) = (s', Ok (root', ep)) /\
    (forall k v, In (k, v) ep -> uroot k = root /\ uroot v = root /\ upath v = upath k /\
       id_at s root (upath k) = Ok (uid k) /\ id_at s' root' (upath k) = Ok (uid v)) /\
    (forall p o n q, In (p, o, n) E -> is_prefix q p -> exists k v, In (k, v) ep /\ upath k = q).
Proof.
  intros s root t E TE srt B W D K V A T So St Sm. exists (S (height t)). intros fuel Hf.
  destruct (parents_ok s root E V K) as (ps & P & _).
  destruct (recurse_good s root E TE W V A T K srt B So St Sm ps P fuel [] root t s []) as (s' & id' & ep' & t' & R1 & R2 & R3 & R4 & R5 & R6 & R7 & R8 & R9);
    [lia|exact D|reflexivity|exists []; now rewrite app_nil_r|exact W|intros ? ? []|].
  exists s', id', ep'. unfold cascade. rewrite P. split; [exact R1|]. split.
  - intros k v H. destruct (R7 k v H) as [[]|(rel & Q1 & Q2 & Q3 & Q4)]. cbn [app] in *.
    assert (U : upath k = rel) by (rewrite Q1; reflexivity). rewrite U.
    split; [rewrite Q1; reflexivity|]. split; [rewrite Q3; reflexivity|]. split; [rewrite Q3; reflexivity|]. auto.
  - intros p o n q H X. destruct (R9 q) as (k & v & I & Q); [exists p, o, n; auto|]. eauto.
Qed.
Print Assumptions C37_recorded.
(** Whatever is replaced, no node is made up: a node of the new store is an old
    one, or an old one with other references, at the same source location. *)
Theorem C37_new_nodes : forall fuel srt s root edits m, In m (fst (cascade fuel srt s root edits)) ->
  exists m0, In m0 s /\ kind m = kind m0 /\ data m = data m0 /\ loc m = loc m0.
Proof.
  intros fuel srt s root edits m. unfold cascade. destruct (edit_parents s edits); cbn [fst]; [|eauto..].
  apply recurse_nodes. intros n H. eauto.
Qed.
Print Assumptions C37_new_nodes.

(** The word 10 of the second paragraph (the same id as the one in the first)
    becomes 12. *)
Example C37_demo : exists s' ep, wf_store ex_store /\
  id_at ex_store 6 [(0, Idx 0); (0, Idx 0)] = Ok 1 /\ id_at ex_store 6 [(0, Idx 1); (0, Idx 1)] = Ok 1 /\
  cascade 9 std_sort ex_store 6 (replacements 6 [([(0, Idx 1); (0, Idx 1)], 1, 4)]) = (s', Ok (8, ep)) /\
  get_tree 9 s' 8 =
    Ok (Node 1 0 7 [((0, Idx 0), Node 3 0 1 [((0, Idx 0), word 10 1)]);
                    ((0, Idx 1), Node 3 0 2 [((0, Idx 0), word 11 2); ((0, Idx 1), word 12 4); ((0, Idx 2), word 12 4)])]).
Proof.
  eexists. eexists. split.
  - destruct (add_tree_good ex_doc []) as (t' & W & _); [intros i n H; destruct i; discriminate| |exact W].
    assert (S : forall n, well_shaped (map (fun i => (0, Idx i)) (seq 0 n))).
    { intros n f. destruct f as [|f].
      - right. right. right. left. exists n. rewrite filter_id; [reflexivity|]. intros x H. apply in_map_iff in H. now destruct H as (i & <- & _).
      - left. apply filter_nil. intros x H. apply in_map_iff in H. now destruct H as (i & <- & _). }
    cbn. pose proof (S 0). pose proof (S 1). pose proof (S 2). pose proof (S 3). cbn in *. tauto.
  - vm_compute. repeat split.
Qed.

(** Findings.  std::sort promises no order among equal elements, and all
    children of a node are equal to it.  With GCC's library the 17 words of a
    paragraph come out in another order when any one of them is replaced. *)
Definition wide_doc : tree := Node 1 0 0 [((0, Idx 0), Node 3 0 0 (map (fun i => ((0, Idx i), word i 0)) (seq 0 17)))].
Definition wide_store : store := fst (add_tree [] wide_doc).
Theorem C37_order_refuted :
  id_at wide_store 19 [(0, Idx 0); (0, Idx 0)] = Ok 1 /\ get_tree 3 wide_store 19 = Ok wide_doc /\
  (let l := combine (map (fun i => (0, Idx i)) (seq 0 17)) (seq 1 17) in
   Permutation l (std_sort l) /\ StronglySorted field_le (std_sort l)) /\
  exists s' ep, cascade 9 std_sort wide_store 19 (replacements 19 [([(0, Idx 0); (0, Idx 0)], 1, 2)]) = (s', Ok (21, ep)) /\
    get_tree 9 s' 21 = Ok (Node 1 0 0 [((0, Idx 0), Node 3 0 0
      (map (fun x => ((0, Idx (fst x)), word (snd x) 0))
         (combine (seq 0 17) [8; 16; 15; 14; 13; 12; 11; 10; 9; 1; 7; 6; 5; 4; 3; 2; 1])))]).
Proof.
  split; [reflexivity|]. split; [reflexivity|]. split.
  - cbv zeta. split.
    + apply NoDup_Permutation_bis.
      * apply (NoDup_map_inv snd). vm_compute. repeat constructor; cbn; intuition discriminate.
      * vm_compute. auto.
      * intros x H. vm_compute in H. vm_compute. intuition.
    + vm_compute. repeat (constructor; [|repeat constructor; auto]). constructor.
  - eexists. eexists. split; vm_compute; reflexivity.
Qed.
Print Assumptions C37_order_refuted.
(** Two words of the same paragraph at different places of the text: when the
    edited paragraph becomes equal to another one, the document shows the
    location of that other one. *)
Theorem C37_location_refuted :
  let doc := Node 1 0 0 [((0, Idx 0), Node 3 0 5 [((0, Idx 0), word 1 0)]); ((0, Idx 1), Node 3 0 9 [((0, Idx 0), word 2 0)])] in
  let s := fst (add_tree [] doc) in
  get_tree 9 s 5 = Ok doc /\
  exists s' ep, cascade 9 std_sort s 5 (replacements 5 [([(0, Idx 1); (0, Idx 0)], 3, 1)]) = (s', Ok (6, ep)) /\
    get_tree 9 s' 6 = Ok (Node 1 0 0 [((0, Idx 0), Node 3 0 5 [((0, Idx 0), word 1 0)]);
                                      ((0, Idx 1), Node 3 0 5 [((0, Idx 0), word 1 0)])]) /\
    replace_at [(0, Idx 1); (0, Idx 0)] (word 1 0) doc =
      Node 1 0 0 [((0, Idx 0), Node 3 0 5 [((0, Idx 0), word 1 0)]); ((0, Idx 1), Node 3 0 9 [((0, Idx 0), word 1 0)])].
Proof. cbv zeta. split; [reflexivity|]. eexists. eexists. repeat split; vm_compute; reflexivity. Qed.
Print Assumptions C37_location_refuted.

(** ** C38 *)
(** [new_children s u l res] says that the call succeeded and that its result
    differs from the node of [u] in the list of children only, which is [l].
    Positions are ints, sizes are below 2^64. *)
Theorem C38_insert : forall s u x pos n, node_at s (uid u) = Some n ->
  (0 <= pos <= Z.of_nat (length (children n)))%Z -> (pos < 2 ^ 64)%Z ->
  new_children s u (firstn (Z.to_nat pos) (children n) ++ [x] ++ skipn (Z.to_nat pos) (children n)) (insert_subnode s u x pos).
Proof.
  intros s u x pos n N H L. unfold insert_subnode, with_node. rewrite N, v_insert_in by auto. apply set_subnodes_ok with (n := n); [exact N|].
  intros Q. apply (f_equal (@length nat)) in Q. rewrite !app_length, firstn_length, skipn_length in Q. cbn in Q. lia.
Qed.
Print Assumptions C38_insert.
Theorem C38_append : forall s u x n, node_at s (uid u) = Some n -> (Z.of_nat (length (children n)) < 2 ^ 64)%Z ->
  new_children s u (children n ++ [x]) (append_subnode s u x).
Proof.
  intros s u x n N L. unfold append_subnode, with_node. rewrite N.
  pose proof (C38_insert s u x (Z.of_nat (length (children n))) n N) as H. rewrite Nat2Z.id, firstn_all, skipn_all in H. cbn [app] in H.
  apply H; lia.
Qed.
Print Assumptions C38_append.
Theorem C38_insert_many : forall s u xs pos n, node_at s (uid u) = Some n -> xs <> [] ->
  ((0 <= pos <= Z.of_nat (length (children n)))%Z ->
     new_children s u (firstn (Z.to_nat pos) (children n) ++ xs ++ skipn (Z.to_nat pos) (children n)) (insert_subnodes s u xs pos)) /\
  (~ (0 <= pos <= Z.of_nat (length (children n)))%Z -> insert_subnodes s u xs pos = (s, Throw)).
Proof.
  intros s u xs pos n N X. unfold insert_subnodes, with_node. rewrite N. split; intros H.
  - destruct (Z.ltb_spec pos 0); [lia|]. destruct (Z.ltb_spec (Z.of_nat (length (children n))) pos); [lia|]. cbn [orb].
    apply set_subnodes_ok with (n := n); [exact N|].
    intros Q. apply (f_equal (@length nat)) in Q. rewrite !app_length, firstn_length, skipn_length in Q.
    destruct xs; [congruence|cbn in Q; lia].
  - destruct (Z.ltb_spec pos 0); [reflexivity|]. destruct (Z.ltb_spec (Z.of_nat (length (children n))) pos); [reflexivity|lia].
Qed.
Print Assumptions C38_insert_many.
Theorem C38_drop : forall s u pos n, node_at s (uid u) = Some n ->
  (0 <= pos < Z.of_nat (length (children n)))%Z -> (pos + 1 < 2 ^ 64)%Z ->
  new_children s u (firstn (Z.to_nat pos) (children n) ++ skipn (S (Z.to_nat pos)) (children n)) (drop_subnode s u pos).
Proof.
  intros s u pos n N H L. unfold drop_subnode, with_node. rewrite N, v_erase_in by auto. apply set_subnodes_ok with (n := n); [exact N|].
  intros Q. apply (f_equal (@length nat)) in Q. rewrite !app_length, firstn_length, skipn_length in Q. lia.
Qed.
Print Assumptions C38_drop.
(** By id: the first occurrence goes; without one the call throws. *)
Theorem C38_drop_id : forall s u x n, node_at s (uid u) = Some n -> (Z.of_nat (length (children n)) < 2 ^ 64)%Z ->
  (forall l1 l2, children n = l1 ++ x :: l2 -> ~ In x l1 -> new_children s u (l1 ++ l2) (drop_subnode_id s u x)) /\
  (~ In x (children n) -> drop_subnode_id s u x = (s, Throw)).
Proof.
  intros s u x n N L. unfold drop_subnode_id, with_node. rewrite N. pose proof (index_of_spec (children n) x) as I. split.
  - intros l1 l2 E Nin. destruct (index_of (children n) x) as [i|].
    + destruct I as (k1 & k2 & I1 & I2 & I3).
      assert (Q : l1 = k1 /\ l2 = k2).
      { rewrite E in I1. clear - I1 I3 Nin. revert k1 I1 I3. induction l1 as [|a l1 IH]; intros [|b k1] I1 I3; cbn in *.
        - injection I1 as ->. auto.
        - injection I1 as -> _. tauto.
        - injection I1 as -> _. tauto.
        - injection I1 as -> I1. destruct (IH (fun h => Nin (or_intror h)) k1 I1) as [-> ->]; auto. }
      destruct Q as [<- <-]. clear I1 I3.
      pose proof (C38_drop s u (Z.of_nat i) n N) as H. rewrite E, Nat2Z.id in H. subst i.
      rewrite firstn_app, firstn_all, Nat.sub_diag in H. cbn [firstn] in H. rewrite app_nil_r in H.
      replace (skipn (S (length l1)) (l1 ++ x :: l2)) with l2 in H.
      * apply H; rewrite E, !app_length in *; cbn [length] in *; lia.
      * clear. induction l1 as [|a l1 IH]; [reflexivity|]. exact IH.
    + exfalso. apply I. rewrite E. apply in_or_app. right. now left.
  - intros Nin. destruct (index_of (children n) x) as [i|]; [|reflexivity].
    destruct I as (k1 & k2 & I1 & _). exfalso. apply Nin. rewrite I1. apply in_or_app. right. now left.
Qed.
Print Assumptions C38_drop_id.
(** Pop also hands out the child it removes; out of range it throws. *)
Theorem C38_pop : forall s u pos n, node_at s (uid u) = Some n ->
  ((0 <= pos < Z.of_nat (length (children n)))%Z -> (pos + 1 < 2 ^ 64)%Z -> exists s' r,
     pop_subnode s u pos = (s', Ok (r, nth (Z.to_nat pos) (children n) 0)) /\
     new_children s u (firstn (Z.to_nat pos) (children n) ++ skipn (S (Z.to_nat pos)) (children n)) (s', Ok r)) /\
  (~ (0 <= pos < Z.of_nat (length (children n)))%Z -> pop_subnode s u pos = (s, Throw)).
Proof.
  intros s u pos n N. split.
  - intros H L. pose proof (C38_drop s u pos n N H L) as D. unfold pop_subnode, with_node. rewrite N, v_at_in by auto.
    pose proof D as D2. destruct D as (n' & s' & id' & m & A & B & _). rewrite B in *. exists s', (u, moved u id'). split; [reflexivity|exact D2].
  - intros H. unfold pop_subnode, with_node. rewrite N. unfold v_at. destruct (in_range (children n) pos) eqn:R; [|reflexivity].
    apply in_range_iff in R. tauto.
Qed.
Print Assumptions C38_pop.
(** Move: the child at [pos] ends up at the clamped target position of the
    list, the others keep their order; an offset that leads nowhere changes
    nothing; positions outside, and targets outside when bounded, throw. *)
Theorem C38_move : forall s u pos offset bounded n, node_at s (uid u) = Some n ->
  (Z.of_nat (length (children n)) < 2 ^ 64)%Z ->
  let l := children n in
  let inside z := (0 <= z < Z.of_nat (length l))%Z in
  let target := Z.min (Z.max (pos + offset) 0) (Z.of_nat (length l) - 1) in
  let rest := firstn (Z.to_nat pos) l ++ skipn (S (Z.to_nat pos)) l in
  let moved := firstn (Z.to_nat target) rest ++ [nth (Z.to_nat pos) l 0] ++ skipn (Z.to_nat target) rest in
  (~ inside pos -> move_subnode s u pos offset bounded = (s, Throw)) /\
  (bounded = true -> ~ inside (pos + offset)%Z -> move_subnode s u pos offset bounded = (s, Throw)) /\
  (inside pos -> (bounded = true -> inside (pos + offset)%Z) -> target = pos ->
     move_subnode s u pos offset bounded = (s, Ok None)) /\
  (inside pos -> (bounded = true -> inside (pos + offset)%Z) -> target <> pos -> moved <> l ->
     exists s' r, move_subnode s u pos offset bounded = (s', Ok (Some r)) /\ new_children s u moved (s', Ok r)) /\
  (inside pos -> length moved = length l /\ nth_error moved (Z.to_nat target) = nth_error l (Z.to_nat pos) /\
     Permutation moved l).
Proof.
  intros s u pos offset bounded n N L l inside target rest moved.
  unfold move_subnode, with_node. rewrite N. fold l. fold target.
  assert (R : forall z, in_range l z = true <-> inside z) by apply in_range_iff.
  assert (R' : forall z, ~ inside z -> in_range l z = false).
  { intros z H. apply not_true_is_false. rewrite R. exact H. }
  split; [|split; [|split; [|split]]].
  - intros H. now rewrite (R' _ H).
  - intros -> H. rewrite (R' _ H). destruct (negb (in_range l pos)); reflexivity.
  - intros H B T. rewrite (proj2 (R pos) H). cbn [negb].
    assert (X : bounded && negb (in_range l (pos + offset)) = false).
    { destruct bounded; [|reflexivity]. now rewrite (proj2 (R _) (B eq_refl)). }
    rewrite X. now rewrite (proj2 (Z.eqb_eq _ _) T).
  - intros H B T M. rewrite (proj2 (R pos) H). cbn [negb].
    assert (X : bounded && negb (in_range l (pos + offset)) = false).
    { destruct bounded; [|reflexivity]. now rewrite (proj2 (R _) (B eq_refl)). }
    rewrite X. rewrite (proj2 (Z.eqb_neq _ _) T). rewrite v_at_in by exact H.
    assert (Q : v_insert (v_erase l pos) target (nth (Z.to_nat pos) l 0) = moved).
    { unfold inside in H. fold l in L. rewrite v_erase_in by lia. rewrite v_insert_in; [reflexivity| |unfold target; lia].
      rewrite app_length, firstn_length, skipn_length. unfold target. lia. }
    rewrite Q. pose proof (set_subnodes_ok s u moved n N M) as D. pose proof D as D2. destruct D as (n' & s' & id' & m & A & E & _).
    rewrite E in *. exists s', (u, ImmModel.moved u id'). split; [reflexivity|exact D2].
  - intros H. unfold inside in H.
    assert (Lr : length rest = length l - 1).
    { unfold rest. rewrite app_length, firstn_length, skipn_length. lia. }
    assert (Tr : Z.to_nat target <= length rest) by (unfold target; lia).
    assert (Pr : Permutation (nth (Z.to_nat pos) l 0 :: rest) l).
    { unfold rest. rewrite <- (firstn_skipn (Z.to_nat pos) l) at 4.
      assert (C : skipn (Z.to_nat pos) l = nth (Z.to_nat pos) l 0 :: skipn (S (Z.to_nat pos)) l).
      { apply skipn_nth. lia. }
      rewrite C. apply Permutation_middle. }
    split; [|split].
    + unfold moved. rewrite !app_length, firstn_length, skipn_length. cbn [length]. lia.
    + unfold moved. rewrite nth_error_app2 by (rewrite firstn_length; lia). rewrite firstn_length.
      replace (Z.to_nat target - Nat.min (Z.to_nat target) (length rest)) with 0 by lia. cbn. symmetry. apply nth_error_nth'. lia.
    + eapply perm_trans; [|exact Pr]. unfold moved. cbn [app]. apply Permutation_sym. rewrite <- (firstn_skipn (Z.to_nat target) rest) at 1.
      apply Permutation_middle.
Qed.
Print Assumptions C38_move.
(** Overwriting one child with another one. *)
Theorem C38_set : forall s u x pos n, node_at s (uid u) = Some n ->
  (0 <= pos < Z.of_nat (length (children n)))%Z -> nth_error (children n) (Z.to_nat pos) <> Some x ->
  new_children s u (firstn (Z.to_nat pos) (children n) ++ [x] ++ skipn (S (Z.to_nat pos)) (children n)) (set_subnode s u x pos).
Proof.
  intros s u x pos n N H D. unfold set_subnode, with_node. rewrite N. unfold v_set. rewrite (proj2 (in_range_iff _ _) H). cbn [then_set].
  apply set_subnodes_ok with (n := n); [exact N|]. intros Q. apply D. rewrite <- Q.
  rewrite nth_error_app2 by (rewrite firstn_length; lia). rewrite firstn_length.
  replace (Z.to_nat pos - Nat.min (Z.to_nat pos) (length (children n))) with 0 by lia. reflexivity.
Qed.
Print Assumptions C38_set.
(** Swap of two different children. *)
Theorem C38_swap : forall s u i j n, node_at s (uid u) = Some n ->
  i < length (children n) -> j < length (children n) -> nth i (children n) 0 <> nth j (children n) 0 ->
  exists l, new_children s u l (swap_subnode s u (Z.of_nat i) (Z.of_nat j)) /\ length l = length (children n) /\
    nth_error l i = nth_error (children n) j /\ nth_error l j = nth_error (children n) i /\
    forall k, k <> i -> k <> j -> nth_error l k = nth_error (children n) k.
Proof.
  intros s u i j n N Hi Hj D. unfold swap_subnode, with_node. rewrite N. set (l := children n) in *.
  assert (Ne : i <> j) by (intros ->; congruence).
  rewrite (proj2 (Z.eqb_neq (Z.of_nat i) (Z.of_nat j))) by lia.
  rewrite !v_at_in by (fold l; lia). cbn [obind]. rewrite !Nat2Z.id.
  set (st := fun (l : list nat) (k : nat) (x : nat) => firstn k l ++ [x] ++ skipn (S k) l).
  assert (Sl : forall l k x, k < length l -> length (st l k x) = length l).
  { intros. unfold st. rewrite !app_length, firstn_length, skipn_length. cbn [length]. lia. }
  assert (Sn : forall k l x m, k < length l -> nth_error (st l k x) m = if Nat.eqb m k then Some x else nth_error l m).
  { clear. unfold st. induction k as [|k IH]; intros [|a l] x m H; cbn in *; try lia.
    - destruct m; reflexivity.
    - destruct m; [reflexivity|]. cbn. apply IH. lia. }
  assert (V : forall l k x, k < length l -> v_set l (Z.of_nat k) x = Ok (st l k x)).
  { intros l' k x H. unfold v_set. rewrite (proj2 (in_range_iff l' (Z.of_nat k))) by lia. now rewrite Nat2Z.id. }
  rewrite V by exact Hi. cbn [obind]. rewrite V by (rewrite Sl; auto). cbn [then_set].
  exists (st (st l i (nth j l 0)) j (nth i l 0)).
  assert (E : forall k, nth_error (st (st l i (nth j l 0)) j (nth i l 0)) k =
    if Nat.eqb k j then nth_error l i else if Nat.eqb k i then nth_error l j else nth_error l k).
  { intros k. rewrite Sn by (rewrite Sl; auto). rewrite Sn by auto. rewrite (nth_error_nth' l 0 Hi), (nth_error_nth' l 0 Hj). reflexivity. }
  split; [|split; [|split; [|split]]].
  - apply set_subnodes_ok with (n := n); [exact N|]. intros Q. fold l in Q. specialize (E i). rewrite Q in E.
    rewrite Nat.eqb_refl, (proj2 (Nat.eqb_neq i j) Ne), (nth_error_nth' l 0 Hi), (nth_error_nth' l 0 Hj) in E. congruence.
  - rewrite !Sl; auto. now rewrite Sl.
  - rewrite E, Nat.eqb_refl, (proj2 (Nat.eqb_neq i j) Ne). reflexivity.
  - rewrite E, Nat.eqb_refl. reflexivity.
  - intros k K1 K2. rewrite E, (proj2 (Nat.eqb_neq k j) K2), (proj2 (Nat.eqb_neq k i) K1). reflexivity.
Qed.
Print Assumptions C38_swap.

(** The second paragraph of the example, children [3; 1; 4]. *)
Definition second : uniq := mkU 5 6 [(0, Idx 1)].
Definition kids_after {A} (r : store * outcome A) (id : A -> nat) : outcome (list nat) :=
  obind (snd r) (fun x => match node_at (fst r) (id x) with Some n => Ok (children n) | None => Throw end).
Notation new_id := (fun r : uniq * uniq => uid (snd r)).
Example C38_demo :
  kids_after (insert_subnode ex_store second 2 1) new_id = Ok [3; 2; 1; 4] /\
  kids_after (append_subnode ex_store second 2) new_id = Ok [3; 1; 4; 2] /\
  kids_after (insert_subnodes ex_store second [2; 2] 2) new_id = Ok [3; 1; 2; 2; 4] /\
  kids_after (drop_subnode ex_store second 1) new_id = Ok [3; 4] /\
  kids_after (drop_subnode_id ex_store second 4) new_id = Ok [3; 1] /\
  kids_after (pop_subnode ex_store second 0) (fun r => uid (snd (fst r))) = Ok [1; 4] /\
  kids_after (swap_subnode ex_store second 0 2) new_id = Ok [4; 1; 3] /\
  kids_after (set_subnode ex_store second 2 1) new_id = Ok [3; 2; 4] /\
  kids_after (move_subnode ex_store second 0 1 true) (fun r => match r with Some x => uid (snd x) | None => 0 end) = Ok [1; 3; 4] /\
  kids_after (move_subnode ex_store second 0 9 false) (fun r => match r with Some x => uid (snd x) | None => 0 end) = Ok [1; 4; 3].
Proof. vm_compute. repeat split. Qed.

(** Findings.  An edit that leaves the list as it is throws... *)
Theorem C38_unchanged_refuted :
  let s := fst (intern ex_store (mkN 3 0 0 [((0, Idx 0), 1); ((0, Idx 1), 1)])) in
  snd (set_subnode ex_store second 1 1) = Throw /\
  snd (swap_subnode s (mkU 7 7 []) 0 1) = Throw /\
  snd (move_subnode s (mkU 7 7 []) 0 1 true) = Throw /\
  snd (insert_subnodes ex_store second [] 1) = Throw.
Proof. vm_compute. repeat split. Qed.
Print Assumptions C38_unchanged_refuted.
(** ... and positions outside the list are not refused everywhere: insert
    appends, drop past the end does nothing but throw for that reason, drop at
    -1 doubles the list, overwriting is undefined. *)
Theorem C38_out_of_range_refuted :
  kids_after (insert_subnode ex_store second 2 (-1)) new_id = Ok [3; 1; 4; 2] /\
  kids_after (insert_subnode ex_store second 2 99) new_id = Ok [3; 1; 4; 2] /\
  kids_after (drop_subnode ex_store second (-1)) new_id = Ok [3; 1; 4; 3; 1; 4] /\
  snd (set_subnode ex_store second 2 3) = UB /\
  snd (swap_subnode ex_store second 3 0) = UB.
Proof. vm_compute. repeat split. Qed.
Print Assumptions C38_out_of_range_refuted.

(** ** C39 *)
(** The ancestor chain of the node at a path: the nodes at the proper prefixes
    of the path, longest first, and the root once more. *)
Theorem C39_chain_exact : forall s u us, parent_chain s u = Ok us ->
  map upath us = map (fun k => firstn k (upath u)) (rev (seq 0 (length (upath u)))) ++ [[]] /\
  Forall (fun a => uroot a = uroot u /\ id_at s (uroot u) (upath a) = Ok (uid a)) us.
Proof.
  intros s u us H. unfold parent_chain in H. destruct (adapt_all_exact _ _ _ _ H) as [A B]. rewrite spans_all in A. auto.
Qed.
Print Assumptions C39_chain_exact.
(** For a path that leads somewhere it is computed, and its members are the
    proper ancestors and the root. *)
Theorem C39_chain_members : forall s u, id_at s (uroot u) (upath u) = Ok (uid u) ->
  exists us, parent_chain s u = Ok us /\ forall a, In a us <->
    uroot a = uroot u /\ id_at s (uroot u) (upath a) = Ok (uid a) /\
    ((exists r, r <> [] /\ upath u = upath a ++ r) \/ upath a = []).
Proof.
  intros s u H. destruct (adapt_all_ok s (uroot u) (spans (upath u) (length (upath u)) ++ [[]])) as (us & A & _).
  { intros p Hp. apply in_app_iff in Hp. destruct Hp as [Hp|[<-|[]]]; [|now exists (uroot u)].
    apply in_spans in Hp; [|lia]. destruct Hp as (i & _ & ->). rewrite <- (firstn_skipn i (upath u)) in H.
    rewrite id_at_app in H. destruct (id_at s (uroot u) (firstn i (upath u))); try discriminate. eauto. }
  exists us. split; [exact A|]. destruct (adapt_all_exact _ _ _ _ A) as [P F]. rewrite Forall_forall in F. intros a.
  assert (Q : forall p, In p (map upath us) <-> (exists r, r <> [] /\ upath u = p ++ r) \/ p = []).
  { intros p. rewrite P, in_app_iff, in_spans by lia. rewrite proper_prefix. cbn. intuition. }
  split.
  - intros Ha. destruct (F a Ha) as [F1 F2]. split; [exact F1|]. split; [exact F2|]. apply Q. now apply in_map.
  - intros (R & I & C). apply Q in C. apply in_map_iff in C. destruct C as (b & Eb & Hb). destruct (F b Hb) as [F1 F2].
    replace a with b; [exact Hb|]. destruct a as [ai ar ap], b as [bi br bp]. cbn in *. subst. rewrite F2 in I. congruence.
Qed.
Print Assumptions C39_chain_members.
(** The parent is the node at the path without its last step. *)
Theorem C39_parent : forall s u st p, upath u = p ++ [st] -> id_at s (uroot u) (upath u) = Ok (uid u) ->
  exists i, id_at s (uroot u) p = Ok i /\ parent_of s u = Ok (Some (mkU i (uroot u) p)).
Proof.
  intros s u st p E H. rewrite E, id_at_app in H. destruct (id_at s (uroot u) p) as [i| | |] eqn:A; try discriminate.
  exists i. split; [reflexivity|]. unfold parent_of. rewrite E. destruct (p ++ [st]) eqn:Q; [destruct p; discriminate|]. rewrite <- Q.
  rewrite removelast_last, A. reflexivity.
Qed.
Print Assumptions C39_parent.
(** Position among the siblings and the neighbours, for a node whose parent
    has no child twice. *)
Theorem C39_siblings : forall s u p i j n, upath u = p ++ [(0, Idx i)] -> id_at s (uroot u) (upath u) = Ok (uid u) ->
  id_at s (uroot u) p = Ok j -> node_at s j = Some n -> NoDup (children n) -> nth_error (children n) i = Some (uid u) ->
  self_index s u = Ok (Z.of_nat i) /\
  forall off, adjacent s u off = Ok (match (if (Z.of_nat i + off <? 0)%Z then None else nth_error (children n) (Z.to_nat (Z.of_nat i + off))) with
                                     | Some x => Some (mkU x (uroot u) (p ++ [(0, Idx (Z.to_nat (Z.of_nat i + off)))]))
                                     | None => None
                                     end).
Proof.
  intros s u p i j n E H A N ND X. destruct (C39_parent s u _ p E H) as (j' & A' & P). rewrite A in A'. injection A' as <-.
  assert (I : index_of (children n) (uid u) = Some i).
  { pose proof (index_of_spec (children n) (uid u)) as I. destruct (index_of (children n) (uid u)) as [k|].
    - destruct I as (l1 & l2 & I1 & I2 & _). f_equal. apply (proj1 (NoDup_nth_error (children n)) ND).
      + rewrite I1, app_length. cbn. lia.
      + rewrite X, I1, nth_error_app2 by lia. replace (k - length l1) with 0 by lia. reflexivity.
    - exfalso. apply I. eapply nth_error_In; eauto. }
  assert (SI : self_index s u = Ok (Z.of_nat i)).
  { unfold self_index. rewrite P. cbn [omap obind uid]. rewrite N, I. reflexivity. }
  split; [exact SI|]. intros off. unfold adjacent. rewrite P. cbn [obind]. rewrite SI. cbn [obind uid upath]. rewrite N. unfold in_range.
  destruct (Z.ltb_spec (Z.of_nat i + off) 0) as [L|L].
  - rewrite (proj2 (Z.leb_gt 0 (Z.of_nat i + off)) L). reflexivity.
  - rewrite (proj2 (Z.leb_le 0 (Z.of_nat i + off)) L). cbn [andb].
    destruct (Z.ltb_spec (Z.of_nat i + off) (Z.of_nat (length (children n)))) as [U|U].
    + unfold v_at. rewrite (proj2 (in_range_iff (children n) (Z.of_nat i + off))) by lia.
      destruct (nth_error (children n) (Z.to_nat (Z.of_nat i + off))) eqn:Y; [reflexivity|]. apply nth_error_None in Y. lia.
    + rewrite (proj2 (nth_error_None (children n) (Z.to_nat (Z.of_nat i + off)))) by lia. reflexivity.
Qed.
Print Assumptions C39_siblings.
(** A node that the containment tests accept has the id of an ancestor. *)
Theorem C39_tests : forall s u other, id_at s (uroot other) (upath other) = Ok (uid other) ->
  (direct_parent_of s u other = Ok true <->
     exists p st, upath other = p ++ [st] /\ id_at s (uroot other) p = Ok (uid u)) /\
  (indirect_parent_of s u other = Ok true <->
     uid u = uroot other \/ exists p r, r <> [] /\ upath other = p ++ r /\ id_at s (uroot other) p = Ok (uid u)).
Proof.
  intros s u other H. split.
  - unfold direct_parent_of. destruct (rev (upath other)) as [|st q] eqn:R.
    + assert (Q : upath other = []) by (rewrite <- (rev_involutive (upath other)), R; reflexivity). unfold parent_of. rewrite Q. cbn. split; [discriminate|].
      intros (p & st & E & _). destruct p; discriminate.
    + assert (Q : upath other = rev q ++ [st]) by (rewrite <- (rev_involutive (upath other)), R; reflexivity).
      destruct (C39_parent s other st (rev q) Q H) as (i & A & P). rewrite P. cbn. split.
      * intros [= B]. apply Nat.eqb_eq in B. subst. exists (rev q), st. auto.
      * intros (p & st' & E & B). rewrite Q in E. apply app_inj_tail in E. destruct E as [<- <-]. rewrite A in B. injection B as ->.
        now rewrite Nat.eqb_refl.
  - unfold indirect_parent_of. destruct (C39_chain_members s other H) as (us & A & M). rewrite A. cbn. split.
    + intros [= B]. apply existsb_exists in B. destruct B as (a & B1 & B2). apply Nat.eqb_eq in B2. apply M in B1.
      destruct B1 as (C1 & C2 & [(r & C3 & C4)|C3]).
      * right. exists (upath a), r. rewrite <- B2. auto.
      * left. rewrite C3 in C2. cbn in C2. congruence.
    + intros B. f_equal. apply existsb_exists. destruct B as [B|(p & r & B1 & B2 & B3)].
      * exists (mkU (uroot other) (uroot other) []). split; [apply M; cbn; auto|]. cbn. now apply Nat.eqb_eq.
      * exists (mkU (uid u) (uroot other) p). split; [apply M; cbn; split; [reflexivity|split; [exact B3|left; exists r; auto]]|]. cbn. apply Nat.eqb_refl.
Qed.
Print Assumptions C39_tests.

Example C39_demo :
  parent_chain ex_store (mkU 1 6 [(0, Idx 1); (0, Idx 1)]) = Ok [mkU 5 6 [(0, Idx 1)]; mkU 6 6 []; mkU 6 6 []] /\
  self_index ex_store (mkU 1 6 [(0, Idx 1); (0, Idx 1)]) = Ok 1%Z /\
  adjacent ex_store (mkU 1 6 [(0, Idx 1); (0, Idx 1)]) 1 = Ok (Some (mkU 4 6 [(0, Idx 1); (0, Idx 2)])) /\
  direct_parent_of ex_store (mkU 5 6 [(0, Idx 1)]) (mkU 1 6 [(0, Idx 1); (0, Idx 1)]) = Ok true.
Proof. vm_compute. repeat split. Qed.

(** Findings.  The root is listed twice, and is its own ancestor... *)
Theorem C39_root_twice_refuted :
  (exists u us, id_at ex_store (uroot u) (upath u) = Ok (uid u) /\ parent_chain ex_store u = Ok us /\ ~ NoDup us) /\
  parent_chain ex_store (mkU 6 6 []) = Ok [mkU 6 6 []] /\ indirect_parent_of ex_store (mkU 6 6 []) (mkU 6 6 []) = Ok true.
Proof.
  split; [|vm_compute; auto]. exists (mkU 1 6 [(0, Idx 1); (0, Idx 1)]), [mkU 5 6 [(0, Idx 1)]; mkU 6 6 []; mkU 6 6 []].
  split; [reflexivity|]. split; [reflexivity|]. intros N. inversion N as [|? ? _ N2]. inversion N2 as [|? ? B _]. apply B. now left.
Qed.
Print Assumptions C39_root_twice_refuted.
(** ... a node is taken for the parent of what is below another node of the
    same value, and repeated children all have the position of the first, so
    that the next sibling of the second is the second itself. *)
Definition twin_doc : tree := Node 1 0 0
  [((0, Idx 0), Node 3 0 0 [((0, Idx 0), word 1 0)]); ((0, Idx 1), Node 3 0 0 [((0, Idx 0), word 1 0)])].
Definition twin_store : store := fst (add_tree [] twin_doc).
Theorem C39_twins_refuted :
  let first := mkU 2 3 [(0, Idx 0)] in let second := mkU 2 3 [(0, Idx 1)] in
  id_at twin_store 3 [(0, Idx 0)] = Ok 2 /\ id_at twin_store 3 [(0, Idx 1)] = Ok 2 /\
  direct_parent_of twin_store first (mkU 1 3 [(0, Idx 1); (0, Idx 0)]) = Ok true /\
  indirect_parent_of twin_store first (mkU 1 3 [(0, Idx 1); (0, Idx 0)]) = Ok true /\
  self_index twin_store second = Ok 0%Z /\ adjacent twin_store second 1 = Ok (Some second) /\
  adjacent twin_store second (-1) = Ok None.
Proof. vm_compute. repeat split. Qed.
Print Assumptions C39_twins_refuted.

(** ** C58 *)
(** Importing a tree into a context and exporting it gives the tree back, up to
    source locations. *)
Theorem C58_round_trip_partial : forall t s, wf_store s -> importable t -> exists F t', noloc t' = noloc t /\
  wf_store (fst (add_tree s t)) /\
  forall fuel, F <= fuel -> get_tree fuel (fst (add_tree s t)) (snd (add_tree s t)) = Ok t'.
Proof.
  intros t s W H. destruct (add_tree_good t s W H) as (t' & A & B & C). exists (S (height t')), t'. split; [exact C|]. split; [exact A|].
  intros fuel Hf. apply get_tree_ok; [exact B|lia].
Qed.
Print Assumptions C58_round_trip_partial.
(** After any history two ids are equal exactly when the trees they stand for
    are equal up to source locations. *)
Theorem C58_equality : forall cs i j t u, denotes (performs [] cs) i t -> denotes (performs [] cs) j u ->
  (i = j <-> noloc t = noloc u).
Proof.
  intros cs i j t u A B. split.
  - intros ->. f_equal. eapply denotes_fun; eauto.
  - assert (E : distinct_values []) by (intros [|?] ? ? ? X; discriminate X).
    apply (proj1 (denotes_inj _ (distinct_performs cs [] E)) _ _ A _ _ B).
Qed.
Print Assumptions C58_equality.
Example C58_demo : importable ex_doc /\ noloc ex_doc <> ex_doc /\ length ex_store = 6 /\
  get_tree 9 ex_store ex_root =
    Ok (Node 1 0 7 [((0, Idx 0), Node 3 0 1 [((0, Idx 0), word 10 1)]);
       ((0, Idx 1), Node 3 0 2 [((0, Idx 0), word 11 2); ((0, Idx 1), word 10 1); ((0, Idx 2), word 12 4)])]).
Proof.
  split; [|split; [discriminate|vm_compute; auto]].
  assert (S : forall n, well_shaped (map (fun i => (0, Idx i)) (seq 0 n))).
  { intros n f. destruct f as [|f].
    - right. right. right. left. exists n. rewrite filter_id; [reflexivity|]. intros x H. apply in_map_iff in H. now destruct H as (i & <- & _).
    - left. apply filter_nil. intros x H. apply in_map_iff in H. now destruct H as (i & <- & _). }
  pose proof (S 0). pose proof (S 1). pose proof (S 2). pose proof (S 3). cbn in *. tauto.
Qed.
(** Finding: the location of a repeated node is that of its first occurrence. *)
Theorem C58_location_refuted : exists t, importable t /\
  forall fuel, 9 <= fuel -> exists t', get_tree fuel (fst (add_tree [] t)) (snd (add_tree [] t)) = Ok t' /\ t' <> t.
Proof.
  exists ex_doc. split; [exact (proj1 C58_demo)|]. intros fuel Hf.
  exists (Node 1 0 7 [((0, Idx 0), Node 3 0 1 [((0, Idx 0), word 10 1)]);
       ((0, Idx 1), Node 3 0 2 [((0, Idx 0), word 11 2); ((0, Idx 1), word 10 1); ((0, Idx 2), word 12 4)])]).
  split; [|discriminate]. do 9 (destruct fuel as [|fuel]; [lia|]). reflexivity.
Qed.
Print Assumptions C58_location_refuted.
