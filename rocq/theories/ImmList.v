(** Child lists, navigation, import and export. *)
From Coq Require Import List Bool Arith ZArith Lia Permutation Sorted.
From Verif Require Import Base ImmModel ImmSpec ImmProofs ImmAssign ImmCascade.
Import ListNotations.
Local Open Scope nat_scope.

(** ** Sorting *)
Lemma insert_field_perm x l : Permutation (x :: l) (insert_field x l).
Proof.
  induction l as [|y l IH]; cbn; [reflexivity|]. destruct (Nat.leb _ _); [reflexivity|].
  rewrite <- IH. apply perm_swap.
Qed.
Lemma insert_field_sorted x l : StronglySorted field_le l -> StronglySorted field_le (insert_field x l).
Proof.
  induction 1 as [|y l S IH F]; cbn; [repeat constructor|]. destruct (Nat.leb_spec (fst (fst x)) (fst (fst y))).
  - constructor; [now constructor|]. constructor; [exact H|]. eapply Forall_impl; [|exact F]. unfold field_le in *. intros; lia.
  - constructor; [exact IH|]. apply Forall_forall. intros z Hz. apply (Permutation_in _ (Permutation_sym (insert_field_perm x l))) in Hz.
    destruct Hz as [<-|Hz]; [unfold field_le; lia|]. rewrite Forall_forall in F. now apply F.
Qed.
Lemma stable_sort_sorts : sorts stable_sort.
Proof.
  intros l. split.
  - induction l as [|x l IH]; cbn; [constructor|]. transitivity (x :: stable_sort l); [now constructor|apply insert_field_perm].
  - induction l as [|x l IH]; cbn; [constructor|now apply insert_field_sorted].
Qed.
Lemma insert_field_filter x l f : filter (fun x => Nat.eqb (fst (fst x)) f) (insert_field x l) =
  filter (fun x => Nat.eqb (fst (fst x)) f) (x :: l).
Proof.
  induction l as [|y l IH]; [reflexivity|]. cbn [insert_field]. destruct (Nat.leb_spec (fst (fst x)) (fst (fst y))); [reflexivity|].
  cbn [filter] in *. rewrite IH. destruct (Nat.eqb_spec (fst (fst x)) f), (Nat.eqb_spec (fst (fst y)) f); try reflexivity. lia.
Qed.
Lemma stable_sort_stable : stable stable_sort.
Proof.
  intros l f. induction l as [|x l IH]; [reflexivity|]. cbn [stable_sort fold_right]. rewrite insert_field_filter. cbn [filter].
  unfold stable_sort in IH. now rewrite IH.
Qed.
Lemma std_sort_small l : length l <= 16 -> std_sort l = stable_sort l.
Proof.
  intros H. unfold std_sort. f_equal. destruct (length l) as [|n] eqn:E; [reflexivity|]. destruct (2 * Nat.log2 (S n)); [reflexivity|].
  cbn [introsort]. rewrite (proj2 (Nat.leb_le (S n - 0) 16)) by lia. reflexivity.
Qed.

(** ** Replacing one subtree *)
Lemma replace_all_one p new : forall t, replace_all [(p, new)] t = replace_at p new t.
Proof.
  induction p as [|st p IH]; intros t; [destruct t; reflexivity|]. destruct t as [|k d l kids]; [reflexivity|].
  cbn. f_equal. apply map_ext. intros c. destruct (step_eqb st (fst c)) eqn:Q.
  - apply step_eqb_eq in Q. subst. rewrite step_eqb_refl. now rewrite IH.
  - apply step_eqb_neq in Q. assert (Q' : step_eqb (fst c) st = false) by (apply step_eqb_neq; congruence). rewrite Q'.
    rewrite replace_all_nil. now destruct c.
Qed.
Lemma find_map_step (kids : list (step * tree)) st (g : step * tree -> step * tree) :
  (forall c, fst (g c) = fst c) -> find (fun c => step_eqb (fst c) st) (map g kids) = option_map g (find (fun c => step_eqb (fst c) st) kids).
Proof.
  intros G. induction kids as [|c kids IH]; [reflexivity|]. cbn. rewrite G. destruct (step_eqb (fst c) st); [reflexivity|exact IH].
Qed.
Lemma replace_at_elsewhere p new : forall t q, ~ is_prefix p q -> ~ is_prefix q p ->
  subtree (replace_at p new t) q = subtree t q.
Proof.
  induction p as [|st p IH]; intros t q N1 N2; [exfalso; apply N1; now exists q|]. destruct q as [|st' q]; [exfalso; apply N2; now exists (st :: p)|].
  destruct t as [|k d l kids]; [reflexivity|]. cbn [replace_at subtree]. rewrite find_map_step.
  - destruct (find (fun c => step_eqb (fst c) st') kids) as [c|] eqn:F; cbn [option_map]; [|reflexivity].
    apply find_some in F. destruct F as [_ F]. apply step_eqb_eq in F. destruct (step_eqb (fst c) st) eqn:Q; [|reflexivity].
    apply step_eqb_eq in Q. cbn [snd]. apply IH.
    + intros [r ->]. apply N1. exists r. cbn. congruence.
    + intros [r ->]. apply N2. exists r. cbn. congruence.
  - intros c. now destruct (step_eqb (fst c) st).
Qed.
Lemma replace_at_there p new : forall t, subtree t p <> None -> subtree (replace_at p new t) p = Some new.
Proof.
  induction p as [|st p IH]; intros t H; [reflexivity|]. destruct t as [|k d l kids]; [cbn in H; congruence|].
  cbn [replace_at subtree] in *. rewrite find_map_step.
  - destruct (find (fun c => step_eqb (fst c) st) kids) as [c|] eqn:F; cbn [option_map]; [|congruence].
    apply find_some in F. destruct F as [_ F]. rewrite F. cbn [snd]. now apply IH.
  - intros c. now destruct (step_eqb (fst c) st).
Qed.

(** ** Replacing the root *)
Lemma cascade_root fuel srt s root new : node_at s new <> None -> root <> new ->
  (kind_of s root = 1 \/ kind_of s root = 2) -> (kind_of s new = 1 \/ kind_of s new = 2) ->
  exists ep, cascade (S (S fuel)) srt s root [(mkU root root [], mkU new root [])] = (s, Ok (new, ep)).
Proof.
  intros N D K1 K2. unfold cascade. cbn [edit_parents]. unfold parent_chain. cbn [upath spans length app uroot adapt_all id_at obind omap app].
  remember (S fuel) as F eqn:HF. cbn [recurse existsb]. assert (Q : uniq_eqb (mkU root root []) (mkU root root []) = true) by now apply uniq_eqb_eq.
  rewrite Q. cbn [orb]. 
  assert (Lk : lookup [(mkU root root [], mkU new root [])] (mkU root root []) = Some (mkU new root [])).
  { unfold lookup. cbn [find fst]. now rewrite Q. }
  rewrite Lk. cbn [uid].
  destruct (node_at s new) as [n|] eqn:M; [|congruence].
  assert (Z : forall l, each (recurse srt [(mkU root root [], mkU new root [])] [mkU root root []] F) s [] (mkU new root []) l
      = (s, Ok (map snd l, []))).
  { induction l as [|[st i] l IH]; [reflexivity|]. cbn [each uroot upath app].
    assert (R : recurse srt [(mkU root root [], mkU new root [])] [mkU root root []] F s [] (mkU i root [st]) = (s, Ok (i, []))).
    { rewrite HF. cbn [recurse existsb].
      assert (Q1 : uniq_eqb (mkU i root [st]) (mkU root root []) = false).
      { apply not_true_is_false. intros X. apply uniq_eqb_eq in X. congruence. }
      assert (Q2 : uniq_eqb (mkU root root []) (mkU i root [st]) = false).
      { apply not_true_is_false. intros X. apply uniq_eqb_eq in X. congruence. }
      rewrite Q1. cbn [orb]. unfold lookup. cbn [find fst]. rewrite Q2. reflexivity. }
    rewrite R, IH. reflexivity. }
  rewrite Z. assert (Y : list_eqb Nat.eqb (map snd (subs n)) (map snd (subs n)) = true) by now apply (list_eqb_eq Nat.eqb Nat.eqb_eq).
  rewrite Y. unfold group_set, rooted. cbn [uid upath].
  assert (Q3 : uniq_eqb (mkU root root []) (mkU new root []) = false).
  { apply not_true_is_false. intros X. apply uniq_eqb_eq in X. congruence. }
  rewrite Q3. assert (A : forall k, k = 1 \/ k = 2 -> (Nat.eqb k 1 || Nat.eqb k 2 || false) = true).
  { intros k [-> | ->]; reflexivity. }
  rewrite (A _ K1), (A _ K2). cbn. eauto.
Qed.

(** ** Child lists *)
Lemma index_from_child i l : forall j, In j (index_from i l) -> is_child j = true.
Proof. revert i. induction l as [|x l IH]; intros i j; [intros []|]. intros [<-|H]; [reflexivity|eauto]. Qed.
Lemma index_from_snd i l : map snd (index_from i l) = l.
Proof. revert i. induction l as [|x l IH]; intros i; cbn; [reflexivity|now rewrite IH]. Qed.
Lemma filter_id {A} (p : A -> bool) l : (forall x, In x l -> p x = true) -> filter p l = l.
Proof.
  induction l as [|x l IH]; intros H; [reflexivity|]. cbn. rewrite (H x) by (now left). f_equal. apply IH. intros y Hy. apply H. now right.
Qed.
Lemma children_with n l : children (with_children n l) = l.
Proof.
  unfold children, with_children. cbn [subs]. rewrite filter_app, filter_id by apply index_from_child.
  rewrite (filter_nil is_child (filter _ _)); [|intros x H; apply filter_In in H; destruct H as [_ H]; now destruct (is_child x)].
  now rewrite app_nil_r, index_from_snd.
Qed.
Lemma others_with n l : filter (fun x => negb (is_child x)) (subs (with_children n l)) = filter (fun x => negb (is_child x)) (subs n).
Proof.
  unfold with_children. cbn [subs]. rewrite filter_app, (filter_nil _ (index_from 0 l)).
  - cbn. apply filter_id. intros x H. apply filter_In in H. tauto.
  - intros x H. apply index_from_child in H. now rewrite H.
Qed.
Lemma set_subnodes_ok s u l n : node_at s (uid u) = Some n -> l <> children n -> new_children s u l (set_subnodes s u l).
Proof.
  intros N D. unfold set_subnodes, new_children. rewrite N. destruct (intern_spec s (with_children n l)) as (m & A & B & C1 & C2 & C3).
  destruct (intern s (with_children n l)) as [s' id']. cbn [fst snd] in *.
  assert (Ne : id' <> uid u).
  { intros ->. rewrite (node_at_ext _ _ _ _ A N) in B. injection B as <-. apply D. unfold children. rewrite C3.
    symmetry. exact (children_with n l). }
  rewrite (proj2 (Nat.eqb_neq _ _) Ne). exists n, s', id', m. repeat split; auto.
  - unfold children. rewrite C3. exact (children_with n l).
  - rewrite C3. apply others_with.
Qed.

Lemma size_t_small z : (0 <= z < 2 ^ 64)%Z -> size_t z = z.
Proof. apply Z.mod_small. Qed.
Lemma take_in l z : (0 <= z <= Z.of_nat (length l))%Z -> take z l = firstn (Z.to_nat z) l.
Proof.
  intros H. unfold take. destruct (Z.leb_spec (Z.of_nat (length l)) z); [|reflexivity].
  symmetry. apply firstn_all2. lia.
Qed.
Lemma drop_in l z : (0 <= z <= Z.of_nat (length l))%Z -> drop z l = skipn (Z.to_nat z) l.
Proof.
  intros H. unfold drop. destruct (Z.leb_spec (Z.of_nat (length l)) z); [|reflexivity].
  symmetry. apply skipn_all2. lia.
Qed.
Lemma v_insert_in l z x : (0 <= z <= Z.of_nat (length l))%Z -> (z < 2 ^ 64)%Z ->
  v_insert l z x = firstn (Z.to_nat z) l ++ [x] ++ skipn (Z.to_nat z) l.
Proof. intros H L. unfold v_insert. rewrite size_t_small, take_in, drop_in by lia. reflexivity. Qed.
Lemma v_erase_in l z : (0 <= z < Z.of_nat (length l))%Z -> (z + 1 < 2 ^ 64)%Z ->
  v_erase l z = firstn (Z.to_nat z) l ++ skipn (S (Z.to_nat z)) l.
Proof.
  intros H L. unfold v_erase. rewrite !size_t_small, take_in, drop_in by lia. f_equal. f_equal. lia.
Qed.
Lemma in_range_iff l z : in_range l z = true <-> (0 <= z < Z.of_nat (length l))%Z.
Proof. unfold in_range. rewrite andb_true_iff, Z.leb_le, Z.ltb_lt. tauto. Qed.
Lemma v_at_in l z : (0 <= z < Z.of_nat (length l))%Z -> v_at l z = Ok (nth (Z.to_nat z) l 0).
Proof.
  intros H. unfold v_at. rewrite (proj2 (in_range_iff l z) H). rewrite (nth_error_nth' l 0) by lia. reflexivity.
Qed.

Lemma skipn_nth l : forall k, k < length l -> skipn k l = nth k l 0 :: skipn (S k) l.
Proof.
  induction l as [|a l IH]; intros [|k] Hl; cbn in *; try lia; [reflexivity|]. apply IH. lia.
Qed.
Lemma index_of_spec l x : match index_of l x with
  | Some i => exists l1 l2, l = l1 ++ x :: l2 /\ length l1 = i /\ ~ In x l1
  | None => ~ In x l
  end.
Proof.
  induction l as [|y l IH]; cbn; [tauto|]. destruct (Nat.eqb_spec y x) as [->|Ne].
  - exists [], l. auto.
  - destruct (index_of l x); cbn.
    + destruct IH as (l1 & l2 & -> & <- & N). exists (y :: l1), l2. cbn. intuition congruence.
    + intuition congruence.
Qed.

(** ** Values stored once *)
Lemma same_value_sym a b : same_value a b = same_value b a.
Proof.
  destruct (same_value a b) eqn:X; symmetry.
  - apply same_value_eq in X. apply same_value_eq. intuition congruence.
  - destruct (same_value b a) eqn:Y; [|reflexivity]. apply same_value_eq in Y.
    assert (same_value a b = true) by (apply same_value_eq; intuition congruence). congruence.
Qed.
Lemma distinct_intern s n : distinct_values s -> distinct_values (fst (intern s n)).
Proof.
  intros D. unfold intern. pose proof (find_value_spec s n) as F. destruct (find_value s n); [exact D|]. cbn [fst].
  assert (G : forall i m, nth_error (s ++ [n]) i = Some m -> (nth_error s i = Some m /\ i < length s) \/ (m = n /\ i = length s)).
  { intros i m H. destruct (Nat.lt_ge_cases i (length s)) as [L|L].
    - left. now rewrite nth_error_app1 in H by auto.
    - right. rewrite nth_error_app2 in H by auto. destruct (i - length s) as [|j] eqn:Q; [|destruct j; discriminate].
      cbn in H. split; [congruence|lia]. }
  intros i j a b A B S. destruct (G _ _ A) as [[A1 A2]|[-> ->]], (G _ _ B) as [[B1 B2]|[-> ->]]; auto.
  - exact (D i j a b A1 B1 S).
  - rewrite (F a) in S; [discriminate|]. eapply nth_error_In; eauto.
  - rewrite same_value_sym in S. rewrite (F b) in S; [discriminate|]. eapply nth_error_In; eauto.
Qed.
Lemma distinct_each rec (R : forall s ep u, distinct_values s -> distinct_values (fst (rec s ep u))) tgt l :
  forall s ep, distinct_values s -> distinct_values (fst (each rec s ep tgt l)).
Proof.
  induction l as [|[st id] l IH]; intros s ep D; cbn; [exact D|].
  pose proof (R s ep (mkU id (uroot tgt) (upath tgt ++ [st])) D) as X.
  destruct (rec s ep (mkU id (uroot tgt) (upath tgt ++ [st]))) as [s1 [[i ep1]| | |]]; cbn in *; auto.
  pose proof (IH s1 ep1 X) as Y. destruct (each rec s1 ep1 tgt l) as [s2 [[ids ep2]| | |]]; cbn in *; auto.
Qed.
Lemma distinct_recurse srt edits parents fuel : forall s ep u, distinct_values s ->
  distinct_values (fst (recurse srt edits parents fuel s ep u)).
Proof.
  induction fuel as [|fuel IH]; intros s ep u D; cbn [recurse]; [exact D|].
  destruct (existsb (uniq_eqb u) parents).
  - set (tgt := match lookup edits u with Some r => r | None => u end).
    destruct (node_at s (uid tgt)) as [n|]; [|exact D].
    pose proof (distinct_each _ IH tgt (subs n) s ep D) as X.
    destruct (each _ s ep tgt (subs n)) as [s1 [[flat ep1]| | |]]; cbn [fst] in *; auto.
    destruct (list_eqb Nat.eqb flat (map snd (subs n))); [exact X|].
    destruct (assign_all _ _) as [sub'| | |]; cbn [fst]; auto.
    pose proof (distinct_intern s1 (mkN (kind n) (data n) (loc n) sub') X) as Y.
    destruct (intern s1 _) as [s2 id']. cbn [fst] in *. now destruct (Nat.eqb id' (uid tgt)).
  - now destruct (lookup edits u).
Qed.
Lemma distinct_add_tree t : forall s, distinct_values s -> distinct_values (fst (add_tree s t)).
Proof.
  induction t as [|k d l kids IH] using tree_ind'; intros s D; [exact D|].
  rewrite add_tree_node. assert (K : forall s, distinct_values s -> distinct_values (fst (add_kids s kids))).
  { clear s D. induction IH as [|[st c] r H _ IHr]; intros s D; cbn; [exact D|]. cbn in H. specialize (H s D).
    destruct (add_tree s c) as [s1 i]. specialize (IHr s1 H). destruct (add_kids s1 r) as [s2 q]. exact IHr. }
  specialize (K s D). destruct (add_kids s kids) as [s1 sub]. now apply distinct_intern.
Qed.
Lemma distinct_performs cs : forall s, distinct_values s -> distinct_values (performs s cs).
Proof.
  induction cs as [|c cs IH]; intros s D; cbn; [exact D|]. apply IH. destruct c; cbn.
  - now apply distinct_intern.
  - now apply distinct_add_tree.
  - unfold set_subnodes. destruct (node_at s (uid u)) as [n|]; [|exact D]. pose proof (distinct_intern s (with_children n l) D) as X.
    destruct (intern s _) as [s' id']. cbn in X. now destruct (Nat.eqb id' (uid u)).
  - unfold cascade. destruct (edit_parents s edits); cbn [fst]; auto. now apply distinct_recurse.
Qed.

(** Equal trees have equal ids. *)
Lemma denotes_inj s : distinct_values s ->
  (forall i t, denotes s i t -> forall j u, denotes s j u -> noloc t = noloc u -> i = j) /\
  (forall l k, denotes_kids s l k -> forall l' k', denotes_kids s l' k' ->
     map (fun c : step * tree => (fst c, noloc (snd c))) k = map (fun c : step * tree => (fst c, noloc (snd c))) k' -> l = l').
Proof.
  intros D. apply (denotes_both s
    (fun i t _ => forall j u, denotes s j u -> noloc t = noloc u -> i = j)
    (fun l k _ => forall l' k', denotes_kids s l' k' ->
       map (fun c : step * tree => (fst c, noloc (snd c))) k = map (fun c : step * tree => (fst c, noloc (snd c))) k' -> l = l')).
  - intros j u H E. destruct H; [reflexivity|discriminate].
  - intros i n kids N K IH j u H E. destruct H as [|j m kids' M K']; [discriminate|]. cbn in E. injection E as E1 E2 E3.
    specialize (IH _ _ K' E3). destruct i as [|i]; [discriminate|]. destruct j as [|j]; [discriminate|]. f_equal. cbn in N, M.
    apply (D i j n m N M). apply same_value_eq. auto.
  - intros l' k' H E. destruct H; [reflexivity|discriminate].
  - intros st i t l kids T IH1 K IH2 l' k' H E. destruct H as [|st' i' t' l' kids' T' K']; [discriminate|]. cbn in E. injection E as E1 E2 E3.
    f_equal; [f_equal; eauto|eauto].
Qed.

(** ** Import and export *)
Lemma importable_kids k d l kids : importable (Node k d l kids) -> well_shaped (map fst kids) /\ Forall (fun c => importable (snd c)) kids.
Proof.
  cbn [importable]. intros [A B]. split; [exact A|]. revert B. clear A. induction kids as [|c kids IH]; intros B; [constructor|].
  destruct B as [B1 B2]. constructor; auto.
Qed.
Lemma add_tree_good t : forall s, wf_store s -> importable t -> exists t', wf_store (fst (add_tree s t)) /\
  denotes (fst (add_tree s t)) (snd (add_tree s t)) t' /\ noloc t' = noloc t.
Proof.
  induction t as [|k d l kids IH] using tree_ind'; intros s W H; [destruct H|].
  apply importable_kids in H. destruct H as [Sh F]. rewrite add_tree_node.
  assert (K : forall s, wf_store s -> exists kids', wf_store (fst (add_kids s kids)) /\
     denotes_kids (fst (add_kids s kids)) (snd (add_kids s kids)) kids' /\
     map (fun c : step * tree => (fst c, noloc (snd c))) kids' = map (fun c : step * tree => (fst c, noloc (snd c))) kids).
  { clear s W Sh. induction kids as [|[st c] r IHr]; intros s W.
    - exists []. split; [exact W|]. split; [constructor|reflexivity].
    - inversion IH as [|? ? H1 H2]; subst. inversion F as [|? ? F1 F2]; subst. cbn [snd] in *.
      destruct (H1 s W F1) as (t' & A & B & C). cbn [add_kids]. destruct (add_tree s c) as [s1 i]. cbn [fst snd] in *.
      destruct (IHr H2 F2 s1 A) as (kids' & A' & B' & C').
      assert (X : extends s1 (fst (add_kids s1 r))).
      { clear. revert s1. induction r as [|[st c] r IH]; intros s1; cbn; [apply extends_refl|]. pose proof (add_tree_ext c s1) as Y.
        destruct (add_tree s1 c) as [s2 i]. specialize (IH s2). destruct (add_kids s2 r). cbn in *. eauto using extends_trans. }
      destruct (add_kids s1 r) as [s2 q]. cbn [fst snd] in *. exists ((st, t') :: kids'). split; [exact A'|]. split.
      + constructor; [eapply denotes_ext; eauto|exact B'].
      + cbn. congruence. }
  destruct (K s W) as (kids' & A & B & C). destruct (add_kids s kids) as [s1 sub]. cbn [fst snd] in *.
  destruct (intern_spec s1 (mkN k d l sub)) as (m & I1 & I2 & I3 & I4 & I5). cbn [kind data subs] in *.
  exists (Node (kind m) (data m) (loc m) kids'). split; [|split].
  - apply wf_intern; auto; cbn [subs].
    + rewrite <- (kids_steps _ _ _ B). replace (map fst kids') with (map fst kids); [exact Sh|].
      transitivity (map fst (map (fun c : step * tree => (fst c, noloc (snd c))) kids)); [now rewrite map_map|].
      rewrite <- C. now rewrite map_map.
    + exact (kids_le _ _ _ B).
  - constructor; [exact I2|]. rewrite I5. eapply kids_ext; eauto.
  - cbn. rewrite I3, I4. f_equal. exact C.
Qed.
Lemma get_tree_ok fuel : forall s id t, denotes s id t -> height t < fuel -> get_tree fuel s id = Ok t.
Proof.
  induction fuel as [|fuel IH]; intros s id t D H; [lia|]. destruct D as [|id n kids N K]; [reflexivity|].
  cbn [get_tree]. destruct id as [|i]; [discriminate|]. rewrite N.
  match goal with |- omap _ (?f _) = _ => assert (G : forall l k, denotes_kids s l k -> (forall c, In c k -> height (snd c) < fuel) -> f l = Ok k) end.
  { intros l k Hk. induction Hk as [|st j t l' kids' T Hk IHk]; intros Hb; [reflexivity|].
    rewrite (IH s j t T (Hb (st, t) (or_introl eq_refl))). cbn [obind].
    match goal with |- omap _ ?x = _ => transitivity (omap (cons (st, t)) (Ok kids')); [|reflexivity]; f_equal end.
    apply IHk. intros c Hc. apply Hb. now right. }
  rewrite (G _ _ K); [reflexivity|]. intros c Hc. cbn [height] in H. pose proof (height_kid _ _ Hc). lia.
Qed.

(** ** Ancestors *)
Lemma spans_all (p : path) : forall n, spans p n = map (fun k => firstn k p) (rev (seq 0 n)).
Proof.
  induction n as [|n IH]; [reflexivity|]. rewrite seq_S, rev_app_distr. cbn. now rewrite IH.
Qed.
Lemma adapt_all_exact s root ps us : adapt_all s root ps = Ok us ->
  map upath us = ps /\ Forall (fun u => uroot u = root /\ id_at s root (upath u) = Ok (uid u)) us.
Proof.
  revert us. induction ps as [|p ps IH]; intros us H; cbn in H.
  - injection H as <-. split; [reflexivity|constructor].
  - destruct (id_at s root p) as [i| | |] eqn:A; try discriminate. cbn in H.
    destruct (adapt_all s root ps) as [us'| | |] eqn:B; try discriminate. cbn in H. injection H as <-.
    destruct (IH us' eq_refl) as [C D]. split; [cbn; now rewrite C|]. constructor; auto.
Qed.
