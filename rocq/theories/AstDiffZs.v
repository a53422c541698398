(** Proofs about the matching of the nodes of two subtrees by their distance. *)
From Coq Require Import List Bool Arith ZArith Lia Permutation.
From Verif Require Import EagerModel EagerSpec EagerProofs AstDiffModel AstDiffSpec AstDiffTree AstDiffMap.
Import ListNotations.

(** * Postorder and leftmost descendants *)
Section Post.
Context {A : Type}.
Implicit Types (u w : tree A) (l : list (tree A)).
(** The numbers of the nodes in postorder *)
Fixpoint post (u : tree A) (id : nat) : list nat :=
  match u with
  | T _ l => (fix go (l : list (tree A)) (n : nat) : list nat := match l with [] => [] | c :: r => post c n ++ go r (n + count c) end) l (S id) ++ [id]
  end.
Definition posts := fix go (l : list (tree A)) (n : nat) : list nat := match l with [] => [] | c :: r => post c n ++ go r (n + count c) end.
Lemma post_node v l id : post (T v l) id = posts l (S id) ++ [id].
Proof. reflexivity. Qed.
Lemma posts_cons c l n : posts (c :: l) n = post c n ++ posts l (n + count c).
Proof. reflexivity. Qed.
(** How many nodes come before the leftmost descendant of each *)
Fixpoint lms (u : tree A) (o : nat) : list nat :=
  match u with
  | T _ l => (fix go (l : list (tree A)) (n : nat) : list nat := match l with [] => [] | c :: r => lms c n ++ go r (n + count c) end) l o ++ [o]
  end.
Definition lmss := fix go (l : list (tree A)) (n : nat) : list nat := match l with [] => [] | c :: r => lms c n ++ go r (n + count c) end.
Lemma lms_node v l o : lms (T v l) o = lmss l o ++ [o].
Proof. reflexivity. Qed.
Lemma lmss_cons c l n : lmss (c :: l) n = lms c n ++ lmss l (n + count c).
Proof. reflexivity. Qed.
Fixpoint ll (u : tree A) (id : nat) : nat := match u with T _ [] => id | T _ (c :: _) => ll c (S id) end.
Lemma sum_cons c l : list_sum (map count (c :: l)) = @count A c + list_sum (map count l).
Proof. reflexivity. Qed.

Lemma post_perm u : forall id, Permutation (post u id) (seq id (count u)).
Proof.
  induction u as [v l IH] using tree_ind'. intros id. rewrite post_node, count_node. cbn [seq]. rewrite Permutation_app_comm. cbn [app]. constructor.
  generalize (S id). induction IH as [|c r Hc Hr IHr]; intros n; [reflexivity|]. rewrite posts_cons, sum_cons, seq_app, Hc, IHr. reflexivity.
Qed.
Lemma post_length u id : length (post u id) = count u.
Proof. rewrite (Permutation_length (post_perm u id)), seq_length. reflexivity. Qed.
Lemma post_head u : forall id, hd_error (post u id) = Some (ll u id).
Proof.
  induction u as [v l IH] using tree_ind'. intros id. rewrite post_node. destruct l as [|c r]; [reflexivity|]. rewrite posts_cons. cbn [ll].
  inversion IH as [|? ? Hc Hr]. subst. specialize (Hc (S id)). destruct (post c (S id)) as [|x q]; [discriminate|]. exact Hc.
Qed.
Lemma lms_length u : forall o, length (lms u o) = count u.
Proof.
  induction u as [v l IH] using tree_ind'. intros o. rewrite lms_node, count_node, app_length, Nat.add_comm. cbn. f_equal.
  generalize o. induction IH as [|c r Hc Hr IHr]; intros n; [reflexivity|]. rewrite lmss_cons, app_length, Hc, IHr, sum_cons. reflexivity.
Qed.
Lemma lmss_length l : forall o, length (lmss l o) = list_sum (map count l).
Proof. induction l as [|c r IHr]; intros n; [reflexivity|]. rewrite lmss_cons, app_length, lms_length, IHr, sum_cons. reflexivity. Qed.
(** Descendants follow each other and lie inside of each other. *)
Definition nest (o : nat) (L : list nat) : Prop :=
  forall k m, nth_error L k = Some m -> o <= m <= o + k /\ forall k' m', k' <= k -> m <= o + k' -> nth_error L k' = Some m' -> m <= m'.
Lemma nest_app o L M : nest o L -> nest (o + length L) M -> nest o (L ++ M).
Proof.
  intros H1 H2 k m N. destruct (Nat.lt_ge_cases k (length L)) as [L1|L1].
  - rewrite nth_error_app1 in N by exact L1. destruct (H1 k m N) as [B Q]. split; [exact B|]. intros k' m' K M' N'. rewrite nth_error_app1 in N' by lia. eapply Q; eassumption.
  - rewrite nth_error_app2 in N by exact L1. destruct (H2 _ m N) as [B Q]. split; [lia|]. intros k' m' K M' N'.
    rewrite nth_error_app2 in N' by lia. apply (Q (k' - length L) m'); [lia|lia|exact N'].
Qed.
Lemma lms_nest u : forall o, nest o (lms u o).
Proof.
  induction u as [v l IH] using tree_ind'. intros o. rewrite lms_node.
  assert (G : nest o (lmss l o)).
  { generalize o. induction IH as [|c r Hc Hr IHr]; intros n; [intros [|k] m N; discriminate|]. rewrite lmss_cons. apply nest_app; [apply Hc|]. rewrite lms_length. apply IHr. }
  intros k m N. destruct (Nat.lt_ge_cases k (length (lmss l o))) as [L|L].
  - rewrite nth_error_app1 in N by exact L. destruct (G k m N) as [B Q]. split; [exact B|]. intros k' m' K M N'. rewrite nth_error_app1 in N' by lia. apply (Q k' m' K M N').
  - rewrite nth_error_app2 in N by exact L. destruct (k - length (lmss l o)) as [|x] eqn:E; [|destruct x; discriminate]. injection N as <-.
    split; [lia|]. intros k' m' K M N'. destruct (Nat.lt_ge_cases k' (length (lmss l o))) as [L'|L'].
    + rewrite nth_error_app1 in N' by exact L'. destruct (G k' m' N'). lia.
    + rewrite nth_error_app2 in N' by exact L'. replace (k' - length (lmss l o)) with 0 in N' by lia. injection N' as <-. lia.
Qed.

(** * The arrays *)
Variable t : tree A.
Notation ns := (from_node t).
Lemma postorder_post n : forall i u, nth_error (nodes t) i = Some u -> tall u <= n -> postorder ns n i = post u i.
Proof.
  induction n as [|n IH]; intros i u U L; [pose proof (tall_pos u); lia|]. cbn [postorder]. rewrite (kids_places t i u U). destruct u as [v l]. rewrite post_node. f_equal. cbn [sub].
  assert (G : forall l q, (forall k x, nth_error (places q l) k = Some x -> exists c, nth_error l k = Some c /\ nth_error (nodes t) x = Some c /\ tall c <= n) ->
    flat_map (postorder ns n) (places q l) = posts l q).
  { clear l U L. induction l as [|c r IHl]; intros q H; [reflexivity|]. cbn [places flat_map]. rewrite posts_cons. f_equal.
    - destruct (H 0 q eq_refl) as (c' & C & N & T'). injection C as <-. apply IH; assumption.
    - apply IHl. intros k x X. exact (H (S k) x X). }
  apply G. intros k x X. destruct (child_sub t i k x _ U X) as (c & C & N & _). exists c. split; [exact C|]. split; [exact N|].
  pose proof (tall_sub v l c (nth_error_In _ _ C)). lia.
Qed.
Lemma tall_count u : tall u <= count u.
Proof.
  induction u as [v l IH] using tree_ind'. rewrite count_node. cbn [tall]. induction IH as [|c r Hc Hr IHr]; [cbn; lia|].
  rewrite sum_cons. cbn [fold_right]. lia.
Qed.
Lemma tall_size i u : nth_error (nodes t) i = Some u -> tall u <= size_of ns.
Proof. intros U. rewrite size_count. pose proof (tall_count u). pose proof (nodes_end t i u U). lia. Qed.
Lemma post_inside : forall u i, nth_error (nodes t) i = Some u -> exists pre suf, post t 0 = pre ++ post u i ++ suf.
Proof.
  assert (G : forall w j, nth_error (nodes t) j = Some w -> (exists pre suf, post t 0 = pre ++ post w j ++ suf) ->
    forall k i c, nth_error (places (S j) (sub w)) k = Some i -> nth_error (sub w) k = Some c -> exists pre suf, post t 0 = pre ++ post c i ++ suf).
  { intros [v l] j W (pre & suf & E) k i c P C. rewrite post_node in E. cbn [sub] in *.
    assert (X : exists p q, posts l (S j) = p ++ post c i ++ q).
    { clear - P C. revert k P C. generalize (S j). induction l as [|x r IH]; intros n k P C; [destruct k; discriminate|]. rewrite posts_cons.
      destruct k as [|k]; cbn in P, C.
      - injection P as ->. injection C as ->. exists [], (posts r (i + count c)). reflexivity.
      - destruct (IH _ k P C) as (p & q & ->). exists (post x n ++ p), q. rewrite <- app_assoc. reflexivity. }
    destruct X as (p & q & X). rewrite X in E. exists (pre ++ p), (q ++ [j] ++ suf). rewrite E, <- !app_assoc. reflexivity. }
  enough (H : forall n i u, i <= n -> nth_error (nodes t) i = Some u -> exists pre suf, post t 0 = pre ++ post u i ++ suf) by (intros u i U; apply (H i i u (le_n _) U)).
  induction n as [|n IH]; intros i u L U.
  - replace i with 0 in * by lia. rewrite nodes_head in U. injection U as <-. exists [], []. rewrite app_nil_r. reflexivity.
  - destruct (Nat.eq_dec i 0) as [->|NZ]; [rewrite nodes_head in U; injection U as <-; exists [], []; rewrite app_nil_r; reflexivity|].
    assert (B : i < count t) by (apply nth_error_Some; rewrite U; discriminate).
    destruct (parent_exists t i) as (p & k & w & W & P); [lia|]. destruct (child_sub t p k i w W P) as (c & C & N & LT & _).
    assert (c = u) by congruence. subst c. apply (G w p W (IH p w ltac:(lia) W) k i u P C).
Qed.
Lemma place_in_app (x : nat) (l m : list nat) : ~ In x l -> place_in x (l ++ x :: m) = length l.
Proof.
  induction l as [|y r IH]; cbn; intros N.
  - rewrite Nat.eqb_refl. reflexivity.
  - destruct (Nat.eqb_spec y x); [exfalso; apply N; left; exact e|]. rewrite IH; [reflexivity|tauto].
Qed.
Lemma postorder_id_first i u pre suf : nth_error (nodes t) i = Some u -> post t 0 = pre ++ post u i ++ suf -> postorder_id ns (ll u i) = length pre.
Proof.
  intros U E. unfold postorder_id. rewrite (postorder_post _ 0 t (nodes_head t) (tall_size 0 t (nodes_head t))).
  pose proof (post_head u i) as H. destruct (post u i) as [|x q]; [discriminate|]. injection H as <-.
  assert (N : NoDup (post t 0)) by (apply (Permutation_NoDup (Permutation_sym (post_perm t 0))), seq_NoDup).
  rewrite E in *. cbn [app] in *. apply place_in_app. apply nodup_app in N as (_ & _ & D). intros I. apply (D x I). left. reflexivity.
Qed.
(** ** The leftmost descendants *)
Definition ll_at (i : nat) : nat := match nth_error (nodes t) i with Some u => ll u i | None => i end.
Lemma ll_leaf i : node_kids ns i = [] -> ll_at i = i.
Proof.
  unfold ll_at. destruct (nth_error (nodes t) i) as [u|] eqn:U; [|reflexivity]. rewrite (kids_places t i u U). destruct u as [v [|c r]]; [reflexivity|discriminate].
Qed.
Lemma ll_first i x r : node_kids ns i = x :: r -> ll_at i = ll_at x.
Proof.
  intros K. destruct (nth_error (nodes t) i) as [u|] eqn:U; [|rewrite kids_none in K by exact U; discriminate]. rewrite (kids_places t i u U) in K.
  assert (P : nth_error (places (S i) (sub u)) 0 = Some x) by (rewrite K; reflexivity).
  destruct (child_sub t i 0 x u U P) as (c & C & N & _). unfold ll_at. rewrite U, N. destruct u as [v [|c' q]]; [discriminate|]. cbn in C, K. injection C as ->. injection K as <- _. reflexivity.
Qed.
(** [k] is reached from [cur] by going up [n] times from a first child. *)
Inductive ups : nat -> nat -> nat -> Prop :=
| ups_0 k : ups k k 0
| ups_S cur p r k n : node_kids ns p = cur :: r -> ups p k n -> ups cur k (S n).
Lemma climb_only fuel : forall leaf cur lmd k, ll_at cur = leaf -> climb ns fuel leaf cur lmd k = lmd k \/ (climb ns fuel leaf cur lmd k = leaf /\ ll_at k = leaf).
Proof.
  induction fuel as [|n IH]; intros leaf cur lmd k E; cbn [climb]; [left; reflexivity|]. destruct (node_parent ns cur) as [p|]; [|left; reflexivity].
  destruct (node_kids ns p) as [|f r] eqn:K; [left; reflexivity|]. destruct (Nat.eqb_spec f cur) as [->|]; [|left; reflexivity].
  assert (LP : ll_at p = leaf) by (rewrite (ll_first p cur r K); exact E).
  destruct (IH leaf p (set_at lmd p leaf) k LP) as [H|H]; [|right; exact H]. rewrite H. destruct (Nat.eq_dec k p) as [->|N].
  - right. rewrite set_at_same. split; [reflexivity|exact LP].
  - left. apply set_at_other. exact N.
Qed.
Lemma climb_keeps fuel leaf cur lmd k : ll_at cur = leaf -> lmd k = leaf -> climb ns fuel leaf cur lmd k = leaf.
Proof. intros E L. destruct (climb_only fuel leaf cur lmd k E) as [H|[H _]]; congruence. Qed.
Lemma climb_reach fuel : forall leaf cur lmd k n, ll_at cur = leaf -> ups cur k n -> n <= fuel -> lmd cur = leaf -> climb ns fuel leaf cur lmd k = leaf.
Proof.
  induction fuel as [|f IH]; intros leaf cur lmd k n E H L C.
  - inversion H; subst; [exact C|lia].
  - inversion H as [|? p r ? n' K U']; subst.
    + apply climb_keeps; [reflexivity|exact C].
    + cbn [climb]. assert (P : node_parent ns cur = Some p) by (apply parent_child, kids_child; rewrite K; left; reflexivity).
      rewrite P, K, Nat.eqb_refl. apply (IH _ p _ k n').
      * apply (ll_first p cur r K).
      * exact U'.
      * lia.
      * apply set_at_same.
Qed.
Lemma ups_snoc cur p r k n : ups k p n -> node_kids ns cur = p :: r -> ups k cur (S n).
Proof. intros H K. induction H as [k|c q s k n Q U IH]; [apply (ups_S _ _ r _ _ K); constructor|]. apply (ups_S _ _ _ _ _ Q). apply IH. exact K. Qed.
Lemma ups_exists i : i < count t -> exists n, ups (ll_at i) i n /\ ll_at i = i + n /\ node_kids ns (ll_at i) = [] /\ ll_at i < count t.
Proof.
  remember (count t - i) as q eqn:Q. revert i Q. induction q as [q IH] using lt_wf_ind. intros i Q B.
  destruct (node_kids ns i) as [|x r] eqn:K.
  - rewrite (ll_leaf i K). exists 0. split; [constructor|]. split; [lia|]. split; assumption.
  - assert (I : In x (node_kids ns i)) by (rewrite K; left; reflexivity). apply kids_child in I as I'. destruct I' as (k & C).
    assert (X : x = S i).
    { destruct (nth_error (nodes t) i) as [u|] eqn:U; [|rewrite kids_none in K by exact U; discriminate]. rewrite (kids_places t i u U) in K.
      destruct u as [v [|c' q']]; cbn in K; [discriminate|congruence]. }
    pose proof (child_range t i k x C). destruct (IH (count t - x) ltac:(lia) x eq_refl ltac:(lia)) as (n & U & E & L & V).
    exists (S n). rewrite (ll_first i x r K). split; [apply (ups_snoc i x r _ _ U K)|]. split; [lia|]. split; assumption.
Qed.
Lemma leftmost_ll i : i < count t -> leftmost ns i = ll_at i.
Proof.
  intros B. unfold leftmost.
  assert (G : forall (l : list nat) (lmd : nat -> nat), (forall x, In x l -> ll_at x = x) ->
    forall k, k < count t ->
    fold_left (fun lmd leaf => climb ns (size_of ns) leaf leaf (set_at lmd leaf leaf)) l lmd k = ll_at k \/
    (fold_left (fun lmd leaf => climb ns (size_of ns) leaf leaf (set_at lmd leaf leaf)) l lmd k = lmd k /\ ~ In (ll_at k) l)).
  { clear i B. induction l as [|leaf l IH]; intros lmd H k B; [right; split; [reflexivity|intros []]|]. cbn [fold_left].
    assert (HL : ll_at leaf = leaf) by (apply H; left; reflexivity).
    destruct (IH (climb ns (size_of ns) leaf leaf (set_at lmd leaf leaf)) (fun x I => H x (or_intror I)) k B) as [E|[E N]]; [left; exact E|].
    rewrite E. destruct (Nat.eq_dec (ll_at k) leaf) as [Q|Q].
    - left. destruct (ups_exists k B) as (n & U & E2 & _ & V). rewrite Q in U. rewrite Q. apply (climb_reach _ _ _ _ _ n HL U); [rewrite size_count; lia|apply set_at_same].
    - right. split.
      + destruct (climb_only (size_of ns) leaf leaf (set_at lmd leaf leaf) k HL) as [X|[_ X]]; [|congruence]. rewrite X. apply set_at_other. intros ->. congruence.
      + intros [X|X]; [congruence|contradiction]. }
  destruct (G (leaves ns) (fun i => i)) with (k := i) as [E|[_ N]]; [|exact B|exact E|].
  - intros x I. apply ll_leaf. unfold leaves in I. apply filter_In in I as [_ I]. destruct (node_kids ns x); [reflexivity|discriminate].
  - exfalso. apply N. unfold leaves. destruct (ups_exists i B) as (n & _ & _ & K & V). apply filter_In. split.
    + rewrite in_seq, size_count. lia.
    + rewrite K. reflexivity.
Qed.
(** ** Subtrees *)
Lemma subtree_lmds r u : nth_error (nodes t) r = Some u -> subtree_of ns r = Subtree (post u r) (lms u 0).
Proof.
  intros U. unfold subtree_of. rewrite (postorder_post _ r u U (tall_size r u U)). f_equal.
  destruct (post_inside u r U) as (pre0 & suf0 & E0).
  assert (HD : hd 0 (post u r) = ll u r) by (pose proof (post_head u r) as H; destruct (post u r); [discriminate|injection H as ->; reflexivity]).
  rewrite HD, (postorder_id_first r u pre0 suf0 U E0).
  assert (G : forall w i pre suf o, nth_error (nodes t) i = Some w -> post t 0 = pre ++ post w i ++ suf -> length pre = length pre0 + o ->
    map (fun i => postorder_id ns (leftmost ns i) - length pre0) (post w i) = lms w o).
  { clear U HD E0. induction w as [v l IH] using tree_ind'. intros i pre suf o W E L.
    assert (LAST : postorder_id ns (leftmost ns i) - length pre0 = o).
    { rewrite leftmost_ll by (apply nth_error_Some; rewrite W; discriminate). unfold ll_at. rewrite W, (postorder_id_first i _ pre suf W E). lia. }
    rewrite post_node, lms_node, map_app. f_equal; [|cbn; rewrite LAST; reflexivity]. rewrite post_node in E. clear LAST.
    assert (Q : forall l q pre suf o, Forall (fun w => forall i pre suf o, nth_error (nodes t) i = Some w -> post t 0 = pre ++ post w i ++ suf -> length pre = length pre0 + o ->
        map (fun i => postorder_id ns (leftmost ns i) - length pre0) (post w i) = lms w o) l ->
      (forall k x, nth_error (places q l) k = Some x -> nth_error (nodes t) x = nth_error l k) ->
      post t 0 = pre ++ posts l q ++ suf -> length pre = length pre0 + o -> map (fun i => postorder_id ns (leftmost ns i) - length pre0) (posts l q) = lmss l o).
    { clear. induction l as [|c r IH]; intros q pre suf o F P E L; [reflexivity|]. inversion F as [|? ? Hc Hr]. subst.
      rewrite posts_cons, lmss_cons, map_app. rewrite posts_cons in E. f_equal.
      - apply (Hc q pre (posts r (q + count c) ++ suf) o); [exact (P 0 q eq_refl)|rewrite E, <- app_assoc; reflexivity|exact L].
      - apply (IH (q + count c) (pre ++ post c q) suf (o + count c) Hr).
        + intros k x. exact (P (S k) x).
        + rewrite E, <- !app_assoc. reflexivity.
        + rewrite app_length, post_length. lia. }
    apply (Q l (S i) pre ([i] ++ suf) o IH).
    - intros k x X. destruct (child_sub t i k x _ W X) as (c & C & N & _). cbn [sub] in C. congruence.
    - rewrite E, <- !app_assoc. reflexivity.
    - exact L. }
  apply (G u r pre0 suf0 0 U E0). lia.
Qed.
End Post.
