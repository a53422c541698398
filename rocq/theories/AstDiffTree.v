(** Proofs about the arrays that the comparison keeps for a tree. *)
From Coq Require Import List Bool Arith ZArith Lia Permutation.
From Verif Require Import EagerModel EagerSpec EagerProofs AstDiffModel AstDiffSpec.
Import ListNotations.

Section Trees.
Context {A : Type}.
Implicit Types (t u : tree A) (l : list (tree A)).

Lemma count_node v l : count (T v l) = S (list_sum (map count l)).
Proof.
  unfold count at 1. cbn [nodes length]. f_equal. induction l as [|c r IH]; [reflexivity|].
  cbn [flat_map map list_sum fold_right]. rewrite app_length. cbn. unfold count at 1. f_equal. exact IH.
Qed.
Lemma count_pos t : 0 < count t.
Proof. destruct t. rewrite count_node. lia. Qed.
Lemma nodes_head t : nth_error (nodes t) 0 = Some t.
Proof. destruct t; reflexivity. Qed.
(** The height as the visitor counts it *)
Fixpoint tall (t : tree A) : nat := match t with T _ l => fold_right (fun c h => Nat.max (S (tall c)) h) 1 l end.
Lemma tall_pos t : 0 < tall t.
Proof. destruct t as [v l]. cbn [tall]. induction l as [|c r IH]; cbn [fold_right]; lia. Qed.
Lemma tall_sub v l c : In c l -> tall c < tall (T v l).
Proof.
  cbn [tall]. induction l as [|x r IH]; [intros []|]. intros [->|H]; cbn [fold_right].
  - lia.
  - specialize (IH H). lia.
Qed.

(** * What the visitor records *)
Fixpoint recs (t : tree A) (up : option nat) (depth id : nat) : list (@node A) :=
  match t with
  | T v l =>
      Node up (id + list_sum (map count l)) depth (tall t) (places (S id) l) v ::
      (fix go (l : list (tree A)) (next : nat) : list node :=
         match l with [] => [] | c :: r => recs c (Some id) (S depth) next ++ go r (next + count c) end) l (S id)
  end.
Definition rest (up : option nat) (depth : nat) :=
  fix go (l : list (tree A)) (next : nat) : list (@node A) :=
    match l with [] => [] | c :: r => recs c up depth next ++ go r (next + count c) end.
Lemma recs_node v l up depth id :
  recs (T v l) up depth id = Node up (id + list_sum (map count l)) depth (tall (T v l)) (places (S id) l) v :: rest (Some id) (S depth) l (S id).
Proof. reflexivity. Qed.
Lemma rest_cons up depth c r next : rest up depth (c :: r) next = recs c up depth next ++ rest up depth r (next + count c).
Proof. reflexivity. Qed.
Lemma recs_length t : forall up depth id, length (recs t up depth id) = count t.
Proof.
  induction t as [v l IH] using tree_ind'. intros. rewrite recs_node, count_node. cbn [length]. f_equal.
  generalize (S id), (S depth), (Some id). induction l as [|c r IHr]; intros n d u; [reflexivity|].
  inversion IH as [|? ? Hc Hr]. subst. rewrite rest_cons, app_length, Hc, IHr by exact Hr. reflexivity.
Qed.
Lemma traverse_recs t : forall up depth id, traverse t up depth id = recs t up depth id.
Proof.
  induction t as [v l IH] using tree_ind'. intros. cbn [traverse].
  set (go := fix go (l0 : list (tree A)) (next : nat) : list node * list nat * nat * nat :=
           match l0 with
           | [] => ([], [], next, 1)
           | c :: r =>
               let ns := traverse c (Some id) (S depth) next in
               let '(below, ids, last, h) := go r (next + length ns) in
               (ns ++ below, next :: ids, last, Nat.max (match ns with n :: _ => 1 + height n | [] => 1 end) h)
           end).
  assert (G : forall l n, Forall (fun t => forall up depth id, traverse t up depth id = recs t up depth id) l ->
      go l n = (rest (Some id) (S depth) l n, places n l, n + list_sum (map count l), tall (T v l))).
  { clear. induction l as [|c r IHr]; intros n H.
    - cbn. rewrite Nat.add_0_r. reflexivity.
    - inversion H as [|? ? Hc Hr]. subst. cbn [go]. rewrite Hc, recs_length. cbn zeta. fold go. rewrite IHr by exact Hr. rewrite rest_cons. cbn [places map]. f_equal; [f_equal|].
      + change (list_sum (count c :: map count r)) with (count c + list_sum (map count r)). lia.
      + cbn [tall fold_right]. f_equal. destruct c as [w m]. rewrite recs_node. reflexivity. }
  rewrite G by exact IH. rewrite recs_node. f_equal. f_equal. lia.
Qed.

(** The record of a node that is not the root of the part that is visited has a parent. *)
Definition rec_of (id : nat) (k : nat) (u : tree A) (n : @node A) : Prop :=
  rightmost n = id + k + count u - 1 /\ height n = tall u /\ kids n = places (S (id + k)) (sub u) /\ value n = val u.
Lemma rest_nth (P : nat -> tree A -> @node A -> Prop) up depth :
  forall l next k n,
  (forall c j m next, In c l -> nth_error (recs c up depth next) j = Some m ->
     exists u, nth_error (nodes c) j = Some u /\ P (next + j) u m) ->
  nth_error (rest up depth l next) k = Some n -> exists u, nth_error (flat_map nodes l) k = Some u /\ P (next + k) u n.
Proof.
  induction l as [|c r IH]; intros next k n H N; [destruct k; discriminate|].
  rewrite rest_cons in N. cbn [flat_map]. destruct (Nat.lt_ge_cases k (count c)) as [L|L].
  - rewrite nth_error_app1 in N by (rewrite recs_length; exact L). rewrite nth_error_app1 by exact L. apply (H c k n next); [left; reflexivity|exact N].
  - rewrite nth_error_app2 in N by (rewrite recs_length; exact L). rewrite recs_length in N. rewrite nth_error_app2 by exact L.
    apply IH in N as (u & U & Q).
    + exists u. split; [exact U|]. replace (next + k) with (next + count c + (k - count c)) by lia. exact Q.
    + intros c' j m nx I. apply H. right. exact I.
Qed.
Lemma recs_nth t : forall up depth id k n, nth_error (recs t up depth id) k = Some n ->
  exists u, nth_error (nodes t) k = Some u /\ rec_of 0 (id + k) u n.
Proof.
  induction t as [v l IH] using tree_ind'. intros up depth id k n N. rewrite recs_node in N. destruct k as [|k].
  - injection N as <-. exists (T v l). split; [reflexivity|]. unfold rec_of. cbn [rightmost height kids value sub val]. rewrite count_node, !Nat.add_0_r. cbn [plus].
    repeat split; lia.
  - cbn [nth_error] in N. apply (rest_nth (fun i u n => rec_of 0 i u n)) in N as (u & U & Q).
    + exists u. split; [exact U|]. replace (id + S k) with (S id + k) by lia. exact Q.
    + intros c j m next I M. rewrite Forall_forall in IH. apply (IH c I) in M. exact M.
Qed.

(** * Places *)
Lemma places_length n l : length (places n l) = length l.
Proof. revert n. induction l as [|c r IH]; intros n; cbn; [|rewrite IH]; reflexivity. Qed.
Lemma places_app n l m : places n (l ++ m) = places n l ++ places (n + list_sum (map count l)) m.
Proof.
  revert n. induction l as [|c r IH]; intros n; cbn [app places map].
  - cbn. rewrite Nat.add_0_r. reflexivity.
  - rewrite IH. cbn [app]. f_equal. f_equal. f_equal. change (list_sum (count c :: map count r)) with (count c + list_sum (map count r)). lia.
Qed.
Lemma flat_nodes_length l : length (flat_map nodes l) = list_sum (map count l).
Proof. induction l as [|c r IH]; [reflexivity|]. cbn [flat_map map]. rewrite app_length, IH. reflexivity. Qed.
Lemma places_nth l : forall n k i, nth_error (places n l) k = Some i ->
  exists c, nth_error l k = Some c /\ i = n + list_sum (map count (firstn k l)) /\ i + count c <= n + list_sum (map count l).
Proof.
  induction l as [|c r IH]; intros n k i; [destruct k; discriminate|]. destruct k as [|k]; cbn [places nth_error].
  - intros [= <-]. exists c. cbn. change (list_sum (count c :: map count r)) with (count c + list_sum (map count r)). repeat split; lia.
  - intros N. apply IH in N as (c' & N & E & B). exists c'. split; [exact N|]. cbn [firstn map].
    change (list_sum (count c :: map count (firstn k r))) with (count c + list_sum (map count (firstn k r))).
    change (list_sum (count c :: map count r)) with (count c + list_sum (map count r)). split; lia.
Qed.
(** Below a node *)
Lemma nodes_below t : forall i u, nth_error (nodes t) i = Some u ->
  forall k, k < count u -> nth_error (nodes t) (i + k) = nth_error (nodes u) k.
Proof.
  induction t as [v l IH] using tree_ind'. intros i u N k K. destruct i as [|i].
  - injection N as <-. reflexivity.
  - cbn [nodes nth_error] in N. change (S i + k) with (S (i + k)). cbn [nodes nth_error].
    revert i N. induction l as [|c r IHr]; intros i N; [destruct i; discriminate|]. inversion IH as [|? ? Hc Hr]. subst.
    cbn [flat_map] in *. destruct (Nat.lt_ge_cases i (count c)) as [L|L].
    + rewrite nth_error_app1 in N by exact L. pose proof N as N'. specialize (Hc i u N' k K). rewrite nth_error_app1.
      * exact Hc.
      * apply nth_error_Some. fold (count c). rewrite Hc. apply nth_error_Some. exact K.
    + rewrite nth_error_app2 in N by exact L. rewrite nth_error_app2 by (fold (count c); lia). fold (count c) in *.
      replace (i + k - count c) with (i - count c + k) by lia. apply IHr; assumption.
Qed.
Lemma nodes_end t i u : nth_error (nodes t) i = Some u -> i + count u <= count t.
Proof.
  intros N. pose proof (count_pos u) as P. assert (K : count u - 1 < count u) by lia.
  pose proof (nodes_below t i u N _ K) as E. assert (X : nth_error (nodes u) (count u - 1) <> None) by (apply nth_error_Some; exact K).
  rewrite <- E in X. apply nth_error_Some in X. fold (count t) in X. lia.
Qed.
Lemma kid_below u k i : nth_error (places 1 (sub u)) k = Some i -> exists c, nth_error (sub u) k = Some c /\ nth_error (nodes u) i = Some c.
Proof.
  destruct u as [v l]. cbn [sub]. intros N. apply places_nth in N as (c & C & -> & B). exists c. split; [exact C|].
  cbn [nodes plus nth_error]. revert k C B. induction l as [|x r IH]; intros k C B; [destruct k; discriminate|].
  cbn [flat_map]. destruct k as [|k]; cbn [firstn map nth_error] in *.
  - injection C as ->. change (list_sum []) with 0. rewrite nth_error_app1 by apply count_pos. apply nodes_head.
  - change (list_sum (count x :: map count (firstn k r))) with (count x + list_sum (map count (firstn k r))) in *.
    rewrite nth_error_app2 by (fold (count x); lia). fold (count x). replace (count x + _ - count x) with (list_sum (map count (firstn k r))) by lia.
    apply IH; [exact C|]. change (list_sum (count x :: map count r)) with (count x + list_sum (map count r)) in B. lia.
Qed.
Lemma places_shift n m l : places (n + m) l = map (fun i => m + i) (places n l).
Proof. revert n. induction l as [|c r IH]; intros n; [reflexivity|]. cbn [places map]. f_equal; [lia|]. rewrite <- IH. f_equal. lia. Qed.
Lemma child_sub t p k i u : nth_error (nodes t) p = Some u -> nth_error (places (S p) (sub u)) k = Some i ->
  exists c, nth_error (sub u) k = Some c /\ nth_error (nodes t) i = Some c /\ p < i /\ i + count c <= p + count u.
Proof.
  intros U N. change (S p) with (1 + p) in N. rewrite places_shift, nth_error_map in N.
  destruct (nth_error (places 1 (sub u)) k) as [j|] eqn:J; [|discriminate]. injection N as <-.
  apply places_nth in J as J'. destruct J' as (c & C & E & B). apply kid_below in J as (c' & C' & N). assert (c' = c) by congruence. subst c'.
  exists c. split; [exact C|]. destruct u as [v l]. cbn [sub] in *. rewrite count_node. pose proof (count_pos c). split; [|lia].
  rewrite (nodes_below t p (T v l) U j); [exact N|]. rewrite count_node. lia.
Qed.
Lemma child_range t p k i : child t p k i -> p < i < count t.
Proof.
  intros (u & U & N). destruct (child_sub t p k i u U N) as (c & _ & C & L & _). split; [exact L|].
  apply nth_error_Some. rewrite C. discriminate.
Qed.
Lemma places_sorted l : forall n i j x y, nth_error (places n l) i = Some x -> nth_error (places n l) j = Some y -> i < j -> x < y.
Proof.
  induction l as [|c r IH]; intros n i j x y X Y L; [destruct i; discriminate|]. destruct j as [|j]; [lia|]. cbn [places nth_error] in Y.
  destruct i as [|i]; cbn [places nth_error] in X.
  - injection X as <-. apply places_nth in Y as (c' & _ & -> & _). pose proof (count_pos c). lia.
  - apply (IH _ _ _ _ _ X Y). lia.
Qed.
Lemma places_nodup n l : NoDup (places n l).
Proof.
  apply NoDup_nth_error. intros i j L E. destruct (nth_error (places n l) i) as [x|] eqn:X; [|apply nth_error_None in X; lia]. symmetry in E.
  destruct (Nat.lt_trichotomy i j) as [H|[H|H]]; [|exact H|].
  - pose proof (places_sorted l n i j x x X E H). lia.
  - pose proof (places_sorted l n j i x x E X H). lia.
Qed.
(** The node that a place belongs to *)
Lemma place_split l : forall n x, n <= x < n + list_sum (map count l) ->
  exists k c i, nth_error l k = Some c /\ nth_error (places n l) k = Some i /\ i <= x < i + count c.
Proof.
  induction l as [|c r IH]; intros n x B; [cbn in B; lia|]. cbn [map] in B.
  change (list_sum (count c :: map count r)) with (count c + list_sum (map count r)) in B.
  destruct (Nat.lt_ge_cases x (n + count c)) as [L|L].
  - exists 0, c, n. cbn. repeat split; lia.
  - destruct (IH (n + count c) x) as (k & c' & i & C & P & B'); [lia|]. exists (S k), c', i. cbn. repeat split; try assumption; lia.
Qed.
Lemma parent_exists t : forall i, 0 < i < count t -> exists p k, child t p k i.
Proof.
  induction t as [v l IH] using tree_ind'. intros i B. rewrite count_node in B.
  destruct (place_split l 1 i) as (k & c & s & C & P & R); [lia|]. destruct (Nat.eq_dec i s) as [->|N].
  - exists 0, k, (T v l). split; [reflexivity|exact P].
  - rewrite Forall_forall in IH. destruct (IH c (nth_error_In _ _ C) (i - s)) as (p & k' & u & U & Q); [lia|].
    exists (s + p), k', u. destruct (child_sub (T v l) 0 k s (T v l) eq_refl P) as (c' & C' & S' & _ & _). cbn [sub] in C'. assert (c' = c) by congruence. subst c'.
    split.
    + rewrite (nodes_below _ s c S'); [exact U|]. apply nth_error_Some. rewrite U. discriminate.
    + change (S (s + p)) with (S s + p). rewrite Nat.add_comm. change (S s) with (1 + s).
      replace (p + (1 + s)) with (S p + s) by lia. rewrite places_shift, nth_error_map, Q. cbn. f_equal. lia.
Qed.
(** Subtrees of two nodes lie apart or one inside of the other. *)
Lemma nested t : forall i j u w, nth_error (nodes t) i = Some u -> nth_error (nodes t) j = Some w -> i < j -> i + count u <= j \/ j + count w <= i + count u.
Proof.
  intros i j u w U W L. destruct (Nat.lt_ge_cases j (i + count u)) as [H|H]; [|left; exact H]. right.
  replace j with (i + (j - i)) in W by lia. rewrite (nodes_below t i u U) in W by lia. apply nodes_end in W. lia.
Qed.
Lemma parent_unique t p k i q k' : child t p k i -> child t q k' i -> p = q /\ k = k'.
Proof.
  assert (H : forall p k i q k', child t p k i -> child t q k' i -> ~ p < q).
  { clear. intros p k i q k' (u & U & N) (w & W & M) L.
    destruct (child_sub t p k i u U N) as (c & C & I & L1 & B1). destruct (child_sub t q k' i w W M) as (c' & C' & I' & L2 & B2).
    assert (c' = c) by congruence. subst c'. pose proof (count_pos c).
    destruct (nested t p q u w U W L) as [X|X]; [lia|].
    (* q is inside of some child of p that ends before i, or starts at i *)
    destruct u as [v l]. cbn [sub] in *. rewrite count_node in *.
    destruct (place_split l (S p) q) as (a & d & s & D & S' & R); [lia|].
    destruct (child_sub t p a s (T v l) U S') as (d' & D' & I2 & L3 & B3). cbn [sub] in D'. assert (d' = d) by congruence. subst d'.
    assert (E : q = s \/ s < q) by lia. assert (Z : q + count w <= s + count d).
    { destruct E as [->|E]; [assert (w = d) by congruence; subst; lia|]. destruct (nested t s q d w I2 W E); lia. }
    destruct (Nat.lt_trichotomy a k) as [G|[G|G]].
    - apply places_nth in S' as S1. destruct S1 as (? & S1 & -> & _). apply places_nth in N as N1. destruct N1 as (? & N1 & -> & _).
      assert (x = d) by congruence. subst x.
      assert (list_sum (map count (firstn a l)) + count d <= list_sum (map count (firstn k l))).
      { replace k with (a + (k - a)) by lia. clear - S1 G. revert a S1 G. induction l as [|y r IH]; intros a S1 G; [destruct a; discriminate|].
        destruct a as [|a].
        - injection S1 as ->. destruct k as [|k]; [lia|]. cbn. lia.
        - destruct k as [|k]; [lia|]. cbn [Nat.sub plus firstn map nth_error] in *.
          change (list_sum (count y :: map count (firstn a r))) with (count y + list_sum (map count (firstn a r))).
          change (list_sum (count y :: map count (firstn (a + (k - a)) r))) with (count y + list_sum (map count (firstn (a + (k - a)) r))).
          replace (a + (k - a)) with k by lia.
          assert (H : forall l a b, a <= b -> forall d, nth_error l a = Some d -> a < b -> list_sum (map count (firstn a l)) + count d <= list_sum (map count (firstn b l))).
          { clear. induction l as [|y r IH]; intros a b L d N G; [destruct a; discriminate|]. destruct b as [|b]; [lia|]. destruct a as [|a].
            - injection N as ->. cbn. lia.
            - cbn [firstn map]. change (list_sum (count y :: map count (firstn a r))) with (count y + list_sum (map count (firstn a r))).
              change (list_sum (count y :: map count (firstn b r))) with (count y + list_sum (map count (firstn b r))).
              specialize (IH a b ltac:(lia) d N ltac:(lia)). lia. }
          specialize (H r a k ltac:(lia) d S1 ltac:(lia)). lia. }
      lia.
    - subst a. assert (s = i) by congruence. lia.
    - pose proof (places_sorted l (S p) k a i s N S' G). lia. }
  intros P Q. assert (p = q).
  { pose proof (H _ _ _ _ _ P Q). pose proof (H _ _ _ _ _ Q P). lia. }
  subst q. split; [reflexivity|]. destruct P as (u & U & N), Q as (w & W & M). assert (w = u) by congruence. subst w.
  apply (proj1 (NoDup_nth_error _) (places_nodup (S p) (sub u))); [|congruence]. apply nth_error_Some. rewrite N. discriminate.
Qed.

(** * The arrays of a tree *)
Section Arrays.
Variable t : tree A.
Notation ns := (from_node t).
Lemma from_node_recs : ns = recs t None 0 0.
Proof. apply traverse_recs. Qed.
Lemma size_count : size_of ns = count t.
Proof. unfold size_of. rewrite from_node_recs. apply recs_length. Qed.
Lemma node_rec i u : nth_error (nodes t) i = Some u -> exists n, nth_error ns i = Some n /\ rec_of 0 i u n.
Proof.
  intros U. destruct (nth_error ns i) as [n|] eqn:N.
  - exists n. split; [reflexivity|]. rewrite from_node_recs in N. apply recs_nth in N as (u' & U' & R). assert (u' = u) by congruence. subst. exact R.
  - apply nth_error_None in N. assert (i < length (nodes t)) by (apply nth_error_Some; rewrite U; discriminate).
    fold (size_of ns) in N. rewrite size_count in N. unfold count in N. lia.
Qed.
Lemma value_val i : value_at ns i = option_map val (nth_error (nodes t) i).
Proof.
  unfold value_at. destruct (nth_error (nodes t) i) as [u|] eqn:U.
  - destruct (node_rec i u U) as (n & -> & _ & _ & _ & E). cbn. rewrite E. reflexivity.
  - apply nth_error_None in U. destruct (nth_error ns i) eqn:N; [|reflexivity].
    assert (i < size_of ns) by (apply nth_error_Some; rewrite N; discriminate). rewrite size_count in H. unfold count in H. lia.
Qed.
Lemma kids_places i u : nth_error (nodes t) i = Some u -> node_kids ns i = places (S i) (sub u).
Proof. intros U. unfold node_kids. destruct (node_rec i u U) as (n & -> & _ & _ & E & _). exact E. Qed.
Lemma kids_none i : nth_error (nodes t) i = None -> node_kids ns i = [].
Proof.
  intros U. unfold node_kids. destruct (nth_error ns i) eqn:N; [|reflexivity]. apply nth_error_None in U.
  assert (i < size_of ns) by (apply nth_error_Some; rewrite N; discriminate). rewrite size_count in H. unfold count in H. lia.
Qed.
Lemma height_tall i u : nth_error (nodes t) i = Some u -> node_height ns i = tall u.
Proof. intros U. unfold node_height. destruct (node_rec i u U) as (n & -> & _ & E & _). exact E. Qed.
Lemma right_end i u : nth_error (nodes t) i = Some u -> node_right ns i = i + count u - 1.
Proof. intros U. unfold node_right. destruct (node_rec i u U) as (n & -> & E & _). exact E. Qed.
Lemma descendants_count i u : nth_error (nodes t) i = Some u -> descendants ns i = count u.
Proof. intros U. unfold descendants. rewrite (right_end i u U). pose proof (count_pos u). lia. Qed.
Lemma kids_child p i : In i (node_kids ns p) <-> exists k, child t p k i.
Proof.
  split.
  - intros H. destruct (nth_error (nodes t) p) as [u|] eqn:U; [|rewrite kids_none in H by exact U; destruct H].
    rewrite (kids_places p u U) in H. apply In_nth_error in H as (k & H). exists k, u. split; assumption.
  - intros (k & u & U & H). rewrite (kids_places p u U). apply nth_error_In in H. exact H.
Qed.
Lemma recs_parent (t0 : tree A) : forall up depth id k n, nth_error (recs t0 up depth id) k = Some n ->
  match k with
  | 0 => parent n = up
  | S _ => exists p j, parent n = Some (id + p) /\ child t0 p j k
  end.
Proof.
  induction t0 as [v l IH] using tree_ind'. intros up depth id k n N. rewrite recs_node in N. destruct k as [|k].
  - injection N as <-. reflexivity.
  - cbn [nth_error] in N.
    assert (G : forall pre l next k n, (forall c, In c l -> forall up depth id k n, nth_error (recs c up depth id) k = Some n ->
        match k with 0 => parent n = up | S _ => exists p j, parent n = Some (id + p) /\ child c p j k end) ->
        next = S id + list_sum (map count pre) ->
        nth_error (rest (Some id) (S depth) l next) k = Some n ->
        exists p j, parent n = Some (id + p) /\ child (T v (pre ++ l)) p j (next - id + k)).
    { clear. intros pre l. revert pre. induction l as [|c r IHr]; intros pre next k n H E N; [destruct k; discriminate|].
      rewrite rest_cons in N. destruct (Nat.lt_ge_cases k (count c)) as [L|L].
      - rewrite nth_error_app1 in N by (rewrite recs_length; exact L). apply (H c (or_introl eq_refl)) in N.
        assert (C : nth_error (places 1 (pre ++ c :: r)) (length pre) = Some (1 + list_sum (map count pre))).
        { rewrite places_app, nth_error_app2 by (rewrite places_length; lia). rewrite places_length, Nat.sub_diag. reflexivity. }
        destruct k as [|k].
        + exists 0, (length pre). split; [rewrite N; f_equal; lia|]. exists (T v (pre ++ c :: r)). split; [reflexivity|]. cbn [sub]. rewrite C. f_equal. lia.
        + destruct N as (p & j & P & (u & U & Q)). exists (1 + list_sum (map count pre) + p), j. split; [rewrite P; f_equal; lia|].
          exists u. destruct (child_sub (T v (pre ++ c :: r)) 0 (length pre) _ _ eq_refl C) as (c' & C' & N' & _ & _).
          cbn [sub] in C'. rewrite nth_error_app2, Nat.sub_diag in C' by lia. injection C' as <-. split.
          * rewrite (nodes_below _ _ c N'); [exact U|]. apply nth_error_Some. rewrite U. discriminate.
          * replace (S (1 + list_sum (map count pre) + p)) with (S p + (1 + list_sum (map count pre))) by lia.
            rewrite places_shift, nth_error_map, Q. cbn. f_equal. lia.
      - rewrite nth_error_app2 in N by (rewrite recs_length; exact L). rewrite recs_length in N.
        replace (pre ++ c :: r) with ((pre ++ [c]) ++ r) by (rewrite <- app_assoc; reflexivity).
        assert (E' : next + count c = S id + list_sum (map count (pre ++ [c]))).
        { rewrite map_app, list_sum_app. cbn. lia. }
        destruct (IHr (pre ++ [c]) (next + count c) (k - count c) n) as (p & j & P & Q).
        + intros c' I. apply H. right. exact I.
        + exact E'.
        + exact N.
        + exists p, j. split; [exact P|]. replace (next - id + k) with (next + count c - id + (k - count c)) by lia. exact Q. }
    rewrite Forall_forall in IH. specialize (G [] l (S id) k n).
    destruct G as (p & j & P & Q).
    + intros c I. exact (IH c I).
    + cbn. lia.
    + exact N.
    + exists p, j. split; [exact P|]. replace (S k) with (S id - id + k) by lia. exact Q.
Qed.
Lemma parent_child i p : node_parent ns i = Some p <-> exists k, child t p k i.
Proof.
  assert (F : forall q k, child t q k i -> node_parent ns i = Some q).
  { intros q k C. pose proof (child_range t q k i C) as R. unfold node_parent.
    destruct (nth_error ns i) as [n|] eqn:N; [|apply nth_error_None in N; fold (size_of ns) in N; rewrite size_count in N; lia].
    rewrite from_node_recs in N. apply recs_parent in N. destruct i as [|i]; [lia|]. destruct N as (p' & j & P & Q).
    destruct (parent_unique t _ _ _ _ _ C Q) as [-> _]. exact P. }
  split.
  - unfold node_parent. destruct (nth_error ns i) as [n|] eqn:N; [|discriminate]. intros P. rewrite from_node_recs in N. apply recs_parent in N.
    destruct i as [|i]; [congruence|]. destruct N as (p' & j & P' & Q). rewrite P' in P. injection P as <-. eauto.
  - intros (k & C). apply (F _ _ C).
Qed.
Lemma parent_none i : i < count t -> (node_parent ns i = None <-> i = 0).
Proof.
  intros L. split.
  - intros N. destruct i as [|i]; [reflexivity|]. destruct (parent_exists t (S i)) as (p & k & C); [lia|].
    assert (E : node_parent ns (S i) = Some p) by (apply parent_child; eauto). congruence.
  - intros ->. destruct (node_parent ns 0) as [p|] eqn:P; [|reflexivity]. apply parent_child in P as (k & C). apply child_range in C. lia.
Qed.
End Arrays.
End Trees.
