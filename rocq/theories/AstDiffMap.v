(** Proofs that nodes are matched one to one, and only when they may be matched: the passes from the top. *)
From Coq Require Import List Bool Arith ZArith Lia Permutation.
From Verif Require Import EagerModel EagerSpec EagerProofs AstDiffModel AstDiffSpec AstDiffTree.
Import ListNotations.

(** * Lists *)
Lemma sorted_perm l : Permutation (sorted l) l.
Proof.
  induction l as [|x r IH]; [reflexivity|]. cbn [sorted fold_right]. fold (sorted r). rewrite <- IH at 2. generalize (sorted r). clear. intros l.
  induction l as [|y r IH]; [reflexivity|]. cbn. destruct (x <=? y); [reflexivity|]. rewrite IH. apply perm_swap.
Qed.
Lemma filter_perm {B} (f : B -> bool) l : Permutation (filter f l ++ filter (fun x => negb (f x)) l) l.
Proof.
  induction l as [|x r IH]; [reflexivity|]. cbn. destruct (f x); cbn.
  - constructor. exact IH.
  - rewrite <- Permutation_middle. constructor. exact IH.
Qed.
Lemma nodup_app {B} (l m : list B) : NoDup (l ++ m) <-> NoDup l /\ NoDup m /\ (forall x, In x l -> ~ In x m).
Proof.
  induction l as [|x r IH]; cbn.
  - split; [intros H; split; [constructor|split; [exact H|intros ? []]]|intros (_ & H & _); exact H].
  - split.
    + intros H. inversion H as [|? ? N D]. subst. apply IH in D as (D1 & D2 & D3). rewrite in_app_iff in N. split; [constructor; tauto|].
      split; [exact D2|]. intros y [<-|I]; [tauto|apply D3; exact I].
    + intros (D1 & D2 & D3). inversion D1 as [|? ? N D]. subst. constructor.
      * rewrite in_app_iff. intros [I|I]; [contradiction|apply (D3 x); [left; reflexivity|exact I]].
      * apply IH. split; [exact D|]. split; [exact D2|]. intros y I. apply D3. right. exact I.
Qed.
Lemma nodup_flat {B C} (f : B -> list C) l a b x : NoDup (flat_map f l) -> In a l -> In b l -> In x (f a) -> In x (f b) -> a = b.
Proof.
  induction l as [|c r IH]; [intros _ []|]. cbn. intros N I J X Y. apply nodup_app in N as (_ & N & D).
  destruct I as [->|I], J as [->|J].
  - reflexivity.
  - exfalso. apply (D x X). apply in_flat_map. eauto.
  - exfalso. apply (D x Y). apply in_flat_map. eauto.
  - apply IH; assumption.
Qed.
Lemma nodup_flat_incl {B C} (f g : B -> list C) l : NoDup (flat_map f l) -> (forall a, In a l -> NoDup (f a) -> NoDup (g a) /\ incl (g a) (f a)) -> NoDup (flat_map g l).
Proof.
  induction l as [|c r IH]; [constructor|]. cbn. intros N H. apply nodup_app in N as (N1 & N2 & D). apply nodup_app.
  destruct (H c (or_introl eq_refl) N1) as [G1 G2]. split; [exact G1|]. split.
  - apply IH; [exact N2|]. intros a I. apply H. right. exact I.
  - intros x I J. apply in_flat_map in J as (b & J & K). apply (D x (G2 x I)). apply in_flat_map. exists b. split; [exact J|].
    assert (N : NoDup (f b)).
    { clear - N2 J. induction r as [|y r IH]; [destruct J|]. cbn in N2. apply nodup_app in N2 as (N1 & N2 & _). destruct J as [->|J]; auto. }
    apply (proj2 (H b (or_intror J) N)). exact K.
Qed.
Lemma flat_filter {B C} (f : B -> list C) p l : flat_map f (filter p l) = flat_map (fun a => if p a then f a else []) l.
Proof. induction l as [|a r IH]; [reflexivity|]. cbn. destruct (p a); cbn; rewrite IH; reflexivity. Qed.
Lemma flat_flat {B C D} (f : C -> list D) (g : B -> list C) l : flat_map f (flat_map g l) = flat_map (fun a => flat_map f (g a)) l.
Proof. induction l as [|a r IH]; [reflexivity|]. cbn. rewrite flat_map_app, IH. reflexivity. Qed.

Lemma set_at_same {B} (f : nat -> B) i x : set_at f i x i = x.
Proof. unfold set_at. rewrite Nat.eqb_refl. reflexivity. Qed.
Lemma set_at_other {B} (f : nat -> B) i x j : j <> i -> set_at f i x j = f j.
Proof. intros N. unfold set_at. apply Nat.eqb_neq in N. rewrite N. reflexivity. Qed.

Lemma f2_len {B C} (P : B -> C -> Prop) l m : Forall2 P l m -> length l = length m.
Proof. induction 1; cbn; congruence. Qed.
(** * Subtrees that follow each other *)
Section Ranges.
Context {A : Type}.
Variable t : tree A.
Notation ns := (from_node t).
Definition range (i : nat) : list nat := seq i (descendants ns i).
Lemma in_range i u x : nth_error (nodes t) i = Some u -> (In x (range i) <-> i <= x < i + count u).
Proof. intros U. unfold range. rewrite (descendants_count t i u U), in_seq. reflexivity. Qed.
Lemma range_head i : i < count t -> In i (range i).
Proof.
  intros L. destruct (nth_error (nodes t) i) as [u|] eqn:U; [|apply nth_error_None in U; unfold count in L; lia].
  apply (in_range i u i U). pose proof (count_pos u). lia.
Qed.
Lemma range_places (l : list (tree A)) : forall n, (forall k i, nth_error (places n l) k = Some i -> nth_error (nodes t) i = nth_error l k) ->
  flat_map range (places n l) = seq n (list_sum (map count l)).
Proof.
  induction l as [|c r IH]; intros n H; [reflexivity|]. cbn [places flat_map map].
  change (list_sum (count c :: map count r)) with (count c + list_sum (map count r)). rewrite seq_app. f_equal.
  - unfold range. rewrite (descendants_count t n c); [reflexivity|]. exact (H 0 n eq_refl).
  - apply IH. intros k i. exact (H (S k) i).
Qed.
Lemma range_open i : i < count t -> range i = i :: flat_map range (node_kids ns i).
Proof.
  intros L. destruct (nth_error (nodes t) i) as [u|] eqn:U; [|apply nth_error_None in U; unfold count in L; lia].
  rewrite (kids_places t i u U), range_places.
  - unfold range. rewrite (descendants_count t i u U). destruct u as [v l]. rewrite count_node. reflexivity.
  - intros k j J. destruct (child_sub t i k j u U J) as (c & C & N & _). rewrite C, N. reflexivity.
Qed.
Lemma kids_valid i x : In x (node_kids ns i) -> x < count t.
Proof. intros H. apply kids_child in H as (k & C). apply child_range in C. lia. Qed.
Lemma peek_bound l i : In i l -> node_height ns i <= peek_max ns l.
Proof. unfold peek_max. induction l as [|x r IH]; [intros []|]. cbn [fold_right]. intros [->|I]; [lia|]. specialize (IH I). lia. Qed.
Lemma peek_le l n : (forall i, In i l -> node_height ns i <= n) -> peek_max ns l <= n.
Proof.
  unfold peek_max. intros H. induction l as [|x r IH]; cbn [fold_right]; [lia|].
  apply Nat.max_lub; [apply H; left; reflexivity|apply IH; intros i I; apply H; right; exact I].
Qed.
Lemma kids_height i x : In x (node_kids ns i) -> node_height ns x < node_height ns i.
Proof.
  intros H. apply kids_child in H as (k & u & U & N). destruct (child_sub t i k x u U N) as (c & C & X & _).
  rewrite (height_tall t i u U), (height_tall t x c X). destruct u as [v l]. apply tall_sub. exact (nth_error_In _ _ C).
Qed.
Lemma pop_perm l h r : pop ns l = (h, r) -> Permutation (h ++ r) l.
Proof.
  unfold pop. intros [= <- <-]. rewrite <- (filter_perm (fun i => node_height ns i =? peek_max ns l) l) at 3.
  apply Permutation_app_tail. apply sorted_perm.
Qed.
Lemma pop_height l h r : pop ns l = (h, r) -> (forall i, In i h -> node_height ns i = peek_max ns l) /\ (forall i, In i r -> node_height ns i < peek_max ns l).
Proof.
  unfold pop. intros [= <- <-]. split; intros i I.
  - apply (Permutation_in _ (sorted_perm _)) in I. apply filter_In in I as [_ I]. apply Nat.eqb_eq. exact I.
  - apply filter_In in I as [I N]. apply negb_true_iff, Nat.eqb_neq in N. pose proof (peek_bound l i I). lia.
Qed.
Lemma open_max l h r q : pop ns l = (h, r) -> incl q h -> 0 < peek_max ns l -> peek_max ns (open_all ns q r) < peek_max ns l.
Proof.
  intros P Q L. destruct (pop_height l h r P) as [H R]. enough (peek_max ns (open_all ns q r) <= peek_max ns l - 1) by lia.
  apply peek_le. intros i I. unfold open_all in I. apply in_app_or in I as [I|I].
  - specialize (R i I). lia.
  - apply in_flat_map in I as (x & X & I). apply kids_height in I. specialize (H x (Q x X)). lia.
Qed.
(** Subtrees of a list that lie apart *)
Definition apart (l : list nat) : Prop := NoDup (flat_map range l) /\ forall i, In i l -> i < count t.
Lemma apart_perm l m : Permutation l m -> apart l -> apart m.
Proof.
  intros P [N V]. split.
  - apply (Permutation_NoDup (l := flat_map range l)); [|exact N]. apply Permutation_flat_map. exact P.
  - intros i I. apply V. apply (Permutation_in _ (Permutation_sym P)). exact I.
Qed.
Lemma apart_open h r p : apart (h ++ r) -> apart (open_all ns (filter p h) r).
Proof.
  intros [N V]. unfold open_all. split.
  - rewrite flat_map_app, flat_flat. rewrite flat_map_app in N. apply nodup_app in N as (N1 & N2 & D). apply nodup_app. split; [exact N2|]. split.
    + rewrite flat_filter. apply (nodup_flat_incl _ _ h N1). intros a I NA. destruct (p a); [|split; [constructor|intros ? []]].
      rewrite (range_open a (V a (in_or_app _ _ _ (or_introl I)))) in NA. rewrite (range_open a (V a (in_or_app _ _ _ (or_introl I)))).
      inversion NA as [|? ? _ NB]. split; [exact NB|]. intros z X. right. exact X.
    + intros x R X. apply in_flat_map in X as (a & F & X). apply filter_In in F as [I _]. apply (D x); [|exact R].
      apply in_flat_map. exists a. split; [exact I|]. rewrite (range_open a (V a (in_or_app _ _ _ (or_introl I)))). right. exact X.
  - intros i I. apply in_app_or in I as [I|I]; [apply V, in_or_app; right; exact I|]. apply in_flat_map in I as (x & _ & X). apply (kids_valid x). exact X.
Qed.
End Ranges.

(** * Mappings *)
Section Map.
Context {A : Type}.
Variable allowed equal : A -> A -> bool.
Variables s d : tree A.
Notation src := (from_node s).
Notation dst := (from_node d).
Notation possible := (possible allowed src dst).
Definition both (x y : A) : bool := allowed x y && equal x y.
(** One to one, and only nodes that may be matched *)
Definition good (m : mapping) : Prop :=
  (forall i j, get_dst m i = Some j <-> get_src m j = Some i) /\ (forall i j, get_dst m i = Some j -> possible i j = true).
Lemma good_none : good no_mapping.
Proof. split; intros i j; cbn; [split|]; discriminate. Qed.
Lemma good_link m i j : good m -> get_dst m i = None -> get_src m j = None -> possible i j = true -> good (link m i j).
Proof.
  intros [G F] I J P. split; intros a b; cbn.
  - unfold set_at. destruct (Nat.eqb_spec a i) as [->|NA], (Nat.eqb_spec b j) as [->|NB].
    + split; reflexivity.
    + split; [intros [= <-]; contradiction|]. intros H. apply G in H. congruence.
    + split; [|intros [= <-]; contradiction]. intros H. apply G in H. congruence.
    + apply G.
  - unfold set_at. destruct (Nat.eqb_spec a i) as [->|NA]; [intros [= <-]; exact P|apply F].
Qed.
Lemma possible_range i j : possible i j = true -> i < count s /\ j < count d.
Proof.
  unfold AstDiffModel.possible. rewrite !value_val. destruct (nth_error (nodes s) i) eqn:U; [|discriminate]. destruct (nth_error (nodes d) j) eqn:W; [|discriminate]. intros _.
  split; apply nth_error_Some; congruence.
Qed.
Lemma link_range_spec n : forall m i j, good m ->
  (forall k, k < n -> get_dst m (i + k) = None /\ get_src m (j + k) = None /\ possible (i + k) (j + k) = true) ->
  let m' := link_range m i j n in
  good m' /\ (forall x, get_dst m' x = if (i <=? x) && (x <? i + n) then Some (j + (x - i)) else get_dst m x) /\
  (forall x, get_src m' x = if (j <=? x) && (x <? j + n) then Some (i + (x - j)) else get_src m x).
Proof.
  induction n as [|n IH]; intros m i j G H m'.
  - unfold m', link_range. cbn [seq fold_left]. split; [exact G|]. split; intros x.
    + destruct (Nat.leb_spec i x), (Nat.ltb_spec x (i + 0)); cbn [andb]; try reflexivity; lia.
    + destruct (Nat.leb_spec j x), (Nat.ltb_spec x (j + 0)); cbn [andb]; try reflexivity; lia.
  - subst m'. unfold link_range. rewrite seq_S, fold_left_app. cbn [fold_left plus]. fold (link_range m i j n).
    destruct (IH m i j G) as (G' & D & S'); [intros k K; apply H; lia|]. cbn zeta in *.
    destruct (H n ltac:(lia)) as (H1 & H2 & H3).
    split; [|split].
    + apply good_link; [exact G'| | |exact H3].
      * rewrite D. destruct (Nat.ltb_spec (i + n) (i + n)); [lia|]. rewrite andb_false_r. exact H1.
      * rewrite S'. destruct (Nat.ltb_spec (j + n) (j + n)); [lia|]. rewrite andb_false_r. exact H2.
    + intros x. cbn [link get_dst]. unfold set_at. rewrite D. destruct (Nat.eqb_spec x (i + n)) as [->|N].
      * destruct (Nat.leb_spec i (i + n)), (Nat.ltb_spec (i + n) (i + S n)); cbn; try lia. f_equal. lia.
      * destruct (Nat.leb_spec i x), (Nat.ltb_spec x (i + n)), (Nat.ltb_spec x (i + S n)); cbn; try reflexivity; lia.
    + intros x. cbn [link get_src]. unfold set_at. rewrite S'. destruct (Nat.eqb_spec x (j + n)) as [->|N].
      * destruct (Nat.leb_spec j (j + n)), (Nat.ltb_spec (j + n) (j + S n)); cbn; try lia. f_equal. lia.
      * destruct (Nat.leb_spec j x), (Nat.ltb_spec x (j + n)), (Nat.ltb_spec x (j + S n)); cbn; try reflexivity; lia.
Qed.

(** * Identical subtrees *)
Lemma alike_count : forall u w, alike both u w -> count u = count w.
Proof.
  induction u as [v l IH] using tree_ind'. intros w H. inversion H as [? x ? m E F]. subst. rewrite !count_node. f_equal.
  clear H E. revert m F. induction IH as [|c r Hc Hr IHr]; intros m F; inversion F; subst; [reflexivity|]. cbn [map].
  change (list_sum (count c :: map count r)) with (count c + list_sum (map count r)).
  change (list_sum (count y :: map count l')) with (count y + list_sum (map count l')). f_equal; auto.
Qed.
Lemma alike_nodes : forall u w, alike both u w -> Forall2 (alike both) (nodes u) (nodes w).
Proof.
  induction u as [v l IH] using tree_ind'. intros w H. inversion H as [? x ? m E F]. subst. cbn [nodes]. constructor; [exact H|].
  clear H E. revert m F. induction IH as [|c r Hc Hr IHr]; intros m F; inversion F; subst; [constructor|]. cbn [flat_map]. apply Forall2_app; auto.
Qed.
Lemma alike_val u w : alike both u w -> both (val u) (val w) = true.
Proof. intros H. inversion H. assumption. Qed.
Notation ident := (identical allowed equal src dst).
Lemma identical_alike n : forall i j u w, nth_error (nodes s) i = Some u -> nth_error (nodes d) j = Some w -> ident n i j = true -> alike both u w.
Proof.
  induction n as [|n IH]; intros i j u w U W; [discriminate|]. cbn [identical].
  destruct (_ || _) eqn:C; [discriminate|]. apply orb_false_iff in C as [C C3]. apply orb_false_iff in C as [C1 C2].
  apply negb_false_iff in C1, C2, C3. apply Nat.eqb_eq in C1. unfold AstDiffModel.possible, values_equal in C2, C3. rewrite !value_val, U, W in C2, C3. cbn in C2, C3.
  rewrite (kids_places s i u U), (kids_places d j w W), !places_length in *. intros F. rewrite forallb_forall in F.
  destruct u as [v l], w as [x m]. cbn [sub val] in *. constructor; [unfold both; rewrite C2, C3; reflexivity|].
  assert (H : forall k a b, nth_error (places (S i) l) k = Some a -> nth_error (places (S j) m) k = Some b -> exists c e, nth_error l k = Some c /\ nth_error m k = Some e /\ alike both c e).
  { intros k a b NA NB. destruct (child_sub s i k a (T v l) U NA) as (c & C & SC & _). destruct (child_sub d j k b (T x m) W NB) as (e & E & SE & _).
    exists c, e. split; [exact C|]. split; [exact E|]. apply (IH a b c e SC SE). apply (F (a, b)).
    clear - NA NB. revert k NA NB. generalize (places (S i) l), (places (S j) m). induction l0 as [|x r IH]; intros [|y q] [|k] H1 H2; try discriminate; cbn in *.
    - injection H1 as ->. injection H2 as ->. left. reflexivity.
    - right. eapply IH; eauto. }
  clear - C1 H. assert (G : forall k c e, nth_error l k = Some c -> nth_error m k = Some e -> alike both c e).
  { intros k c e C E. assert (K : k < length l) by (apply nth_error_Some; rewrite C; discriminate).
    destruct (nth_error (places (S i) l) k) as [a|] eqn:NA; [|apply nth_error_None in NA; rewrite places_length in NA; lia].
    destruct (nth_error (places (S j) m) k) as [b|] eqn:NB; [|apply nth_error_None in NB; rewrite places_length in NB; lia].
    destruct (H k a b NA NB) as (c' & e' & C' & E' & Q). congruence. }
  clear H. revert m C1 G. induction l as [|c r IHl]; intros [|e q] L G; try discriminate; [constructor|]. constructor; [apply (G 0); reflexivity|].
  apply IHl; [cbn in L; lia|]. intros k. apply (G (S k)).
Qed.
Lemma alike_identical n : forall i j u w, nth_error (nodes s) i = Some u -> nth_error (nodes d) j = Some w -> alike both u w -> tall u <= n -> ident n i j = true.
Proof.
  induction n as [|n IH]; intros i j u w U W H L; [pose proof (tall_pos u); lia|]. cbn [identical].
  inversion H as [v x l m E F]. subst. rewrite (kids_places s i _ U), (kids_places d j _ W), !places_length. cbn [sub].
  unfold AstDiffModel.possible, values_equal. rewrite !value_val, U, W. cbn [option_map val]. unfold both in E. apply andb_true_iff in E as [-> ->]. rewrite <- (f2_len _ _ _ F), Nat.eqb_refl. cbn [negb orb].
  apply forallb_forall. intros [a b] I. cbn [fst snd].
  assert (X : exists k, nth_error (places (S i) l) k = Some a /\ nth_error (places (S j) m) k = Some b).
  { clear - I. revert I. generalize (places (S i) l), (places (S j) m). induction l0 as [|x r IH]; intros [|y q] I; try destruct I.
    - injection H as -> ->. exists 0. split; reflexivity.
    - destruct (IH q H) as (k & K1 & K2). exists (S k). split; assumption. }
  destruct X as (k & KA & KB). destruct (child_sub s i k a _ U KA) as (c & C & SC & _). destruct (child_sub d j k b _ W KB) as (e & E & SE & _). cbn [sub] in C, E.
  apply (IH a b c e SC SE).
  - destruct (f2_nth _ _ _ k c F C) as (e' & E' & Q). assert (e' = e) by congruence. subst. exact Q.
  - pose proof (tall_sub v l c (nth_error_In _ _ C)). lia.
Qed.

(** * From the top *)
(** Of the subtrees of [h], those whose root is not matched are not matched at all; those of [r] are not matched. *)
Definition clean (get : nat -> option nat) (rng : nat -> list nat) (h r : list nat) : Prop :=
  (forall i, In i h -> get i = None -> forall x, In x (rng i) -> get x = None) /\
  (forall i, In i r -> forall x, In x (rng i) -> get x = None).
Lemma try_pair_good m i j h1 h2 r1 r2 : good m -> apart s (h1 ++ r1) -> apart d (h2 ++ r2) ->
  clean (get_dst m) (range s) h1 r1 -> clean (get_src m) (range d) h2 r2 -> In i h1 -> In j h2 ->
  let m' := try_pair allowed equal src dst m i j in
  good m' /\ clean (get_dst m') (range s) h1 r1 /\ clean (get_src m') (range d) h2 r2.
Proof.
  intros G A1 A2 C1 C2 I J m'. subst m'. unfold try_pair. destruct (identical _ _ _ _ _ _ _) eqn:Q; [|cbn; auto].
  destruct (has_src m i) eqn:HS; [cbn; auto|]. destruct (has_dst m j) eqn:HD; [cbn; auto|]. cbn [andb negb].
  assert (VI : i < count s) by (apply A1, in_or_app; left; exact I). assert (VJ : j < count d) by (apply A2, in_or_app; left; exact J).
  destruct (nth_error (nodes s) i) as [u|] eqn:U; [|apply nth_error_None in U; unfold count in VI; lia].
  destruct (nth_error (nodes d) j) as [w|] eqn:W; [|apply nth_error_None in W; unfold count in VJ; lia].
  pose proof (identical_alike _ i j u w U W Q) as AL. pose proof (alike_count u w AL) as CN. rewrite (descendants_count s i u U).
  unfold has_src in HS. unfold has_dst in HD. destruct (get_dst m i) eqn:DI; [discriminate|]. destruct (get_src m j) eqn:SJ; [discriminate|].
  destruct (link_range_spec (count u) m i j G) as (G' & D & S').
  { intros k K. split; [|split].
    - apply (proj1 C1 i I DI). apply (in_range s i u _ U). lia.
    - apply (proj1 C2 j J SJ). apply (in_range d j w _ W). lia.
    - unfold AstDiffModel.possible. rewrite !value_val, (nodes_below s i u U k K), (nodes_below d j w W k) by lia.
      destruct (nth_error (nodes u) k) as [u'|] eqn:U'; [|apply nth_error_None in U'; unfold count in K; lia].
      destruct (f2_nth _ _ _ k u' (alike_nodes u w AL) U') as (w' & -> & Q'). cbn. apply alike_val in Q'. unfold both in Q'. apply andb_true_iff in Q'. apply Q'. }
  cbn zeta in *. split; [exact G'|]. destruct A1 as [N1 V1], A2 as [N2 V2].
  assert (O1 : forall a x, In a (h1 ++ r1) -> In x (range s a) -> a <> i -> get_dst (link_range m i j (count u)) x = get_dst m x).
  { intros a x IA IX NE. rewrite D. destruct (Nat.leb_spec i x), (Nat.ltb_spec x (i + count u)); cbn; try reflexivity. exfalso. apply NE.
    apply (nodup_flat (range s) (h1 ++ r1) a i x N1 IA (in_or_app _ _ _ (or_introl I)) IX). apply (in_range s i u x U). lia. }
  assert (O2 : forall a x, In a (h2 ++ r2) -> In x (range d a) -> a <> j -> get_src (link_range m i j (count u)) x = get_src m x).
  { intros a x IA IX NE. rewrite S'. destruct (Nat.leb_spec j x), (Nat.ltb_spec x (j + count u)); cbn; try reflexivity. exfalso. apply NE.
    apply (nodup_flat (range d) (h2 ++ r2) a j x N2 IA (in_or_app _ _ _ (or_introl J)) IX). apply (in_range d j w x W). lia. }
  rewrite flat_map_app in N1, N2. apply nodup_app in N1 as (_ & _ & N1). apply nodup_app in N2 as (_ & _ & N2).
  pose proof (count_pos u) as CP. split; split; intros a IA.
  - intros NA x IX. destruct (Nat.eq_dec a i) as [->|NE].
    + exfalso. rewrite D in NA. destruct (Nat.leb_spec i i), (Nat.ltb_spec i (i + count u)); cbn in NA; try lia. discriminate.
    + rewrite (O1 a x (in_or_app _ _ _ (or_introl IA)) IX NE). apply (proj1 C1 a IA); [|exact IX].
      rewrite (O1 a a (in_or_app _ _ _ (or_introl IA)) (range_head s a (V1 a (in_or_app _ _ _ (or_introl IA)))) NE) in NA. exact NA.
  - intros x IX. destruct (Nat.eq_dec a i) as [->|NE].
    + exfalso. apply (N1 i); apply in_flat_map; exists i; (split; [assumption|]); apply range_head; exact VI.
    + rewrite (O1 a x (in_or_app _ _ _ (or_intror IA)) IX NE). apply (proj2 C1 a IA). exact IX.
  - intros NA x IX. destruct (Nat.eq_dec a j) as [->|NE].
    + exfalso. rewrite S' in NA. destruct (Nat.leb_spec j j), (Nat.ltb_spec j (j + count u)); cbn in NA; try lia. discriminate.
    + rewrite (O2 a x (in_or_app _ _ _ (or_introl IA)) IX NE). apply (proj1 C2 a IA); [|exact IX].
      rewrite (O2 a a (in_or_app _ _ _ (or_introl IA)) (range_head d a (V2 a (in_or_app _ _ _ (or_introl IA)))) NE) in NA. exact NA.
  - intros x IX. destruct (Nat.eq_dec a j) as [->|NE].
    + exfalso. apply (N2 j); apply in_flat_map; exists j; (split; [assumption|]); apply range_head; exact VJ.
    + rewrite (O2 a x (in_or_app _ _ _ (or_intror IA)) IX NE). apply (proj2 C2 a IA). exact IX.
Qed.
Lemma try_pairs_good h1 h2 r1 r2 : forall m, good m -> apart s (h1 ++ r1) -> apart d (h2 ++ r2) ->
  clean (get_dst m) (range s) h1 r1 -> clean (get_src m) (range d) h2 r2 ->
  let m' := try_pairs allowed equal src dst m h1 h2 in
  good m' /\ clean (get_dst m') (range s) h1 r1 /\ clean (get_src m') (range d) h2 r2.
Proof.
  intros m G A1 A2 C1 C2. cbn zeta. unfold try_pairs.
  assert (H : forall l1, incl l1 h1 -> forall m, good m -> clean (get_dst m) (range s) h1 r1 -> clean (get_src m) (range d) h2 r2 ->
    let m' := fold_left (fun m i => fold_left (fun m j => try_pair allowed equal src dst m i j) h2 m) l1 m in
    good m' /\ clean (get_dst m') (range s) h1 r1 /\ clean (get_src m') (range d) h2 r2).
  { clear m G C1 C2. induction l1 as [|i l1 IH]; intros I m G C1 C2; [cbn; auto|]. cbn [fold_left]. apply IH; [intros x X; apply I; right; exact X| | |];
    assert (Q : forall l2, incl l2 h2 -> forall m, good m -> clean (get_dst m) (range s) h1 r1 -> clean (get_src m) (range d) h2 r2 ->
      let m' := fold_left (fun m j => try_pair allowed equal src dst m i j) l2 m in
      good m' /\ clean (get_dst m') (range s) h1 r1 /\ clean (get_src m') (range d) h2 r2) by
     (clear m G C1 C2; induction l2 as [|j l2 IH2]; intros J m G C1 C2; [cbn; auto|]; cbn [fold_left];
      destruct (try_pair_good m i j h1 h2 r1 r2 G A1 A2 C1 C2 (I i (or_introl eq_refl)) (J j (or_introl eq_refl))) as (G' & C1' & C2');
      apply IH2; [intros x X; apply J; right; exact X|exact G'|exact C1'|exact C2']);
    apply (Q h2 (incl_refl _) m G C1 C2). }
  apply H; auto. apply incl_refl.
Qed.
Lemma clean_open (t : tree A) get h r : apart t (h ++ r) -> clean get (range t) h r ->
  forall p, (forall i, p i = true -> get i = None) -> clean get (range t) [] (open_all (from_node t) (filter p h) r).
Proof.
  intros [N V] [C1 C2] p P. split; [intros i []|]. intros i I x X. unfold open_all in I. apply in_app_or in I as [I|I].
  - apply (C2 i I x X).
  - apply in_flat_map in I as (a & F & K). apply filter_In in F as [F PA]. apply (C1 a F (P a PA)).
    rewrite (range_open t a (V a (in_or_app _ _ _ (or_introl F)))). right. apply in_flat_map. eauto.
Qed.
Variable opts : options.
Notation td := (top_down allowed equal opts src dst).
Lemma top_down_good n : forall l1 l2 m m', td n l1 l2 m = Some m' -> good m -> apart s l1 -> apart d l2 ->
  clean (get_dst m) (range s) [] l1 -> clean (get_src m) (range d) [] l2 -> good m'.
Proof.
  induction n as [|n IH]; intros l1 l2 m m' H G A1 A2 C1 C2; cbn [top_down] in H; cbn zeta in H; destruct (negb _).
  1, 3: injection H as <-; exact G. 1: discriminate.
  assert (PC : forall (t : tree A) get l h r, Permutation (h ++ r) l -> clean get (range t) [] l -> clean get (range t) h r).
  { clear. intros t get l h r P [_ C]. split.
    - intros i I _. apply C. apply (Permutation_in _ P), in_or_app. left. exact I.
    - intros i I. apply C. apply (Permutation_in _ P), in_or_app. right. exact I. }
  assert (FA : forall l : list nat, filter (fun _ => true) l = l).
  { clear. induction l as [|x r IH]; [reflexivity|]. cbn. rewrite IH. reflexivity. }
  destruct (_ <? _) eqn:LT1; [|destruct (peek_max src l1 <? _) eqn:LT2].
  - destruct (pop src l1) as [h r] eqn:P. apply pop_perm in P. apply (IH _ _ _ _ H); auto.
    + rewrite <- (FA h). apply apart_open. apply (apart_perm s l1); [symmetry; exact P|exact A1].
    + rewrite <- (FA h). split; [intros i []|]. intros i I x X. unfold open_all in I. apply in_app_or in I as [I|I].
      * apply (proj2 C1 i); [apply (Permutation_in _ P), in_or_app; right; exact I|exact X].
      * apply in_flat_map in I as (a & F & K). apply filter_In in F as [F _].
        assert (IA : In a l1) by (apply (Permutation_in _ P), in_or_app; left; exact F). apply (proj2 C1 a IA).
        rewrite (range_open s a (proj2 A1 a IA)). right. apply in_flat_map. eauto.
  - destruct (pop dst l2) as [h r] eqn:P. apply pop_perm in P. apply (IH _ _ _ _ H); auto.
    + rewrite <- (FA h). apply apart_open. apply (apart_perm d l2); [symmetry; exact P|exact A2].
    + rewrite <- (FA h). split; [intros i []|]. intros i I x X. unfold open_all in I. apply in_app_or in I as [I|I].
      * apply (proj2 C2 i); [apply (Permutation_in _ P), in_or_app; right; exact I|exact X].
      * apply in_flat_map in I as (a & F & K). apply filter_In in F as [F _].
        assert (IA : In a l2) by (apply (Permutation_in _ P), in_or_app; left; exact F). apply (proj2 C2 a IA).
        rewrite (range_open d a (proj2 A2 a IA)). right. apply in_flat_map. eauto.
  - destruct (pop src l1) as [h1 r1] eqn:P1. destruct (pop dst l2) as [h2 r2] eqn:P2. apply pop_perm in P1, P2.
    pose proof (apart_perm s _ _ (Permutation_sym P1) A1) as A1'. pose proof (apart_perm d _ _ (Permutation_sym P2) A2) as A2'.
    destruct (try_pairs_good h1 h2 r1 r2 m G A1' A2' (PC s _ _ _ _ P1 C1) (PC d _ _ _ _ P2 C2)) as (G' & C1' & C2'). cbn zeta in *.
    apply (IH _ _ _ _ H); auto.
    + apply apart_open. exact A1'.
    + apply apart_open. exact A2'.
    + apply clean_open; [exact A1'|exact C1'|]. intros i. unfold has_src. destruct (get_dst _ i); [discriminate|reflexivity].
    + apply clean_open; [exact A2'|exact C2'|]. intros i. unfold has_dst. destruct (get_src _ i); [discriminate|reflexivity].
Qed.
Lemma top_down_ends n : forall l1 l2 m, peek_max src l1 + peek_max dst l2 <= n -> td n l1 l2 m <> None.
Proof.
  induction n as [|n IH]; intros l1 l2 m L; cbn [top_down]; cbn zeta.
  - destruct (_ <? _) eqn:E; [apply Nat.ltb_lt in E; lia|cbn [negb]; discriminate].
  - destruct (min_height opts <? _) eqn:E; cbn [negb]; [|discriminate]. apply Nat.ltb_lt in E.
    destruct (_ <? _) eqn:LT1; [|destruct (peek_max src l1 <? _) eqn:LT2].
    + apply Nat.ltb_lt in LT1. destruct (pop src l1) as [h r] eqn:P. apply IH.
      pose proof (open_max s l1 h r h P (incl_refl _) ltac:(lia)). lia.
    + apply Nat.ltb_lt in LT2. destruct (pop dst l2) as [h r] eqn:P. apply IH.
      pose proof (open_max d l2 h r h P (incl_refl _) ltac:(lia)). lia.
    + destruct (pop src l1) as [h1 r1] eqn:P1. destruct (pop dst l2) as [h2 r2] eqn:P2. apply IH.
      pose proof (open_max s l1 h1 r1 (filter (fun i => negb (has_src (try_pairs allowed equal src dst m h1 h2) i)) h1) P1 ltac:(intros x X; apply filter_In in X; apply X) ltac:(lia)).
      pose proof (open_max d l2 h2 r2 (filter (fun i => negb (has_dst (try_pairs allowed equal src dst m h1 h2) i)) h2) P2 ltac:(intros x X; apply filter_In in X; apply X) ltac:(lia)).
      lia.
Qed.
Lemma apart_root (t : tree A) : apart t [0].
Proof.
  split.
  - cbn [flat_map]. rewrite app_nil_r. unfold range. apply seq_NoDup.
  - intros i [<-|[]]. apply count_pos.
Qed.
Lemma match_top_down_good : exists m, match_top_down allowed equal opts src dst = Some m /\ good m.
Proof.
  unfold match_top_down. destruct (td _ [0] [0] no_mapping) as [m|] eqn:E.
  - exists m. split; [reflexivity|]. apply (top_down_good _ _ _ _ _ E); [apply good_none|apply apart_root|apply apart_root| |]; (split; [intros i []|reflexivity]).
  - exfalso. revert E. apply top_down_ends. unfold peek_max. cbn [fold_right]. lia.
Qed.
End Map.
