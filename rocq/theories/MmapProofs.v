(** Proofs for C41. *)
From Coq Require Import List Bool Arith Lia Permutation.
From Verif Require Import Base MmapModel MmapSpec.
Import ListNotations.
Local Open Scope nat_scope.

Lemma ueqb_eq : forall a b, ueqb a b = true <-> a = b.
Proof. intros a b. unfold ueqb. destruct (uniq_dec a b); split; congruence. Qed.
Lemma memb_In : forall n l, memb n l = true <-> In n l.
Proof.
  intros n l. unfold memb. rewrite existsb_exists. split.
  - intros (x & Hx & E). apply Nat.eqb_eq in E. now subst.
  - intros H. exists n. split; [exact H|apply Nat.eqb_refl].
Qed.
Lemma bind_ok : forall {A B} (o : outcome A) (k : A -> outcome B) r, obind o k = Ok r -> exists a, o = Ok a /\ k a = Ok r.
Proof. intros A B [a| | |] k r H; try discriminate H. eauto. Qed.
Lemma nth_snoc : forall {A} (l : list A) x i, nth_error (l ++ [x]) i = (if i =? length l then Some x else nth_error l i).
Proof.
  intros A l x i. destruct (i =? length l) eqn:E.
  - apply Nat.eqb_eq in E. subst i. rewrite nth_error_app2, Nat.sub_diag by lia. reflexivity.
  - apply Nat.eqb_neq in E. destruct (Nat.lt_ge_cases i (length l)) as [L|L]; [now rewrite nth_error_app1|].
    rewrite nth_error_app2 by lia. destruct (i - length l) as [|k] eqn:K; [lia|]. cbn. destruct k; cbn; symmetry; apply nth_error_None; lia.
Qed.

(** ** Comparison *)
Lemma same_root : forall a b, root a = root b -> uniq_less a b = false.
Proof. intros a b E. unfold uniq_less, path_less. rewrite E, Nat.ltb_irrefl. now rewrite andb_false_r. Qed.
Lemma same_root_pair : forall a b, root (fst a) = root (fst b) -> root (snd a) = root (snd b) -> pair_less a b = false.
Proof. intros a b E1 E2. unfold pair_less. rewrite (same_root (fst a) (fst b) E1), (same_root (fst b) (fst a) (eq_sym E1)). now apply same_root. Qed.

Section Mmap.
  Variable links_of : uniq -> list uniq.
  Variable radios_of : uniq -> list uniq.
  Variable targets : uniq -> outcome (list uniq).
  Variable found : list (uniq * uniq) -> uniq * uniq -> bool.
  Variable order : list nat -> list nat.
  Hypothesis order_perm : forall l, Permutation (order l) l.
  Notation item := (item links_of radios_of).
  Notation refers := (refers targets).
  Notation resolve_target := (resolve_target targets).
  Notation collect_radio := (collect_radio radios_of).
  Notation attempt := (attempt targets).
  Notation pending_links := (pending_links targets).
  Notation process_pending := (process_pending targets).
  Notation dedup := (dedup found).
  Notation add_node := (add_node links_of radios_of targets found order).
  Notation add_nodes := (add_nodes links_of radios_of targets found order).

  Lemma vertex_of_cons : forall m x n u, vertex_of ((x, n) :: m) u = if ueqb x u then Some n else vertex_of m u.
  Proof. intros m x n u. unfold vertex_of. cbn. destruct (ueqb x u); reflexivity. Qed.

  Lemma remove_from_nth : forall rs touched vs n i, nth_error (remove_from rs touched n vs) i =
    match nth_error vs i with
    | Some v => Some (if memb (n + i) touched then Vertex (node v) (filter (fun l => negb (removes rs l)) (pending v)) else v)
    | None => None
    end.
  Proof.
    intros rs touched. induction vs as [|v vs IH]; intros n i; cbn [remove_from]; [now destruct i|]. destruct i as [|i]; cbn [nth_error].
    - rewrite Nat.add_0_r. reflexivity.
    - rewrite IH. now replace (S n + i) with (n + S i) by lia.
  Qed.
  Lemma remove_from_node : forall rs touched vs n, map node (remove_from rs touched n vs) = map node vs.
  Proof. intros rs touched. induction vs as [|v vs IH]; intros n; cbn [remove_from map]; [reflexivity|]. rewrite IH. now destruct (memb n touched). Qed.
  Lemma remove_from_len : forall rs touched vs n, length (remove_from rs touched n vs) = length vs.
  Proof. intros. rewrite <- (map_length node), remove_from_node. apply map_length. Qed.

  (** What a result stands for. *)
  Definition good (m : list (uniq * nat)) (r : result) : Prop :=
    registered m (res_target r) = true /\
    exists l, item (res_source r) l /\ refers l (res_target r) /\ (res_link r = None \/ res_link r = Some l).

  Lemma resolve_target_spec : forall source l rs r, resolve_target source l = Ok rs -> In r rs -> res_source r = source /\ res_link r = Some l /\ refers l (res_target r).
  Proof.
    intros source [k|t] rs r E Hr; cbn [MmapModel.resolve_target] in E.
    - apply bind_ok in E. destruct E as (ts & Et & E). injection E as <-. apply in_map_iff in Hr. destruct Hr as (t & <- & Ht). cbn. repeat split. eauto.
    - injection E as <-. destruct Hr as [<-|[]]. cbn. auto.
  Qed.
  Lemma attempt_spec : forall m source ls r, (forall l, In l ls -> item source l) -> attempt m source ls = Ok r ->
    (forall x, In x (fst r) -> good m x) /\ (forall l, In l (snd r) -> In l ls).
  Proof.
    intros m source. induction ls as [|l ls IH]; intros r I E; cbn [MmapModel.attempt] in E.
    { injection E as <-. split; intros ? []. }
    apply bind_ok in E. destruct E as (rs & E1 & E). apply bind_ok in E. destruct E as (r' & E2 & E).
    destruct (IH r' (fun l' H => I l' (or_intror H)) E2) as [G P].
    assert (Gr : forall x, In x (filter (fun x => registered m (res_target x)) rs) -> good m x).
    { intros x Hx. apply filter_In in Hx. destruct Hx as [Hx Rx]. destruct (resolve_target_spec _ _ _ _ E1 Hx) as (S1 & L1 & R1). split; [exact Rx|].
      exists l. rewrite S1. repeat split; auto. apply I. now left. }
    assert (K : r = (fst r', l :: snd r') \/ r = (filter (fun x => registered m (res_target x)) rs ++ fst r', map (fun _ => l) (filter (fun x => negb (registered m (res_target x))) rs) ++ snd r')).
    { destruct rs; injection E as <-; auto. }
    destruct K as [-> | ->]; cbn [fst snd]; split.
    - exact G.
    - intros l' [<-|H]; [now left|right; now apply P].
    - intros x Hx. apply in_app_iff in Hx. destruct Hx; auto.
    - intros l' Hl. apply in_app_iff in Hl. destruct Hl as [Hl|Hl]; [|right; now apply P]. apply in_map_iff in Hl. destruct Hl as (_ & <- & _). now left.
  Qed.
  Lemma pending_links_spec : forall m source ls r, (forall l, In l ls -> item source l) -> pending_links m source ls = Ok r -> forall x, In x r -> good m x.
  Proof.
    intros m source. induction ls as [|l ls IH]; intros r I E x Hx; cbn [MmapModel.pending_links] in E; [injection E as <-; destruct Hx|].
    apply bind_ok in E. destruct E as (rs & E1 & E). apply bind_ok in E. destruct E as (r' & E2 & E). injection E as <-.
    apply in_app_iff in Hx. destruct Hx as [Hx|Hx]; [|exact (IH r' (fun l' H => I l' (or_intror H)) E2 x Hx)].
    apply filter_In in Hx. destruct Hx as [Hx Rx]. destruct (resolve_target_spec _ _ _ _ E1 Hx) as (S1 & L1 & R1). split; [exact Rx|].
    exists l. rewrite S1. repeat split; auto. apply I. now left.
  Qed.
  Lemma process_pending_spec : forall m vs us r, (forall i v l, nth_error vs i = Some v -> In l (pending v) -> item (node v) l) ->
    process_pending m vs us = Ok r -> forall x, In x r -> good m x.
  Proof.
    intros m vs us r I. revert r. induction us as [|u us IH]; intros r E x Hx; cbn [MmapModel.process_pending] in E; [injection E as <-; destruct Hx|].
    destruct (nth_error vs u) as [v|] eqn:V; [|discriminate]. apply bind_ok in E. destruct E as (r1 & E1 & E). apply bind_ok in E. destruct E as (r2 & E2 & E). injection E as <-.
    apply in_app_iff in Hx. destruct Hx as [Hx|Hx]; [|eapply IH; eauto]. eapply pending_links_spec; [|exact E1|exact Hx]. intros l Hl. eapply I; eauto.
  Qed.
  Lemma collect_radio_spec : forall m source x, In x (fst (collect_radio m source)) -> good m x.
  Proof.
    intros m source x Hx. apply in_map_iff in Hx. destruct Hx as (t & <- & Ht). apply filter_In in Ht. destruct Ht as [Ht R]. split; [exact R|].
    exists (Radio t). repeat split; auto.
  Qed.
  Lemma dedup_In : forall rs seen x, In x (dedup seen rs) -> In x rs.
  Proof.
    induction rs as [|r rs IH]; intros seen x H; [destruct H|]. cbn [MmapModel.dedup] in H. destruct (found seen _); [right; eapply IH; eauto|].
    destruct H as [H|H]; [now left|right; eapply IH; eauto].
  Qed.
  Lemma add_edges_In : forall m rs es a b, add_edges m rs = Ok es -> In (a, b) es -> exists r, In r rs /\ vertex_of m (res_source r) = Some a /\ vertex_of m (res_target r) = Some b.
  Proof.
    intros m. induction rs as [|r rs IH]; intros es a b E H; cbn [add_edges] in E; [injection E as <-; destruct H|].
    destruct (vertex_of m (res_source r)) as [s|] eqn:S1; [|discriminate]. destruct (vertex_of m (res_target r)) as [t|] eqn:T1; [|discriminate].
    apply bind_ok in E. destruct E as (es' & E1 & E). injection E as <-. destruct H as [H|H].
    - injection H as <- <-. exists r. repeat split; auto. now left.
    - destruct (IH _ _ _ E1 H) as (r' & Hr & K). exists r'. split; [now right|exact K].
  Qed.

  (** ** The invariant of every history *)
  Record inv (s : state) (xs : list uniq) : Prop := {
    i_nodes : map node (vertices s) = xs;
    i_map : forall u i, vertex_of (id_map s) u = Some i -> nth_error xs i = Some u;
    i_pend : forall i v l, nth_error (vertices s) i = Some v -> In l (pending v) -> item (node v) l;
    i_unres : forall i, In i (unresolved s) <-> has_pending (vertices s) i = true;
    i_edges : forall a b, In (a, b) (edges s) -> exists u t l, nth_error xs a = Some u /\ nth_error xs b = Some t /\ item u l /\ refers l t }.

  Lemma inv_empty : inv empty [].
  Proof. constructor; cbn; try reflexivity; intros; try discriminate; try contradiction; [destruct i; discriminate|]. split; [contradiction|]. unfold has_pending. destruct i; cbn; discriminate. Qed.

  Lemma has_pending_false_nil : forall vs i v, has_pending vs i = false -> nth_error vs i = Some v -> pending v = [].
  Proof. intros vs i v H E. unfold has_pending in H. rewrite E in H. now destruct (pending v). Qed.

  Lemma inv_step : forall s xs x s', inv s xs -> add_node s x = Ok s' -> inv s' (xs ++ [x]).
  Proof.
    intros s xs x s' [IN IM IP IU IE] E. unfold MmapModel.add_node in E. cbv zeta in E. set (n := length (vertices s)) in *. set (m := (x, n) :: id_map s) in *.
    destruct (memb n (unresolved s)); [discriminate|]. apply bind_ok in E. destruct E as (own & E1 & E). apply bind_ok in E. destruct E as (others & E2 & E).
    set (rs := dedup [] (fst (collect_radio m x) ++ fst own ++ others)) in *.
    set (vs := remove_from rs (n :: unresolved s) 0 (vertices s ++ [Vertex x (snd own)])) in *.
    apply bind_ok in E. destruct E as (es & E3 & E). injection E as <-.
    assert (Hn : n = length xs) by (unfold n; rewrite <- IN; now rewrite map_length).
    assert (I0 : forall l, In l (map Link (links_of x) ++ snd (collect_radio m x)) -> item x l).
    { intros l Hl. apply in_app_iff in Hl. destruct Hl as [Hl|Hl]; apply in_map_iff in Hl; destruct Hl as (k & <- & Hk); cbn; [exact Hk|]. apply filter_In in Hk. apply Hk. }
    destruct (attempt_spec _ _ _ _ I0 E1) as [G1 P1].
    assert (Gall : forall r, In r rs -> good m r).
    { intros r Hr. apply dedup_In in Hr. apply in_app_iff in Hr. destruct Hr as [Hr|Hr]; [eapply collect_radio_spec; eauto|].
      apply in_app_iff in Hr. destruct Hr as [Hr|Hr]; [now apply G1|]. eapply process_pending_spec; eauto. }
    assert (IM' : forall u i, vertex_of m u = Some i -> nth_error (xs ++ [x]) i = Some u).
    { intros u i H. unfold m in H. rewrite vertex_of_cons in H. rewrite nth_snoc. destruct (ueqb x u) eqn:Q.
      - injection H as <-. apply ueqb_eq in Q. rewrite Hn, Nat.eqb_refl. now subst.
      - pose proof (IM _ _ H) as K. assert (i < length xs) by (apply nth_error_Some; congruence). destruct (i =? length xs) eqn:Z; [apply Nat.eqb_eq in Z; lia|exact K]. }
    assert (OLD : forall i v, nth_error vs i = Some v -> exists v0, nth_error (vertices s ++ [Vertex x (snd own)]) i = Some v0 /\ node v = node v0 /\ incl (pending v) (pending v0) /\ (rs = [] -> pending v = pending v0)).
    { intros i v H. unfold vs in H. rewrite remove_from_nth in H. destruct (nth_error (vertices s ++ [Vertex x (snd own)]) i) as [v0|]; [|discriminate].
      exists v0. split; [reflexivity|]. destruct (memb (0 + i) (n :: unresolved s)); injection H as <-; cbn [node pending]; (split; [reflexivity|]).
      - split; [intros l Hl; apply filter_In in Hl; apply Hl|]. intros ->. cbn. clear. induction (pending v0) as [|a l IH]; cbn; [reflexivity|now rewrite IH].
      - split; [apply incl_refl|reflexivity]. }
    constructor; cbn [vertices id_map edges unresolved].
    - unfold vs. rewrite remove_from_node, map_app, IN. reflexivity.
    - exact IM'.
    - intros i v l H Hl. destruct (OLD i v H) as (v0 & H0 & -> & Inc & _). rewrite nth_snoc in H0. destruct (i =? length (vertices s)).
      + injection H0 as <-. cbn [node pending] in *. apply I0, P1. now apply Inc.
      + eapply IP; [exact H0|now apply Inc].
    - assert (NP : forall i, has_pending vs i = true -> In i (unresolved s) \/ i = n).
      { intros i H. unfold has_pending in H. destruct (nth_error vs i) as [v|] eqn:V; [|discriminate]. destruct (OLD i v V) as (v0 & H0 & _ & Inc & _).
        rewrite nth_snoc in H0. destruct (i =? length (vertices s)) eqn:Q; [right; now apply Nat.eqb_eq in Q|]. left. apply IU. unfold has_pending. rewrite H0.
        destruct (pending v) as [|l p]; [discriminate|]. destruct (pending v0); [|reflexivity]. exfalso. apply (Inc l). now left. }
      assert (K : rs = [] -> forall i, In i (unresolved s) -> has_pending vs i = true).
      { intros R i Hi. apply IU in Hi. unfold has_pending in Hi. destruct (nth_error (vertices s) i) as [v|] eqn:V; [|discriminate].
        assert (L : i < length (vertices s)) by (apply nth_error_Some; congruence).
        unfold has_pending, vs. rewrite remove_from_nth, nth_snoc. destruct (i =? length (vertices s)) eqn:Q; [apply Nat.eqb_eq in Q; lia|]. rewrite V.
        destruct (memb (0 + i) (n :: unresolved s)); [|exact Hi]. cbn [pending]. rewrite R. cbn. destruct (pending v) as [|l p]; [discriminate|]. reflexivity. }
      clearbody vs. clear OLD Gall E3. cbv zeta. intros i. destruct rs as [|r0 rs'] eqn:R; cbv iota.
      + destruct (has_pending vs n) eqn:P.
        * rewrite in_app_iff. split; [intros [H|[<-|[]]]; [now apply K|exact P]|]. intros H. destruct (NP i H) as [H'| ->]; [now left|right; now left].
        * split; [now apply K|]. intros H. destruct (NP i H) as [H'| ->]; [exact H'|congruence].
      + rewrite filter_In. destruct (has_pending vs n) eqn:P.
        * rewrite in_app_iff. split; [intros [_ H]; exact H|]. intros H. split; [|exact H]. destruct (NP i H) as [H'| ->]; [now left|right; now left].
        * split; [intros [_ H]; exact H|]. intros H. split; [|exact H]. destruct (NP i H) as [H'| ->]; [exact H'|congruence].
    - intros a b H. apply in_app_iff in H. destruct H as [H|H].
      + destruct (IE a b H) as (u & t & l & Ha & Hb & Hl & Hr). exists u, t, l. repeat split; auto; (rewrite nth_error_app1; [assumption|]); apply nth_error_Some; congruence.
      + destruct (add_edges_In _ _ _ _ _ E3 H) as (r & Hr & Hs & Ht). destruct (Gall r Hr) as (_ & l & Hl & Rl & _).
        exists (res_source r), (res_target r), l. auto.
  Qed.
  Lemma inv_all : forall xs s pre s', inv s pre -> add_nodes s xs = Ok s' -> inv s' (pre ++ xs).
  Proof.
    induction xs as [|x xs IH]; intros s pre s' I E; cbn [MmapModel.add_nodes] in E; [injection E as <-; now rewrite app_nil_r|].
    apply bind_ok in E. destruct E as (s1 & E1 & E). change (x :: xs) with ([x] ++ xs). rewrite app_assoc. eapply IH; [|exact E]. eapply inv_step; eauto.
  Qed.

  (** ** One document *)
  Lemma dedup_one : search_ok found -> forall rs k seen, seen <> [] ->
    (forall r, In r rs -> root (res_target r) = k /\ root (res_source r) = k) -> (forall p, In p seen -> root (fst p) = k /\ root (snd p) = k) -> dedup seen rs = [].
  Proof.
    intros (_ & _ & F3). induction rs as [|r rs IH]; intros k seen N H P; [reflexivity|]. cbn [MmapModel.dedup]. rewrite F3; [|exact N|].
    - apply (IH k); auto. intros r' Hr'. apply H. now right.
    - intros p Hp. destruct (P p Hp) as [P1 P2]. destruct (H r (or_introl eq_refl)) as [R1 R2]. split; apply same_root_pair; cbn; congruence.
  Qed.
  Lemma dedup_le_one : search_ok found -> forall rs k, (forall r, In r rs -> root (res_target r) = k /\ root (res_source r) = k) -> length (dedup [] rs) <= 1.
  Proof.
    intros S1 [|r rs] k H; [cbn; lia|]. cbn [MmapModel.dedup]. rewrite (proj1 S1). cbn [length].
    rewrite (dedup_one S1 rs k); [cbn; lia|discriminate| |].
    - intros r' Hr'. apply H. now right.
    - intros p [<-|[]]. cbn. apply H. now left.
  Qed.
  Lemma add_edges_len : forall m rs es, add_edges m rs = Ok es -> length es = length rs.
  Proof.
    intros m. induction rs as [|r rs IH]; intros es E; cbn [add_edges] in E; [injection E as <-; reflexivity|].
    destruct (vertex_of m (res_source r)); [|discriminate]. destruct (vertex_of m (res_target r)); [|discriminate].
    apply bind_ok in E. destruct E as (es' & E1 & E). injection E as <-. cbn. now rewrite (IH es').
  Qed.
  Lemma one_edge : search_ok found -> forall s xs x s' k, inv s xs -> (forall u, In u (xs ++ [x]) -> root u = k) -> add_node s x = Ok s' -> length (edges s') <= S (length (edges s)).
  Proof.
    intros SO s xs x s' k [IN IM IP IU IE] RK E. unfold MmapModel.add_node in E. set (n := length (vertices s)) in *. set (m := (x, n) :: id_map s) in *.
    destruct (memb n (unresolved s)); [discriminate|]. apply bind_ok in E. destruct E as (own & E1 & E). apply bind_ok in E. destruct E as (others & E2 & E).
    apply bind_ok in E. destruct E as (es & E3 & E). injection E as <-. cbn [edges]. rewrite app_length, (add_edges_len _ _ _ E3).
    assert (Hn : n = length xs) by (unfold n; rewrite <- IN; now rewrite map_length).
    assert (REG : forall u, registered m u = true -> root u = k).
    { intros u H. apply RK. unfold registered in H. destruct (vertex_of m u) as [i|] eqn:V; [|discriminate]. unfold m in V. rewrite vertex_of_cons in V.
      apply in_app_iff. destruct (ueqb x u) eqn:Q; [right; left; now apply ueqb_eq|]. left. eapply nth_error_In. eapply IM, V. }
    assert (X : root x = k) by (apply RK; apply in_app_iff; right; now left).
    assert (SRC1 : forall ls r, attempt m x ls = Ok r -> forall y, In y (fst r) -> res_source y = x /\ registered m (res_target y) = true).
    { induction ls as [|l ls IH]; intros r A y Hy; cbn [MmapModel.attempt] in A; [injection A as <-; destruct Hy|].
      apply bind_ok in A. destruct A as (rs & A1 & A). apply bind_ok in A. destruct A as (r' & A2 & A).
      assert (K : In y (filter (fun z => registered m (res_target z)) rs) \/ In y (fst r')).
      { destruct rs; injection A as <-; cbn [fst] in Hy; [now right|]. apply in_app_iff in Hy. exact Hy. }
      destruct K as [K|K]; [|eapply IH; eauto]. apply filter_In in K. destruct K as [K1 K2]. split; [|exact K2]. eapply resolve_target_spec; eauto. }
    assert (SRC2 : forall u ls r, pending_links m u ls = Ok r -> forall y, In y r -> res_source y = u /\ registered m (res_target y) = true).
    { intros u. induction ls as [|l ls IH]; intros r A y Hy; cbn [MmapModel.pending_links] in A; [injection A as <-; destruct Hy|].
      apply bind_ok in A. destruct A as (rs & A1 & A). apply bind_ok in A. destruct A as (r' & A2 & A). injection A as <-.
      apply in_app_iff in Hy. destruct Hy as [K|K]; [|eapply IH; eauto]. apply filter_In in K. destruct K as [K1 K2]. split; [|exact K2]. eapply resolve_target_spec; eauto. }
    assert (SRC3 : forall us r, process_pending m (vertices s) us = Ok r -> forall y, In y r -> root (res_source y) = k /\ registered m (res_target y) = true).
    { induction us as [|u us IH]; intros r A y Hy; cbn [MmapModel.process_pending] in A; [injection A as <-; destruct Hy|].
      destruct (nth_error (vertices s) u) as [v|] eqn:V; [|discriminate]. apply bind_ok in A. destruct A as (r1 & A1 & A). apply bind_ok in A. destruct A as (r2 & A2 & A). injection A as <-.
      apply in_app_iff in Hy. destruct Hy as [K|K]; [|eapply IH; eauto]. destruct (SRC2 _ _ _ A1 y K) as [-> R]. split; [|exact R]. apply RK. apply in_app_iff. left.
      rewrite <- IN. apply in_map. eapply nth_error_In, V. }
    pose proof (dedup_le_one SO (fst (collect_radio m x) ++ fst own ++ others) k) as D.
    assert (length (dedup [] (fst (collect_radio m x) ++ fst own ++ others)) <= 1); [|lia]. apply D.
    intros r Hr. apply in_app_iff in Hr. destruct Hr as [Hr|Hr].
    - apply in_map_iff in Hr. destruct Hr as (t & <- & Ht). cbn. apply filter_In in Ht. split; [apply REG, Ht|exact X].
    - apply in_app_iff in Hr. destruct Hr as [Hr|Hr].
      + destruct (SRC1 _ _ E1 r Hr) as [-> R]. split; [now apply REG|exact X].
      + destruct (SRC3 _ _ E2 r Hr) as [R1 R2]. split; [now apply REG|exact R1].
  Qed.

  (** ** Completeness *)
  Hypothesis found_nil : forall k, found [] k = false.
  Definition goal_of (l : maplink) : option uniq := match l with Radio t => Some t | Link k => match targets k with Ok (t :: _) => Some t | _ => None end end.
  Definition items (u : uniq) : list maplink := map Link (links_of u) ++ map Radio (radios_of u).
  Definition one_target (u : uniq) : Prop := forall k, In k (links_of u) -> targets k = Ok [] \/ exists t, targets k = Ok [t].
  Definition plain (l : maplink) : Prop := match l with Radio _ => True | Link k => targets k = Ok [] \/ exists t, targets k = Ok [t] end.
  Definition waiting (ps : list uniq) (l : maplink) : bool := match goal_of l with Some t => if in_dec uniq_dec t ps then false else true | None => true end.
  Definition hits (m : list (uniq * nat)) (source : uniq) (ls : list maplink) : list result :=
    flat_map (fun l => match goal_of l with Some t => if registered m t then [Res (Some l) t source] else [] | None => [] end) ls.
  Definition goals (ls : list maplink) : list uniq := flat_map (fun l => match goal_of l with Some t => [t] | None => [] end) ls.

  Lemma items_item : forall u l, In l (items u) <-> item u l.
  Proof.
    intros u l. unfold items. rewrite in_app_iff, !in_map_iff. destruct l as [k|t]; cbn.
    - split; [intros [(k' & E & H)|(k' & E & H)]; [injection E as <-; exact H|discriminate]|]. intros H. left. eauto.
    - split; [intros [(k' & E & H)|(k' & E & H)]; [discriminate|injection E as <-; exact H]|]. intros H. right. eauto.
  Qed.
  Lemma items_plain : forall u, one_target u -> forall l, In l (items u) -> plain l.
  Proof. intros u O l H. apply items_item in H. destruct l as [k|t]; cbn in *; auto. Qed.
  Lemma plain_refers : forall l t, plain l -> (refers l t <-> goal_of l = Some t).
  Proof.
    intros [k|t'] t P; cbn in *.
    - destruct P as [E|(t0 & E)]; rewrite E; split.
      + intros (ts & H & Ht). injection H as <-. destruct Ht.
      + discriminate.
      + intros (ts & H & Ht). injection H as <-. destruct Ht as [->|[]]. reflexivity.
      + intros H. injection H as ->. exists [t]. split; [reflexivity|now left].
    - split; [intros ->; reflexivity|]. intros H. now injection H.
  Qed.
  Lemma goals_items : forall u, one_target u -> goals (items u) = refs links_of radios_of targets u.
  Proof.
    intros u O. unfold goals, items, refs. rewrite flat_map_app. f_equal.
    - unfold one_target in O. induction (links_of u) as [|k ks IH]; [reflexivity|]. cbn [map flat_map]. rewrite IH by (intros; apply O; now right). f_equal.
      cbn. destruct (O k (or_introl eq_refl)) as [E|(t & E)]; rewrite E; reflexivity.
    - induction (radios_of u) as [|k ks IH]; [reflexivity|]. cbn in *. now rewrite IH.
  Qed.

  Lemma resolve_plain : forall source l, plain l -> resolve_target source l = Ok (match goal_of l with Some t => [Res (Some l) t source] | None => [] end).
  Proof. intros source [k|t] P; cbn in *; [|reflexivity]. destruct P as [E|(t & E)]; rewrite E; reflexivity. Qed.
  Lemma attempt_plain : forall m source ls, (forall l, In l ls -> plain l) -> attempt m source ls =
    Ok (hits m source ls, filter (fun l => match goal_of l with Some t => negb (registered m t) | None => true end) ls).
  Proof.
    intros m source. induction ls as [|l ls IH]; intros P; [reflexivity|]. cbn [MmapModel.attempt]. rewrite resolve_plain by (apply P; now left). cbn [obind].
    rewrite IH by (intros; apply P; now right). cbn [obind fst snd]. unfold hits. cbn [flat_map filter]. destruct (goal_of l) as [t|]; [|reflexivity].
    cbn [filter res_target]. destruct (registered m t); reflexivity.
  Qed.
  Lemma pending_plain : forall m source ls, (forall l, In l ls -> plain l) -> pending_links m source ls = Ok (hits m source ls).
  Proof.
    intros m source. induction ls as [|l ls IH]; intros P; [reflexivity|]. cbn [MmapModel.pending_links]. rewrite resolve_plain by (apply P; now left). cbn [obind].
    rewrite IH by (intros; apply P; now right). cbn [obind]. unfold hits. cbn [flat_map]. destruct (goal_of l) as [t|]; [|reflexivity].
    cbn [filter res_target]. destruct (registered m t); reflexivity.
  Qed.
  Definition vhits (m : list (uniq * nat)) (vs : list vertex) (i : nat) : list result := match nth_error vs i with Some v => hits m (node v) (pending v) | None => [] end.
  Lemma process_plain : forall m vs us, (forall i, In i us -> exists v, nth_error vs i = Some v /\ forall l, In l (pending v) -> plain l) ->
    process_pending m vs us = Ok (flat_map (vhits m vs) us).
  Proof.
    intros m vs. induction us as [|i us IH]; intros P; [reflexivity|]. cbn [MmapModel.process_pending flat_map]. unfold vhits at 1.
    destruct (P i (or_introl eq_refl)) as (v & V & Pv). rewrite V, pending_plain by exact Pv. cbn [obind]. rewrite IH by (intros; apply P; now right). reflexivity.
  Qed.
  Lemma dedup_short : forall rs, length rs <= 1 -> dedup [] rs = rs.
  Proof. intros [|r [|r' rs]] H; cbn [MmapModel.dedup]; [reflexivity| |cbn in H; lia]. now rewrite found_nil. Qed.
  Lemma hits_In : forall m source ls r, In r (hits m source ls) <-> exists l t, In l ls /\ goal_of l = Some t /\ registered m t = true /\ r = Res (Some l) t source.
  Proof.
    intros m source ls r. unfold hits. rewrite in_flat_map. split.
    - intros (l & Hl & Hr). destruct (goal_of l) as [t|] eqn:G; [|destruct Hr]. destruct (registered m t) eqn:R; [|destruct Hr]. destruct Hr as [<-|[]]. exists l, t. auto.
    - intros (l & t & Hl & G & R & ->). exists l. split; [exact Hl|]. rewrite G, R. now left.
  Qed.
  Lemma sum_incl : forall (f : nat -> nat) a b, NoDup a -> incl a b -> list_sum (map f a) <= list_sum (map f b).
  Proof.
    intros f a b N. revert b. induction N as [|x a Nx N IH]; intros b I; [cbn; lia|].
    assert (Hx : In x b) by (apply I; now left). apply in_split in Hx. destruct Hx as (b1 & b2 & ->).
    assert (I' : incl a (b1 ++ b2)).
    { intros y Hy. pose proof (I y (or_intror Hy)) as K. apply in_app_iff in K. apply in_app_iff. destruct K as [K|[K|K]]; [now left| |now right]. subst. contradiction. }
    specialize (IH _ I'). rewrite !map_app, !list_sum_app in *. cbn [map list_sum fold_right] in *. unfold list_sum in *. cbn. lia.
  Qed.
  Lemma sum_flat : forall {A} (f : nat -> list A) l, length (flat_map f l) = list_sum (map (fun i => length (f i)) l).
  Proof. intros A f l. induction l as [|x l IH]; [reflexivity|]. cbn. rewrite app_length, IH. reflexivity. Qed.
  Lemma sum_perm : forall a b, Permutation a b -> list_sum a = list_sum b.
  Proof. induction 1; cbn; unfold list_sum in *; lia. Qed.
  Lemma sum_nth : forall {A} (f : A -> nat) (vs : list A), list_sum (map (fun i => match nth_error vs i with Some v => f v | None => 0 end) (seq 0 (length vs))) = list_sum (map f vs).
  Proof.
    intros A f vs. induction vs as [|v vs IH]; [reflexivity|]. cbn [length seq map]. cbn [nth_error]. rewrite <- seq_shift, map_map. cbn [nth_error]. change (list_sum (?a :: ?b)) with (a + list_sum b).
    cbn [list_sum fold_right]. unfold list_sum in *. now rewrite IH.
  Qed.
  Lemma sum_le : forall {A} (f g : A -> nat) l, (forall x, In x l -> f x <= g x) -> list_sum (map f l) <= list_sum (map g l).
  Proof. intros A f g l H. induction l as [|x l IH]; [cbn; lia|]. pose proof (H x (or_introl eq_refl)). specialize (IH (fun y Hy => H y (or_intror Hy))). unfold list_sum in *. cbn. lia. Qed.

  Record inv2 (s : state) (xs : list uniq) : Prop := {
    c_inv : inv s xs;
    c_map : forall u i, nth_error xs i = Some u -> vertex_of (id_map s) u = Some i;
    c_pend : forall i v, nth_error (vertices s) i = Some v -> pending v = filter (waiting xs) (items (node v));
    c_nodup : NoDup (unresolved s);
    c_edges : forall i j u t l, nth_error xs i = Some u -> nth_error xs j = Some t -> In l (items u) -> goal_of l = Some t -> In (i, j) (edges s) }.

  Lemma filter_filter : forall {A} (f g : A -> bool) l, filter f (filter g l) = filter (fun x => g x && f x) l.
  Proof. intros A f g l. induction l as [|x l IH]; [reflexivity|]. cbn. destruct (g x); cbn; [destruct (f x); now rewrite IH|exact IH]. Qed.
  Lemma add_edges_ok : forall m rs, (forall r, In r rs -> registered m (res_source r) = true /\ registered m (res_target r) = true) ->
    exists es, add_edges m rs = Ok es /\ forall r i j, In r rs -> vertex_of m (res_source r) = Some i -> vertex_of m (res_target r) = Some j -> In (i, j) es.
  Proof.
    intros m. induction rs as [|r rs IH]; intros H; [exists []; split; [reflexivity|intros ? ? ? []]|].
    destruct (IH (fun r' Hr' => H r' (or_intror Hr'))) as (es & E & K). destruct (H r (or_introl eq_refl)) as [H1 H2]. unfold registered in H1, H2.
    destruct (vertex_of m (res_source r)) as [a|] eqn:A; [|discriminate]. destruct (vertex_of m (res_target r)) as [b|] eqn:B; [|discriminate].
    exists ((a, b) :: es). cbn [add_edges]. rewrite A, B, E. split; [reflexivity|]. intros r' i j [<-|Hr] Hi Hj; [left; congruence|right; eauto].
  Qed.

  Lemma complete_step : forall s xs x, inv2 s xs -> NoDup (xs ++ [x]) -> (forall u, In u (xs ++ [x]) -> one_target u) ->
    completed links_of radios_of targets xs x <= 1 -> exists s', add_node s x = Ok s' /\ inv2 s' (xs ++ [x]).
  Proof.
    intros s xs x [I CM CP CN CE] ND OT C. pose proof I as [IN IM IP IU IE].
    set (n := length (vertices s)). set (m := (x, n) :: id_map s).
    assert (Hn : n = length xs) by (unfold n; rewrite <- IN; now rewrite map_length).
    assert (XN : ~ In x xs). { intros H. apply NoDup_remove_2 in ND. rewrite app_nil_r in ND. contradiction. }
    assert (VM : forall u i, vertex_of m u = Some i <-> nth_error (xs ++ [x]) i = Some u).
    { intros u i. unfold m. rewrite vertex_of_cons, nth_snoc, <- Hn. destruct (ueqb x u) eqn:Q.
      - apply ueqb_eq in Q. subst u. split; [intros H; injection H as <-; now rewrite Nat.eqb_refl|].
        destruct (i =? n) eqn:Z; [intros _; apply Nat.eqb_eq in Z; now subst|]. intros H. exfalso. apply XN. eapply nth_error_In; eauto.
      - split; intros H.
        + pose proof (IM _ _ H) as K. assert (i < length xs) by (apply nth_error_Some; congruence). destruct (i =? n) eqn:Z; [apply Nat.eqb_eq in Z; lia|exact K].
        + destruct (i =? n); [injection H as <-; exfalso; rewrite (proj2 (ueqb_eq x x) eq_refl) in Q; discriminate|]. now apply CM. }
    assert (REG : forall t, registered m t = true <-> In t (xs ++ [x])).
    { intros t. unfold registered. destruct (vertex_of m t) as [i|] eqn:V.
      - split; [intros _|reflexivity]. apply VM in V. eapply nth_error_In; eauto.
      - split; [discriminate|]. intros H. apply In_nth_error in H. destruct H as [i H]. apply VM in H. congruence. }
    assert (WT : forall l, waiting (xs ++ [x]) l = match goal_of l with Some t => negb (registered m t) | None => true end).
    { intros l. unfold waiting. destruct (goal_of l) as [t|]; [|reflexivity]. destruct (in_dec uniq_dec t (xs ++ [x])) as [H|H].
      - apply REG in H. now rewrite H.
      - destruct (registered m t) eqn:R; [|reflexivity]. apply REG in R. contradiction. }
    assert (VX : forall i v, nth_error (vertices s) i = Some v -> In (node v) xs) by (intros i v V; rewrite <- IN; apply in_map; eapply nth_error_In, V).
    assert (VP : forall i v, nth_error (vertices s) i = Some v -> forall l, In l (pending v) -> plain l).
    { intros i v V l Hl. rewrite (CP i v V) in Hl. apply filter_In in Hl. eapply items_plain; [|apply Hl]. apply OT. apply in_app_iff. left. eapply VX; eauto. }
    set (ls := map Link (links_of x) ++ snd (collect_radio m x)).
    assert (LP : forall l, In l ls -> plain l).
    { intros l Hl. apply (items_plain x); [apply OT; apply in_app_iff; right; now left|]. unfold items. apply in_app_iff. apply in_app_iff in Hl.
      destruct Hl as [Hl|Hl]; [now left|right]. apply in_map_iff in Hl. destruct Hl as (t & <- & Ht). apply in_map. apply filter_In in Ht. apply Ht. }
    assert (PEND : filter (fun l => match goal_of l with Some t => negb (registered m t) | None => true end) ls = filter (waiting (xs ++ [x])) (items x)).
    { unfold ls, items. rewrite !filter_app. f_equal.
      - apply filter_ext. intros l. now rewrite WT.
      - cbn [snd MmapModel.collect_radio]. clear -WT. induction (radios_of x) as [|t ts IH]; [reflexivity|]. cbn [filter map]. rewrite WT. cbn [goal_of].
        destruct (registered m t) eqn:R; cbn [negb]; [exact IH|]. cbn [map filter]. cbn [goal_of]. rewrite R. cbn [negb]. now rewrite IH. }
    assert (EA : attempt m x ls = Ok (hits m x ls, filter (waiting (xs ++ [x])) (items x))) by (rewrite attempt_plain by exact LP; now rewrite PEND).
    assert (EP : process_pending m (vertices s) (order (unresolved s)) = Ok (flat_map (vhits m (vertices s)) (order (unresolved s)))).
    { apply process_plain. intros i Hi. apply (Permutation_in _ (order_perm _)) in Hi. apply IU in Hi. unfold has_pending in Hi.
      destruct (nth_error (vertices s) i) as [v|] eqn:V; [|discriminate]. exists v. split; [reflexivity|]. eapply VP; eauto. }
    set (R := fst (collect_radio m x) ++ hits m x ls ++ flat_map (vhits m (vertices s)) (order (unresolved s))).
    assert (LR : length R <= 1).
    { transitivity (completed links_of radios_of targets xs x); [|exact C]. unfold R, completed. rewrite !app_length.
      assert (L1 : length (fst (collect_radio m x)) + length (hits m x ls) = length (filter (fun t => if in_dec uniq_dec t (xs ++ [x]) then true else false) (refs links_of radios_of targets x))).
      { assert (FE : forall l, filter (fun t => if in_dec uniq_dec t (xs ++ [x]) then true else false) l = filter (registered m) l).
        { intros l. apply filter_ext. intros t. destruct (in_dec uniq_dec t (xs ++ [x])) as [H|H]; [apply REG in H; now rewrite H|].
          destruct (registered m t) eqn:Q; [apply REG in Q; contradiction|reflexivity]. }
        rewrite FE. unfold refs. rewrite filter_app, app_length. cbn [fst snd MmapModel.collect_radio]. rewrite map_length. unfold ls, hits. rewrite flat_map_app, app_length.
        assert (Z : length (flat_map (fun l => match goal_of l with Some t => if registered m t then [Res (Some l) t x] else [] | None => [] end) (snd (collect_radio m x))) = 0).
        { cbn [snd MmapModel.collect_radio]. induction (radios_of x) as [|t ts IH]; [reflexivity|]. cbn [filter]. destruct (registered m t) eqn:Q; cbn [negb]; [exact IH|]. cbn [map flat_map goal_of]. rewrite Q. exact IH. }
        rewrite Z. cbn [snd MmapModel.collect_radio].
        assert (Y : length (flat_map (fun l => match goal_of l with Some t => if registered m t then [Res (Some l) t x] else [] | None => [] end) (map Link (links_of x))) =
                    length (filter (registered m) (flat_map (fun k => match targets k with Ok ts => ts | _ => [] end) (links_of x)))).
        { assert (O : one_target x) by (apply OT; apply in_app_iff; right; now left). unfold one_target in O. clear -O.
          induction (links_of x) as [|k ks IH]; [reflexivity|]. cbn [map flat_map]. rewrite filter_app, !app_length, IH by (intros; apply O; now right). f_equal.
          cbn [goal_of]. destruct (O k (or_introl eq_refl)) as [E|(t & E)]; rewrite E; [reflexivity|]. cbn. now destruct (registered m t). }
        rewrite Y. lia. }
      assert (L2 : length (flat_map (vhits m (vertices s)) (order (unresolved s))) <= list_sum (map (fun u => count_occ uniq_dec (refs links_of radios_of targets u) x) xs)).
      { rewrite sum_flat. rewrite (sum_perm _ (map (fun i => length (vhits m (vertices s) i)) (unresolved s))) by (apply Permutation_map, order_perm).
        etransitivity; [apply (sum_incl _ (unresolved s) (seq 0 (length (vertices s)))); [exact CN|]|].
        { intros i Hi. apply IU in Hi. unfold has_pending in Hi. destruct (nth_error (vertices s) i) as [v|] eqn:V; [|discriminate]. apply in_seq. split; [lia|]. apply nth_error_Some. congruence. }
        etransitivity; [|rewrite <- IN at 1; rewrite map_map; apply le_n].
        rewrite <- (sum_nth (fun v => count_occ uniq_dec (refs links_of radios_of targets (node v)) x) (vertices s)). apply sum_le. intros i _. unfold vhits.
        destruct (nth_error (vertices s) i) as [v|] eqn:V; [|cbn; lia]. rewrite (CP i v V). rewrite <- goals_items by (apply OT; apply in_app_iff; left; eapply VX; eauto).
        clear -WT XN REG. induction (items (node v)) as [|l l' IH]; [cbn; lia|]. cbn [filter]. unfold goals in *. cbn [flat_map]. unfold waiting at 1.
        destruct (goal_of l) as [t|] eqn:G.
        - cbn [app count_occ]. destruct (in_dec uniq_dec t xs) as [H|H].
          + destruct (uniq_dec t x) as [->|D]; [contradiction|]. exact IH.
          + unfold hits in *. cbn [flat_map]. rewrite G. destruct (registered m t) eqn:Q.
            * apply REG in Q. apply in_app_iff in Q. destruct Q as [Q|[->|[]]]; [contradiction|]. destruct (uniq_dec t t) as [_|D]; [|congruence]. cbn [app length]. lia.
            * destruct (uniq_dec t x) as [->|D]; cbn [app]; [lia|exact IH].
        - unfold hits in *. cbn [flat_map]. rewrite G. exact IH. }
      lia. }
    assert (OWN : forall r, In r R -> res_target r = res_target r /\ In (res_target r) (xs ++ [x]) /\ In (res_source r) (xs ++ [x]) /\ (forall l, res_link r = Some l -> goal_of l = Some (res_target r))).
    { intros r Hr. split; [reflexivity|]. unfold R in Hr. apply in_app_iff in Hr. destruct Hr as [Hr|Hr].
      - apply in_map_iff in Hr. destruct Hr as (t & <- & Ht). apply filter_In in Ht. cbn. split; [apply REG, Ht|]. split; [apply in_app_iff; right; now left|discriminate].
      - apply in_app_iff in Hr. destruct Hr as [Hr|Hr].
        + apply hits_In in Hr. destruct Hr as (l & t & Hl & G & Q & ->). cbn. split; [now apply REG|]. split; [apply in_app_iff; right; now left|]. intros l' E. injection E as <-. exact G.
        + apply in_flat_map in Hr. destruct Hr as (i & Hi & Hr). unfold vhits in Hr. destruct (nth_error (vertices s) i) as [v|] eqn:V; [|destruct Hr].
          apply hits_In in Hr. destruct Hr as (l & t & Hl & G & Q & ->). cbn. split; [now apply REG|]. split; [apply in_app_iff; left; eapply VX; eauto|]. intros l' E. injection E as <-. exact G. }
    assert (HIT : forall i v l, nth_error (vertices s) i = Some v -> In l (pending v) -> goal_of l = Some x -> In (Res (Some l) x (node v)) R).
    { intros i v l V Hl G. unfold R. apply in_app_iff. right. apply in_app_iff. right. apply in_flat_map. exists i. split.
      - apply (Permutation_in _ (Permutation_sym (order_perm _))). apply IU. unfold has_pending. rewrite V. destruct (pending v); [destruct Hl|reflexivity].
      - unfold vhits. rewrite V. apply hits_In. exists l, x. repeat split; auto. apply REG. apply in_app_iff. right. now left. }
    assert (SL : forall a b, same_link a b = true <-> a = b).
    { intros [a|a] [b|b]; cbn; try (split; congruence); rewrite ueqb_eq; split; congruence. }
    assert (RM : forall i v l, nth_error (vertices s) i = Some v -> In l (pending v) -> negb (removes R l) = waiting (xs ++ [x]) l).
    { intros i v l V Hl. pose proof Hl as Hl'. rewrite (CP i v V) in Hl'. apply filter_In in Hl'. destruct Hl' as [Hli W]. unfold waiting in W |- *.
      destruct (removes R l) eqn:RR; cbn [negb].
      - unfold removes in RR. apply existsb_exists in RR. destruct RR as (r & Hr & Q). destruct (res_link r) as [k|] eqn:K; [|discriminate]. apply SL in Q. subst k.
        destruct (OWN r Hr) as (_ & T & _ & G). rewrite (G l K). destruct (in_dec uniq_dec (res_target r) (xs ++ [x])); [reflexivity|contradiction].
      - destruct (goal_of l) as [t|] eqn:G; [|reflexivity]. destruct (in_dec uniq_dec t xs) as [H|H]; [discriminate|]. destruct (in_dec uniq_dec t (xs ++ [x])) as [H'|H']; [|reflexivity].
        exfalso. apply in_app_iff in H'. destruct H' as [H'|[<-|[]]]; [contradiction|]. pose proof (HIT i v l V Hl G) as HH.
        assert (removes R l = true); [|congruence]. apply existsb_exists. exists (Res (Some l) x (node v)). split; [exact HH|]. cbn. now apply SL. }
    assert (RMX : forall l, In l (filter (waiting (xs ++ [x])) (items x)) -> negb (removes R l) = true).
    { intros l Hl. apply filter_In in Hl. destruct Hl as [_ W]. apply negb_true_iff. destruct (removes R l) eqn:RR; [|reflexivity]. exfalso.
      unfold removes in RR. apply existsb_exists in RR. destruct RR as (r & Hr & Q). destruct (res_link r) as [k|] eqn:K; [|discriminate]. apply SL in Q. subst k.
      destruct (OWN r Hr) as (_ & T & _ & G). unfold waiting in W. rewrite (G l K) in W. destruct (in_dec uniq_dec (res_target r) (xs ++ [x])); [discriminate|contradiction]. }
    destruct (add_edges_ok m R) as (es & EE & EI). { intros r Hr. destruct (OWN r Hr) as (_ & T & Q & _). split; now apply REG. }
    set (vs := remove_from R (n :: unresolved s) 0 (vertices s ++ [Vertex x (filter (waiting (xs ++ [x])) (items x))])).
    assert (NM : memb n (unresolved s) = false).
    { destruct (memb n (unresolved s)) eqn:M; [|reflexivity]. apply memb_In in M. apply IU in M. unfold has_pending in M. replace (nth_error (vertices s) n) with (@None vertex) in M; [discriminate|].
      symmetry. apply nth_error_None. unfold n. lia. }
    assert (E : exists us, add_node s x = Ok (State vs m (edges s ++ es) us) /\ NoDup us).
    { unfold MmapModel.add_node. cbv zeta. fold n. fold m. rewrite NM. fold ls. rewrite EA. cbn [obind fst snd]. rewrite EP. cbn [obind].
      change (map (fun t : uniq => Res None t x) (filter (registered m) (radios_of x))) with (fst (collect_radio m x)).
      fold R. rewrite (dedup_short R LR). fold vs. rewrite EE. cbn [obind]. eexists. split; [reflexivity|].
      assert (NX : NoDup (if has_pending vs n then unresolved s ++ [n] else unresolved s)).
      { destruct (has_pending vs n); [|exact CN]. eapply Permutation_NoDup; [apply Permutation_cons_append|]. constructor; [|exact CN]. intros H. apply memb_In in H. congruence. }
      destruct R; [exact NX|apply NoDup_filter; exact NX]. }
    destruct E as (us & E & NU). eexists. split; [exact E|].
    pose proof (inv_step _ _ _ _ I E) as I'. constructor; cbn [vertices id_map edges unresolved].
    - exact I'.
    - intros u i H. now apply VM.
    - intros i v H. unfold vs in H. rewrite remove_from_nth, nth_snoc in H. fold n in H. destruct (i =? n) eqn:Q.
      + apply Nat.eqb_eq in Q. subst i. cbn [Nat.add memb existsb] in H. rewrite Nat.eqb_refl in H. cbn [orb] in H. injection H as <-. cbn [node pending].
        rewrite <- (filter_ext_in (fun _ => true) (fun l => negb (removes R l)) (filter (waiting (xs ++ [x])) (items x))); [|intros a Ha; now rewrite RMX].
        clear. induction (filter _ (items x)) as [|a l IH]; [reflexivity|]. cbn. now rewrite IH.
      + destruct (nth_error (vertices s) i) as [v0|] eqn:V; [|discriminate].
        assert (FW : filter (fun l => negb (removes R l)) (pending v0) = filter (waiting (xs ++ [x])) (items (node v0))).
        { rewrite (filter_ext_in (fun l => negb (removes R l)) (waiting (xs ++ [x])) (pending v0)) by (intros l Hl; eapply RM; eauto).
          rewrite (CP i v0 V), filter_filter. apply filter_ext. intros l. unfold waiting. destruct (goal_of l) as [t|]; [|reflexivity].
          destruct (in_dec uniq_dec t xs) as [H1|H1]; cbn [andb]; [|reflexivity]. destruct (in_dec uniq_dec t (xs ++ [x])) as [H2|H2]; [reflexivity|]. exfalso. apply H2. apply in_app_iff. now left. }
        destruct (memb (0 + i) (n :: unresolved s)) eqn:M; injection H as <-; cbn [node pending]; [exact FW|].
        rewrite <- FW. assert (P0 : pending v0 = []); [|now rewrite P0]. apply (has_pending_false_nil (vertices s) i); [|exact V].
        destruct (has_pending (vertices s) i) eqn:P; [|reflexivity]. apply IU in P. cbn [Nat.add] in M. assert (memb i (n :: unresolved s) = true); [|congruence]. apply memb_In. now right.
    - exact NU.
    - intros i j u t l Hi Hj Hl G. apply in_app_iff.
      destruct (uniq_dec u x) as [->|DU].
      + right. assert (Q : registered m t = true) by (apply REG; eapply nth_error_In; eauto). apply VM in Hi. apply VM in Hj.
        assert (K : exists r, In r R /\ res_source r = x /\ res_target r = t).
        { unfold items in Hl. apply in_app_iff in Hl. destruct Hl as [Hl|Hl].
          - exists (Res (Some l) t x). split; [|auto]. unfold R. apply in_app_iff. right. apply in_app_iff. left. apply hits_In. exists l, t. repeat split; auto. unfold ls. apply in_app_iff. now left.
          - apply in_map_iff in Hl. destruct Hl as (t' & <- & Ht). cbn in G. injection G as ->. exists (Res None t x). split; [|auto]. unfold R. apply in_app_iff. left. cbn [fst MmapModel.collect_radio].
            apply in_map_iff. exists t. split; [reflexivity|]. apply filter_In. auto. }
        destruct K as (r & Hr & R1 & R2). apply (EI r); [exact Hr|now rewrite R1|now rewrite R2].
      + assert (Hi' : nth_error xs i = Some u).
        { rewrite nth_snoc in Hi. destruct (i =? length xs); [injection Hi as ->; contradiction|exact Hi]. }
        destruct (uniq_dec t x) as [->|DT].
        * right. assert (V : exists v, nth_error (vertices s) i = Some v /\ node v = u).
          { rewrite <- IN in Hi'. rewrite nth_error_map in Hi'. destruct (nth_error (vertices s) i) as [v|]; [|discriminate]. injection Hi' as <-. eauto. }
          destruct V as (v & V & Nv). subst u.
          assert (Hp : In l (pending v)). { rewrite (CP i v V). apply filter_In. split; [exact Hl|]. unfold waiting. rewrite G. destruct (in_dec uniq_dec x xs); [contradiction|reflexivity]. }
          apply VM in Hi. apply VM in Hj. apply (EI _ i j (HIT i v l V Hp G)); assumption.
        * left. eapply CE; eauto. rewrite nth_snoc in Hj. destruct (j =? length xs); [injection Hj as ->; contradiction|exact Hj].
  Qed.

  Lemma complete_all : forall post s pre, inv2 s pre -> NoDup (pre ++ post) -> (forall u, In u (pre ++ post) -> one_target u) ->
    (forall a x b, pre ++ post = a ++ x :: b -> length pre <= length a -> completed links_of radios_of targets a x <= 1) ->
    exists s', add_nodes s post = Ok s' /\ inv2 s' (pre ++ post).
  Proof.
    induction post as [|x post IH]; intros s pre I ND OT C; [exists s; rewrite app_nil_r; split; [reflexivity|exact I]|].
    assert (EQ : pre ++ x :: post = (pre ++ [x]) ++ post) by now rewrite <- app_assoc.
    destruct (complete_step s pre x I) as (s1 & E1 & I1).
    - rewrite EQ in ND. clear -ND. induction (pre ++ [x]) as [|a l IHl]; [constructor|]. cbn in ND. inversion ND; subst. constructor; [|auto]. intros H. apply H1. apply in_app_iff. now left.
    - intros u Hu. apply OT. rewrite EQ. apply in_app_iff. now left.
    - eapply (C pre x post); [reflexivity|lia].
    - destruct (IH s1 (pre ++ [x]) I1) as (s2 & E2 & I2).
      + now rewrite <- EQ.
      + intros u Hu. apply OT. now rewrite EQ.
      + intros a y b H L. apply (C a y b); [now rewrite EQ|]. rewrite app_length in L. cbn in L. lia.
      + exists s2. cbn [MmapModel.add_nodes]. rewrite E1. cbn [obind]. rewrite EQ. auto.
  Qed.
End Mmap.
