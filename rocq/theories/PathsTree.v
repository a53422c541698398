(** Imported documents. *)
From Coq Require Import List Bool Arith Lia Permutation.
From Verif Require Import Base ImmModel ImmSpec ImmProofs ImmAssign ImmCascade ImmList PathsModel PathsSpec PathsProofs.
Import ListNotations.
Local Open Scope nat_scope.

Section Trees.
  Variable tk : nat -> bool.

  Fixpoint track_kids (s : store) (pm : nat -> list nat) (kids : list (step * tree)) : list node * (nat -> list nat) * list (step * nat) :=
    match kids with
    | [] => (s, pm, [])
    | (st, c) :: kids' =>
        let '(s1, pm1, i) := track_tree tk s pm c in
        let '(s2, pm2, r) := track_kids s1 pm1 kids' in (s2, pm2, (st, i) :: r)
    end.
  Lemma track_tree_node s pm k d l kids : track_tree tk s pm (Node k d l kids) =
    let '(s1, pm1, sub) := track_kids s pm kids in track_add tk s1 pm1 (mkN k d l sub).
  Proof.
    cbn [track_tree]. match goal with |- (let '(_, _) := ?f s pm kids in _) = _ => assert (E : forall kids s pm, f s pm kids = track_kids s pm kids) end.
    { clear. induction kids as [|[st c] r IH]; intros s0 pm0; [reflexivity|]. cbn.
      destruct (track_tree tk s0 pm0 c) as [[s1 pm1] i]. now rewrite IH. }
    now rewrite E.
  Qed.
  Lemma leafy_kids k d l kids : leafy tk (Node k d l kids) ->
    (tk k = false -> kids = []) /\ Forall (fun c => leafy tk (snd c)) kids.
  Proof.
    cbn [leafy]. intros [A B]. split; [exact A|]. clear A. induction kids as [|c r IH]; constructor; [apply B|apply IH, B].
  Qed.

  Definition whole (s : store) (log : list event) : Prop := forall id n, node_at s id = Some n -> current log id.

  Lemma track_add_good s pm log n : history tk s pm log -> whole s log -> leaves tk s -> fits s n ->
    (tk (kind n) = false -> subs n = []) ->
    let '(s', pm', id) := track_add tk s pm n in
    history tk s' pm' (Added id :: log) /\ whole s' (Added id :: log) /\ leaves tk s' /\ intern s n = (s', id) /\
    length s <= length s' /\ 1 <= id <= length s'.
  Proof.
    intros H Wh Lv F K. destruct (track_add tk s pm n) as [[s' pm'] id] eqn:E.
    split; [exact (h_add tk _ _ _ _ _ _ _ H F E)|]. unfold track_add in E.
    destruct (intern s n) as [s1 i] eqn:I. injection E as <- <- <-.
    destruct (intern_spec s n) as (m & X & M & M1 & M2 & M3). rewrite I in *. cbn [fst snd] in *.
    assert (Q : forall j x, node_at s1 j = Some x -> node_at s j = Some x \/ (j = i /\ x = m)).
    { unfold intern in I. destruct (find_value s n); injection I as <- <-; [auto|]. intros j x Hj.
      destruct j as [|j]; [discriminate|]. cbn [node_at] in *. destruct (Nat.lt_ge_cases j (length s)) as [L|L].
      - rewrite nth_error_app1 in Hj by auto. auto.
      - right. assert (j = length s) as ->; [|split; congruence]. rewrite nth_error_app2 in Hj by auto.
        destruct (j - length s) as [|z] eqn:D; [lia|]. destruct z; discriminate. }
    split; [intros j x Hj; apply Q in Hj; destruct Hj as [Hj|[-> _]]; cbn; [right; eauto|now left]|].
    split; [intros j x Hj Kj; apply Q in Hj; destruct Hj as [Hj|[-> ->]]; [eauto|rewrite M1 in Kj; rewrite M3; auto]|].
    split; [reflexivity|]. split; [destruct X as [l ->]; rewrite app_length; lia|]. now apply node_at_len in M.
  Qed.
  Lemma track_tree_good t : forall s pm log, history tk s pm log -> whole s log -> leaves tk s -> importable t -> leafy tk t ->
    let '(s', pm', id) := track_tree tk s pm t in
    exists log', history tk s' pm' log' /\ whole s' log' /\ leaves tk s' /\ add_tree s t = (s', id) /\ length s <= length s' /\
      1 <= id <= length s'.
  Proof.
    induction t as [|k d l kids IH] using tree_ind'; intros s pm log H Wh Lv Im Le; [destruct Im|].
    apply importable_kids in Im. destruct Im as [Sh F]. apply leafy_kids in Le. destruct Le as [Ek G].
    rewrite track_tree_node, add_tree_node.
    assert (Ks : forall s pm log, history tk s pm log -> whole s log -> leaves tk s ->
      let '(s', pm', sub) := track_kids s pm kids in
      exists log', history tk s' pm' log' /\ whole s' log' /\ leaves tk s' /\ add_kids s kids = (s', sub) /\ length s <= length s' /\
        map fst sub = map fst kids /\ (forall st i, In (st, i) sub -> i <= length s')).
    { clear s pm log H Wh Lv Sh Ek. induction kids as [|[st c] r IHr]; intros s pm log H Wh Lv.
      - cbn. exists log. split; [exact H|]. split; [exact Wh|]. split; [exact Lv|]. split; [reflexivity|]. split; [lia|].
        split; [reflexivity|]. intros st i [].
      - inversion IH as [|? ? H1 H2]; subst. inversion F as [|? ? F1 F2]; subst. inversion G as [|? ? G1 G2]; subst. cbn [snd] in *.
        cbn [track_kids add_kids]. specialize (H1 s pm log H Wh Lv F1 G1).
        destruct (track_tree tk s pm c) as [[s1 pm1] i]. destruct H1 as (log1 & A1 & A2 & A3 & A4 & A5 & A6). rewrite A4.
        specialize (IHr H2 F2 G2 s1 pm1 log1 A1 A2 A3). destruct (track_kids s1 pm1 r) as [[s2 pm2] q].
        destruct IHr as (log2 & B1 & B2 & B3 & B4 & B5 & B6 & B7). rewrite B4. exists log2. split; [exact B1|]. split; [exact B2|].
        split; [exact B3|]. split; [reflexivity|]. split; [lia|]. split; [cbn; congruence|].
        intros st' i' [E|E]; [injection E as _ <-; lia|eauto]. }
    specialize (Ks s pm log H Wh Lv). destruct (track_kids s pm kids) as [[s1 pm1] sub].
    destruct Ks as (log1 & A1 & A2 & A3 & A4 & A5 & A6 & A7). rewrite A4.
    assert (E : sub = [] \/ tk k = true).
    { destruct (tk k); [now right|]. left. rewrite Ek in A6 by reflexivity. destruct sub; [reflexivity|discriminate]. }
    pose proof (track_add_good s1 pm1 log1 (mkN k d l sub) A1 A2 A3) as B. destruct (track_add tk s1 pm1 (mkN k d l sub)) as [[s2 pm2] id].
    destruct B as (B1 & B2 & B3 & B4 & B5 & B6).
    { split; cbn [subs]; [now rewrite A6|exact A7]. } { cbn. intros E'. destruct E; congruence. }
    exists (Added id :: log1). split; [exact B1|]. split; [exact B2|]. split; [exact B3|]. split; [exact B4|]. split; lia.
  Qed.
  Lemma imports_good ts : forall s pm log, history tk s pm log -> whole s log -> leaves tk s -> Forall importable ts -> Forall (leafy tk) ts ->
    let '(s', pm') := imports tk s pm ts in exists log', history tk s' pm' log' /\ whole s' log' /\ leaves tk s'.
  Proof.
    induction ts as [|t ts IH]; intros s pm log H Wh Lv Im Le; cbn [imports]; [eauto|].
    inversion Im; subst. inversion Le; subst. pose proof (track_tree_good t s pm log H Wh Lv) as G.
    destruct (track_tree tk s pm t) as [[s1 pm1] i]. destruct G as (log1 & A1 & A2 & A3 & _); [auto|auto|]. now apply (IH s1 pm1 log1).
  Qed.

  (** Nodes of an added tree are reached from its root. *)
  Definition referred (s : store) (i : nat) : Prop := exists q n st, node_at s q = Some n /\ In (st, i) (subs n).
  Lemma referred_ext s s' i : extends s s' -> referred s i -> referred s' i.
  Proof. intros X (q & n & st & A & B). exists q, n, st. split; [now apply (node_at_ext s)|exact B]. Qed.
  Lemma add_kids_ext kids : forall s, extends s (fst (add_kids s kids)).
  Proof.
    induction kids as [|[st c] r IH]; intros s; cbn; [apply extends_refl|]. pose proof (add_tree_ext c s) as Y.
    destruct (add_tree s c) as [s1 i]. specialize (IH s1). destruct (add_kids s1 r). cbn in *. eauto using extends_trans.
  Qed.
  Lemma add_tree_referred t : forall s i, length s < i <= length (fst (add_tree s t)) ->
    i = snd (add_tree s t) \/ referred (fst (add_tree s t)) i.
  Proof.
    induction t as [|k d l kids IH] using tree_ind'; intros s i H; [cbn in H; lia|]. rewrite add_tree_node in *.
    assert (K : forall s i, length s < i <= length (fst (add_kids s kids)) ->
      (exists st, In (st, i) (snd (add_kids s kids))) \/ referred (fst (add_kids s kids)) i).
    { clear s i H. induction kids as [|[st c] r IHr]; intros s i H; [cbn in H; lia|]. inversion IH as [|? ? H1 H2]; subst.
      cbn [add_kids snd] in *. specialize (H1 s i). specialize (IHr H2). destruct (add_tree s c) as [s1 j]. specialize (IHr s1 i).
      pose proof (add_kids_ext r s1) as X. destruct (add_kids s1 r) as [s2 q]. cbn [fst snd] in *.
      destruct (Nat.le_gt_cases i (length s1)) as [L|L].
      - destruct H1 as [->|H1]; [lia| |].
        + left. exists st. now left.
        + right. now apply (referred_ext s1).
      - destruct IHr as [[st' E]|E]; [lia|left; exists st'; now right|now right]. }
    specialize (K s i). destruct (add_kids s kids) as [s1 sub]. cbn [fst snd] in *.
    destruct (intern_spec s1 (mkN k d l sub)) as (m & X & M & _ & _ & M3). cbn [subs] in M3.
    destruct (Nat.le_gt_cases i (length s1)) as [L|L].
    - right. destruct K as [[st K]|K]; [lia| |now apply (referred_ext s1)]. exists (snd (intern s1 (mkN k d l sub))), m, st.
      split; [exact M|]. now rewrite M3.
    - left. unfold intern in *. destruct (find_value s1 (mkN k d l sub)); cbn [fst snd] in *; [lia|].
      rewrite app_length in H. cbn in H. lia.
  Qed.

  (** ** Places in the store are places over current nodes *)
  Lemma id_at_snoc s r p st t : id_at s r (p ++ [st]) = Ok t -> exists q n, id_at s r p = Ok q /\ node_at s q = Some n /\ In (st, t) (subs n).
  Proof.
    rewrite id_at_app. destruct (id_at s r p) as [q| | |]; cbn; try discriminate. unfold id_step. destruct (node_at s q) as [n|] eqn:N; [|discriminate].
    destruct (find (fun x => step_eqb (fst x) st) (subs n)) as [[st' i]|] eqn:F; [|discriminate]. cbn. intros E. injection E as ->.
    exists q, n. split; [reflexivity|]. split; [exact N|]. apply find_some in F. destruct F as [F1 F2]. cbn in F2. apply step_eqb_eq in F2. now subst.
  Qed.
  Lemma at_leads s log r : leaves tk s -> forall p t,
    (forall p' q n, id_at s r p' = Ok q -> node_at s q = Some n -> current log q) ->
    tracked tk s t = true -> id_at s r p = Ok t -> leads tk s log r p t.
  Proof.
    intros Lv p. induction p as [|st p IH] using rev_ind; intros t C T H.
    - cbn in H. injection H as ->. constructor.
    - apply id_at_snoc in H. destruct H as (q & n & A & B & D). assert (tracked tk s q = true) as Tq.
      { unfold tracked, kind_of. rewrite B. destruct (tk (kind n)) eqn:E; [reflexivity|]. rewrite (Lv _ _ B E) in D. destruct D. }
      apply leads_down with q; [now apply IH|eauto|]. exists n. auto.
  Qed.
  Lemma leads_tracked s log r p t : leads tk s log r p t -> p <> [] -> tracked tk s t = true /\ tracked tk s r = true.
  Proof.
    induction 1 as [|p q st t H IH C (n & A & B & D & E)]; [congruence|]. intros _. split; [exact E|].
    destruct p as [|a p]; [|apply IH; discriminate]. inversion H; subst; [exact D|destruct p; discriminate].
  Qed.
End Trees.
