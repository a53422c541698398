(** Lemmas about the immutable store. *)
From Coq Require Import List Bool Arith ZArith Lia Permutation Sorted.
From Verif Require Import Base ImmModel ImmSpec.
Import ListNotations.
Local Open Scope nat_scope.

Lemma item_eqb_eq a b : item_eqb a b = true <-> a = b.
Proof. destruct a, b; cbn; try rewrite Nat.eqb_eq; split; congruence. Qed.
Lemma step_eqb_eq a b : step_eqb a b = true <-> a = b.
Proof.
  destruct a as [a1 a2], b as [b1 b2]. unfold step_eqb. cbn [fst snd]. rewrite andb_true_iff, Nat.eqb_eq, item_eqb_eq.
  split; [intros [-> ->]; reflexivity|intros E; inversion E; auto].
Qed.
Lemma step_eqb_refl a : step_eqb a a = true.
Proof. now apply step_eqb_eq. Qed.
Lemma step_eqb_neq a b : step_eqb a b = false <-> a <> b.
Proof. rewrite <- step_eqb_eq. destruct (step_eqb a b); split; congruence. Qed.
Lemma list_eqb_eq {A} (eqb : A -> A -> bool) (H : forall a b, eqb a b = true <-> a = b) :
  forall a b, list_eqb eqb a b = true <-> a = b.
Proof.
  induction a as [|x a IH]; destruct b as [|y b]; cbn; try (split; congruence).
  rewrite andb_true_iff, H, IH. split; [intros [-> ->]; reflexivity|intros E; inversion E; auto].
Qed.
Lemma path_eqb_eq (a b : path) : list_eqb step_eqb a b = true <-> a = b.
Proof. apply list_eqb_eq, step_eqb_eq. Qed.
Lemma uniq_eqb_eq a b : uniq_eqb a b = true <-> a = b.
Proof.
  destruct a as [a1 a2 a3], b as [b1 b2 b3]. unfold uniq_eqb. cbn [uid uroot upath].
  rewrite !andb_true_iff, !Nat.eqb_eq, path_eqb_eq. split; [intros [[-> ->] ->]; reflexivity|intros E; inversion E; auto].
Qed.
Lemma sub_eqb_eq a b : sub_eqb a b = true <-> a = b.
Proof.
  destruct a as [a1 a2], b as [b1 b2]. unfold sub_eqb. cbn [fst snd]. rewrite andb_true_iff, step_eqb_eq, Nat.eqb_eq.
  split; [intros [-> ->]; reflexivity|intros E; inversion E; auto].
Qed.
Lemma same_value_eq a b : same_value a b = true <-> kind a = kind b /\ data a = data b /\ subs a = subs b.
Proof.
  unfold same_value. rewrite !andb_true_iff, !Nat.eqb_eq, (list_eqb_eq sub_eqb sub_eqb_eq). tauto.
Qed.

(** ** Store extension *)
Lemma extends_refl s : extends s s.
Proof. exists []. now rewrite app_nil_r. Qed.
Lemma extends_trans a b c : extends a b -> extends b c -> extends a c.
Proof. intros [x ->] [y ->]. exists (x ++ y). now rewrite app_assoc. Qed.
Lemma node_at_ext s s' id n : extends s s' -> node_at s id = Some n -> node_at s' id = Some n.
Proof.
  intros [l ->] H. destruct id; [discriminate|]. cbn in *. rewrite nth_error_app1; auto.
  apply nth_error_Some. congruence.
Qed.
Lemma find_value_spec s n : match find_value s n with
  | Some i => exists m, nth_error s i = Some m /\ same_value m n = true
  | None => forall m, In m s -> same_value m n = false
  end.
Proof.
  induction s as [|m s IH]; cbn; [tauto|]. destruct (same_value m n) eqn:E.
  - exists m. auto.
  - destruct (find_value s n); cbn; [exact IH|]. intros m' [<-|H]; auto.
Qed.
Lemma intern_spec s n : exists m, extends s (fst (intern s n)) /\ node_at (fst (intern s n)) (snd (intern s n)) = Some m /\
  kind m = kind n /\ data m = data n /\ subs m = subs n.
Proof.
  unfold intern. pose proof (find_value_spec s n) as H. destruct (find_value s n) as [i|].
  - destruct H as (m & A & B). apply same_value_eq in B. exists m. cbn. intuition auto using extends_refl.
  - exists n. cbn. split; [exists [n]; reflexivity|]. rewrite nth_error_app2, Nat.sub_diag by lia. auto.
Qed.
Lemma intern_ext s n : extends s (fst (intern s n)).
Proof. destruct (intern_spec s n) as (m & H & _). exact H. Qed.

Scheme denotes_mut := Induction for denotes Sort Prop with denotes_kids_mut := Induction for denotes_kids Sort Prop.
Combined Scheme denotes_both from denotes_mut, denotes_kids_mut.

Lemma denotes_mono s s' : extends s s' ->
  (forall id t, denotes s id t -> denotes s' id t) /\ (forall l k, denotes_kids s l k -> denotes_kids s' l k).
Proof.
  intros X. apply (denotes_both s (fun id t _ => denotes s' id t) (fun l k _ => denotes_kids s' l k)).
  - constructor.
  - intros id n kids H _ K. constructor; auto. eapply node_at_ext; eauto.
  - constructor.
  - intros. constructor; auto.
Qed.
Lemma denotes_ext s s' id t : extends s s' -> denotes s id t -> denotes s' id t.
Proof. intros X. now apply (denotes_mono s s' X). Qed.
Lemma kids_ext s s' l k : extends s s' -> denotes_kids s l k -> denotes_kids s' l k.
Proof. intros X. now apply (denotes_mono s s' X). Qed.
Lemma denotes_fun_both s :
  (forall id t, denotes s id t -> forall t', denotes s id t' -> t = t') /\
  (forall l k, denotes_kids s l k -> forall k', denotes_kids s l k' -> k = k').
Proof.
  apply (denotes_both s (fun id t _ => forall t', denotes s id t' -> t = t') (fun l k _ => forall k', denotes_kids s l k' -> k = k')).
  - intros t' H. inversion H as [|? ? ? E]; subst; auto. discriminate.
  - intros id n kids E _ IH t' H. inversion H as [|? n' ? E' K]; subst; [discriminate|].
    assert (n' = n) by congruence. subst. f_equal. now apply IH.
  - intros k' H. inversion H; auto.
  - intros st id t l kids _ IH1 _ IH2 k' H. inversion H; subst. f_equal; auto. f_equal; auto.
Qed.
Lemma denotes_fun s id t t' : denotes s id t -> denotes s id t' -> t = t'.
Proof. intros H. now apply (proj1 (denotes_fun_both s)). Qed.

Lemma id_step_ext s s' id st i : extends s s' -> id_step s id st = Ok i -> id_step s' id st = Ok i.
Proof.
  unfold id_step. intros X H. destruct (node_at s id) as [n|] eqn:E; [|discriminate]. now rewrite (node_at_ext _ _ _ _ X E).
Qed.
Lemma id_at_ext s s' : extends s s' -> forall p id i, id_at s id p = Ok i -> id_at s' id p = Ok i.
Proof.
  intros X. induction p as [|st p IH]; intros id i H; [exact H|]. cbn in *.
  destruct (id_step s id st) as [j| | |] eqn:E; try discriminate. rewrite (id_step_ext _ _ _ _ _ X E). cbn in *. auto.
Qed.
Lemma id_at_app s p q : forall id, id_at s id (p ++ q) = obind (id_at s id p) (fun i => id_at s i q).
Proof.
  induction p as [|st p IH]; intros id; [reflexivity|]. cbn. destruct (id_step s id st); cbn; auto.
Qed.

(** ** Every call only extends the store *)
Lemma each_ext rec (R : forall s ep u, extends s (fst (rec s ep u))) tgt l : forall s ep, extends s (fst (each rec s ep tgt l)).
Proof.
  induction l as [|[st id] l IH]; intros s ep; cbn; [apply extends_refl|].
  pose proof (R s ep (mkU id (uroot tgt) (upath tgt ++ [st]))) as X.
  destruct (rec s ep (mkU id (uroot tgt) (upath tgt ++ [st]))) as [s1 [[i ep1]| | |]]; cbn in *; auto.
  pose proof (IH s1 ep1) as Y. destruct (each rec s1 ep1 tgt l) as [s2 [[ids ep2]| | |]]; cbn in *; eauto using extends_trans.
Qed.
Lemma recurse_ext srt edits parents fuel : forall s ep u, extends s (fst (recurse srt edits parents fuel s ep u)).
Proof.
  induction fuel as [|fuel IH]; intros s ep u; cbn [recurse]; [apply extends_refl|].
  destruct (existsb (uniq_eqb u) parents).
  - set (tgt := match lookup edits u with Some r => r | None => u end).
    destruct (node_at s (uid tgt)) as [n|]; [|apply extends_refl].
    pose proof (each_ext _ IH tgt (subs n) s ep) as X.
    destruct (each _ s ep tgt (subs n)) as [s1 [[flat ep1]| | |]]; cbn [fst] in *; auto.
    destruct (list_eqb Nat.eqb flat (map snd (subs n))); [exact X|].
    destruct (assign_all _ _) as [sub'| | |]; cbn [fst]; auto.
    pose proof (intern_ext s1 (mkN (kind n) (data n) (loc n) sub')) as Y.
    destruct (intern s1 _) as [s2 id']. cbn [fst] in *. destruct (Nat.eqb id' (uid tgt)); cbn [fst]; eauto using extends_trans.
  - destruct (lookup edits u); apply extends_refl.
Qed.
Lemma cascade_ext fuel srt s root edits : extends s (fst (cascade fuel srt s root edits)).
Proof.
  unfold cascade. destruct (edit_parents s edits); cbn [fst]; auto using extends_refl. apply recurse_ext.
Qed.
Lemma set_subnodes_ext s u l : extends s (fst (set_subnodes s u l)).
Proof.
  unfold set_subnodes. destruct (node_at s (uid u)) as [n|]; [|apply extends_refl].
  pose proof (intern_ext s (with_children n l)) as X. destruct (intern s _) as [s' id']. cbn in X. now destruct (Nat.eqb id' (uid u)).
Qed.

Section TreeInd.
  Variable P : tree -> Prop.
  Hypothesis Hn : P Nil.
  Hypothesis Hk : forall k d l kids, Forall (fun c => P (snd c)) kids -> P (Node k d l kids).
  Fixpoint tree_ind' (t : tree) : P t :=
    match t with
    | Nil => Hn
    | Node k d l kids => Hk k d l kids
        ((fix go (l : list (step * tree)) : Forall (fun c => P (snd c)) l :=
            match l with [] => Forall_nil _ | c :: l' => Forall_cons _ (tree_ind' (snd c)) (go l') end) kids)
    end.
End TreeInd.

Fixpoint add_kids (s : store) (kids : list (step * tree)) : store * list (step * nat) :=
  match kids with
  | [] => (s, [])
  | (st, c) :: kids' =>
      let '(s1, i) := add_tree s c in
      let '(s2, r) := add_kids s1 kids' in (s2, (st, i) :: r)
  end.
Lemma add_tree_node s k d l kids : add_tree s (Node k d l kids) =
  let '(s1, sub) := add_kids s kids in intern s1 (mkN k d l sub).
Proof.
  cbn [add_tree]. match goal with |- (let '(_, _) := ?f s kids in _) = _ => assert (E : forall s kids, f s kids = add_kids s kids) end.
  { intros s0 kids0. revert s0. induction kids0 as [|[st c] r IH]; intros s0; [reflexivity|]. cbn.
    destruct (add_tree s0 c) as [s1 i]. now rewrite IH. }
  now rewrite E.
Qed.
Lemma add_tree_ext t : forall s, extends s (fst (add_tree s t)).
Proof.
  induction t as [|k d l kids IH] using tree_ind'; intros s; [apply extends_refl|].
  rewrite add_tree_node. assert (K : forall s, extends s (fst (add_kids s kids))).
  { clear s. induction IH as [|[st c] r H _ IHr]; intros s; cbn; [apply extends_refl|]. cbn in H. specialize (H s).
    destruct (add_tree s c) as [s1 i]. specialize (IHr s1). destruct (add_kids s1 r) as [s2 q]. cbn in *. eauto using extends_trans. }
  specialize (K s). destruct (add_kids s kids) as [s1 sub]. cbn in K. eapply extends_trans; [exact K|apply intern_ext].
Qed.
Lemma perform_ext s c : extends s (perform s c).
Proof. destruct c; cbn; auto using intern_ext, add_tree_ext, set_subnodes_ext, cascade_ext. Qed.
Lemma performs_ext cs : forall s, extends s (performs s cs).
Proof.
  induction cs as [|c cs IH]; intros s; cbn; [apply extends_refl|]. eapply extends_trans; [apply perform_ext|apply IH].
Qed.
