(** What the comparison of two trees node by node gives. *)
From Coq Require Import List Bool Arith ZArith Lia.
From Verif Require Import EagerModel EagerSpec EagerProofs.
Import ListNotations.
Local Open Scope Z_scope.

(** ** C86: carrying out the edits on the first tree gives the second *)
Theorem C86_edits_partial {A} (kind : A -> Z) (equal : A -> A -> bool) (s d : tree A) n :
  (forall v, equal v v = true) -> kind (val s) = kind (val d) -> (depth d <= n)%nat ->
  exists t, patch n (get_edits kind equal s d) s d [] [] = Some t /\ alike equal t d.
Proof. intros R. apply (patch_edits kind equal R). Qed.
Print Assumptions C86_edits_partial.

Theorem C86_places {A} (kind : A -> Z) (equal : A -> A -> bool) (s d : tree A) e :
  In e (get_edits kind equal s d) -> placed e.
Proof. apply edits_placed. Qed.
Print Assumptions C86_places.

(** Nodes with a kind and a text *)
Definition nd (k t : Z) (l : list (tree (Z * Z))) : tree (Z * Z) := T (k, t) l.
Definition pair_eqb (a b : Z * Z) : bool := (fst a =? fst b) && (snd a =? snd b).
Definition edits_of (s d : tree (Z * Z)) : list edit := get_edits fst pair_eqb s d.
Definition old_doc : tree (Z * Z) :=
  nd 0 0 [nd 1 10 [nd 2 1 []; nd 2 2 []; nd 2 3 []]; nd 1 20 [nd 2 4 []]; nd 3 5 []].
Definition new_doc : tree (Z * Z) :=
  nd 0 7 [nd 1 20 [nd 2 4 []; nd 2 9 []]; nd 1 10 [nd 2 3 []; nd 2 2 []]; nd 4 6 []].
Example C86_moves :
  edits_of old_doc new_doc =
  [Insert [0; 1] 1; Move [1] [0] 1 0; Move [0; 2] [1; 0] 2 0; Delete [0; 0] 0; Move [0] [1] 0 1; Insert [2] 2;
   Delete [2] 2; Update [] [] 0 0]%nat /\
  patch 5 (edits_of old_doc new_doc) old_doc new_doc [] [] = Some new_doc /\
  patch 5 (edits_of new_doc old_doc) new_doc old_doc [] [] = Some old_doc.
Proof. split; [vm_compute; reflexivity|]. split; vm_compute; reflexivity. Qed.
(** The hypotheses of the theorem hold of this comparison. *)
Example C86_hypotheses : (forall v, pair_eqb v v = true) /\ fst (val old_doc) = fst (val new_doc) /\ (depth new_doc <= 5)%nat.
Proof. split; [|split; [reflexivity|cbn; lia]]. intros [a b]. unfold pair_eqb. rewrite !Z.eqb_refl. reflexivity. Qed.

(** Without the condition on the roots it is false: their children are not compared. *)
Theorem C86_root_refuted :
  exists s d : tree (Z * Z), edits_of s d = [Update [] [] 0 0]%nat /\
    forall n t, patch n (edits_of s d) s d [] [] = Some t -> ~ alike pair_eqb t d.
Proof.
  exists (nd 1 0 [nd 2 1 []]), (nd 3 0 [nd 2 2 []]). split; [vm_compute; reflexivity|]. intros n t.
  replace (edits_of _ _) with [Update [] [] 0 0]%nat by (vm_compute; reflexivity).
  destruct n as [|[|n]]; cbn; try discriminate. intros E. injection E as <-. intros H. inversion H as [v w l m Q F]; subst.
  inversion F as [|x y l m Q1 F1]; subst. inversion Q1 as [v w l m Q2 F2]; subst. discriminate.
Qed.
Print Assumptions C86_root_refuted.

(** ** C87: no edits are given exactly when the trees are the same *)
Theorem C87_no_edits {A} (kind : A -> Z) (equal : A -> A -> bool) (s d : tree A) :
  (forall v, equal v v = true) -> (forall v w, equal v w = true -> kind v = kind w) ->
  get_edits kind equal s d = [] -> alike equal s d.
Proof. intros R Ki. apply (no_edits kind equal R Ki). Qed.
Print Assumptions C87_no_edits.
Theorem C87_same_partial {A} (kind : A -> Z) (equal : A -> A -> bool) (s d : tree A) :
  (forall v, equal v v = true) -> (forall v w, equal v w = true -> equal w v = true) ->
  (forall u v w, equal u v = true -> equal v w = true -> equal u w = true) ->
  (forall v w, equal v w = true -> kind v = kind w) ->
  distinct equal d -> alike equal s d -> get_edits kind equal s d = [].
Proof. intros R Sy Tr Ki. apply (alike_no_edits kind equal R Sy Tr Ki). Qed.
Print Assumptions C87_same_partial.
Example C87_equality : (forall v, pair_eqb v v = true) /\ (forall v w, pair_eqb v w = true -> pair_eqb w v = true) /\
  (forall u v w, pair_eqb u v = true -> pair_eqb v w = true -> pair_eqb u w = true) /\
  (forall v w, pair_eqb v w = true -> fst v = fst w).
Proof.
  assert (E : forall v w, pair_eqb v w = true <-> v = w).
  { intros [a b] [c d]. unfold pair_eqb. cbn. rewrite andb_true_iff, !Z.eqb_eq. split; [intros [-> ->]; reflexivity|]. intros H. injection H as -> ->. auto. }
  split; [intros v; apply E; reflexivity|]. split; [intros v w; rewrite !E; congruence|].
  split; [intros u v w; rewrite !E; congruence|]. intros v w. rewrite E. congruence.
Qed.
Example C87_distinct : distinct pair_eqb new_doc /\ edits_of new_doc new_doc = [].
Proof.
  split; [|vm_compute; reflexivity].
  assert (L : forall k t, distinct pair_eqb (nd k t [])) by (intros; constructor; [intros [|?]; discriminate|constructor]).
  assert (P : forall k t (l : list (tree (Z * Z))), Forall (distinct pair_eqb) l ->
    (forall i j, (i < length l)%nat -> (j < length l)%nat -> pair_eqb (val (nth i l (nd 0 0 []))) (val (nth j l (nd 0 0 []))) = true -> i = j) ->
    distinct pair_eqb (nd k t l)).
  { intros k t l F H. constructor; [|exact F]. intros i j x y Ex Ey Q.
    apply H; [apply nth_error_Some; congruence|apply nth_error_Some; congruence|].
    rewrite (nth_error_nth _ _ _ Ex), (nth_error_nth _ _ _ Ey). exact Q. }
  repeat (first [apply L | apply P | apply Forall_cons | apply Forall_nil]); cbn [length];
    intros i j Li Lj; destruct i as [|[|[|?]]], j as [|[|[|?]]]; try reflexivity; try lia; intros Q; vm_compute in Q; discriminate.
Qed.
(** A tree with two equal children, compared with itself, gives two moves. *)
Theorem C87_identical_refuted :
  exists d : tree (Z * Z), edits_of d d = [Move [1] [0] 1 0; Move [0] [1] 0 1]%nat.
Proof. exists (nd 0 0 [nd 1 1 []; nd 1 1 []]). vm_compute. reflexivity. Qed.
Print Assumptions C87_identical_refuted.

(** ** C88: nothing is added that could be kept, and nothing below the root is updated *)
Theorem C88_kept {A} (kind : A -> Z) (equal : A -> A -> bool) (s d : tree A) sp dp i j k k' x y :
  (forall v, equal v v = true) -> (forall v w, equal v w = true -> equal w v = true) ->
  (forall u v w, equal u v = true -> equal v w = true -> equal u w = true) ->
  (forall v w, equal v w = true -> kind v = kind w) ->
  let edits := get_edits kind equal s d in
  counterpart edits d sp dp -> In (Insert (dp ++ [i]) k) edits -> In (Delete (sp ++ [j]) k') edits ->
  node_at s (sp ++ [j]) = Some x -> node_at d (dp ++ [i]) = Some y -> equal (val x) (val y) = false.
Proof. intros R Sy Tr Ki. apply (insert_delete kind equal R Sy Tr Ki). Qed.
Print Assumptions C88_kept.
Theorem C88_update {A} (kind : A -> Z) (equal : A -> A -> bool) (s d : tree A) a b i j :
  (forall v, equal v v = true) -> (forall v w, equal v w = true -> kind v = kind w) ->
  In (Update a b i j) (get_edits kind equal s d) -> a = [] /\ b = [].
Proof. intros R Ki. apply (update_root kind equal R Ki). Qed.
Print Assumptions C88_update.
Example C88_counterpart : counterpart (edits_of old_doc new_doc) new_doc [0]%nat [1]%nat /\
  In (Delete [0; 0] 0)%nat (edits_of old_doc new_doc) /\ In (Insert [2] 2)%nat (edits_of old_doc new_doc) /\
  In (Delete [2] 2)%nat (edits_of old_doc new_doc).
Proof.
  split.
  - apply (counterpart_moved _ _ [] [] 1%nat [0]%nat 0%nat 1%nat); [constructor|]. left. vm_compute. reflexivity.
  - split; [|split]; vm_compute; tauto.
Qed.
(** A changed word is one removal and one addition, not an update; a changed heading takes its whole content with it. *)
Example C88_changed :
  edits_of (nd 0 0 [nd 1 1 [nd 2 5 []]]) (nd 0 0 [nd 1 1 [nd 2 6 []]]) = [Insert [0; 0] 0; Delete [0; 0] 0]%nat /\
  edits_of (nd 0 0 [nd 1 1 [nd 2 5 []; nd 2 7 []]]) (nd 0 0 [nd 1 3 [nd 2 5 []; nd 2 7 []]]) = [Insert [0] 0; Delete [0] 0]%nat.
Proof. split; vm_compute; reflexivity. Qed.
