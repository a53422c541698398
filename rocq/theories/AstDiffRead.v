(** What it means that two documents read the same for the comparison of documents. *)
From Coq Require Import List Bool Arith ZArith Lia.
From Verif Require Import Base StrModel StrProofs AttrModel AttrProofs ConvModel EagerModel EagerSpec EagerProofs AstDiffModel AstDiffSem.
Import ListNotations.

(** What is inside of a node: the rows of a table, the cells of a row, the subnodes of the others *)
Definition inside (s : sem) : list sem :=
  match skind s with
  | oTable => map snd (filter (fun x => match fst x with FRow => true | _ => false end) (sfields s))
  | oRow => map snd (filter (fun x => match fst x with FCell => true | _ => false end) (sfields s))
  | _ => ssubs s
  end.
(** The leaves that can stand for each other, and their texts: an empty node has none. *)
Definition plain (k : osk) : Prop := In k [oWord; oBigIdent; oPunctuation; oEscaped; oNewline; oEmpty].
Definition spelled (s : sem) : option str := match skind s with oEmpty => None | _ => Some (nth 0 (dtext (sdata s)) []) end.
Inductive reads_same : sem -> sem -> Prop :=
| reads_leaf a b : plain (skind a) -> plain (skind b) -> spelled a = spelled b -> Forall2 reads_same (inside a) (inside b) -> reads_same a b
| reads_node a b : skind a = skind b -> ~ plain (skind a) -> Forall2 reads_same (inside a) (inside b) -> reads_same a b.
(** The plain texts of a document in order *)
Inductive spells : sem -> list str -> Prop :=
| spells_leaf a t : plain (skind a) -> skind a <> oEmpty -> inside a = [] -> spelled a = Some t -> spells a [t]
| spells_node a l : (~ plain (skind a) \/ skind a = oEmpty) -> Forall2 spells (inside a) l -> spells a (concat l).

Lemma store_inside : forall a, store a = T (skind a, leaf_value a) (map store (inside a)).
Proof.
  intros [k d f s t]. destruct k; try reflexivity; cbn [store inside skind sfields]; f_equal;
    induction f as [|[x y] r IH]; try reflexivity; cbn [flat_map filter fst]; destruct x; cbn [map app snd]; rewrite IH; reflexivity.
Qed.
Lemma plain_leaf : forall k, leaf_kind k = true <-> plain k.
Proof. intros k. unfold plain. split; intros H; [destruct k; cbn in *; try discriminate H; tauto|]. cbn in H. intuition (subst; reflexivity). Qed.
Lemma spelled_leaf : forall a, plain (skind a) -> leaf_value a = spelled a.
Proof. intros a H. unfold leaf_value, spelled. apply plain_leaf in H. destruct (skind a); try discriminate H; reflexivity. Qed.
Lemma value_eq : forall x y, value_eqb x y = true <-> x = y.
Proof.
  intros [x|] [y|]; cbn; try (split; intros; congruence).
  rewrite str_eqb_eq. split; congruence.
Qed.
Lemma osk_eqb_refl : forall k, osk_eqb k k = true.
Proof. intros k. unfold osk_eqb. destruct (osk_dec k k); congruence. Qed.
Lemma osk_eqb_true : forall k k', osk_eqb k k' = true -> k = k'.
Proof. intros k k'. unfold osk_eqb. destruct (osk_dec k k'); congruence. Qed.
Lemma store_reads : forall t a b, t = store a ->
  alike (fun x y => sem_allowed x y && sem_equal x y) t (store b) <-> reads_same a b /\ t = store a.
Proof.
  induction t as [v l IH] using tree_ind'. intros a b E. split; [intros H; split; [|exact E]|intros [H _]].
  - rewrite E in H. rewrite (store_inside a) in E. rewrite (store_inside a), (store_inside b) in H. injection E as -> ->.
    inversion H as [v w x y Q F]; subst. apply andb_true_iff in Q as [QA QE]. unfold sem_allowed, sem_equal in *. cbn [fst snd] in *.
    assert (G : Forall2 reads_same (inside a) (inside b)).
    { clear H QA QE. revert IH F. generalize (inside b). induction (inside a) as [|p r IHr]; intros q IH F; destruct q as [|q r']; inversion F; subst; [constructor|].
      inversion IH; subst. constructor; [|apply IHr; assumption]. apply (H1 p q eq_refl). assumption. }
    destruct (leaf_kind (skind a)) eqn:LA, (leaf_kind (skind b)) eqn:LB; cbn [andb orb] in QA, QE.
    + apply plain_leaf in LA, LB. apply value_eq in QE. apply reads_leaf; try assumption. rewrite <- !spelled_leaf by assumption. exact QE.
    + rewrite orb_false_r in QA. apply osk_eqb_true in QA. congruence.
    + rewrite orb_false_r in QA. apply osk_eqb_true in QA. congruence.
    + rewrite orb_false_r in QA. apply osk_eqb_true in QA. apply reads_node; try assumption. intros X. apply plain_leaf in X. congruence.
  - rewrite (store_inside a) in *. rewrite (store_inside b). injection E as -> ->.
    assert (G : Forall2 reads_same (inside a) (inside b)) by (inversion H; assumption).
    constructor.
    + inversion H as [x y PA PB S F|x y K N F]; subst; unfold sem_allowed, sem_equal; cbn [fst snd].
      * apply plain_leaf in PA as LA. apply plain_leaf in PB as LB. rewrite LA, LB. cbn [andb]. rewrite orb_true_r. apply value_eq.
        rewrite !spelled_leaf by assumption. exact S.
      * assert (LA : leaf_kind (skind a) = false) by (destruct (leaf_kind (skind a)) eqn:X; [apply plain_leaf in X; contradiction|reflexivity]).
        rewrite K in *. rewrite LA. cbn [andb orb]. rewrite osk_eqb_refl. reflexivity.
    + clear H. revert IH G. generalize (inside b). induction (inside a) as [|p r IHr]; intros q IH G; destruct q as [|q r']; inversion G; subst; [constructor|].
      inversion IH; subst. constructor; [|apply IHr; assumption]. apply (H1 p q eq_refl). split; [assumption|reflexivity].
Qed.
Lemma reads_iff : forall a b, alike (fun x y => sem_allowed x y && sem_equal x y) (store a) (store b) <-> reads_same a b.
Proof. intros a b. rewrite (store_reads (store a) a b eq_refl). tauto. Qed.
Lemma reads_spells : forall t a b l, t = store a -> reads_same a b -> spells a l -> spells b l.
Proof.
  induction t as [v k IH] using tree_ind'. intros a b l E R W. rewrite (store_inside a) in E. injection E as _ ->.
  assert (G : Forall2 reads_same (inside a) (inside b)) by (inversion R; assumption).
  inversion W as [x t P N I S|x ls P F]; subst.
  - rewrite I in G. inversion G. inversion R as [x y PA PB SS F|x y K NP F]; subst; [|contradiction].
    apply spells_leaf; try congruence. intros X. unfold spelled in SS, S. rewrite X in SS. destruct (skind a); congruence.
  - apply spells_node.
    + inversion R as [x y PA PB SS F'|x y K NP F']; subst.
      * destruct P as [P|P]; [contradiction|]. unfold spelled in SS. rewrite P in SS. right. destruct (skind b); try discriminate SS. reflexivity.
      * left. rewrite <- K. exact NP.
    + clear R W P. revert ls F G. generalize (inside b). induction (inside a) as [|p r IHr]; intros q ls F G; inversion F; inversion G; subst; [constructor|].
      inversion IH as [|? ? HP HR]; subst. constructor; [|eapply IHr; eassumption]. eapply (HP p); [reflexivity|eassumption|assumption].
Qed.
