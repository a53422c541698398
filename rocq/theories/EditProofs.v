(** Proofs for C124. *)
From Verif Require Import Base StrModel ConvModel EditModel EditSpec AttachProofs.
From Verif Require AttachModel ParaModel.
Local Open Scope Z_scope.

(** ** One node *)
Fixpoint one_only (s : sem) : forall y, as_one_node s = Ok y -> only s y.
Proof.
  destruct s as [k d f l a]. intros y E.
  destruct k; cbn [as_one_node] in E;
    try (injection E as <-; apply only_self; intros [W|W]; discriminate W).
  all: destruct l as [|x [|z r]]; try discriminate E;
    eapply only_in; [first [left; reflexivity | right; reflexivity]|reflexivity|exact (one_only x y E)].
Qed.
Lemma only_one s y : only s y -> as_one_node s = Ok y.
Proof.
  induction 1 as [s W|s x y W L O IH].
  - destruct s as [k d f l a]. destruct k; try reflexivity; exfalso; apply W; [left|right]; reflexivity.
  - destruct s as [k d f l a]. cbn in L. subst l. destruct W as [W|W]; cbn in W; subst k; exact IH.
Qed.
Fixpoint one_defined (s : sem) : as_one_node s = Throw \/ exists y, as_one_node s = Ok y.
Proof.
  destruct s as [k d f l a]. destruct k; cbn [as_one_node]; try (right; eexists; reflexivity).
  all: destruct l as [|x [|z r]]; try (left; reflexivity); exact (one_defined x).
Qed.

(** ** Headers *)
Lemma headed_field x h : headed x h <-> AttachModel.field_of FHeader (sfields x) = Some h.
Proof.
  unfold headed. split.
  - intros (a & b & -> & N). induction a as [|[g y] a IH]; [reflexivity|].
    cbn [app AttachModel.field_of].
    destruct g; try (apply IH; intros z Z; exact (N z (or_intror Z))).
    exfalso. exact (N y (or_introl eq_refl)).
  - induction (sfields x) as [|[g y] l IH]; [discriminate|]. cbn [AttachModel.field_of]. intros E.
    assert (D : (g = FHeader /\ y = h) \/ (g <> FHeader /\ AttachModel.field_of FHeader l = Some h)).
    { destruct g; try (right; split; [discriminate|exact E]). left. split; [reflexivity|congruence]. }
    destruct D as [[-> ->]|[G E']].
    + exists [], l. split; [reflexivity|]. intros z [].
    + destruct (IH E') as (a & b & -> & N). exists ((g, y) :: a), b. split; [reflexivity|].
      intros z [Z|Z]; [congruence|exact (N z Z)].
Qed.
Lemma is_named_iff clean t x : is_named clean t x = true <-> named clean t x.
Proof.
  unfold is_named, named, AttachModel.is_description_item, clean_header. split.
  - intros E. apply andb_prop in E as [E1 E2]. apply andb_prop in E1 as [E0 E1].
    apply kind_is in E0. split; [exact E0|].
    destruct (AttachModel.field_of FHeader (sfields x)) as [h|] eqn:F; [|discriminate E1].
    exists h. split; [now apply headed_field|]. cbn in E2. now apply (proj1 (eqs_iff _ _)) in E2.
  - intros (K & h & H & C). apply headed_field in H. rewrite H. cbn.
    apply (proj2 (kind_is _ _)) in K. rewrite K. cbn. now apply (proj2 (eqs_iff _ _)).
Qed.
Lemma index_found clean t a x b : forall i, Forall (fun y => ~ named clean t y) a -> named clean t x ->
  header_index_from clean i t (a ++ x :: b) = i + Z.of_nat (length a).
Proof.
  induction a as [|y a IH]; intros i N X; cbn [app header_index_from length].
  - apply is_named_iff in X. rewrite X. lia.
  - inversion N as [|? ? N1 N2]; subst. destruct (is_named clean t y) eqn:E.
    + exfalso. apply N1. now apply is_named_iff.
    + rewrite IH by assumption. lia.
Qed.
Lemma index_none clean t l : forall i, Forall (fun y => ~ named clean t y) l -> header_index_from clean i t l = -1.
Proof.
  induction l as [|y l IH]; intros i N; [reflexivity|]. inversion N as [|? ? N1 N2]; subst. cbn [header_index_from].
  destruct (is_named clean t y) eqn:E; [exfalso; apply N1; now apply is_named_iff|now apply IH].
Qed.
Lemma first_or_none clean t l :
  Forall (fun y => ~ named clean t y) l
  \/ exists a x b, l = a ++ x :: b /\ Forall (fun y => ~ named clean t y) a /\ named clean t x.
Proof.
  induction l as [|y l IH]; [left; constructor|]. destruct (is_named clean t y) eqn:E.
  - right. exists [], y, l. split; [reflexivity|]. split; [constructor|now apply is_named_iff].
  - assert (N : ~ named clean t y) by (intros X; apply is_named_iff in X; congruence).
    destruct IH as [IH|(a & x & b & -> & F & X)]; [left; now constructor|].
    right. exists (y :: a), x, b. split; [reflexivity|]. split; [now constructor|exact X].
Qed.

(** ** Editing *)
Lemma set_subs_same s l : same_but_subs s (set_subs s l) /\ ssubs (set_subs s l) = l.
Proof. destruct s. repeat split. Qed.
Lemma set_nth_ok a x b v : skind x = oListItem -> set_nth_body (length a) v (a ++ x :: b) = Ok (a ++ set_subs x v :: b).
Proof.
  intros K. apply (proj2 (kind_is _ _)) in K. induction a as [|y a IH]; cbn [app length set_nth_body].
  - now rewrite K.
  - now rewrite IH.
Qed.
Lemma set_nth_kind a x b v : skind x <> oListItem -> set_nth_body (length a) v (a ++ x :: b) = Throw.
Proof.
  intros K. induction a as [|y a IH]; cbn [app length set_nth_body].
  - destruct (is_a oListItem x) eqn:E; [apply kind_is in E; contradiction|reflexivity].
  - now rewrite IH.
Qed.
Lemma set_nth_far l v : forall n, (length l <= n)%nat -> set_nth_body n v l = Throw.
Proof.
  induction l as [|y l IH]; intros n N; [destruct n; reflexivity|]. destruct n; cbn in N; [lia|]. cbn [set_nth_body].
  rewrite IH by lia. reflexivity.
Qed.
Lemma insert_ok a b x : insert_at (Z.of_nat (length a)) x (a ++ b) = Ok (a ++ x :: b).
Proof.
  unfold insert_at. rewrite app_length.
  replace (Z.of_nat (length a) <? 0) with false by lia.
  replace (Z.of_nat (length a + length b) <? Z.of_nat (length a)) with false by lia. cbn [orb].
  rewrite Nat2Z.id, firstn_app, skipn_app, Nat.sub_diag, firstn_all, skipn_all, app_nil_r. reflexivity.
Qed.
Lemma insert_out i x l : i < 0 \/ Z.of_nat (length l) < i -> insert_at i x l = UB.
Proof. intros H. unfold insert_at. replace ((i <? 0) || (Z.of_nat (length l) <? i)) with true by lia. reflexivity. Qed.

(** ** Times *)
Lemma titled_none l : flat_map ParaModel.title_period l = [] <-> ~ exists t, first_titled l t.
Proof.
  induction l as [|[t|a b|] l IH]; cbn.
  - split; [intros _ (t & T); inversion T|reflexivity].
  - split; [discriminate|]. intros N. exfalso. apply N. exists t. constructor.
  - split; [discriminate|]. intros N. exfalso. apply N. exists a. constructor.
  - rewrite IH. split; intros N (t & T); apply N; exists t; [now inversion T|now constructor].
Qed.
Lemma titled_some l t : (exists p r, flat_map ParaModel.title_period l = p :: r /\ ParaModel.from p = t) <-> first_titled l t.
Proof.
  induction l as [|[u|a b|] l IH]; cbn.
  - split; [intros (p & r & E & _); discriminate E|intros T; inversion T].
  - split; [intros (p & r & E & F); injection E as <- _; cbn in F; subst; constructor|].
    intros T. inversion T; subst. do 2 eexists. split; reflexivity.
  - split; [intros (p & r & E & F); injection E as <- _; cbn in F; subst; constructor|].
    intros T. inversion T; subst. do 2 eexists. split; reflexivity.
  - rewrite IH. split; intros T; [now constructor|now inversion T].
Qed.
Lemma created_none l : flat_map ParaModel.created_period l = [] <-> ~ exists t, first_created l t.
Proof.
  induction l as [|[t|] l IH]; cbn.
  - split; [intros _ (t & T); inversion T|reflexivity].
  - split; [discriminate|]. intros N. exfalso. apply N. exists t. constructor.
  - rewrite IH. split; intros N (t & T); apply N; exists t; [now inversion T|now constructor].
Qed.
Lemma created_some l t : (exists p r, flat_map ParaModel.created_period l = p :: r /\ ParaModel.from p = t) <-> first_created l t.
Proof.
  induction l as [|[u|] l IH]; cbn.
  - split; [intros (p & r & E & _); discriminate E|intros T; inversion T].
  - split; [intros (p & r & E & F); injection E as <- _; cbn in F; subst; constructor|].
    intros T. inversion T; subst. do 2 eexists. split; reflexivity.
  - rewrite IH. split; intros T; [now constructor|now inversion T].
Qed.
Lemma created_in l t : first_created l t -> In (ParaModel.PCreated t) l.
Proof. induction 1; [now left|now right]. Qed.
Lemma in_created l t : In (ParaModel.PCreated t) l -> exists u, first_created l u.
Proof.
  induction l as [|[u|] l IH]; intros I; [destruct I|exists u; constructor|].
  destruct I as [I|I]; [discriminate I|]. destruct (IH I) as (u & U). exists u. now constructor.
Qed.
Lemma periods_only k h : k = ParaModel.Created \/ k = ParaModel.Titled ->
  ParaModel.periods (only_kind k) h =
  flat_map ParaModel.title_period (ParaModel.title h) ++ flat_map ParaModel.created_period (ParaModel.tprops h).
Proof. intros [->| ->]; reflexivity. Qed.
Lemma heading_said h : heading_created h =
  match flat_map ParaModel.title_period (ParaModel.title h) ++ flat_map ParaModel.created_period (ParaModel.tprops h) with
  | p :: _ => Some (ParaModel.from p) | [] => None end.
Proof.
  unfold heading_created. rewrite !periods_only by auto.
  destruct (flat_map ParaModel.title_period (ParaModel.title h) ++ flat_map ParaModel.created_period (ParaModel.tprops h)); reflexivity.
Qed.

(** ** Paths *)
Lemma tree_rec (P : tree -> Prop) : (forall x l, (forall s, In s l -> P s) -> P (Tree x l)) -> forall t, P t.
Proof.
  intros H. fix IH 1. intros [x l]. apply H.
  induction l as [|y l IHl]; intros s [].
  - subst s. apply IH.
  - now apply IHl.
Qed.
Lemma walk_in : forall t path n p, In (n, p) (walk path t) <-> exists q, p = path ++ q /\ leads t q n.
Proof.
  refine (tree_rec _ _). intros x l IH path n p. cbn [walk]. split.
  - intros [E|I].
    + injection E as <- <-. exists []. split; [now rewrite app_nil_r|constructor].
    + apply in_flat_map in I as (s & S & I). apply (proj1 (IH s S _ _ _)) in I as (q & -> & L).
      exists (Tree x l :: q). split; [now rewrite <- app_assoc|]. now apply leads_down with s.
  - intros (q & -> & L). inversion L as [? E1 E2|? ? s q' ? S L' E1 E2]; subst.
    + left. now rewrite app_nil_r.
    + right. apply in_flat_map. exists s. split; [exact S|]. apply (proj2 (IH s S _ _ _)). exists q'.
      split; [now rewrite <- app_assoc|exact L'].
Qed.
Lemma walk_listed : forall t path, listed t (map fst (walk path t)).
Proof.
  refine (tree_rec _ _). intros x l IH path. cbn [walk map fst]. constructor.
  generalize (path ++ [Tree x l]) as p. intros p. induction l as [|s l IHl]; [constructor|].
  cbn [flat_map]. rewrite map_app. constructor; [apply IH; now left|].
  apply IHl. intros s' S. apply IH. now right.
Qed.
