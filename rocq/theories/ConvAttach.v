(** Nothing is lost when commands are attached to statements. *)
From Coq Require Import String.
From Verif Require Import Base StrModel NodeKind.
From Verif Require RegroupModel TreeSpec ParseModel AttrModel.
From Verif Require Import ConvModel ConvSpec ConvProofs.
Import TreeSpec.
Local Open Scope nat_scope.

Definition ret {A} (P : A -> Prop) (m : res A) : Prop := forall x, m = Done x -> P x.
Lemma ret_done : forall {A} (P : A -> Prop) x, P x -> ret P (Done x).
Proof. intros A P x H y E. injection E as <-. exact H. Qed.
Lemma ret_bind : forall {A B} (P : B -> Prop) (m : res A) (f : A -> res B), (forall x, ret P (f x)) -> ret P (rbind m f).
Proof. intros A B P m f H y E. destruct (rbind_done _ _ _ E) as (x & _ & E'). exact (H x y E'). Qed.
Lemma ret_bind2 : forall {A B} (Q : A -> Prop) (P : B -> Prop) (m : res A) (f : A -> res B), ret Q m -> (forall x, Q x -> ret P (f x)) -> ret P (rbind m f).
Proof. intros A B Q P m f Hm H y E. destruct (rbind_done _ _ _ E) as (x & Ex & E'). exact (H x (Hm x Ex) y E'). Qed.
Ltac failed := intros ?x ?E; discriminate E.

(** Neither a converted node nor what is in a converted paragraph has anything attached. *)
Definition bare (s : sem) : Prop := sattached s = [] /\ (skind s = oParagraph -> sfields s = [] /\ Forall (fun x => sattached x = []) (ssubs s)).
Lemma bare_sem : forall k d f l, k <> oParagraph -> bare (Sem k d f l []).
Proof. intros k d f l N. split; auto. intros K. contradiction. Qed.
Lemma bare_error : bare sem_error.
Proof. apply bare_sem. discriminate. Qed.

Section Bare.
Variable toks : list RegroupModel.otok.
Variable time_ok : str -> option Z -> bool.
Variable float_ok tblfm_ok columns_ok : str -> bool.
Variable log_entry : ptree -> res sem.
Variable property : ptree -> res (list sem).
Notation convert := (convert toks time_ok float_ok tblfm_ok columns_ok log_entry property).
Notation dispatch := (dispatch toks time_ok float_ok tblfm_ok columns_ok log_entry property).

Lemma drop_blank_in : forall r x, In x (drop_blank r) -> In x r.
Proof. intros r x. induction r as [|y r IH]; auto. cbn. destruct (_ || _); auto. Qed.
Lemma bare_paragraph : forall conv a, (forall x, ret bare (conv x)) -> ret bare (paragraph conv a).
Proof.
  intros conv a H s E. unfold paragraph in E. destruct (rbind_done _ _ _ E) as (l & El & E'). injection E' as <-.
  split; auto. intros _. split; auto. cbn [ssubs node]. apply each_inv in El. apply Forall_forall. intros x I. apply in_rev, drop_blank_in, in_rev in I.
  clear E. induction El as [|y z m l Ey _ IH]; [destruct I|]. destruct I as [->|I]; auto. apply (H _ _ Ey).
Qed.
Ltac walk := repeat (first
  [ assumption
  | apply ret_bind; intro
  | apply ret_done; first [apply bare_sem; discriminate | apply bare_error | idtac]
  | progress cbv beta iota zeta
  | match goal with
    | |- ret _ (if ?b then _ else _) => destruct b
    | |- ret _ (match ?x with _ => _ end) => destruct x
    | |- ret _ Thrown => failed | |- ret _ NoField => failed
    end ]).
Lemma bare_leaf : forall k a, k <> oParagraph -> ret bare (sem_leaf toks k a).
Proof. intros k a N. unfold sem_leaf. walk. apply bare_sem. exact N. Qed.
Lemma bare_all : forall conv k a, k <> oParagraph -> ret bare (all_subnodes conv k a).
Proof. intros conv k a N. unfold all_subnodes. walk. apply bare_sem. exact N. Qed.
Lemma bare_tag : forall n a, ret bare (hash_tag toks n a).
Proof. intros [|n] a; [failed|]. cbn [hash_tag]. walk. Qed.
Lemma bare_time : forall n a, ret bare (time toks time_ok float_ok n a).
Proof. intros n a. unfold time. destruct (kind_of a); walk. Qed.
Lemma bare_times : forall n l, ret (fun x => match x with inl _ => True | inr e => bare e end) (subtree_times toks time_ok float_ok n l).
Proof.
  intros n l. induction l as [|it l IH]; [apply ret_done; exact I|]. cbn [subtree_times].
  apply ret_bind2 with (fun x => match x with inl _ => True | inr e => bare e end).
  - unfold subtree_time. walk; first [exact I|apply bare_error].
  - intros [f|e] Hx; [|apply ret_done; exact Hx]. eapply ret_bind2; [exact IH|]. intros [fs|e] Hy; apply ret_done; auto.
Qed.
Lemma bare_subtree : forall conv n a, ret bare (subtree toks time_ok float_ok tblfm_ok log_entry property conv n a).
Proof.
  intros conv n a. unfold subtree.
  repeat first [eapply ret_bind2; [apply bare_times|intros [?|?] Hx] | apply ret_bind; intro | progress cbv beta iota zeta
    | match goal with |- ret _ (let '(_, _) := ?p in _) => destruct p end].
  - walk.
  - apply ret_done. exact Hx.
Qed.
Lemma bare_dispatch : forall conv n a, (forall x, ret bare (conv x)) -> ret bare (dispatch conv n a).
Proof.
  intros conv n a H. unfold ConvModel.dispatch.
  destruct (kind_of a); try (apply ret_done; apply bare_sem; discriminate); try (apply bare_leaf; discriminate); try (apply bare_all; discriminate);
    try apply bare_tag; try apply bare_time; try (apply bare_paragraph; exact H); try apply bare_subtree; try (walk; apply H).
  all: unfold skip_group, time_range, link, list_item, text_target, radio_target, block_code, inline_footnote, block_export, macro, block_center, block_example,
    inline_export, block_comment, block_quote, cmd_include, symbol, table, cmd_tblfm, cmd_attr, cmd_columns, colon_example, cmd_caption, cmd_person, cmd_words, cmd_name,
    cmd_call, custom_raw, custom_text, custom_args, critic, block_dynamic; walk.
  - destruct (tblfm_ok _); [apply bare_sem; discriminate|apply bare_error].
  - destruct (columns_ok _); [apply bare_sem; discriminate|apply bare_error].
Qed.
Lemma convert_bare : forall n a s, convert n a = Done s -> bare s.
Proof.
  intros n. induction n as [|n IH]; intros a s E; [discriminate|]. revert s E. change (ret bare (convert (S n) a)). cbn [ConvModel.convert]. unfold step.
  destruct (existsb is_error (sub_of a)); [walk|]. apply bare_dispatch. exact IH.
Qed.

(** If the gathering succeeds, every item was converted. *)
Lemma formulas_done : forall conv l q, formulas toks tblfm_ok l = Done q -> Forall (agrees toks tblfm_ok conv) l ->
  exists fs ss, l = fs ++ snd q /\ Forall2 (fun x s => conv x = Done s) fs ss.
Proof.
  intros conv l. induction l as [|x l IH]; intros q E A; cbn in E.
  - injection E as <-. exists [], []. split; auto.
  - unfold is_kind in E. destruct (nk_eqb (kind_of x) nCmdTblfm) eqn:K.
    + apply nk_eqb_eq in K. inversion A as [|? ? Ax Ar]; subst. destruct (rbind_done _ _ _ E) as (t & Et & E1). destruct (rbind_done _ _ _ E1) as (q' & Eq & E2). injection E2 as <-.
      destruct (IH q' Eq Ar) as (fs & ss & -> & F). exists (x :: fs), (t :: ss). split; auto. constructor; auto. rewrite <- (Ax K). exact Et.
    + injection E as <-. exists [], []. split; auto.
Qed.
Lemma gather_converts : forall conv m items buf l, flat_attached toks tblfm_ok conv m items buf = Done l -> Forall (agrees toks tblfm_ok conv) items ->
  exists ss, Forall2 (fun x s => conv x = Done s) items ss.
Proof.
  intros conv m. induction m as [|m IH]; intros [|x r] buf l E A; cbn in E; try discriminate; try (exists []; constructor).
  inversion A as [|? ? Ax Ar]; subst. destruct (rbind_done _ _ _ E) as (s & Es & E1).
  destruct (is_attached (skind s)).
  - destruct (IH _ _ _ E1 Ar) as (ss & F). exists (s :: ss). constructor; auto.
  - destruct (is_stmt (skind s)).
    + destruct (rbind_done _ _ _ E1) as (q & Eq & E2). destruct (rbind_done _ _ _ E2) as (rest & Er & _).
      destruct (formulas_done conv r q Eq Ar) as (fs & s1 & Ef & F1). rewrite Ef in Ar. apply Forall_app in Ar as (_ & Ar).
      destruct (IH _ _ _ Er Ar) as (s2 & F2). rewrite Ef. exists (s :: s1 ++ s2). constructor; auto. apply Forall2_app; auto.
    + destruct (rbind_done _ _ _ E1) as (rest & Er & _). destruct (IH _ _ _ Er Ar) as (ss & F). exists (s :: ss). constructor; auto.
Qed.
Lemma opened_bare : forall s, bare s -> opened s = [s].
Proof.
  intros [k d f subs att] (B & P). cbn in B. subst att. destruct k; try reflexivity.
  destruct subs as [|[kl dl fl sl al] [|y r]]; try reflexivity; destruct kl; try reflexivity.
  destruct (P eq_refl) as (_ & F). inversion F as [|? ? E _]; subst. cbn in E. subst al. reflexivity.
Qed.
Lemma filter_none : forall {A} (f : A -> bool) l, Forall (fun x => f x = false) l -> filter f l = [].
Proof. intros A f l F. induction F as [|x l E _ IH]; auto. cbn. rewrite E. exact IH. Qed.
Lemma filter_all : forall {A} (f : A -> bool) l, Forall (fun x => f x = true) l -> filter f l = l.
Proof. intros A f l F. induction F as [|x l E _ IH]; auto. cbn. rewrite E, IH. reflexivity. Qed.
Lemma opened_with : forall s cmds forms, bare s -> Forall (fun x => is_attached (skind x) = true) cmds -> Forall (fun x => is_attached (skind x) = false) forms ->
  opened (with_attached s cmds forms) = cmds ++ s :: forms.
Proof.
  intros [k d f subs att] cmds forms (B & P) C F. cbn in B. subst att.
  assert (G : filter (fun x => is_attached (skind x)) (cmds ++ forms) ++ Sem k d f subs [] :: filter (fun x => negb (is_attached (skind x))) (cmds ++ forms) =
    cmds ++ Sem k d f subs [] :: forms).
  { rewrite !filter_app, (filter_all _ cmds) by assumption. rewrite (filter_none _ forms), app_nil_r by assumption.
    rewrite (filter_none (fun x => negb (is_attached (skind x))) cmds), (filter_all _ forms); auto.
    - eapply Forall_impl; [|exact F]. cbn. intros x ->. reflexivity.
    - eapply Forall_impl; [|exact C]. cbn. intros x ->. reflexivity. }
  destruct k; try exact G. destruct subs as [|[kl dl fl sl al] [|y r]]; try exact G; destruct kl; try exact G.
  destruct (P eq_refl) as (_ & Fl). inversion Fl as [|? ? E _]; subst. cbn in E. subst al. reflexivity.
Qed.
Lemma opened_all : forall items l, gathered items l -> Forall (fun p => bare (snd p) /\ (fst p = nCmdTblfm -> is_attached (skind (snd p)) = false)) items ->
  flat_map opened l = map snd items.
Proof.
  assert (Ob : forall l, Forall bare l -> flat_map opened l = l).
  { intros l F. induction F as [|x l B _ IH]; auto. cbn. rewrite (opened_bare x B), IH. reflexivity. }
  assert (Ob' : forall l : list (nk * sem), Forall (fun p => bare (snd p) /\ (fst p = nCmdTblfm -> is_attached (skind (snd p)) = false)) l -> Forall bare (map snd l)).
  { intros l F. induction F as [|x l (B & _) _ IH]; constructor; auto. }
  intros items l G. induction G as [cmds k s forms rest l Fc Is Ia Ff Nf G IH|cmds k s rest l Fc Is G IH|cmds Fc]; intros B.
  - apply Forall_app in B as (Bc & B). inversion B as [|? ? (Bs & _) Br]; subst. apply Forall_app in Br as (Bf & Br). cbn [snd] in Bs.
    rewrite map_app. cbn [map snd]. rewrite map_app. cbn [flat_map]. rewrite opened_with; auto.
    + rewrite (IH Br), <- app_assoc. reflexivity.
    + clear - Fc. induction Fc; constructor; auto.
    + clear - Ff Bf. induction Ff as [|p l E _ IH]; constructor; inversion Bf as [|? ? (_ & X) Y]; subst; auto.
  - apply Forall_app in B as (Bc & B). inversion B as [|? ? (Bs & _) Br]; subst. cbn [snd] in Bs.
    rewrite map_app, flat_map_app, (Ob _ (Ob' _ Bc)). cbn [flat_map map snd]. rewrite (opened_bare s Bs), (IH Br). reflexivity.
  - apply Ob, Ob', B.
Qed.
(** Formulas without errors are converted alike everywhere. *)
Lemma agrees_ok : forall n x, (kind_of x = nCmdTblfm -> existsb is_error (sub_of x) = false) -> agrees toks tblfm_ok (convert (S n)) x.
Proof. intros n x H K. cbn [ConvModel.convert]. unfold step. rewrite (H K). unfold ConvModel.dispatch. rewrite K. reflexivity. Qed.
Lemma tblfm_free : forall n x s, (kind_of x = nCmdTblfm -> existsb is_error (sub_of x) = false) -> convert n x = Done s -> kind_of x = nCmdTblfm ->
  is_attached (skind s) = false.
Proof.
  intros [|n] x s H E K; [discriminate|]. rewrite <- (agrees_ok n x H K) in E. unfold cmd_tblfm in E.
  destruct (rbind_done _ _ _ E) as (v & _ & E1). destruct (rbind_done _ _ _ E1) as (t & _ & E2). injection E2 as <-. destruct (tblfm_ok _); reflexivity.
Qed.
Lemma attached_whole : forall n items l, (forall x, In x items -> kind_of x = nCmdTblfm -> existsb is_error (sub_of x) = false) ->
  attached_all toks tblfm_ok (convert n) items = Done l ->
  exists ss, Forall2 (fun x s => convert n x = Done s) items ss /\ gathered (combine (map kind_of items) ss) l /\ flat_map opened l = ss.
Proof.
  intros n items l H E. destruct n as [|n].
  { destruct items as [|x r]; [|discriminate]. injection E as <-. exists []. repeat split; auto. apply (gathered_end []). constructor. }
  assert (A : Forall (agrees toks tblfm_ok (convert (S n))) items).
  { apply Forall_forall. intros x Ix. apply agrees_ok. auto. }
  destruct (gather_converts _ _ _ _ _ E A) as (ss & F). exists ss. split; auto.
  assert (B : Forall bare ss). { clear - F. induction F as [|x s items ss Ex _ IH]; constructor; auto. eapply convert_bare. exact Ex. }
  destruct (gathered_some (combine (map kind_of items) ss)) as (l' & G).
  assert (attached_all toks tblfm_ok (convert (S n)) items = Done l') as E'.
  { eapply gather_ok; eauto. eapply Forall_impl; [|exact B]. intros s (X & _). exact X. }
  rewrite E in E'. injection E' as <-. split; auto. rewrite (opened_all _ _ G).
  - apply snd_combine. eapply f2_len. exact F.
  - clear - F B H. induction F as [|x s items ss Ex _ IH]; constructor; inversion B; subst.
    + split; auto. cbn [fst snd]. intros K. eapply tblfm_free; eauto. intros _. apply H; auto. left. reflexivity.
    + apply IH; auto. intros y Iy. apply H. right. exact Iy.
Qed.
Lemma times_error : forall n l, ret (fun y => match y with inr e => e = sem_error | inl _ => True end) (subtree_times toks time_ok float_ok n l).
Proof.
  intros n l. induction l as [|it r IH]; cbn [subtree_times]; [apply ret_done; exact I|]. eapply ret_bind2.
  - instantiate (1 := fun y => match y with inr e => e = sem_error | inl _ => True end). unfold subtree_time.
    repeat first [apply ret_bind; intro | apply ret_done; solve [exact I | reflexivity] | failed | match goal with |- ret _ (if ?b then _ else _) => destruct b end | progress cbv zeta].
  - intros [f|e] He; [|apply ret_done; exact He]. eapply ret_bind2; [exact IH|]. intros [fs|e] He'; apply ret_done; auto.
Qed.
Definition kept (n : nat) (body : list ptree) (s : sem) : Prop :=
  skind s = oSubtree -> exists errors ss l, ssubs s = errors ++ l /\ Forall2 (fun x t => convert n x = Done t) body ss /\ gathered (combine (map kind_of body) ss) l /\ flat_map opened l = ss.
Lemma heading_attached : forall n fields k body, length fields = 8 ->
  (forall x, In x body -> kind_of x = nCmdTblfm -> existsb is_error (sub_of x) = false) ->
  ret (kept n body) (convert (S n) (Branch nSubtree (fields ++ [Branch k body]))).
Proof.
  intros n fields k body Lf Sf. cbn [ConvModel.convert]. unfold step. cbn [sub_of].
  destruct (existsb is_error (fields ++ [Branch k body])). { apply ret_bind. intros x. apply ret_done. intros X. discriminate X. }
  unfold ConvModel.dispatch. cbn [kind_of].
  assert (B : one (Branch nSubtree (fields ++ [Branch k body])) NBody = Done (Branch k body)).
  { do 9 (destruct fields as [|? fields]; [try discriminate|]); try discriminate. reflexivity. }
  unfold subtree. rewrite B.
  do 2 (apply ret_bind; intro). do 2 (apply ret_bind; intro). match goal with |- ret _ (let '(_, _) := ?p in _) => destruct p end.
  do 6 (apply ret_bind; intro). cbv zeta. do 2 (apply ret_bind; intro). match goal with |- ret _ (let '(_, _) := ?p in _) => destruct p end.
  apply ret_bind. intro. eapply ret_bind2; [apply times_error|]. intros [tfs|e] He.
  - do 2 (apply ret_bind; intro). cbn [rbind sub_of]. eapply ret_bind2.
    + intros bs Eb. exact (attached_whole _ _ _ Sf Eb).
    + intros bs (ss & F & G & O). apply ret_done. intros _. eexists _, ss, bs. split; [reflexivity|]. auto.
  - apply ret_done. subst e. intros X. discriminate X.
Qed.
End Bare.
