(** The conversion of whole documents. *)
From Coq Require Import String.
From Verif Require Import Base StrModel NodeKind.
From Verif Require StrProofs AttrProofs TreeProofs.
From Verif Require RegroupModel TreeSpec ParseModel AttrModel.
From Verif Require Import ConvModel ConvSpec ConvProofs ConvMeans ConvWords ConvAttach.
Import TreeSpec.
Local Open Scope nat_scope.

Section Document.
Variable toks : list RegroupModel.otok.
Variable time_ok : str -> option Z -> bool.
Variable float_ok tblfm_ok columns_ok : str -> bool.
Variable log_entry : ptree -> res sem.
Variable property : ptree -> res (list sem).
Variable options : str -> res unit.
Notation convert := (convert toks time_ok float_ok tblfm_ok columns_ok log_entry property).
Notation update := (update toks time_ok float_ok tblfm_ok columns_ok log_entry property options).
Notation settings := (settings toks time_ok float_ok tblfm_ok columns_ok log_entry property options).
Notation convert_document := (convert_document toks time_ok float_ok tblfm_ok columns_ok log_entry property options).
Notation means := (means toks time_ok).
Notation document_means := (document_means toks time_ok).

Lemma sets_update : forall n a u, sets toks time_ok a u -> tsize a <= n -> update n a = Done (Some u).
Proof.
  intros n a u S L. rewrite TreeProofs.tsize_sub in L. destruct S as [k sub ss tail F B N|tags ss Ne F|a rest s w T Tr I|a K]; unfold ConvModel.update; cbn [kind_of sub_of] in *.
  - unfold at_. cbn [nth_error rbind]. rewrite TreeProofs.fsize_cons, (TreeProofs.tsize_sub (Branch k sub)) in L. cbn [sub_of] in L.
    rewrite (paragraph_ok toks time_ok float_ok tblfm_ok columns_ok log_entry property n (means_convert _ _ _ _ _ _ _ n) (Branch k sub) ss tail); auto. cbn [sub_of]. lia.
  - erewrite many_from; [|reflexivity|reflexivity|reflexivity|destruct tags; [contradiction|cbn; lia]]. cbn [rbind skipn].
    rewrite (each_ok _ tags ss); [reflexivity|]. eapply f2_impl; [|exact F]. intros x s Ix _ M. apply hash_tag_ok; auto. pose proof (sub_size x tags Ix). lia.
  - unfold at_. cbn [nth_error rbind]. rewrite (get_text_of _ _ _ T). cbn [rbind]. unfold strip_space. rewrite (strip_trims _ _ _ _ Tr).
    unfold ConvSpec.startup_words in I. cbn [map] in I. cbn [In] in I. decompose [or] I; try contradiction; subst w; vm_compute; reflexivity.
  - rewrite K. reflexivity.
Qed.
Lemma sets_not_means : forall a s n, means a s -> update n a = Done None.
Proof.
  intros a s n M. unfold ConvModel.update. destruct M; cbn [kind_of]; try reflexivity.
  - destruct k; try reflexivity; discriminate.
  - unfold absent in *. subst. reflexivity.
  - destruct k; try reflexivity; discriminate.
  - destruct H; subst; reflexivity.
  - destruct k; try reflexivity; discriminate.
  - destruct H. reflexivity.
  - destruct H as [k ? ? ? ? ? ? ? ? ? ? ? K]. destruct K; subst; reflexivity.
Qed.
Lemma settings_ok : forall n l us items, document_means l us items -> fsize l <= n ->
  exists rest ss, settings n l = Done (us, rest) /\ Forall2 means rest ss /\ items = combine (map kind_of rest) ss /\ fsize rest <= n.
Proof.
  intros n l us items D. induction D as [|a u l us items S D IH|a s l us items M D IH]; intros L.
  - exists [], []. repeat split; auto.
  - rewrite TreeProofs.fsize_cons in L. destruct (IH ltac:(lia)) as (rest & ss & E & F & -> & Lr). exists rest, ss.
    cbn [ConvModel.settings]. rewrite (sets_update n a u S) by lia. cbn [rbind]. rewrite E. repeat split; auto.
  - rewrite TreeProofs.fsize_cons in L. destruct (IH ltac:(lia)) as (rest & ss & E & F & -> & Lr). exists (a :: rest), (s :: ss).
    cbn [ConvModel.settings]. rewrite (sets_not_means a s n M). cbn [rbind]. rewrite E. repeat split; auto. rewrite TreeProofs.fsize_cons.
    assert (fsize rest <= fsize l); [|lia]. clear - E.
    revert us rest E. induction l as [|x l IH]; intros us rest E; cbn in E.
    + injection E as <- <-. lia.
    + destruct (rbind_done _ _ _ E) as (o & _ & E1). destruct (rbind_done _ _ _ E1) as (q & Eq & E2). destruct q as [us' rest']. specialize (IH _ _ Eq).
      destruct o; injection E2 as <- <-; rewrite ?TreeProofs.fsize_cons; lia.
Qed.
Lemma no_errors : forall l us items, document_means l us items -> flat_map (fun s => match s with SError e => [e] | _ => [] end) us = [].
Proof. intros l us items D. induction D as [|a u l us items S D IH|]; auto. cbn. destruct S; exact IH. Qed.
Lemma document_ok : forall n k sub us items l, document_means sub us items -> gathered items l -> tsize (Branch k sub) <= S n ->
  convert_document n (Branch k sub) = Done (us, node oDocument l).
Proof.
  intros n k sub us items l D G L. rewrite TreeProofs.tsize_sub in L. cbn [sub_of] in L.
  destruct (settings_ok n sub us items D ltac:(lia)) as (rest & ss & E & F & -> & Lr).
  unfold ConvModel.convert_document. cbn [sub_of]. rewrite E. cbn [rbind fst snd].
  rewrite (gather_kids toks time_ok float_ok tblfm_ok columns_ok log_entry property n (means_convert _ _ _ _ _ _ _ n) rest ss l F Lr G). cbn [rbind].
  rewrite (no_errors _ _ _ D). reflexivity.
Qed.

Lemma update_kind : forall n a o, update n a = Done o -> (o = None <-> setting_kind (kind_of a) = false).
Proof.
  intros n a o E. unfold ConvModel.update in E.
  destruct (kind_of a) eqn:K; try (injection E as <-; split; auto; fail); cbn [setting_kind]; split; try discriminate; intros ->; exfalso;
  repeat match type of E with
  | rbind _ _ = Done _ => let x := fresh "x" in let Ex := fresh "Ex" in destruct (rbind_done _ _ _ E) as (x & Ex & E'); clear E; rename E' into E
  | (if ?b then _ else _) = Done _ => destruct b
  end; discriminate.
Qed.
Lemma settings_rest : forall n l q, settings n l = Done q -> snd q = filter (fun x => negb (setting_kind (kind_of x))) l.
Proof.
  intros n l. induction l as [|x l IH]; intros q E; cbn in E.
  - injection E as <-. reflexivity.
  - destruct (rbind_done _ _ _ E) as (o & Eo & E1). destruct (rbind_done _ _ _ E1) as (q' & Eq & E2). cbn [filter]. pose proof (update_kind n x o Eo) as U.
    destruct o as [u|]; injection E2 as <-; cbn [snd].
    + destruct (setting_kind (kind_of x)); [apply IH; exact Eq|]. discriminate (proj2 U eq_refl).
    + rewrite (proj1 U eq_refl). cbn [negb]. f_equal. apply IH. exact Eq.
Qed.
End Document.
