(** C124: creation times, and editing of lists. *)
From Coq Require Import String Lia.
From Verif Require Import Base StrModel NodeKind ConvModel EditModel EditSpec EditProofs.
From Verif Require ParaModel AttachProps.
Local Open Scope Z_scope.

(** The node of a document or list of statements is the one inside of it, through any number of such; if there is none
    or several, an exception is thrown. *)
Theorem C124_one_node : forall s,
  (forall y, as_one_node s = Ok y <-> only s y) /\ (as_one_node s = Throw <-> forall y, ~ only s y).
Proof.
  intros s. assert (A : forall y, as_one_node s = Ok y <-> only s y) by (intros y; split; [apply one_only|apply only_one]).
  split; [exact A|]. destruct (one_defined s) as [T|(y & Y)]; split.
  - intros _ y O. apply A in O. congruence.
  - intros _. exact T.
  - rewrite Y. discriminate.
  - intros N. exfalso. exact (N y (proj1 (A y) Y)).
Qed.
Print Assumptions C124_one_node.

(** The index of a header is that of the first item with this header, and -1 exactly if there is none. *)
Theorem C124_header_index : forall clean s t,
  (forall a x b, ssubs s = a ++ x :: b -> Forall (fun y => ~ named clean t y) a -> named clean t x ->
     header_index clean s t = Z.of_nat (length a)) /\
  (header_index clean s t = -1 <-> Forall (fun y => ~ named clean t y) (ssubs s)).
Proof.
  intros clean s t. unfold header_index. split.
  - intros a x b -> N X. rewrite index_found by assumption. lia.
  - split; [|apply index_none]. intros E. destruct (first_or_none clean t (ssubs s)) as [F|(a & x & b & L & F & X)]; [exact F|].
    rewrite L, index_found in E by assumption. lia.
Qed.
Print Assumptions C124_header_index.

(** Setting the contents of an item changes these and nothing else; without such an item an exception is thrown. *)
Theorem C124_set_body : forall s v,
  (forall a x b, ssubs s = a ++ x :: b -> skind x = oListItem ->
     exists r y, set_item_body s (Z.of_nat (length a)) v = Ok r /\ same_but_subs s r /\ ssubs r = a ++ y :: b /\
       same_but_subs x y /\ ssubs y = v) /\
  (forall a x b, ssubs s = a ++ x :: b -> skind x <> oListItem -> set_item_body s (Z.of_nat (length a)) v = Throw) /\
  (forall i, i < 0 \/ Z.of_nat (length (ssubs s)) <= i -> set_item_body s i v = Throw).
Proof.
  intros s v. unfold set_item_body. split; [|split].
  - intros a x b L K. replace (Z.of_nat (length a) <? 0) with false by lia. rewrite Nat2Z.id, L, set_nth_ok by assumption.
    exists (set_subs s (a ++ set_subs x v :: b)), (set_subs x v). split; [reflexivity|].
    destruct (set_subs_same s (a ++ set_subs x v :: b)) as [A B]. destruct (set_subs_same x v) as [C D]. auto.
  - intros a x b L K. replace (Z.of_nat (length a) <? 0) with false by lia. rewrite Nat2Z.id, L, set_nth_kind by assumption.
    reflexivity.
  - intros i I. destruct (i <? 0) eqn:N; [reflexivity|]. rewrite set_nth_far by lia. reflexivity.
Qed.
Print Assumptions C124_set_body.

(** An item inserted at any index up to the number of items stands there, with its contents and, if one was given, its
    header; the other items and the list are as before. Its header is found at this index if no item before has it. *)
Theorem C124_inserted : forall s a b v, ssubs s = a ++ b ->
  (exists r y, insert_body s (Z.of_nat (length a)) v = Ok r /\ same_but_subs s r /\ ssubs r = a ++ y :: b /\
     skind y = oListItem /\ ssubs y = v /\ forall h, ~ headed y h) /\
  (forall h, exists r y, insert_description s (Z.of_nat (length a)) h v = Ok r /\ same_but_subs s r /\
     ssubs r = a ++ y :: b /\ skind y = oListItem /\ ssubs y = v /\ headed y h /\
     forall clean, Forall (fun z => ~ named clean (clean h) z) a -> header_index clean r (clean h) = Z.of_nat (length a)).
Proof.
  intros s a b v L. split.
  - unfold insert_body. rewrite L, insert_ok. cbn [omap obind].
    eexists. exists (Sem oListItem nothing [] v []). split; [reflexivity|].
    destruct (set_subs_same s (a ++ Sem oListItem nothing [] v [] :: b)) as [A B].
    split; [exact A|]. split; [exact B|]. split; [reflexivity|]. split; [reflexivity|].
    intros h H. apply headed_field in H. discriminate H.
  - intros h. unfold insert_description. rewrite L, insert_ok. cbn [omap obind].
    set (y := Sem oListItem nothing [(FHeader, h)] v []).
    exists (set_subs s (a ++ y :: b)), y. split; [reflexivity|].
    destruct (set_subs_same s (a ++ y :: b)) as [A B].
    assert (H : headed y h) by now apply headed_field.
    split; [exact A|]. split; [exact B|]. split; [reflexivity|]. split; [reflexivity|]. split; [exact H|].
    intros clean F. unfold header_index. rewrite B, index_found; [lia|exact F|].
    split; [reflexivity|]. exists h. auto.
Qed.
Print Assumptions C124_inserted.

(** The creation time of a paragraph is the first time in its lead. *)
Theorem C124_paragraph : forall time l t, paragraph_created time l = Some t <->
  exists a x b, l = a ++ x :: b /\ ParaModel.nkind x = ParaModel.KTime /\ time x = t /\
    Forall (fun y => In (ParaModel.nkind y) [ParaModel.KHashTag; ParaModel.KBigIdent; ParaModel.KRadioTarget; ParaModel.KSpace]) a.
Proof.
  intros time l t. unfold paragraph_created, ParaModel.timestamp_nodes. split.
  - induction l as [|x l IH]; [discriminate|]. cbn [ParaModel.lead_nodes].
    destruct (ParaModel.nkind x) eqn:K; cbn [ParaModel.kind_eqb ParaModel.lead_kind]; try discriminate; intros E.
    3: { exists [], x, l. injection E as <-. repeat split; auto. }
    all: destruct (IH E) as (a & y & b & -> & Y & T & F); exists (x :: a), y, b; split; [reflexivity|];
      split; [exact Y|]; split; [exact T|]; constructor; [rewrite K; cbn; tauto|exact F].
  - intros (a & x & b & -> & K & T & F). induction F as [|y a Y F IH]; cbn [app ParaModel.lead_nodes].
    + rewrite K. cbn. now rewrite T.
    + destruct Y as [Y|[Y|[Y|[Y|[]]]]]; rewrite <- Y; exact IH.
Qed.
Print Assumptions C124_paragraph.

(** The creation time of a heading without a time in its title is that of its property; one of a heading without this
    property is the time in its title; one that is known is one of these. *)
Theorem C124_heading : forall h t,
  ((forall u, ~ first_titled (ParaModel.title h) u) ->
     (heading_created h = Some t <-> first_created (ParaModel.tprops h) t)) /\
  ((forall u, ~ In (ParaModel.PCreated u) (ParaModel.tprops h)) ->
     (heading_created h = Some t <-> first_titled (ParaModel.title h) t)) /\
  (heading_created h = None <-> forall u, ~ created_at h u).
Proof.
  intros h t. rewrite heading_said. split; [|split].
  - intros N. assert (E : flat_map ParaModel.title_period (ParaModel.title h) = []).
    { apply titled_none. intros (u & U). exact (N u U). }
    rewrite E. cbn [app]. rewrite <- created_some. destruct (flat_map ParaModel.created_period (ParaModel.tprops h)) as [|p r].
    + split; [discriminate|]. intros (p & r & E' & _). discriminate E'.
    + split; [intros X; injection X as X; eauto|]. intros (p' & r' & E' & F). congruence.
  - intros N. assert (E : flat_map ParaModel.created_period (ParaModel.tprops h) = []).
    { apply created_none. intros (u & U). exact (N u (created_in _ _ U)). }
    rewrite E, app_nil_r. rewrite <- titled_some. destruct (flat_map ParaModel.title_period (ParaModel.title h)) as [|p r].
    + split; [discriminate|]. intros (p & r & E' & _). discriminate E'.
    + split; [intros X; injection X as X; eauto|]. intros (p' & r' & E' & F). congruence.
  - split.
    + intros E u U. destruct (flat_map ParaModel.title_period (ParaModel.title h)) as [|p r] eqn:T; [|discriminate E].
      cbn [app] in E. destruct (flat_map ParaModel.created_period (ParaModel.tprops h)) as [|p r] eqn:C; [|discriminate E].
      destruct U as [U|[_ U]].
      * apply (proj1 (created_none _) C). eauto.
      * apply (proj1 (titled_none _) T). eauto.
    + intros N. assert (C : flat_map ParaModel.created_period (ParaModel.tprops h) = []).
      { apply created_none. intros (u & U). apply (N u). now left. }
      assert (T : flat_map ParaModel.title_period (ParaModel.title h) = []).
      { apply titled_none. intros (u & U). apply (N u). right. split; [|exact U]. intros w W.
        destruct (in_created _ _ W) as (z & Z). apply (N z). now left. }
      now rewrite T, C.
Qed.
Print Assumptions C124_heading.

(** Going through a tree visits every node of it once, in the order of the text, each with the nodes above it. *)
Theorem C124_paths : forall t,
  listed t (map fst (walk [] t)) /\ forall n p, In (n, p) (walk [] t) <-> leads t p n.
Proof.
  intros t. split; [apply walk_listed|]. intros n p. rewrite walk_in. cbn [app]. split; [intros (q & -> & L); exact L|].
  intros L. exists p. auto.
Qed.
Print Assumptions C124_paths.

(** *** What does not hold *)
(** The property says when a heading was created: false if there is a time in the title, which is given instead, because
    the periods of titles are given whichever are asked for. *)
Theorem C124_creation_refuted : exists h t u,
  created_at h t /\ (forall w, created_at h w -> w = t) /\ heading_created h = Some u /\ u <> t.
Proof.
  exists (ParaModel.Subtree [ParaModel.TOther; ParaModel.TTime 7] None None None [] [ParaModel.POther; ParaModel.PCreated 3]).
  exists 3%nat, 7%nat. split; [left; constructor; constructor|]. split; [|split; [reflexivity|discriminate]].
  intros w [W|[N _]].
  - cbn in W. inversion W as [|? ? W']; subst. now inversion W'.
  - exfalso. apply (N 3%nat). right. now left.
Qed.
Print Assumptions C124_creation_refuted.

(** Every index is inserted at or refused: false, any index outside of the list is undefined, in particular that of a
    header that was not found. *)
Theorem C124_outside_refuted :
  (forall s i h v, i < 0 \/ Z.of_nat (length (ssubs s)) < i -> insert_description s i h v = UB /\ insert_body s i v = UB) /\
  (forall clean s t h v, Forall (fun y => ~ named clean t y) (ssubs s) ->
     insert_description s (header_index clean s t) h v = UB).
Proof.
  assert (A : forall s i h v, i < 0 \/ Z.of_nat (length (ssubs s)) < i -> insert_description s i h v = UB /\ insert_body s i v = UB).
  { intros s i h v I. unfold insert_description, insert_body. rewrite !insert_out by exact I. auto. }
  split; [exact A|]. intros clean s t h v F. unfold header_index. rewrite index_none by exact F. apply A. lia.
Qed.
Print Assumptions C124_outside_refuted.

(** *** From the text *)
Definition first_text (x : sem) : str :=
  match ssubs x with y :: _ => match dtext (sdata y) with t :: _ => t | [] => [] end | [] => [] end.
Example C124_list_text : exists s r i,
  AttachProps.parts (lit "- a :: x" ++ [10] ++ lit "- b :: y" ++ [10]) = s :: r /\
  header_index first_text s (lit "b") = 1 /\ header_index first_text s (lit "c") = -1 /\
  set_item_body s 1 [] = Ok i /\ header_index first_text i (lit "b") = 1 /\ List.length (ssubs i) = 2%nat.
Proof. do 3 eexists. split; [vm_compute; reflexivity|]. repeat (split; [vm_compute; reflexivity|]). vm_compute; reflexivity. Qed.
Example C124_one_text : only (node oDocument [node oStmtList [node oParagraph [node oSpace []]]]) (node oParagraph [node oSpace []]).
Proof. apply (proj1 (C124_one_node _)). reflexivity. Qed.
Example C124_first : heading_created (ParaModel.Subtree [ParaModel.TOther] (Some 4%nat) None None [ParaModel.LClock 5 None] [ParaModel.POther; ParaModel.PCreated 3]) = Some 3%nat.
Proof. reflexivity. Qed.
Example C124_lead : paragraph_created ParaModel.nid
  [ParaModel.Node 1 ParaModel.KBigIdent false false; ParaModel.Node 2 ParaModel.KTime false false; ParaModel.Node 3 ParaModel.KOther false false] = Some 2%nat.
Proof. reflexivity. Qed.
Example C124_walk : let b := Tree 2 [Tree 3 []] in walk [] (Tree 1 [b]) = [(Tree 1 [b], []); (b, [Tree 1 [b]]); (Tree 3 [], [Tree 1 [b]; b])].
Proof. reflexivity. Qed.
