(** C45: paragraph body and lead nodes; C60: time periods of a heading. *)
From Coq Require Import List Bool Arith Lia.
From Verif Require Import Base ParaModel ParaSpec ParaProofs.
Import ListNotations.
Local Open Scope nat_scope.

(** ** C45 *)
(** Every paragraph divides into its lead and the rest in exactly one way, and
    the rest begins with an ordinary node. *)
Theorem C45_lead_unique : forall l, exists a b, l = a ++ b /\ whole_lead a b /\ (forall x r, b = x :: r -> ordinary x) /\
  forall a' b', l = a' ++ b' -> whole_lead a' b' -> a' = a /\ b' = b.
Proof.
  intros l. destruct (whole_exists l) as (a & b & -> & W). exists a, b. split; [reflexivity|]. split; [exact W|]. split.
  - intros x r ->. eapply whole_ordinary, W.
  - intros a' b' E W'. destruct (whole_unique a b a' b' W W' E). auto.
Qed.
Print Assumptions C45_lead_unique.
(** The body is the rest, unless that begins with a link. *)
Theorem C45_body_partial : forall a b, whole_lead a b -> (forall x r, b = x :: r -> ~ plain_link x) -> body (a ++ b) = b.
Proof.
  intros a b W N. rewrite (body_whole _ _ W). destruct b as [|x r]; [reflexivity|]. cbn.
  destruct (kind_eqb (nkind x) KLink) eqn:E; [|reflexivity]. exfalso. apply kind_eqb_eq in E.
  apply (N x r eq_refl). split; [exact E|]. destruct (footnote x) eqn:F; [|reflexivity].
  exfalso. destruct (whole_ordinary _ _ _ W) as [M _]. apply M. right. now split.
Qed.
Print Assumptions C45_body_partial.
(** Finding: if it does, the link is lost. *)
Theorem C45_link_lost : forall a x r, whole_lead a (x :: r) -> plain_link x -> body (a ++ x :: r) = r.
Proof. intros a x r W [K _]. rewrite (body_whole _ _ W). cbn. now rewrite K. Qed.
Print Assumptions C45_link_lost.
(** The admonitions, timestamps and hashtags reported are those among the
    children before the first node of another kind, ... *)
Theorem C45_lead_nodes : forall a b, simple_lead a b ->
  admonition_nodes (a ++ b) = filter (fun x => kind_eqb (nkind x) KBigIdent) a /\
  timestamp_nodes (a ++ b) = filter (fun x => kind_eqb (nkind x) KTime) a /\
  lead_hashtags (a ++ b) = filter (fun x => kind_eqb (nkind x) KHashTag) a.
Proof. intros a b S0. repeat split; apply lead_nodes_filter; auto; cbn; auto. Qed.
Print Assumptions C45_lead_nodes.
(** A footnote definition is a paragraph that begins with a footnote link, and
    its body is that of the rest. *)
Theorem C45_footnote : forall l, is_footnote_definition l = true <-> exists x r, l = x :: r /\ nkind x = KLink /\ footnote x = true.
Proof.
  intros [|x r]; cbn; [split; [discriminate|intros (x & r & E & _); discriminate]|]. rewrite andb_true_iff. split.
  - intros [K F]. exists x, r. split; [reflexivity|]. split; [|exact F]. now destruct (nkind x).
  - intros (y & r' & E & K & F). injection E as <- <-. rewrite K, F. auto.
Qed.
Print Assumptions C45_footnote.
Theorem C45_footnote_body : forall x r, is_footnote_definition (x :: r) = true -> body (x :: r) = body r.
Proof. intros x r H. cbn in H. apply andb_true_iff in H. destruct H as [K F]. unfold body. cbn. destruct (nkind x); try discriminate. now rewrite F. Qed.
Print Assumptions C45_footnote_body.
Example C45_demo_footnote : is_footnote_definition [Node 0 KLink false true; Node 1 KSpace false false; Node 2 KOther false false] = true /\
  body [Node 0 KLink false true; Node 1 KSpace false false; Node 2 KOther false false] = [Node 2 KOther false false] /\
  is_footnote_definition [Node 0 KLink false false; Node 2 KOther false false] = false.
Proof. repeat split. Qed.
(** ... none of which is in the body, whatever follows. *)
Theorem C45_reported_not_in_body : forall a b, simple_lead a b -> exists c, body (a ++ b) = skipn c b.
Proof.
  intros a b S0. destruct (simple_prefix _ _ _ eq_refl S0) as [c E]. exists c. rewrite E, skipn_app.
  replace (skipn (length a + c) a) with (@nil node) by (symmetry; apply skipn_all2; lia). cbn. f_equal. lia.
Qed.
Print Assumptions C45_reported_not_in_body.

(** "NOTE: <time> #tag text [[link]]" *)
Definition nd (i : nat) (k : kind) : node := Node i k false false.
Definition sp (i : nat) : node := nd i KSpace.
Definition ex_lead : list node :=
  [nd 0 KBigIdent; Node 1 KPunctuation true false; sp 2; nd 3 KTime; sp 4; nd 5 KHashTag; sp 6].
Definition ex_rest : list node := [nd 7 KOther; sp 8; nd 9 KTime; nd 10 KLink].
Example C45_demo : whole_lead ex_lead ex_rest /\ body (ex_lead ++ ex_rest) = ex_rest /\
  (forall x r, ex_rest = x :: r -> ~ plain_link x).
Proof.
  split; [|split].
  - unfold ex_lead. apply whole_colon; [reflexivity|now split|].
    repeat (apply whole_marker; [now left; cbn; auto|]). apply whole_stop. split; [|discriminate].
    intros [H|[H _]]; [|discriminate]. cbn in H. intuition discriminate.
  - reflexivity.
  - intros x r E [K _]. injection E as <- _. discriminate.
Qed.
Example C45_demo_simple : simple_lead [nd 0 KTime; sp 1; nd 2 KBigIdent; nd 3 KHashTag; sp 4; nd 5 KTime] (nd 6 KOther :: ex_lead) /\
  timestamp_nodes ([nd 0 KTime; sp 1; nd 2 KBigIdent; nd 3 KHashTag; sp 4; nd 5 KTime] ++ nd 6 KOther :: ex_lead) = [nd 0 KTime; nd 5 KTime].
Proof.
  split; [|reflexivity]. split.
  - intros x H. cbn in H. repeat (destruct H as [<-|H]; [cbn; tauto|]). destruct H.
  - cbn. intuition discriminate.
Qed.
(** The paragraph "[[link]] text" has the body " text". *)
Theorem C45_body_refuted : exists l x, In x l /\ plain_link x /\ whole_lead [] l /\ ~ In x (body l).
Proof.
  exists [nd 0 KLink; sp 1; nd 2 KOther], (nd 0 KLink). split; [now left|]. split; [now split|]. split.
  - apply whole_stop. split; [|discriminate]. intros [H|[_ H]]; [|discriminate]. cbn in H. intuition discriminate.
  - cbn. intros H. decompose [or] H; try discriminate; auto.
Qed.
Print Assumptions C45_body_refuted.
(** Finding: after "NOTE:" or a footnote the timestamps and hashtags of the lead
    are neither in the body nor reported. *)
Theorem C45_reported_refuted : exists l x y, In x l /\ nkind x = KTime /\ In y l /\ nkind y = KHashTag /\
  ~ In x (body l) /\ ~ In x (timestamp_nodes l) /\ ~ In y (body l) /\ ~ In y (lead_hashtags l).
Proof.
  exists (ex_lead ++ ex_rest), (nd 3 KTime), (nd 5 KHashTag). vm_compute.
  repeat split; try tauto; intros H; decompose [or] H; try discriminate; auto.
Qed.
Print Assumptions C45_reported_refuted.

(** ** C60 *)
(** The periods returned, exactly: of the kinds asked for, and always those of
    the title and the creation time. *)
Theorem C60_periods_exact : forall want h p, In p (periods want h) <->
  has_period h p /\ (want (pk p) = true \/ pk p = Titled \/ pk p = Created).
Proof. exact in_periods. Qed.
Print Assumptions C60_periods_exact.
(** So the answer is right when these two kinds are asked for. *)
Theorem C60_periods_partial : forall want h p, want Titled = true -> want Created = true ->
  (In p (periods want h) <-> has_period h p /\ want (pk p) = true).
Proof.
  intros want h p T C. rewrite in_periods. split; [|tauto]. intros [H [W|[K|K]]]; split; auto; now rewrite K.
Qed.
Print Assumptions C60_periods_partial.
(** Nothing is listed twice or out of order. *)
Theorem C60_order : forall want h,
  titles (title h) (of_kind Titled (periods want h)) /\
  (want Clocked = true -> clocks (logbook h) (of_kind Clocked (periods want h))) /\
  (forall k, In k [Deadline; Scheduled; Closed] -> length (of_kind k (periods want h)) <= 1).
Proof. intros want h. split; [apply of_kind_titled|]. split; [apply of_kind_clocked|apply of_kind_single]. Qed.
Print Assumptions C60_order.
Definition ex_tree : subtree := Subtree [TOther; TTime 1; TRange 2 3] (Some 4) None (Some 5) [LOther; LClock 6 (Some 7); LClock 8 None] [POther; PCreated 9].
Example C60_demo : periods (fun k => match k with Titled | Created | Clocked => true | _ => false end) ex_tree =
  [Period Titled 1 None; Period Titled 2 (Some 3); Period Clocked 6 (Some 7); Period Clocked 8 None; Period Created 9 None].
Proof. reflexivity. Qed.
(** Finding: asking only for deadlines returns the creation time too. *)
Theorem C60_periods_refuted : exists want h p, In p (periods want h) /\ want (pk p) = false.
Proof.
  exists (fun k => match k with Deadline => true | _ => false end), ex_tree, (Period Created 9 None). split; [|reflexivity].
  vm_compute. tauto.
Qed.
Print Assumptions C60_periods_refuted.
