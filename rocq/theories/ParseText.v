(** What the functions of the parser keep, one by one: in-line pieces. *)
From Verif Require Import Base StrModel TokKind KindEq NodeKind.
From Verif Require RegroupModel TreeModel TreeSpec TreeProofs.
From Verif Require Import ParseModel ParseSpec ParseLogic.
Local Open Scope nat_scope.

Create HintDb parse.

(** the kinds a test lets through are notation *)
Ltac kinds := let k := fresh "k" in let H := fresh "H" in intros k H; destruct k; first [discriminate H | reflexivity].
Ltac isk := let k := fresh "k" in let H := fresh "H" in intros k H; apply is_eq in H; subst k; reflexivity.
Ltac structural_side := first [isk | kinds].
Ltac at_side :=
  let l := fresh "l" in let O := fresh "O" in let p := fresh "p" in
  intros l O p; cbv beta in p;
  repeat match goal with H : _ /\ _ |- _ => destruct H | H : _ && _ = true |- _ => apply andb_true_iff in H end;
  match goal with
  | H : at0 _ ?k l = true |- _ => apply (head_impl _ (is k)); [isk|apply at_head; [exact O|exact H]]
  | H : at_ _ 0 ?f l = true |- _ => apply (head_impl _ f); [structural_side|apply at_head; [exact O|exact H]]
  | H : head_is _ ?f l |- _ => apply (head_impl _ f); [structural_side|exact H]
  end.

Ltac go :=
  cbv beta;
  lazymatch goal with
  | |- spec _ _ _ (bind (empty_) _) _ _ => eapply spec_bind; [apply spec_empty|intros ?; go]
  | |- spec _ _ _ (bind (kind_ _ _) _) _ _ => eapply spec_bind; [apply spec_kind|intros ?; go]
  | |- spec _ _ _ (bind (ask _) _) _ _ => eapply spec_bind; [apply spec_ask|intros ?; go]
  | |- spec _ _ _ (bind (expect _ _) _) _ _ => eapply spec_bind; [apply spec_expect|intros ?; go]
  | |- spec _ _ _ (bind (take _ _) (fun _ => next_ _)) _ _ => idtac
  | |- spec _ _ _ (bind (collect _ _ _) _) _ _ => idtac
  | |- spec _ _ _ (bind (get_inside _ _) _) _ _ => idtac
  | |- spec _ _ _ (bind (cell_ids _ _) _) _ _ => idtac
  | |- spec _ _ _ (bind (try_skip _ (is (if _ then kAngleBegin else kBraceBegin))) _) _ _ => idtac
  | |- spec _ _ _ (bind _ _) _ _ => apply adds_bind; [go|intros ?; go]
  | |- spec _ _ _ (test _ _ _) _ _ => apply spec_test; [go|go]
  | |- spec _ _ _ (when_ _ _) _ _ => apply spec_test; [go|go]
  | |- spec _ _ _ (while_ _ _ _) _ _ => apply while_adds; go
  | |- spec _ _ _ (guard _ _) _ _ => apply spec_guard; go
  | |- spec _ _ _ (sub_parse _ _) _ _ => apply sub_parse_adds; go
  | |- spec _ _ _ (ignore _) _ _ => apply ignore_adds; go
  | |- spec _ _ _ (attempt _) _ _ => apply attempt_adds; go
  | |- spec _ _ _ (take _ _) _ _ => apply take_adds
  | |- spec _ _ _ (try_take _ _ _) _ _ => apply try_take_adds
  | |- spec _ _ _ (try_skip _ _) _ _ => apply try_skip_adds; first [structural_side|idtac]
  | |- spec _ _ _ (next_ _) _ _ => first [apply spec_next; solve [at_side]|idtac]
  | |- spec _ _ _ (ret _) _ _ => apply adds_ret
  | |- spec _ _ _ bad _ _ => apply spec_bad
  | |- spec _ _ _ crash _ _ => apply spec_crash
  | |- spec _ _ _ spent _ _ => apply spec_spent
  | |- spec _ _ _ (fail_ _) _ _ => apply spec_fail
  | |- spec _ _ _ (empty_) _ _ => eapply spec_weaken; [apply spec_empty|let H := fresh "H" in intros ? ? H; exact H|triv]
  | |- spec _ _ _ (if ?b then _ else _) _ _ => destruct b; go
  | |- _ => first [solve [apply adds_adds_if; auto with parse]|idtac]
  end.

Section Text.
Variable toks : list RegroupModel.otok.
Notation drop := (droppable toks).
Notation okl := (okl toks).
Notation rest := (rest toks).
Notation spec := (spec toks).
Notation adds m := (spec [] (fun _ => True) m (fun _ => []) (fun _ _ => True)).
Notation adds_if P m := (spec [] P m (fun _ => []) (fun _ _ => True)).

Lemma space_adds : forall n, adds (space toks n).
Proof. intros n. unfold space. go. Qed.
Lemma newline_adds : forall n, adds (newline toks n).
Proof. intros n. unfold newline. go. Qed.
Hint Resolve space_adds newline_adds : parse.
Lemma csv_arguments_adds : forall n, adds (csv_arguments toks n).
Proof. intros n. unfold csv_arguments. go. Qed.
Lemma attr_lisp_adds : forall n, adds (attr_lisp toks n).
Proof.
  induction n as [|n IH]; [apply spec_spent|]. change (adds (attr_lisp_ toks n (attr_lisp toks n))). unfold attr_lisp_. go.
Qed.
Hint Resolve csv_arguments_adds attr_lisp_adds : parse.
Lemma attr_value_adds : forall n, adds (attr_value toks n).
Proof.
  intros n. unfold attr_value. go. eapply spec_bind.
  - eapply spec_weaken; [apply (spec_take2 toks nRawText eq_token)| |intros ? ? ? H; exact H].
    cbv beta. intros l O H. repeat match goal with H : _ /\ _ |- _ => destruct H end.
    match goal with H : _ && _ = true |- _ => apply andb_true_iff in H as [_ H]; apply at_next in H; auto end.
  - intros ?. go.
Qed.
Hint Resolve attr_value_adds : parse.
Lemma call_arguments_adds : forall n, adds (call_arguments toks n).
Proof. intros n. unfold call_arguments. go. Qed.
Hint Resolve call_arguments_adds : parse.
Lemma close_curly_adds : forall b, adds (close_curly toks b).
Proof. intros b. unfold close_curly. go. Qed.
Hint Resolve close_curly_adds : parse.
Lemma macro_adds : forall n, adds (macro toks n).
Proof. intros n. unfold macro. go. Qed.
Lemma placeholder_adds : adds (placeholder toks).
Proof. unfold placeholder. go. Qed.
Hint Resolve macro_adds placeholder_adds : parse.
Lemma hash_list_adds : forall n item m, adds item -> adds (hash_list toks n item m).
Proof. induction n as [|n IH]; intros item m H; cbn [hash_list]; go. Qed.
Hint Resolve hash_list_adds : parse.
Lemma hash_tag_adds : forall n, adds (hash_tag toks n).
Proof.
  induction n as [|n IH]; [apply spec_spent|]. change (adds (hash_tag_ toks n (hash_tag toks n))). unfold hash_tag_. go.
Qed.
Hint Resolve hash_tag_adds : parse.
Lemma src_body_adds : forall n b, adds (src_body toks n b).
Proof. induction n as [|n IH]; intros b; cbn [src_body]; go. Qed.
Hint Resolve src_body_adds : parse.
Lemma src_inline_adds : forall n, adds (src_inline toks n).
Proof. intros n. unfold src_inline. go. Qed.
Lemma angle_target_adds : forall n, adds (angle_target toks n).
Proof. intros n. unfold angle_target. go; destruct (is kTripleAngleBegin _); isk. Qed.
Hint Resolve angle_target_adds : parse.
Lemma inline_export_adds : adds (inline_export toks).
Proof. unfold inline_export. go. Qed.
Hint Resolve src_inline_adds inline_export_adds : parse.

(** *** Time stamps: the name of the day is passed over *)
Notation kind_is i k := (exists t, nth_error toks i = Some t /\ RegroupModel.okind t = k).
Lemma rest_tl : forall l l' i r, okl l -> okl l' -> rest l' = tl (rest l) -> rest l = i :: r ->
  forall j q, rest l' = j :: q -> i < j /\ forall x, i < x < j -> blank toks x.
Proof.
  intros l l' i r O O' R E j q Ej. rewrite R, E in Ej. cbn [tl] in Ej. subst r. pose proof (rest_gapped toks l O) as (S & _ & G).
  rewrite E in *. apply StronglySorted_inv in S as [S F]. pose proof (Forall_inv F) as H. split; [exact H|].
  intros x X. destruct (G x i j) as [[I|I]|W]; [cbn; auto|cbn; auto|exact X|lia| |exact W].
  destruct I as [I|I]; [lia|]. apply StronglySorted_inv in S as [S F2]. rewrite Forall_forall in F2. pose proof (F2 _ I). lia.
Qed.
Definition opened (l : lx) : Prop := forall i r, rest l = i :: r ->
  exists j, j < i /\ (kind_is j kDate \/ kind_is j kAngleBegin \/ kind_is j kBraceBegin) /\
  forall x, j < x < i -> kind_is x kWhitespace \/ kind_is x kLeadingSpace.
Lemma opened_start : forall f l l', okl l -> okl l' -> (forall k, f k = true -> k = kDate \/ k = kAngleBegin \/ k = kBraceBegin) ->
  head_is toks f l -> rest l' = tl (rest l) -> opened l'.
Proof.
  intros f l l' O O' H (i & r & t & E & Et & F) R j q Ej. destruct (rest_tl l l' i r O O' R E j q Ej) as [L B].
  exists i. split; [exact L|]. split; [|intros x X; left; apply B; exact X].
  destruct (H _ F) as [K|[K|K]]; eauto.
Qed.
Lemma opened_space : forall n P, spec [] (fun l => opened l /\ P) (space toks n) (fun _ => []) (fun _ => opened).
Proof.
  intros n P. eapply spec_weaken; [apply (spec_while toks n opened)|intros l O [H _]; exact H|intros ? l O [H _]; exact H].
  eapply spec_weaken; [apply (spec_next_hist toks (fun l => opened l /\ at_ toks 0 space_kind l = true))|intros l O H; exact H|].
  - intros l O [_ H]. apply head_structural. apply (head_impl _ space_kind); [kinds|apply at_head; auto].
  - cbv beta. intros _ l' O' (l & O & [H S] & R) j q Ej. apply at_head in S; [|exact O]. destruct S as (i & r & t & E & Et & F).
    destruct (rest_tl l l' i r O O' R E j q Ej) as [L B]. destruct (H i r E) as (j0 & L0 & K0 & B0).
    exists j0. split; [lia|]. split; [exact K0|]. intros x X. destruct (Nat.lt_trichotomy x i) as [C|[->|C]].
    + apply B0. lia.
    + destruct (okind t) eqn:Ek; try discriminate F; eauto.
    + left. apply B. lia.
Qed.
Lemma next_day : forall P : lx -> Prop, adds_if (fun l => (opened l /\ P l) /\ at0 toks kWord l = true) (next_ toks).
Proof.
  intros P. eapply spec_weaken; [apply spec_next_hist|intros l O H; exact H|triv].
  cbv beta. intros l O [[H _] A]. apply at_head in A; [|exact O]. destruct A as (i & r & t & E & Et & F). apply is_eq in F.
  exists i, r. split; [exact E|]. right. left. split; [eauto|]. exact (H i r E).
Qed.
Lemma try_skip_hist : forall f P, (forall k, f k = true -> structural k = true) ->
  spec [] P (try_skip toks f) (fun _ => []) (fun _ l' => exists l, okl l /\ head_is toks f l /\ rest l' = tl (rest l)).
Proof.
  intros f P H. eapply spec_bind; [apply spec_expect|]. intros ?; cbv beta.
  eapply spec_weaken; [apply (spec_next_hist toks (head_is toks f))|intros l O [h _]; exact h|intros ? l O h; exact h].
  intros l O h. apply head_structural. exact (head_impl _ _ _ _ H h).
Qed.
Lemma try_take_hist : forall k f P, spec [] P (try_take toks k f) (fun _ => []) (fun _ l' => exists l, okl l /\ head_is toks f l /\ rest l' = tl (rest l)).
Proof.
  intros k f P. eapply spec_bind; [apply spec_expect|]. intros ?; cbv beta.
  eapply spec_weaken; [apply (spec_take_hist toks k (head_is toks f))|intros l O [h _]; exact h|intros ? l O h; exact h].
Qed.
Lemma day_adds : forall n k P (K : M unit), k = kAngleBegin \/ k = kBraceBegin -> adds K ->
  adds_if P (bind (try_skip toks (is k)) (fun _ =>
    bind (test (at0 toks kDate) (bind (try_take toks nRawText (is kDate)) (fun _ => space toks n)) empty_) (fun _ =>
    bind (when_ (at0 toks kWord) (bind (next_ toks) (fun _ => space toks n))) (fun _ => K)))).
Proof.
  intros n k P K Hk HK. eapply spec_bind; [apply try_skip_hist; destruct Hk; subst; isk|]. intros ?; cbv beta.
  eapply spec_bind with (D := fun _ => []) (Q := fun _ => opened).
  - apply spec_test.
    + eapply spec_bind; [apply try_take_hist|]. intros ?; cbv beta.
      eapply spec_weaken; [apply (opened_space n True)| |intros ? l O H; exact H].
      intros l' O' (l & O & H & R). split; [|exact I]. apply (opened_start (is kDate) l); auto. intros x X. apply is_eq in X. auto.
    + eapply spec_weaken; [apply spec_empty|intros l O H; exact H|]. intros ? l' O' [(l & O & H & R) _].
      apply (opened_start (is k) l); auto. intros x X. apply is_eq in X. subst x. destruct Hk; auto.
  - intros ?; cbv beta. apply adds_bind; [|intros ?; exact HK]. apply spec_test; [|apply adds_ret].
    apply adds_bind; [|intros ?; apply space_adds]. eapply spec_weaken; [apply (next_day (fun _ => True))| |triv].
    cbv beta. intros l O [H A]. auto.
Qed.
Lemma time_stamp_adds : forall n, adds (time_stamp toks n).
Proof.
  intros n. unfold time_stamp. go; try (destruct a1; isk). apply day_adds; [destruct a1; auto|]. go.
Qed.
Hint Resolve time_stamp_adds : parse.
Lemma time_range_adds : forall n, adds (time_range toks n).
Proof. intros n. unfold time_range. go. Qed.
Hint Resolve time_range_adds : parse.

(** *** Verbatim text: taken back when it is not closed *)
Lemma verbatim_body_adds : forall n fin c, adds (verbatim_body toks n fin c).
Proof. induction n as [|n IH]; intros fin c; cbn [verbatim_body]; go. Qed.
Lemma index_of_nth : forall js, StronglySorted lt js -> forall i x, nth_error js i = Some x -> index_of (map Some js) x = Some i.
Proof.
  induction 1 as [|y js S IH F]; intros [|i] x E; try discriminate; cbn [map index_of nth_error] in *.
  - injection E as ->. rewrite Nat.eqb_refl. reflexivity.
  - rewrite (IH _ _ E). apply nth_error_In in E. rewrite Forall_forall in F. pose proof (F _ E).
    replace (y =? x) with false by (symmetry; apply Nat.eqb_neq; lia). reflexivity.
Qed.
Lemma set_pos_back : forall l l' g r2 l2 g2, okl l -> okl l' -> lids l' = lids l -> lpos l <> None ->
  set_pos (lpos l) l' g = Ok (r2, l2, g2) -> r2 = Some tt /\ g2 = g /\ okl l2 /\ lids l2 = lids l /\ rest l2 = rest l.
Proof.
  intros [p [[sp ids]|] la] [p' [[sp' ids']|] la'] g r2 l2 g2 O O' I N E; cbn in I; try discriminate;
    cbn [lpos] in *; destruct p as [p|]; try congruence.
  - injection I as ->. destruct O as (js & -> & G & En). cbn [lpos] in En. unfold set_pos in E. cbn [lsub lpos] in E.
    rewrite (index_of_nth js (proj1 G) sp p En) in E. injection E as <- <- <-. split; [reflexivity|]. split; [reflexivity|].
    split; [exists js; auto|]. split; reflexivity.
  - injection E as <- <- <-. split; [reflexivity|]. split; [reflexivity|]. split; [exact O|]. split; reflexivity.
Qed.
Lemma verbatim_adds : forall n, adds_if (head_is toks (fun k => match text_class k with CVerbatim => true | _ => false end)) (verbatim toks n).
Proof.
  intros n l g r l' g' O H E. destruct H as (i & q & t & Er & Et & F).
  unfold verbatim in E. unfold bind at 1 in E. unfold kind_ in E.
  assert (Ek : kind_at toks l 0 = Some (okind t)).
  { unfold kind_at, tok_at. rewrite (pos_rest toks _ _ _ O Er), Nat.add_0_r, Et. reflexivity. }
  rewrite Ek in E. set (k := okind t) in *. unfold bind at 1 in E. unfold ask in E. unfold bind at 1 in E. unfold node_count in E.
  set (fin := if is kMonospaceBegin k then kMonospaceEnd else kVerbatimEnd) in *.
  set (kd := if is kMonospaceBegin k then nMonospace else nVerbatim) in *. unfold bind at 1 in E.
  match type of E with context [guard kd ?m l g] => destruct (guard kd m l g) as [[[r1 l1] g1]| | |] eqn:Em; try discriminate;
    assert (S : spec [] (head_is toks (is k)) (guard kd m) (fun _ => []) (fun _ _ => True)) end.
  { apply spec_guard. eapply spec_bind; [apply spec_pop_hist|].
    - intros l0 O0 H0. apply head_structural. apply (head_impl _ (is k)); [|exact H0]. intros x X. apply is_eq in X. subst x.
      destruct k; try discriminate F; reflexivity.
    - intros ?; cbv beta. go; [apply adds_adds_if; apply verbatim_body_adds|]. apply spec_next. intros l0 O0 [_ A]. apply at_head in A; [|exact O0].
      apply (head_impl _ (is fin)); [|exact A]. unfold fin. destruct (is kMonospaceBegin k); isk. }
  assert (Hh : head_is toks (is k) l) by (exists i, q, t; split; [exact Er|]; split; [exact Et|apply is_refl]).
  destruct (S _ _ _ _ _ O Hh Em) as (O1 & I1 & B1 & c1 & t1 & R1 & N1 & K1).
  destruct r1 as [[|]|].
  - injection E as <- <- <-. split; [exact O1|]. split; [exact I1|]. split; [exact B1|]. exists c1, t1. split; [exact R1|]. split; [exact N1|].
    destruct K1 as [K1 _]. auto.
  - unfold bind at 1 in E. unfold drop_tail, TreeModel.remove_tail in E. rewrite N1, app_length in E.
    destruct (Nat.leb_spec (length (nodes g)) (length (nodes g) + length (fflat t1))); [|lia]. cbn [omap obind] in E.
    rewrite firstn_app, Nat.sub_diag, firstn_all, app_nil_r, B1 in E. unfold bind in E at 1.
    destruct (set_pos (lpos l) l1 _) as [[[r2 l2] g2]| | |] eqn:Es; try discriminate.
    destruct (set_pos_back _ _ _ _ _ _ O O1 I1 ltac:(rewrite (pos_rest toks _ _ _ O Er); discriminate) Es) as (-> & -> & O2 & I2 & R2).
    destruct (take_adds toks nPunctuation (fun _ => True) _ _ _ _ _ O2 I E) as (O3 & I3 & B3 & c3 & t3 & R3 & N3 & K3).
    split; [exact O3|]. split; [congruence|]. split; [exact B3|]. exists c3, t3. split; [congruence|]. split; [exact N3|exact K3].
  - injection E as <- <- <-. split; [exact O1|]. split; [exact I1|]. split; [exact B1|]. exists c1, t1. auto.
Qed.

(** *** Nested text *)
Notation fills P m := (fills toks P m).
Notation eats m := (eats toks m).
Lemma skip_kind_adds : forall n k, structural k = true -> adds (skip_kind toks n k).
Proof.
  induction n as [|n IH]; intros k H; cbn [skip_kind]; [apply spec_spent|]. eapply spec_bind; [apply spec_kind|]. intros c; cbv beta.
  destruct (is k c) eqn:E; [|apply adds_ret]. apply adds_bind; [|intros ?; auto]. apply spec_next. intros l O [K _].
  apply is_eq in E. subst c. apply (head_impl _ (is k)); [intros x X; apply is_eq in X; subst; exact H|apply kind_at_head; auto].
Qed.
(** ids that are passed: kept ones, then dropped ones *)
Notation passes P m Q := (forall l g r l' g', okl l -> P l -> m l g = Ok (r, l', g') ->
  okl l' /\ lids l' = lids l /\ g' = g /\
  exists js ds, r = Some (map Some js) /\ rest l = js ++ ds ++ rest l' /\ Forall drop ds /\ (Q : list nat -> list nat -> Prop) js ds).
Lemma kind_run : forall B (k : tk -> M B) l g c o, kind_at toks l 0 = Some c -> bind (kind_ toks 0) k l g = Ok o -> k c l g = Ok o.
Proof. intros B k l g c o E H. unfold bind, kind_ in H. rewrite E in H. exact H. Qed.
Lemma keep_kind_passes : forall n k, passes (fun _ => True) (keep_kind toks n k) (fun _ ds => ds = []).
Proof.
  induction n as [|n IH]; intros k l g r l' g' O _ E; [discriminate|]. cbn [keep_kind] in E.
  destruct (kind_at toks l 0) as [c|] eqn:Ek; [|unfold bind at 1, kind_ in E; rewrite Ek in E; discriminate].
  apply (kind_run _ _ _ _ c) in E; [|exact Ek]. destruct (is k c) eqn:Ec.
  - unfold bind, pop_ in E. destruct (keep_kind toks n k (advance toks l) g) as [[[r1 l1] g1]| | |] eqn:E1; try discriminate.
    destruct (advance_rest toks l O) as (O1 & R1 & I1). destruct (IH k _ _ _ _ _ O1 I E1) as (O2 & I2 & -> & js & ds & -> & R2 & _ & ->).
    injection E as <- <- <-. split; [exact O2|]. split; [congruence|]. split; [reflexivity|].
    destruct (kind_at_head toks l c O Ek) as (i & q & t & Er & Et & F). rewrite (pos_rest toks _ _ _ O Er). exists (i :: js), [].
    split; [reflexivity|]. rewrite Er in R1. cbn [tl] in R1. rewrite Er, <- R1, R2. auto.
  - injection E as <- <- <-. split; [exact O|]. split; [reflexivity|]. split; [reflexivity|]. exists [], []. auto.
Qed.
Lemma pass_kind_passes : forall n k keep, structural k = true ->
  passes (fun _ => True) (pass_kind toks n k keep) (fun js ds => if keep : bool then ds = [] else js = []).
Proof.
  induction n as [|n IH]; intros k keep Hs l g r l' g' O _ E; [discriminate|]. cbn [pass_kind] in E. unfold test in E.
  assert (Z : forall r l' g', Ok (Some (@nil (option nat)), l, g) = Ok (r, l', g') ->
    okl l' /\ lids l' = lids l /\ g' = g /\
    exists js ds, r = Some (map Some js) /\ rest l = js ++ ds ++ rest l' /\ Forall drop ds /\ if keep then ds = [] else js = []).
  { intros ? ? ? X. injection X as <- <- <-. split; [exact O|]. split; [reflexivity|]. split; [reflexivity|]. exists [], []. destruct keep; auto. }
  destruct (finished toks l); [apply Z; exact E|].
  destruct (kind_at toks l 0) as [c|] eqn:Ek; [|unfold bind at 1, kind_ in E; rewrite Ek in E; discriminate].
  apply (kind_run _ _ _ _ c) in E; [|exact Ek]. destruct (is k c) eqn:Ec; [|apply Z; exact E].
  unfold bind, pop_ in E. destruct (pass_kind toks n k keep (advance toks l) g) as [[[r1 l1] g1]| | |] eqn:E1; try discriminate.
  destruct (advance_rest toks l O) as (O1 & R1 & I1). destruct (IH k keep Hs _ _ _ _ _ O1 I E1) as (O2 & I2 & -> & js & ds & -> & R2 & Fd & C).
  injection E as <- <- <-. split; [exact O2|]. split; [congruence|]. split; [reflexivity|].
  destruct (kind_at_head toks l c O Ek) as (i & q & t & Er & Et & F). rewrite (pos_rest toks _ _ _ O Er).
  rewrite Er in R1. cbn [tl] in R1. destruct keep.
  - subst ds. exists (i :: js), []. rewrite Er, <- R1, R2. auto.
  - subst js. exists [], (i :: ds). rewrite Er, <- R1, R2. split; [reflexivity|]. split; [reflexivity|]. split; [|reflexivity].
    constructor; [|exact Fd]. left. exists t. split; [exact Et|]. apply is_eq in F. apply is_eq in Ec. congruence.
Qed.
Lemma inside_loop_passes : forall n count, passes (fun _ => True) (inside_loop toks n count) (fun js ds => count = 0 -> js = [] /\ ds = []).
Proof.
  induction n as [|n IH]; intros count l g r l' g' O _ E; [discriminate|]. cbn [inside_loop] in E. unfold test in E.
  destruct (0 <? count) eqn:Ec; cbn [andb] in E.
  2:{ injection E as <- <- <-. split; [exact O|]. split; [reflexivity|]. split; [reflexivity|]. exists [], []. auto. }
  apply Nat.ltb_lt in Ec. destruct (finished toks l); cbn [negb] in E.
  { injection E as <- <- <-. split; [exact O|]. split; [reflexivity|]. split; [reflexivity|]. exists [], []. auto. }
  destruct (kind_at toks l 0) as [c|] eqn:Ek; [|unfold bind at 1, kind_ in E; rewrite Ek in E; discriminate].
  apply (kind_run _ _ _ _ c) in E; [|exact Ek]. destruct (is kCurlyBegin c); [|destruct (is kCurlyEnd c)].
  - unfold bind in E. destruct (keep_kind toks n kCurlyBegin l g) as [[[r1 l1] g1]| | |] eqn:E1; try discriminate.
    destruct (keep_kind_passes _ _ _ _ _ _ _ O I E1) as (O1 & I1 & -> & js & ds & -> & R1 & _ & ->).
    destruct (inside_loop toks n (S count) l1 g) as [[[r2 l2] g2]| | |] eqn:E2; try discriminate.
    destruct (IH _ _ _ _ _ _ O1 I E2) as (O2 & I2 & -> & js2 & ds2 & -> & R2 & F2 & _). injection E as <- <- <-.
    split; [exact O2|]. split; [congruence|]. split; [reflexivity|]. exists (js ++ js2), ds2. rewrite map_app. split; [reflexivity|].
    split; [rewrite R1, R2; cbn [app]; rewrite app_assoc; reflexivity|]. split; [exact F2|lia].
  - unfold bind in E. destruct (pass_kind toks n kCurlyEnd (1 <? count) l g) as [[[r1 l1] g1]| | |] eqn:E1; try discriminate.
    destruct (pass_kind_passes n kCurlyEnd (1 <? count) eq_refl _ _ _ _ _ O I E1) as (O1 & I1 & -> & js & ds & -> & R1 & F1 & C1).
    destruct (inside_loop toks n (count - 1) l1 g) as [[[r2 l2] g2]| | |] eqn:E2; try discriminate.
    destruct (IH _ _ _ _ _ _ O1 I E2) as (O2 & I2 & -> & js2 & ds2 & -> & R2 & F2 & C2). injection E as <- <- <-.
    split; [exact O2|]. split; [congruence|]. split; [reflexivity|]. destruct (1 <? count) eqn:E3.
    + subst ds. exists (js ++ js2), ds2. rewrite map_app. split; [reflexivity|].
      split; [rewrite R1, R2; cbn [app]; rewrite app_assoc; reflexivity|]. split; [exact F2|lia].
    + subst js. apply Nat.ltb_ge in E3. destruct C2 as [-> ->]; [lia|]. exists [], ds. split; [reflexivity|].
      split; [rewrite R1, R2; reflexivity|]. split; [exact F1|lia].
  - unfold bind, pop_ in E. destruct (inside_loop toks n count (advance toks l) g) as [[[r2 l2] g2]| | |] eqn:E2; try discriminate.
    destruct (advance_rest toks l O) as (O1 & R1 & I1). destruct (IH _ _ _ _ _ _ O1 I E2) as (O2 & I2 & -> & js2 & ds2 & -> & R2 & F2 & _).
    injection E as <- <- <-. split; [exact O2|]. split; [congruence|]. split; [reflexivity|].
    destruct (kind_at_head toks l c O Ek) as (i & q & t & Er & Et & F). rewrite (pos_rest toks _ _ _ O Er). exists (i :: js2), ds2.
    rewrite Er in R1. cbn [tl] in R1. rewrite Er, <- R1, R2. split; [reflexivity|]. split; [reflexivity|]. split; [exact F2|lia].
Qed.
Lemma get_inside_fills : forall n P, fills P (get_inside toks n).
Proof.
  intros n P. unfold fills, get_inside. eapply spec_bind; [apply adds_adds_if; apply skip_kind_adds; reflexivity|]. intros ?; cbv beta.
  intros l g r l' g' O p E. destruct (inside_loop_passes _ _ _ _ _ _ _ O I E) as (O1 & I1 & -> & js & ds & -> & R & F & _).
  split; [exact O1|]. split; [exact I1|]. split; [reflexivity|]. exists (js ++ ds), []. split; [rewrite R, app_assoc; reflexivity|].
  split; [symmetry; apply app_nil_r|]. rewrite olist_map. split.
  - cbn. rewrite <- (app_nil_r (map Some js)). apply keeps_app; [apply keeps_all|apply keeps_drops; exact F].
  - exact (ids_ok_seg toks l js _ O R).
Qed.

Section Nested.
Variables par text : M unit.
Hypothesis Hpar : eats par.
Hypothesis Htext : eats (guard nParagraph text).
Lemma link_adds : forall n, adds (link toks par n).
Proof.
  intros n. unfold link. apply spec_guard. apply spec_test; [go|].
  apply adds_bind; [go|]. intros ?; cbv beta. eapply spec_bind; [apply spec_kind|]. intros k; cbv beta. apply adds_bind; [|intros ?].
  - destruct (protocol_with_target k); [go|]. destruct (target_only k); [go|]. apply adds_bind; [go|]. intros ?; cbv beta.
    apply fills_bind; [apply collect_until_fills|]; [|intros ids; apply spec_par_or_empty; exact Hpar].
    intros l O H E. apply at_head in H; [|exact O]. destruct H as (i & q & t & Er & _). congruence.
  - apply adds_bind; [|intros ?; go]. apply spec_test; [|go]. apply adds_bind; [go|]. intros ?; cbv beta.
    apply fills_bind; [apply collect_fills|]. intros ids; apply spec_par_or_empty; exact Hpar.
Qed.
Lemma guard_run_sub : forall A ids k (m : M A) l g, guard k (run_sub ids m) l g = run_sub ids (guard k m) l g.
Proof.
  intros A ids k m l g. unfold guard, run_sub. destruct (m (sub_lexer ids) _) as [[[r l1] g1]| | |]; try reflexivity.
  destruct (TreeModel.end_tree g1 0) as [[g2 j]| | |]; try reflexivity. cbn [obind].
  destruct (length (pending g2) =? length (pending g)); reflexivity.
Qed.
Lemma spec_ext : forall A d P (m m' : M A) D Q, (forall l g, m l g = m' l g) -> spec d P m' D Q -> spec d P m D Q.
Proof. intros A d P m m' D Q H S l g r l' g' O p E. rewrite H in E. exact (S _ _ _ _ _ O p E). Qed.
Lemma symbol_adds : forall n, adds (symbol toks text n).
Proof.
  intros n. unfold symbol. go. apply fills_bind; [apply get_inside_fills|]. intros ids.
  eapply spec_ext; [intros l g; apply guard_run_sub|]. apply spec_run_sub. exact Htext.
Qed.
Lemma footnote_adds : forall n, adds (footnote toks par n).
Proof.
  intros n. unfold footnote. apply spec_test; [go|]. apply spec_guard. apply adds_bind; [go|]. intros ?; cbv beta.
  apply fills_bind; [apply collect_fills|]. intros ids. apply spec_then; [apply spec_in_sub; apply sub_parse_eats; exact Hpar|go].
Qed.
Lemma critic_adds : forall n, adds (critic toks par n).
Proof.
  intros n. unfold critic. eapply spec_bind; [apply spec_kind|]. intros k; cbv beta. apply spec_guard. apply adds_bind; [go|].
  intros ?; cbv beta. apply adds_bind.
  - destruct (is kCriticReplaceEnd (critic_end k)); [|go]. apply fills_bind; [apply collect_fills|]. intros ids.
    apply spec_then; [apply spec_par_or_empty; exact Hpar|go].
  - intros ?; cbv beta. apply fills_bind; [apply collect_fills|]. intros ids.
    apply spec_then; [apply spec_in_sub; apply sub_parse_eats; exact Hpar|]. apply try_skip_adds. intros x X. apply is_eq in X. subst x.
    destruct k; reflexivity.
Qed.
End Nested.
End Text.
