(** What the functions of the parser keep, one by one: statements. *)
From Coq Require Import String.
From Verif Require Import Base StrModel TokKind KindEq NodeKind.
From Verif Require RegroupModel TreeModel TreeSpec TreeProofs.
From Verif Require Import ParseModel ParseSpec ParseLogic ParseText ParseFold.
Local Open Scope nat_scope.

Section Stmt.
Variable toks : list RegroupModel.otok.
Notation drop := (droppable toks).
Notation okl := (okl toks).
Notation rest := (rest toks).
Notation spec := (spec toks).
Notation eats m := (eats toks m).
Notation fills P m := (fills toks P m).
Notation adds m := (spec [] (fun _ => True) m (fun _ => []) (fun _ _ => True)).
Notation adds_if P m := (spec [] P m (fun _ => []) (fun _ _ => True)).
Notation kind_is i k := (exists t, nth_error toks i = Some t /\ RegroupModel.okind t = k).

Hint Resolve space_adds newline_adds macro_adds placeholder_adds time_range_adds inline_export_adds src_inline_adds hash_tag_adds
  angle_target_adds attr_value_adds call_arguments_adds csv_arguments_adds paragraph_adds : parse.
Lemma command_arguments_adds : forall n, adds (command_arguments toks n).
Proof. intros n. unfold command_arguments. go. Qed.
Hint Resolve command_arguments_adds : parse.
Lemma src_arguments_adds : forall n, adds (src_arguments toks n).
Proof. intros n. unfold src_arguments. go. Qed.
Hint Resolve src_arguments_adds : parse.

(** *** Table cells: blanks at their ends are left out *)
Inductive thin : list nat -> list nat -> Prop :=
| thin_nil : thin [] []
| thin_keep i c js : thin c js -> thin (i :: c) (i :: js)
| thin_skip i c js : kind_is i kWhitespace -> thin c js -> thin (i :: c) js.
Lemma thin_in : forall c js, thin c js -> forall x, (In x js -> In x c) /\ (In x c -> In x js \/ kind_is x kWhitespace).
Proof.
  induction 1 as [|i c js T IH|i c js W T IH]; intros x; cbn [In].
  - auto.
  - destruct (IH x) as [A B]. split; [intuition|]. intros [->|I]; [auto|]. destruct (B I); auto.
  - destruct (IH x) as [A B]. split; [auto|]. intros [->|I]; [auto|]. auto.
Qed.
Lemma thin_gapped : forall c js, thin c js -> gapped toks c -> gapped toks js.
Proof.
  intros c js T (S & F & G). pose proof (thin_in c js T) as In_. split; [|split].
  - clear - T S In_. revert S. clear In_. induction T as [|i c js T IH|i c js W T IH]; intros S; [constructor| |].
    + apply StronglySorted_inv in S as [S F]. constructor; [auto|]. rewrite Forall_forall in *. intros x I. apply F.
      apply (thin_in _ _ T). exact I.
    + apply StronglySorted_inv in S as [S F]. auto.
  - rewrite Forall_forall in *. intros x I. apply F. apply In_. exact I.
  - intros x a b Ia Ib X. destruct (G x a b) as [I|W]; [apply In_; auto|apply In_; auto|exact X| |right; exact W].
    destruct (proj2 (In_ x) I) as [J|J]; auto.
Qed.
Lemma thin_keeps : forall c js, thin c js -> keeps drop c (map Some js).
Proof.
  induction 1 as [|i c js T IH|i c js (t & E & W) T IH]; cbn [map]; [constructor|constructor; auto|]. apply keeps_drop; [|exact IH].
  left. exists t. split; [exact E|]. rewrite W. reflexivity.
Qed.
Lemma cell_ids_run : forall n l g r l' g', okl l -> cell_ids toks n l g = Ok (r, l', g') ->
  okl l' /\ lids l' = lids l /\ g' = g /\ exists c js, r = Some (map Some js) /\ rest l = c ++ rest l' /\ thin c js.
Proof.
  induction n as [|n IH]; intros l g r l' g' O E; [discriminate|]. cbn [cell_ids] in E. unfold test at 1 in E. unfold can_search in E.
  rewrite finished_rest in E by exact O. destruct (rest l) as [|i q] eqn:Er; cbn [negb andb] in E.
  { injection E as <- <- <-. split; [exact O|]. split; [reflexivity|]. split; [reflexivity|]. exists [], []. rewrite Er.
    split; [reflexivity|]. split; [reflexivity|constructor]. }
  destruct (at_ toks 0 cell_end l); cbn [negb] in E.
  { injection E as <- <- <-. split; [exact O|]. split; [reflexivity|]. split; [reflexivity|]. exists [], []. rewrite Er.
    split; [reflexivity|]. split; [reflexivity|constructor]. }
  destruct (advance_rest toks l O) as (O1 & R1 & I1). rewrite Er in R1. cbn [tl] in R1. unfold test in E.
  destruct (at0 toks kWhitespace l && (at_ toks 1 cell_end l || at_prev toks cell_start l)) eqn:Ew.
  - apply andb_true_iff in Ew as [Ew _]. apply at_head in Ew; [|exact O]. destruct Ew as (i' & q' & t & Er' & Et & F). rewrite Er in Er'.
    injection Er' as <- <-. apply is_eq in F. unfold bind, next_ in E. destruct (IH _ _ _ _ _ O1 E) as (O2 & I2 & -> & c & js & -> & R2 & T).
    split; [exact O2|]. split; [congruence|]. split; [reflexivity|]. exists (i :: c), js. split; [reflexivity|].
    split; [rewrite <- R1, R2; reflexivity|]. apply thin_skip; eauto.
  - unfold bind, pop_ in E. destruct (cell_ids toks n (advance toks l) g) as [[[r1 l1] g1]| | |] eqn:E1; try discriminate.
    destruct (IH _ _ _ _ _ O1 E1) as (O2 & I2 & -> & c & js & -> & R2 & T). injection E as <- <- <-.
    split; [exact O2|]. split; [congruence|]. split; [reflexivity|]. exists (i :: c), (i :: js). rewrite (pos_rest toks _ _ _ O Er).
    split; [reflexivity|]. split; [rewrite <- R1, R2; reflexivity|]. constructor; auto.
Qed.
Lemma cell_ids_fills : forall n P, fills P (cell_ids toks n).
Proof.
  intros n P l g r l' g' O p E. destruct (cell_ids_run _ _ _ _ _ _ O E) as (O1 & I1 & -> & c & js & -> & R & T).
  split; [exact O1|]. split; [exact I1|]. split; [reflexivity|]. exists c, []. split; [exact R|]. split; [symmetry; apply app_nil_r|].
  rewrite olist_map. split; [exact (thin_keeps _ _ T)|]. unfold ids_ok. rewrite olist_map. split; [reflexivity|].
  apply (thin_gapped c); [exact T|]. pose proof (rest_gapped toks l O) as G. rewrite R in G. apply (gapped_app toks _ _ G).
Qed.
Lemma spec_in_par : forall n ids, spec (flat_map olist ids) (fun _ => ids_ok toks ids) (in_sub ids (sub_parse toks (paragraph toks n))) (fun _ => []) (fun _ _ => True).
Proof. intros. apply spec_in_sub. apply sub_parse_eats. apply paragraph_eats. Qed.
Lemma pipe_row_adds : forall n, adds (pipe_row toks n).
Proof.
  intros n. unfold pipe_row. go. apply fills_bind; [apply cell_ids_fills|]. intros [|i ids]; [|apply spec_in_par].
  eapply spec_weaken; [apply spec_guard; apply adds_ret with (P := fun _ => True)| |]; triv.
Qed.
Lemma block_export_adds : forall n, adds (block_export toks n).
Proof. intros n. unfold block_export. go. Qed.
Lemma colon_example_adds : forall n, adds (colon_example toks n).
Proof. intros n. unfold colon_example. go. Qed.
Lemma example_adds : forall n, adds (example toks n).
Proof.
  intros n. unfold example. go. apply spec_next. intros l O [_ H]. unfold at_vec in H. cbn [at_vec_from] in H.
  apply andb_true_iff in H as [_ H]. apply andb_true_iff in H as [H _]. apply at_head in H; [|exact O]. revert H. apply head_impl. isk.
Qed.
Lemma completion_adds : forall n, adds (completion toks n).
Proof. intros n. unfold completion. go. Qed.
Lemma todo_adds : forall n, adds (todo toks n).
Proof. intros n. unfold todo. go. Qed.
Lemma urgency_adds : forall n, adds (urgency toks n).
Proof. intros n. unfold urgency. go. Qed.
Lemma title_adds : forall n, adds (title toks n).
Proof. intros n. unfold title. go. apply fills_bind; [apply collect_fills|]. intros ids. apply spec_par_of. Qed.
Lemma tags_adds : forall n, adds (tags toks n).
Proof.
  intros n. unfold tags. go.
Qed.
Lemma must_skip_adds : forall k P, structural k = true -> adds_if P (must_skip toks k).
Proof.
  intros k P H. unfold must_skip. apply spec_test; [|apply spec_crash]. apply spec_next. intros l O [_ A]. apply at_head in A; [|exact O].
  revert A. apply head_impl. intros x X. apply is_eq in X. subst. exact H.
Qed.
Lemma times_adds : forall n, adds (times toks n).
Proof. intros n. unfold times. go. apply must_skip_adds. reflexivity. Qed.
Lemma property_adds : forall n, adds (property toks n).
Proof.
  intros n. unfold property. eapply spec_bind; [apply spec_kind|]. intros k; cbv beta. destruct (property_kind k); [|go].
  apply spec_guard. apply adds_bind; [go|]. intros ?; cbv beta. apply adds_bind; [|intros ?; go].
  destruct (is kColonLiteralProperty k); [go|]. destruct (is kColonArgumentsProperty k); [go|]. apply adds_bind; [go|]. intros ?; cbv beta.
  apply fills_bind; [apply collect_fills|]. intros ids. apply spec_in_par.
Qed.
Hint Resolve pipe_row_adds block_export_adds colon_example_adds example_adds completion_adds todo_adds urgency_adds title_adds tags_adds
  times_adds property_adds : parse.
Lemma properties_adds : forall n, adds (properties toks n).
Proof. intros n. unfold properties. go. Qed.
Hint Resolve properties_adds : parse.

(** *** Source blocks: the word that starts a line label is passed over *)
Definition coded (l : lx) : Prop := forall i r, rest l = i :: r -> in_code toks i.
Lemma coded_start : forall l l', okl l -> okl l' -> head_is toks (is kCmdContentBegin) l -> rest l' = tl (rest l) -> coded l'.
Proof.
  intros l l' O O' (i & r & t & E & Et & F) R j q Ej. destruct (rest_tl toks l l' i r O O' R E j q Ej) as [L B]. apply is_eq in F.
  exists i. split; [exact L|]. split; [eauto|]. intros x X. destruct (B x X) as (tx & Ex & Kx). exists tx. rewrite Kx. auto.
Qed.
Lemma coded_step : forall l l', okl l -> okl l' -> coded l -> head_is toks code_kind l -> rest l' = tl (rest l) -> coded l'.
Proof.
  intros l l' O O' C (i & r & t & E & Et & F) R j q Ej. destruct (rest_tl toks l l' i r O O' R E j q Ej) as [L B].
  destruct (C i r E) as (b & Lb & Kb & Bb). exists b. split; [lia|]. split; [exact Kb|]. intros x X.
  destruct (Nat.lt_trichotomy x i) as [H|[->|H]]; [apply Bb; lia|eauto|]. destruct (B x ltac:(lia)) as (tx & Ex & Kx). exists tx. rewrite Kx. auto.
Qed.
Notation stays m := (spec [] coded m (fun _ => []) (fun _ => coded)).
Lemma stays_if : forall (P : lx -> Prop) (m : M unit), stays m -> spec [] (fun l => coded l /\ P l) m (fun _ => []) (fun _ => coded).
Proof. intros P m H. eapply spec_weaken; [exact H|intros l O [h _]; exact h|triv]. Qed.
Lemma stays_bind : forall A (m : M A) (k : A -> M unit), spec [] coded m (fun _ => []) (fun _ => coded) -> (forall a, stays (k a)) -> stays (bind m k).
Proof. intros A m k Hm Hk. eapply spec_bind; [exact Hm|exact Hk]. Qed.
Lemma stays_skip : forall f, (forall k, f k = true -> structural k = true) -> (forall k, f k = true -> code_kind k = true) -> stays (try_skip toks f).
Proof.
  intros f H1 H2. eapply spec_bind; [apply spec_expect|]. intros ?; cbv beta.
  eapply spec_weaken; [apply (spec_next_hist toks (fun l => head_is toks f l /\ coded l))|intros l O h; exact h|].
  - intros l O [h _]. apply head_structural. exact (head_impl _ _ _ _ H1 h).
  - intros ? l' O' (l & O & [h C] & R). apply (coded_step l); auto. exact (head_impl _ _ _ _ H2 h).
Qed.
Lemma stays_take : forall k f, (forall k, f k = true -> code_kind k = true) -> stays (try_take toks k f).
Proof.
  intros k f H2. eapply spec_bind; [apply spec_expect|]. intros ?; cbv beta.
  eapply spec_weaken; [apply (spec_take_hist toks k (fun l => head_is toks f l /\ coded l))|intros l O h; exact h|].
  intros ? l' O' (l & O & [h C] & R). apply (coded_step l); auto. exact (head_impl _ _ _ _ H2 h).
Qed.
Lemma stays_test : forall c (a b : M unit), stays a -> stays b -> stays (test c a b).
Proof. intros c a b Ha Hb. apply spec_test; apply stays_if; auto. Qed.
Lemma stays_ret : stays (ret tt).
Proof. eapply spec_weaken; [apply (spec_ret toks unit tt [] coded)| |]; triv. apply H0. Qed.
Lemma stays_when : forall k, structural k = true -> code_kind k = true -> stays (when_ (at0 toks k) (next_ toks)).
Proof.
  intros k H1 H2. apply spec_test; [|apply stays_if; apply stays_ret].
  assert (A : forall l, okl l -> coded l /\ at0 toks k l = true -> head_is toks (is k) l) by (intros l O [_ A]; apply at_head; auto).
  eapply spec_weaken; [apply (spec_next_hist toks (fun l => coded l /\ at0 toks k l = true))|intros l O h; exact h|].
  - intros l O h. apply head_structural. apply (head_impl _ (is k)); [intros x X; apply is_eq in X; subst; exact H1|apply A; auto].
  - intros ? l' O' (l & O & h & R). apply (coded_step l); auto; [apply h|]. apply (head_impl _ (is k)); [|apply A; auto].
    intros x X. apply is_eq in X. subst. exact H2.
Qed.
Lemma stays_while : forall n c body, stays body -> stays (while_ n c body).
Proof.
  intros n c body H. eapply spec_weaken; [apply (spec_while toks n coded c body)|intros l O h; exact h|intros ? l O [h _]; exact h].
  apply stays_if. exact H.
Qed.
Lemma stays_guard : forall k (m : M unit), stays m -> stays (guard k m).
Proof. intros. apply spec_guard. auto. Qed.
Lemma label_skip : forall P : lx -> Prop, (forall l, okl l -> P l -> coded l /\ forall i r, rest l = i :: r -> exists j, j < i /\ kind_is j kParBegin /\ forall x, j < x < i -> kind_is x kWhitespace) ->
  spec [] P (try_skip toks (is kWord)) (fun _ => []) (fun _ => coded).
Proof.
  intros P H. eapply spec_bind; [apply spec_expect|]. intros ?; cbv beta.
  eapply spec_weaken; [apply (spec_next_hist toks (fun l => head_is toks (is kWord) l /\ P l))|intros l O h; exact h|].
  - intros l O [(i & r & t & E & Et & F) p]. apply is_eq in F. exists i, r. split; [exact E|]. right. right.
    destruct (H l O p) as [C W]. split; [eauto|]. split; [exact (C i r E)|exact (W i r E)].
  - intros ? l' O' (l & O & [h p] & R). destruct (H l O p) as [C _]. apply (coded_step l); auto. revert h. apply head_impl. isk.
Qed.
Lemma csv_stays : forall n, stays (csv_arguments toks n).
Proof.
  intros n. unfold csv_arguments. apply stays_bind; [apply stays_take; kinds|]. intros ?. apply stays_test; [|apply stays_ret].
  apply stays_bind; [apply stays_skip; isk|]. intros ?. apply stays_bind; [|intros ?; apply stays_skip; isk].
  apply stays_while. apply stays_bind; [apply stays_take; isk|]. intros ?. apply stays_when; reflexivity.
Qed.
Lemma code_part_stays : forall n, stays (code_part toks n).
Proof.
  intros n. unfold code_part. apply stays_test; [apply stays_take; isk|]. apply stays_test.
  - eapply spec_bind with (D := fun _ => []) (Q := fun _ l => coded l /\ forall i r, rest l = i :: r -> exists j, j < i /\ kind_is j kParBegin /\ forall x, j < x < i -> kind_is x kWhitespace).
    + eapply spec_bind; [apply spec_expect|]. intros ?; cbv beta.
      eapply spec_weaken; [apply (spec_next_hist toks (fun l => head_is toks (is kParBegin) l /\ coded l))|intros l O h; exact h|].
      * intros l O [h _]. apply head_structural. revert h. apply head_impl. isk.
      * intros ? l' O' (l & O & [h C] & R). split; [apply (coded_step l); auto; revert h; apply head_impl; isk|].
        intros j q Ej. destruct h as (i & r & t & E & Et & F). apply is_eq in F. destruct (rest_tl toks l l' i r O O' R E j q Ej) as [L B].
        exists i. split; [exact L|]. split; [eauto|exact B].
    + intros ?; cbv beta. eapply spec_bind; [apply label_skip; auto|]. intros ?; cbv beta.
      apply stays_bind; [apply stays_skip; isk|]. intros ?. apply stays_bind; [apply stays_guard; apply stays_take; isk|]. intros ?. apply stays_skip; isk.
  - apply stays_test.
    + apply stays_test; [|apply stays_take; isk]. apply stays_bind; [apply stays_skip; isk|]. intros ?.
      apply stays_bind; [apply stays_guard; apply sub_parse_adds; apply csv_stays|]. intros ?. apply stays_skip; isk.
    + apply stays_test; [apply stays_take; isk|apply spec_crash].
Qed.
Lemma code_body_adds : forall n P,
  adds_if P (bind (try_skip toks (is kCmdContentBegin)) (fun _ =>
    while_ n (can_search toks (at_vec toks [kCmdPrefix; kCmdSrcEnd]))
      (guard nCodeLine
        (bind (while_ n (can_search toks (at_ toks 0 (fun k => match k with kCmdContentEnd | kNewline => true | _ => false end))) (code_part toks n))
          (fun _ => when_ (at0 toks kNewline) (next_ toks)))))).
Proof.
  intros n P. eapply spec_bind; [apply try_skip_hist; isk|]. intros ?; cbv beta.
  eapply spec_weaken; [apply stays_while; apply stays_guard; apply stays_bind; [apply stays_while; apply code_part_stays|intros ?; apply stays_when; reflexivity]| |triv].
  cbv beta. intros l' O' (l & O & h & R). exact (coded_start l l' O O' h R).
Qed.

Section Statements.
Variable st : M unit.
Hypothesis Hst : adds st.
Hint Resolve Hst : parse.

Lemma block_row_adds : forall n, adds (block_row toks st n).
Proof.
  intros n. unfold block_row. go. apply fills_bind; [apply collect_fills|]. intros ids. apply spec_par_of.
Qed.
Hint Resolve block_row_adds : parse.
Lemma table_adds : forall n, adds (table toks st n).
Proof.
  intros n. unfold table. go.
Qed.
Lemma wrap_body_adds : forall n more, adds (wrap_body toks st n more).
Proof. induction n as [|n IH]; intros more; cbn [wrap_body]; go. Qed.
Hint Resolve table_adds wrap_body_adds : parse.
(** the name of a dynamic block is added before it is passed *)
Lemma name_adds : forall (K : str -> M unit) P, (forall s, adds (K s)) ->
  adds_if P (bind (bind (ask lpos) (fun t => tok_ nWord t)) (fun _ => bind (ask (text_at toks 0)) (fun name => bind (next_ toks) (fun _ => K name)))).
Proof.
  intros K P HK l g r l' g' O p E. unfold bind, ask, tok_, push, next_ in E. cbn [TreeModel.token fst] in E.
  destruct (advance_rest toks l O) as (O1 & R1 & I1). destruct (HK _ _ _ _ _ _ O1 I E) as (O2 & I2 & B2 & c & ts & R2 & N2 & K2).
  split; [exact O2|]. split; [congruence|]. split; [exact B2|]. exists (olist (lpos l) ++ c), (Leaf nWord (lpos l) :: ts).
  split; [rewrite (pop_rest toks l O), R2, app_assoc; reflexivity|]. split; [rewrite N2; cbn; rewrite <- app_assoc; reflexivity|].
  change (ftoks (Leaf nWord (lpos l) :: ts)) with (lpos l :: ftoks ts).
  destruct r as [[]|]; [destruct K2 as [K2 _]; split; [|exact I]|]; cbn [app] in *; (destruct (lpos l); cbn [olist app]; constructor; exact K2).
Qed.
Lemma text_wrap_adds : forall n, adds (text_wrap toks st n).
Proof.
  intros n. unfold text_wrap. apply adds_bind; [go|]. intros ?; cbv beta. eapply spec_bind; [apply spec_kind|]. intros k; cbv beta.
  destruct (wrap_kind k) as [[b fin]|] eqn:Ew; [|apply spec_crash]. apply spec_guard.
  assert (Hf : structural fin = true /\ (is kCmdDynamicBlockBegin k = false -> structural k = true)).
  { destruct k; cbn in Ew; try discriminate Ew; injection Ew as <- <-; split; try reflexivity; discriminate. }
  destruct Hf as [Hf Hk].
  assert (T : forall name : str, adds (bind (test (at_ toks 0 newline_kind) empty_
      (bind (space toks n) (fun _ => bind (sub_parse toks (command_arguments toks n)) (fun _ => space toks n)))) (fun _ =>
     bind (try_skip toks newline_kind) (fun _ =>
     let end_name := normalize (replace_all (length name) name (lit "begin") (lit "end")) in
     bind (wrap_body toks st n (fun l => can_search toks (at_vec toks [kCmdPrefix; fin]) l &&
           (if is kCmdDynamicBlockBegin k
            then has_next toks l 2 && negb (AttrModel.str_eqb (normalize (text_at toks 1 l)) end_name) else true))) (fun _ =>
     bind (try_skip toks (is kCmdPrefix)) (fun _ => try_skip toks (is fin))))))).
  { intros name. cbv zeta. go. intros x X. apply is_eq in X. subst. exact Hf. }
  destruct (is kCmdDynamicBlockBegin k) eqn:Ed.
  - apply name_adds. exact T.
  - eapply spec_bind; [apply (spec_ret toks unit tt)|]. intros ?; cbv beta. eapply spec_bind; [apply spec_ask|]. intros name; cbv beta.
    apply adds_bind; [|intros ?; apply (T name)]. apply spec_next. intros l O [_ [_ [H _]]]. apply kind_at_head in H; [|exact O]. revert H. apply head_impl.
    intros x X. apply is_eq in X. subst. auto.
Qed.
Lemma src_adds : forall n, adds (src toks st n).
Proof.
  intros n. unfold src. apply spec_guard. apply adds_bind; [go|]. intros ?. apply adds_bind; [go|]. intros ?. apply adds_bind; [go|]. intros ?.
  apply adds_bind; [go|]. intros ?. apply adds_bind; [go|]. intros ?. apply adds_bind; [go|]. intros ?. apply adds_bind.
  - apply spec_guard. apply code_body_adds.
  - intros ?. go.
Qed.
Hint Resolve text_wrap_adds src_adds : parse.
Lemma list_item_adds : forall n, adds (list_item toks st n).
Proof.
  intros n. unfold list_item. go. apply fills_bind; [apply collect_fills|]. intros [|i ids].
  - eapply spec_weaken; [apply (spec_empty toks [] (fun _ => True))| |]; triv.
  - apply spec_then; [apply spec_in_par|]. go; apply must_skip_adds; reflexivity.
Qed.
Hint Resolve list_item_adds : parse.
Lemma list_adds : forall n, adds (list_ toks st n).
Proof. intros n. unfold list_. go. Qed.
Hint Resolve list_adds : parse.
Lemma logbook_adds : forall n, adds (logbook toks st n).
Proof. intros n. unfold logbook. go. Qed.
Hint Resolve logbook_adds : parse.
Lemma drawer_adds : forall n, adds (drawer toks st n).
Proof. intros n. unfold drawer. go. Qed.
Hint Resolve drawer_adds : parse.
Lemma element_adds : forall b (m : M unit) P, adds m -> adds_if P (element b m).
Proof. intros b m P H. unfold element. go. Qed.
Lemma subtree_adds : forall n, adds (subtree toks st n).
Proof. intros n. unfold subtree. go; apply element_adds; auto with parse. Qed.
Hint Resolve subtree_adds : parse.
End Statements.

Lemma text_attrs_adds : forall n, adds (text_attrs toks n).
Proof. intros n. unfold text_attrs. go. apply fills_bind; [apply collect_fills|]. intros ids. apply spec_par_of. Qed.
Hint Resolve text_attrs_adds : parse.
Lemma prefix_and_adds : forall k n, structural k = true -> adds (prefix_and toks k n).
Proof. intros k n H. unfold prefix_and. go. intros x X. apply is_eq in X. subst. exact H. Qed.
Lemma command_structural : forall k, match command_class k with
  | KTitle _ | KWords _ | KFiletags | KLatex _ | KList _ | KPropertyRaw | KPropertyText | KInclude | KNamed _ | KPropertyArgs => structural k = true
  | _ => True end.
Proof. destruct k; exact I || reflexivity. Qed.
Lemma line_command_adds : forall n, adds (line_command toks n).
Proof.
  intros n. unfold line_command. eapply spec_bind; [apply spec_kind|]. intros k; cbv beta. pose proof (command_structural k) as H.
  assert (Hk : structural k = true -> forall x, is k x = true -> structural x = true) by (intros S x X; apply is_eq in X; subst; exact S).
  destruct (command_class k); go; auto; apply adds_adds_if; apply prefix_and_adds; auto; reflexivity.
Qed.
Lemma statement_adds : forall n st, adds st -> adds (statement toks n st).
Proof.
  intros n st Hst. unfold statement. eapply spec_bind; [apply spec_kind|]. intros k; cbv beta. destruct (stmt_class k) eqn:Ec.
  - apply adds_adds_if. apply subtree_adds. exact Hst.
  - go. apply adds_adds_if. apply list_adds. exact Hst.
  - go.
  - apply adds_adds_if. apply table_adds. exact Hst.
  - apply adds_adds_if. apply colon_example_adds.
  - eapply spec_bind; [apply spec_kind|]. intros c; cbv beta. destruct (block_class c); apply adds_adds_if.
    + apply src_adds. exact Hst.
    + apply example_adds.
    + apply block_export_adds.
    + apply text_wrap_adds. exact Hst.
    + apply table_adds. exact Hst.
    + apply line_command_adds.
  - intros l g r l' g' O [Ek _] E. unfold bind at 1 in E. destruct (collect toks n (at_ toks 0 paragraph_end) l g) as [[[r1 l1] g1]| | |] eqn:E1; try discriminate.
    destruct (collect_run toks _ _ _ _ _ _ _ O E1) as (O1 & I1 & -> & St & js & -> & R).
    destruct js as [|j js]; cbn [map] in E.
    + cbn [app] in R. assert (S : adds_if (head_is toks structural) (bind (next_ toks) (fun _ => guard nParagraph (ret tt)))).
      { apply adds_bind; [apply spec_next; auto|]. intros ?. go. }
      assert (H : head_is toks structural l1).
      { destruct St as [St|St].
        - apply kind_at_head in Ek; [|exact O]. destruct Ek as (i & q & t & Er & _). rewrite R, St in Er. discriminate.
        - apply at_head in St; [|exact O1]. destruct St as (i & q & t & Er & Et & F). exists i, q, t. split; [exact Er|]. split; [exact Et|].
          apply kind_at_head in Ek; [|exact O]. destruct Ek as (i' & q' & t' & Er' & Et' & F'). rewrite R, Er in Er'. injection Er' as <- <-.
          rewrite Et in Et'. injection Et' as <-. apply is_eq in F'. subst k. destruct (okind t); try discriminate F; try reflexivity. discriminate Ec. }
      destruct (S _ _ _ _ _ O1 H E) as (O2 & I2 & B2 & c & ts & R2 & N2 & K2). split; [exact O2|]. split; [congruence|]. split; [exact B2|].
      exists c, ts. split; [congruence|]. split; [exact N2|exact K2].
    + assert (Ids : ids_ok toks (Some j :: map Some js)) by (exact (ids_ok_seg toks l (j :: js) _ O R)).
      destruct (spec_in_sub toks _ _ (paragraph_eats toks n) _ _ _ _ _ O1 Ids E) as (O2 & I2 & B2 & c & ts & R2 & N2 & K2).
      change (Some j :: map Some js) with (map Some (j :: js)) in K2. rewrite olist_map in K2.
      split; [exact O2|]. split; [congruence|]. split; [exact B2|]. exists ((j :: js) ++ c), ts. split; [rewrite R, R2, app_assoc; reflexivity|].
      split; [exact N2|exact K2].
Qed.
Lemma stmt_adds : forall n, adds (stmt toks n).
Proof. induction n as [|n IH]; [apply spec_spent|]. exact (statement_adds n _ IH). Qed.
Hint Resolve stmt_adds : parse.
Lemma top_loop_adds : forall n, spec [] (fun _ => True) (while_ n (fun l => negb (finished toks l))
  (test (at0 toks kComment) (next_ toks)
    (bind (attempt (stmt toks n)) (fun ok => if (ok : bool) then ret tt
      else guard nErrorSkipGroup (while_ n (can_search toks (at_ toks 0 newline_kind)) (take toks nErrorSkipToken))))))
  (fun _ => []) (fun _ l => rest l = []).
Proof.
  intros n. eapply spec_weaken; [apply (spec_while toks n (fun _ => True))|triv|].
  - go.
  - cbv beta. intros ? l O [_ H]. rewrite finished_rest in H by exact O. destruct (rest l); [reflexivity|discriminate].
Qed.
Lemma top_adds : forall n, spec [] (fun _ => True) (top toks n) (fun _ => []) (fun _ l => rest l = []).
Proof. intros n. apply spec_guard. apply top_loop_adds. Qed.
End Stmt.
