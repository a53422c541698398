(** The layout of statements, headings and the whole document. *)
From Verif Require Import Base StrModel TokKind KindEq NodeKind.
From Verif Require RegroupModel TreeModel TreeSpec TreeProofs.
From Verif Require Import ParseModel ParseSpec LayoutKindSpec ParseLogic ParseText ParseFold ParseProofs ParseShape ParseShapeText ParseShapeFold.
Local Open Scope nat_scope.

Section Stmt.
Variable toks : list RegroupModel.otok.
Notation sh := (sh toks).
Notation has m fs := (sh yes m (out fs)).
Notation good := (laid_out toks (fun body => body = [])).
Notation at_ := (at_ toks).
Notation at0 := (at0 toks).
Notation kinds := (map (@TreeSpec.kind_of nk (option nat) mono)).
Hint Resolve csv_arguments_lays attr_value_lays call_arguments_lays hash_tag_lays paragraph_lays : shape.

Lemma par_of_lays : forall n P ids f, admits f nParagraph -> admits f nEmpty -> sh P (par_of toks n ids) (out [f]).
Proof. intros n P ids f H1 H2. unfold par_of. apply par_or_empty_lays; auto with shape. Qed.
Lemma time_range_any : forall n P, sh P (time_range toks n) (out [Any]).
Proof. intros. apply time_range_lays. intros; exact I. Qed.
Hint Resolve par_of_lays time_range_any : shape.
Lemma command_arguments_lays : forall n P f, admits f nInlineStmtList -> sh P (command_arguments toks n) (out [f]).
Proof. intros n P f H. unfold command_arguments. destruct f; lay. Qed.
Hint Resolve command_arguments_lays : shape.
Lemma cell_ids_lays : forall n P fs, fits fs [] -> sh P (cell_ids toks n) (out fs).
Proof.
  intros n P fs F. apply nil_any; [exact F|]. apply sh_weaken with (P := yes) (Q := out []); [|intros; exact I|auto]. clear P.
  induction n as [|n IH]; cbn [cell_ids]; lay.
Qed.
Lemma pipe_row_lays : forall n P f, admits f nTableRow -> sh P (pipe_row toks n) (out [f]).
Proof.
  intros n P f H. unfold pipe_row. assert (X : forall P, sh P (cell_ids toks n) (out [Any])) by (intros; apply cell_ids_lays; fnil). lay.
Qed.
Lemma block_export_lays : forall n P f, admits f nBlockExport -> sh P (block_export toks n) (out [f]).
Proof. intros n P f H. unfold block_export. lay. Qed.
Lemma colon_example_lays : forall n P f, admits f nColonExample -> sh P (colon_example toks n) (out [f]).
Proof. intros n P f H. unfold colon_example. lay. Qed.
Lemma example_lays : forall n P f, admits f nBlockExample -> sh P (example toks n) (out [f]).
Proof. intros n P f H. unfold example. lay. Qed.
Hint Resolve pipe_row_lays block_export_lays colon_example_lays example_lays : shape.
Lemma property_lays : forall n P, sh P (property toks n) (out [Rep [nDrawerProperty]]).
Proof. intros n P. unfold property. lay. Qed.
Hint Resolve property_lays : shape.
Lemma properties_lays : forall n P f, admits f nDrawerPropertyList -> sh P (properties toks n) (out [f]).
Proof. intros n P f H. unfold properties. destruct f; lay. Qed.
Hint Resolve properties_lays : shape.
Lemma text_attrs_lays : forall n P f, admits f nAttrs -> sh P (text_attrs toks n) (out [f]).
Proof.
  intros n P f H. unfold text_attrs. apply (has_guard _ _ _ _ _ [One [nParagraph; nEmpty]]); [reflexivity|right; left; reflexivity|exact H|]. lay.
Qed.
Hint Resolve text_attrs_lays : shape.

Section Statements.
Variable stmt : M unit.
Hypothesis Hstmt : forall P, sh P stmt (out [Any]).
Hint Resolve Hstmt : shape.
Lemma block_row_lays : forall n P f, admits f nTableRow -> sh P (block_row toks stmt n) (out [f]).
Proof. intros n P f H. unfold block_row. destruct f; lay. Qed.
Hint Resolve block_row_lays : shape.
Lemma table_lays : forall n P f, admits f nTable -> sh P (table toks stmt n) (out [f]).
Proof. intros n P f H. unfold table. lay. Qed.
Lemma wrap_body_lays : forall n more, has (wrap_body toks stmt n more) [Any].
Proof. induction n as [|n IH]; intros more; cbn [wrap_body]; lay. Qed.
Hint Resolve wrap_body_lays : shape.
Lemma text_wrap_lays : forall n P, sh P (text_wrap toks stmt n) (out [Any]).
Proof.
  intros n P. unfold text_wrap. apply has_skip; [lay|]. intros []. apply has_skip; [lay|]. intros k.
  destruct (wrap_kind k) as [[b fin]|] eqn:Ek; [|lay]. destruct k; try discriminate; injection Ek as <- <-;
    match goal with |- context [is kCmdDynamicBlockBegin ?x] => let v := eval vm_compute in (is kCmdDynamicBlockBegin x) in change (is kCmdDynamicBlockBegin x) with v end;
    cbv iota zeta; lay.
Qed.
Lemma code_part_lays : forall n P, sh P (code_part toks n) (out [Rep [nCodeText; nCodeCallout; nCodeTangle]]).
Proof.
  intros n P. unfold code_part. lay.
Qed.
Hint Resolve code_part_lays : shape.
(** Arguments that are not there are two nodes, but then no code can follow. *)
Lemma src_rest_lays : forall n (W R : M unit) fs,
  has (try_skip toks (is kCmdContentBegin) ;; W) [Any] -> has R fs ->
  has (sub_parse toks (src_arguments toks n) ;; guard nStmtList (try_skip toks (is kCmdContentBegin) ;; W) ;; R) (One [nAttrs] :: One [nStmtList] :: fs).
Proof.
  intros n W R fs HW HR. set (A := guard nAttrs (guard nInlineStmtList (while_ n (at0 kCmdFlag) (try_take toks nCmdFlag (is kCmdFlag))) ;; sub_parse toks (command_arguments toks n))).
  assert (HA : has A [One [nAttrs]]) by (subst A; lay).
  set (G := guard nStmtList (try_skip toks (is kCmdContentBegin) ;; W)). assert (HG : forall P, sh P G (out [One [nStmtList]])).
  { intros P. subst G. apply (has_guard _ _ _ _ _ [Any]); [reflexivity|left; reflexivity|adm|]. eapply sh_weaken; [exact HW|intros; exact I|auto]. }
  intros l g r l' g' O _ E. unfold bind at 1, sub_parse in E. unfold src_arguments, bind at 1 in E.
  destruct (space toks n l g) as [[[[[]|] l0] g0]| | |] eqn:Es; try discriminate.
  2:{ exfalso. destruct (fun H => while_total n (at_ 0 space_kind) (next_ toks) H _ _ _ _ Es). intros l1 g1 l2 g2 X. discriminate. }
  destruct (has_space toks n yes [] eq_refl _ _ _ _ _ O I Es) as (O0 & B0 & t0 & N0 & G0 & Q0). unfold test in E.
  fold A in E. destruct (at_ 0 newline_kind l0) eqn:Ea.
  - unfold bind at 1, empty_, push in E. cbv beta iota in E. 
    assert (HG' : sh (fun l => at_ 0 newline_kind l = true) G (fun r ts => r = None /\ Exists error_in ts)).
    { subst G. apply sh_guard with (Q := fun r ts => r = None /\ Exists error_in ts).
      - intros l2 g2 r2 l3 g3 O2 P2 E2. unfold bind at 1, try_skip, bind at 1, expect, test in E2.
        assert (at_ 0 (is kCmdContentBegin) l2 = false) as X2.
        { unfold ParseModel.at_ in *. destruct (has_next toks l2 0); [|reflexivity]. destruct (kind_at toks l2 0) as [kk|]; [|reflexivity]. destruct kk; try reflexivity; discriminate. }
        rewrite X2 in E2. destruct (fail_ toks l2 g2) as [[[[u|] l4] g4]| | |] eqn:Ef; try discriminate.
        + exfalso. unfold fail_, bind in Ef. destruct (error_ toks l2 g2) as [[[[[]|] ?] ?]| | |]; discriminate.
        + injection E2 as <- <- <-. destruct (sh_fail toks unit yes (fun _ ts => Exists error_in ts) (fun _ _ x => x) _ _ _ _ _ O2 I Ef) as (O4 & B4 & t4 & N4 & G4 & Q4).
          split; [exact O4|]. split; [exact B4|]. exists t4. auto.
      - intros r2 ts _ [-> X]. split; [split; [discriminate|left; exact X]|]. split; [reflexivity|]. constructor. apply error_branch. exact X. }
    set (g2 := fst _) in E at 1. unfold bind at 1 in E. 
    destruct (G l0 g2) as [[[r3 l3] g3]| | |] eqn:Eg; try discriminate.
    destruct (HG' _ _ _ _ _ O0 Ea Eg) as (O3 & B3 & t3 & N3 & G3 & -> & Q3). injection E as <- <- <-. split; [exact O3|]. split; [rewrite B3; exact B0|].
    exists (t0 ++ [MonoLeaf nEmpty MNone; MonoLeaf nEmpty MNone] ++ t3). split.
    + rewrite N3. subst g2. cbn. rewrite N0, !TreeProofs.fflat_app. cbn. rewrite <- !app_assoc. reflexivity.
    + split; [apply Forall_app; split; [exact G0|]; apply Forall_app; split; [repeat constructor|exact G3]|]. left. apply Exists_app. right. apply Exists_app. right. exact Q3.
  - assert (X : has (sub_parse toks A ;; G ;; R) (One [nAttrs] :: One [nStmtList] :: fs)).
    { apply has_first; [apply has_sub_parse; exact HA|]. intros []. apply has_first; [apply HG|]. intros []. exact HR. }
    assert (E' : (sub_parse toks A ;; G ;; R) l0 g0 = Ok (r, l', g')). { unfold bind at 1, sub_parse. exact E. }
    destruct (X _ _ _ _ _ O0 I E') as (O1 & B1 & t1 & N1 & G1 & Q1). split; [exact O1|]. split; [congruence|]. exists (t0 ++ t1).
    split; [rewrite N1, N0, TreeProofs.fflat_app, app_assoc; reflexivity|]. split; [apply Forall_app; auto|].
    destruct Q0 as [Q0|[_ Q0]]; [left; apply Exists_app; auto|]. destruct t0; [|discriminate]. exact Q1.
Qed.
Lemma src_lays : forall n P f, admits f nBlockCode -> sh P (src toks stmt n) (out [f]).
Proof.
  intros n P f H. unfold src. apply (has_guard _ _ _ _ _ [One [nWord; nEmpty]; One [nAttrs]; One [nStmtList]; One [nCmdResults; nEmpty]]);
    [reflexivity|left; reflexivity|exact H|]. do 3 (apply has_skip; [lay|]; intros []). apply has_first; [lay|]. intros [].
  apply has_skip; [lay|]. intros []. apply src_rest_lays; lay.
Qed.
Lemma list_item_lays : forall n P f, admits f nListItem -> sh P (list_item toks stmt n) (out [f]).
Proof.
  intros n P f H. unfold list_item. lay.
Qed.
Hint Resolve list_item_lays : shape.
Lemma list_lays : forall n P f, admits f nList -> sh P (list_ toks stmt n) (out [f]).
Proof. intros n P f H. unfold list_. lay. Qed.
Hint Resolve list_lays : shape.
Lemma logbook_lays : forall n P f, admits f nDrawerLogbook -> sh P (logbook toks stmt n) (out [f]).
Proof. intros n P f H. unfold logbook. lay. Qed.
Hint Resolve logbook_lays : shape.

(** *** Headings: nine fields whatever fails *)
Definition quiet (m : M unit) : Prop := sh yes m (fun r ts => r <> None /\ ts = []).
Definition once (m : M unit) (ks : list nk) : Prop :=
  sh yes m (fun r ts => exists t, ts = [t] /\ In (TreeSpec.kind_of t) ks /\ (r = None -> Exists error_in ts)).
Lemma while_quiet : forall n c body, quiet body -> quiet (while_ n c body).
Proof.
  intros n c body H. induction n as [|n IH]; cbn [while_]; [apply sh_spent|]. apply sh_test; [|apply sh_ret; split; [discriminate|reflexivity]].
  eapply sh_then; [exact H|intros []; exact IH| |].
  - intros a x r y _ [_ ->] [N ->]. auto.
  - intros x [N _]. congruence.
Qed.
Lemma space_quiet : forall n, quiet (space toks n).
Proof. intros n. apply while_quiet. apply sh_next. split; [discriminate|reflexivity]. Qed.
Lemma newline_quiet : forall n, quiet (newline toks n).
Proof. intros n. apply while_quiet. apply sh_next. split; [discriminate|reflexivity]. Qed.
Lemma when_quiet : forall c m, quiet m -> quiet (when_ c m).
Proof. intros c m H. apply sh_test; [exact H|]. apply sh_ret. split; [discriminate|reflexivity]. Qed.
Lemma quiet_once : forall m k ks, quiet m -> once k ks -> once (m ;; k) ks.
Proof.
  intros m k ks Hm Hk. eapply sh_then; [exact Hm|intros []; exact Hk| |].
  - intros a x r y _ [_ ->] H. exact H.
  - intros x [N _]. congruence.
Qed.
Lemma once_leaf : forall m k, sh yes m (fun r ts => r <> None /\ exists t, ts = [t] /\ TreeSpec.kind_of t = k) -> forall ks, In k ks -> once m ks.
Proof.
  intros m k H ks Hk. eapply sh_weaken; [exact H|auto|]. intros r ts _ (N & t & -> & <-). exists t. split; [reflexivity|]. split; [exact Hk|]. intros X. congruence.
Qed.
Lemma empty_once : forall ks, In nEmpty ks -> once empty_ ks.
Proof. intros ks H. eapply once_leaf; [|exact H]. apply sh_empty. split; [discriminate|]. eexists. split; reflexivity. Qed.
Lemma take_once : forall k ks, leaf_kind k = true -> In k ks -> once (take toks k) ks.
Proof.
  intros k ks L H l g r l' g' O p E. unfold take, bind, pop_, tok_, push in E. injection E as <- <- <-. split; [apply advance_ok|]. split; [reflexivity|].
  exists [Leaf k (lpos l)]. split; [reflexivity|]. split; [constructor; [constructor; exact L|constructor]|]. eexists. split; [reflexivity|]. split; [exact H|discriminate].
Qed.
Lemma guard_once : forall k (m : M unit) fs ks, nk_eqb k nSubtree = false -> In fs (layouts k) -> In k ks -> has m fs -> once (guard k m) ks.
Proof.
  intros k m fs ks N Hf Hk H. eapply sh_guard; [exact H|]. intros r ts G Q. split; [eapply out_laid; eauto|]. eexists. split; [reflexivity|]. split; [exact Hk|].
  intros ->. destruct Q as [Q|[Q _]]; [|congruence]. constructor. apply error_branch. exact Q.
Qed.
Lemma test_once : forall c a b ks, once a ks -> once b ks -> once (test c a b) ks.
Proof. intros. apply sh_test; assumption. Qed.

Lemma todo_once : forall n, once (todo toks n) [nBigIdent; nEmpty].
Proof. intros n. apply quiet_once; [apply space_quiet|]. apply test_once; [apply take_once; [reflexivity|adm]|apply empty_once; adm]. Qed.
Lemma urgency_once : forall n, once (urgency toks n) [nSubtreeUrgency; nEmpty].
Proof. intros n. apply quiet_once; [apply space_quiet|]. apply test_once; [apply take_once; [reflexivity|adm]|apply empty_once; adm]. Qed.
Lemma completion_once : forall n, once (completion toks n) [nSubtreeCompletion; nEmpty].
Proof. intros n. apply quiet_once; [apply space_quiet|]. apply test_once; [apply take_once; [reflexivity|adm]|apply empty_once; adm]. Qed.
Lemma paragraph_once : forall n ks, In nParagraph ks -> once (sub_parse toks (paragraph toks n)) ks.
Proof.
  intros n ks H l g r l' g' O p E. unfold sub_parse in E. destruct (paragraph toks n l g) as [[[[u|] l1] g1]| | |] eqn:Ep; try discriminate;
    destruct (paragraph_exact toks n yes _ _ _ _ _ O p Ep) as (O1 & B1 & ts & N1 & G1 & Nr & sub & ->); [|congruence].
  injection E as <- <- <-. split; [exact O1|]. split; [exact B1|]. eexists. split; [exact N1|]. split; [exact G1|].
  eexists. split; [reflexivity|]. split; [exact H|discriminate].
Qed.
Lemma in_sub_once : forall ids m ks, once m ks -> once (in_sub ids m) ks.
Proof.
  intros [|i ids] m ks H; [apply sh_crash|]. intros l g r l' g' O p E. unfold in_sub, run_sub in E.
  destruct (m (sub_lexer (i :: ids)) g) as [[[r1 l1] g1]| | |] eqn:Em; try discriminate. injection E as <- <- <-.
  destruct (H _ _ _ _ _ (sub_lexer_ok toks (i :: ids)) I Em) as (_ & X). split; [exact O|exact X].
Qed.
Lemma title_once : forall n, once (title toks n) [nParagraph; nEmpty].
Proof.
  intros n. apply quiet_once; [apply space_quiet|]. apply sh_then with (Q := fun r ts => r <> None /\ ts = []) (R := fun r ts => exists t, ts = [t] /\ In (TreeSpec.kind_of t) [nParagraph; nEmpty] /\ (r = None -> Exists error_in ts)).
  - generalize (fun l : lx => at_ 0 newline_kind l || at_tags toks l || at0 kSubtreeCompletion l). intros stop. induction n as [|n IH]; cbn [collect]; [apply sh_spent|].
    apply sh_test; [|apply sh_ret; split; [discriminate|reflexivity]].
    eapply sh_then with (Q := fun r ts => r <> None /\ ts = []) (R := fun r ts => r <> None /\ ts = []); [| | |intros x [N _]; congruence].
    + intros l g r l' g' O p E. injection E as <- <- <-. split; [apply advance_ok|]. split; [reflexivity|]. exists []. cbn. rewrite app_nil_r.
      split; [reflexivity|]. split; [constructor|]. split; [discriminate|reflexivity].
    + intros i. eapply sh_then; [exact IH|intros r; apply sh_ret with (Q := fun r ts => r <> None /\ ts = []); split; [discriminate|reflexivity]| |intros x [N _]; congruence].
      intros a x r y _ [_ ->] [N ->]. auto.
    + intros a x r y _ [_ ->] [N ->]. auto.
  - intros ids. unfold par_of, par_or_empty. destruct ids; [apply empty_once; adm|]. apply in_sub_once. apply paragraph_once. adm.
  - intros a x r y _ [_ ->] H. exact H.
  - intros x [N _]. congruence.
Qed.
Lemma tags_once : forall n, once (tags toks n) [nInlineStmtList; nEmpty].
Proof.
  intros n. apply test_once; [|apply empty_once; adm]. apply guard_once with (fs := [Any]); [reflexivity|left; reflexivity|adm|]. lay.
Qed.
Lemma times_once : forall n, once (times toks n) [nStmtList; nEmpty].
Proof.
  intros n. apply test_once; [|apply empty_once; adm]. apply quiet_once; [apply space_quiet|].
  apply guard_once with (fs := [Any]); [reflexivity|left; reflexivity|adm|]. lay.
Qed.
Lemma drawer_once : forall n, once (drawer toks stmt n) [nDrawer; nEmpty].
Proof.
  intros n. apply guard_once with (fs := [Rep [nDrawerPropertyList; nDrawerLogbook]]); [reflexivity|left; reflexivity|adm|]. lay.
Qed.
Definition flagged (f : bool) (m : M bool) (ks : list nk) : Prop :=
  sh yes m (fun r ts => exists t b, ts = [t] /\ In (TreeSpec.kind_of t) ks /\ r = Some b /\ (b = true -> f = true \/ Exists error_in ts)).
Lemma element_flagged : forall f m ks, In nEmpty ks -> once m ks -> flagged f (element f m) ks.
Proof.
  intros f m ks He H. unfold element. destruct f.
  - eapply sh_then; [apply (sh_empty toks yes (fun r ts => r <> None /\ ts = [MonoLeaf nEmpty MNone])); split; [discriminate|reflexivity]|
      intros []; apply sh_ret with (Q := fun r ts => r = Some true /\ ts = []); auto| |].
    + intros a x r y _ [_ ->] [-> ->]. eexists. exists true. split; [reflexivity|]. split; [exact He|]. auto.
    + intros x [N _]. congruence.
  - intros l g r l' g' O p E. unfold bind, attempt in E. destruct (m l g) as [[[[u|] l1] g1]| | |] eqn:Em; try discriminate; injection E as <- <- <-;
      destruct (H _ _ _ _ _ O p Em) as (O1 & B1 & ts & N1 & G1 & t & -> & Hk & X); (split; [exact O1|]; split; [exact B1|]; exists [t]; split; [exact N1|]; split; [exact G1|]).
    + exists t, false. split; [reflexivity|]. split; [exact Hk|]. split; [reflexivity|]. discriminate.
    + exists t, true. split; [reflexivity|]. split; [exact Hk|]. split; [reflexivity|]. auto.
Qed.
(** The fields from one on, and the empty body. *)
Definition line (fs : list field) (f : bool) (m : M unit) : Prop :=
  sh yes m (fun r ts => exists us, ts = us ++ [Branch nStmtList []] /\ fits fs (kinds us) /\ (r = None -> f = true \/ Exists error_in us)).
Lemma line_quiet : forall fs f m k, quiet m -> line fs f k -> line fs f (m ;; k).
Proof.
  intros fs f m k Hm Hk. eapply sh_then; [exact Hm|intros []; exact Hk| |].
  - intros a x r y _ [_ ->] H. exact H.
  - intros x [N _]. congruence.
Qed.
Lemma line_field : forall ks fs f m (k : bool -> M unit), flagged f m ks -> (forall f', line fs f' (k f')) -> line (One ks :: fs) f (bind m k).
Proof.
  intros ks fs f m k Hm Hk. eapply sh_bind; [exact Hm|intros f'; exact (Hk f')| |].
  - intros b x r y _ (t & b' & -> & Ht & E & Hb) (us & -> & Fu & Hu). injection E as <-. exists (t :: us). split; [reflexivity|]. split; [split; [exact Ht|exact Fu]|].
    intros Er. destruct (Hu Er) as [X|X]; [destruct (Hb X) as [Y|Y]; [left; exact Y|right; inversion Y as [? ? Z|? ? Z]; subst; [left; exact Z|inversion Z]]|right; right; exact X].
  - intros x (t & b' & _ & _ & E & _). discriminate.
Qed.
Lemma line_end : forall f : bool, line [] f (guard nStmtList (ret tt) ;; if f then bad else ret tt).
Proof.
  intros f. apply sh_then with (Q := fun r ts => r = Some tt /\ ts = [Branch nStmtList []]) (R := fun r ts => ts = [] /\ (r = None -> f = true)).
  - apply sh_guard with (Q := fun r ts => r = Some tt /\ ts = []); [apply sh_ret; auto|]. intros r ts _ [-> ->]. split; [|auto].
    split; [discriminate|right; constructor; apply fits_any].
  - intros []. destruct f; [apply sh_bad; auto|apply sh_ret; split; [reflexivity|discriminate]].
  - intros a x r y _ [_ ->] [-> H]. exists []. split; [reflexivity|]. split; [reflexivity|]. auto.
  - intros x [X _]. discriminate.
Qed.
Lemma star_token : forall l, at0 kSubtreeStars l = true -> exists i t, lpos l = Some i /\ nth_error toks i = Some t /\ RegroupModel.okind t = kSubtreeStars.
Proof.
  intros l H. unfold ParseModel.at0, ParseModel.at_, kind_at, tok_at in H. apply andb_true_iff in H as [_ H]. destruct (lpos l) as [i|]; [|discriminate].
  rewrite Nat.add_0_r in H. destruct (nth_error toks i) as [t|] eqn:Et; [|discriminate]. exists i, t. split; [reflexivity|]. split; [exact Et|]. cbn [option_map] in H. apply is_eq in H. congruence.
Qed.
Lemma subtree_lays : forall n f, admits f nSubtree -> sh (fun l => at0 kSubtreeStars l = true) (subtree toks stmt n) (out [f]).
Proof.
  intros n f Hf. unfold subtree. apply sh_guard with (Q := fun r ts => heading_laid toks (fun body => body = []) ts /\ (r = None -> Exists error_in ts)).
  2:{ intros r ts G [H X]. split; [exact H|]. destruct r as [u|]; [right; split; [discriminate|apply admits_fits; exact Hf]|]. left. constructor. apply error_branch. auto. }
  match goal with |- sh _ (bind _ ?k) _ => assert (L : line heading_fields false (k tt)) end.
  { cbv beta. apply line_field; [apply element_flagged; [adm|apply todo_once]|]. intros f1. apply line_field; [apply element_flagged; [adm|apply urgency_once]|]. intros f2.
    apply line_quiet; [apply space_quiet|]. apply line_field; [apply element_flagged; [adm|apply title_once]|]. intros f3.
    apply line_field; [apply element_flagged; [adm|apply completion_once]|]. intros f4. apply line_quiet; [apply space_quiet|].
    apply line_field; [apply element_flagged; [adm|apply tags_once]|]. intros f5. apply line_quiet; [apply when_quiet; apply newline_quiet|].
    apply line_field; [apply element_flagged; [adm|apply times_once]|]. intros f6. apply line_quiet; [apply when_quiet; apply newline_quiet|].
    apply line_field; [|intros f7; apply line_quiet; [apply newline_quiet|apply line_end]].
    apply sh_test; [apply element_flagged; [adm|apply drawer_once]|].
    eapply sh_then; [apply (sh_empty toks yes (fun r ts => r <> None /\ ts = [MonoLeaf nEmpty MNone])); split; [discriminate|reflexivity]|
      intros []; apply sh_ret with (Q := fun r ts => r = Some f6 /\ ts = []); auto| |intros x [N _]; congruence].
    intros a x r y _ [_ ->] [-> ->]. eexists. exists f6. split; [reflexivity|]. split; [adm|]. auto. }
  intros l g r l' g' O p E. unfold bind at 1, try_take, bind at 1, expect, test in E. unfold ParseModel.at0 in p. rewrite p in E. unfold ret at 1, take, bind at 1, pop_, tok_, push in E. 
  match type of E with ?m ?a ?b = _ => destruct (L a b _ _ _ (advance_ok toks l) I E) as (O1 & B1 & ts & N1 & G1 & us & -> & Fu & X) end.
  destruct (star_token l p) as (i & t & Ei & Et & Ek). split; [exact O1|]. split; [rewrite B1; reflexivity|]. exists (Leaf nRawText (Some i) :: us ++ [Branch nStmtList []]).
  split. { rewrite N1, Ei. cbn. rewrite <- app_assoc. reflexivity. }
  split; [constructor; [constructor; reflexivity|exact G1]|]. split.
  - exists i, t, us, []. auto.
  - intros Er. destruct (X Er) as [Y|Y]; [discriminate|]. right. apply Exists_app. left. exact Y.
Qed.
End Statements.

Lemma line_command_lays : forall n P, sh P (line_command toks n) (out [Any]).
Proof.
  intros n P. unfold line_command. apply has_skip; [lay|]. intros k. destruct (command_class k) eqn:Ek; unfold prefix_and; try lay.
  all: destruct k; try discriminate; injection Ek as <-; lay.
Qed.
Lemma statement_lays : forall n stmt P, (forall P, sh P stmt (out [Any])) -> sh P (statement toks n stmt) (out [Any]).
Proof.
  intros n stmt P H l g r l' g' O p E. unfold statement in E. destruct (kind_at toks l 0) as [k|] eqn:Ek; [|unfold bind at 1, kind_ in E; rewrite Ek in E; discriminate].
  apply (kind_run toks _ _ _ _ k) in E; [|exact Ek]. 
  assert (X : forall m, has m [Any] -> m l g = Ok (r, l', g') ->
    lxok toks l' /\ pending g' = pending g /\ exists ts, nodes g' = nodes g ++ fflat ts /\ Forall good ts /\ out [Any] r ts).
  { intros m Hm Em. exact (Hm _ _ _ _ _ O I Em). }
  pose proof (fun n P => table_lays stmt H n P Any I). pose proof (fun n P => colon_example_lays n P Any I). pose proof (fun n P => src_lays stmt H n P Any I).
  pose proof (fun n P => example_lays n P Any I). pose proof (fun n P => block_export_lays n P Any I). pose proof (text_wrap_lays stmt H).
  pose proof line_command_lays.
  assert (Lk : match stmt_class k with STake b => leaf_kind b = true | _ => True end) by (destruct k; try exact I; reflexivity).
  destruct (stmt_class k) eqn:Ec.
  - assert (k = kSubtreeStars) as -> by (destruct k; try discriminate; reflexivity).
    refine (subtree_lays stmt H n Any I _ _ _ _ _ O _ E). unfold ParseModel.at0, ParseModel.at_. rewrite Ek. rewrite O; [reflexivity|].
    unfold kind_at, tok_at in Ek. destruct (lpos l); [discriminate|discriminate].
  - refine (X _ _ E). apply has_both; [reflexivity|lay|]. intros []. 
    eapply sh_bind; [apply sh_attempt; apply (list_lays stmt H n yes Any I)| | |].
    + intros ok. apply sh_then with (Q := out (A := unit) [Any]) (R := fun (r : option unit) ts => r = None -> ok = false)
        (S := fun r ts => r = None -> ok = false \/ Exists error_in ts); [apply has_try_skip; fnil| | |].
      * intros []. destruct ok; [apply sh_ret; discriminate|apply sh_bad; auto].
      * intros a x r0 y _ _ Hr Er. left. auto.
      * intros x [Q|[Q _]] _; [right; exact Q|congruence].
    + cbv beta. intros ok x r0 y _ (b & Eb & Hb & _) Hr. injection Eb as <-. destruct r0 as [u|]; [right; split; [discriminate|apply fits_any]|].
      left. apply Exists_app. destruct (Hr eq_refl) as [Y|Y]; auto.
    + intros x (b & Eb & _). discriminate.
  - refine (X _ _ E). lay.
  - refine (X _ _ E). lay.
  - refine (X _ _ E). lay.
  - refine (X _ _ E). apply has_both; [reflexivity|lay|]. intros c. destruct (block_class c); lay.
  - refine (X _ _ E). lay.
Qed.
Lemma stmt_lays : forall n P, sh P (stmt toks n) (out [Any]).
Proof.
  induction n as [|n IH]; intros P; [intros l g r l' g' O p E; discriminate|].
  assert (X : sh P (statement toks n (stmt toks n)) (out [Any])); [|exact X]. apply statement_lays. exact IH.
Qed.
Lemma top_lays : forall n P, sh P (top toks n) (fun r ts => exists sub, ts = [Branch nStmtList sub]).
Proof.
  intros n P. unfold top. eapply sh_guard with (Q := out [Any]).
  2:{ intros r ts _ Q. split; [|eexists; reflexivity]. eapply out_laid; [reflexivity|left; reflexivity|exact Q]. }
  apply has_while; [reflexivity|]. apply sh_test; [lay|]. apply has_both; [reflexivity|apply has_attempt; apply stmt_lays|]. intros ok. lay.
Qed.
End Stmt.

(** Every node of the parsed document before the headings are nested. *)
Lemma flat_laid : forall toks n ns, parse_flat toks n = Ok ns ->
  exists ts, ns = flat (Branch nStmtList ts) /\ Forall (laid_out toks (fun body => body = [])) ts.
Proof.
  intros toks n ns E. unfold parse_flat in E. destruct (top toks n whole TreeModel.empty_group) as [[[r l] g]| | |] eqn:Et; try discriminate. injection E as <-.
  destruct toks as [|t toks].
  - unfold top, guard in Et. destruct n as [|n]; [discriminate|]. cbn [while_] in Et. unfold test at 1 in Et.
    change (negb (finished [] whole)) with false in Et. cbv iota in Et. injection Et as _ _ <-. exists []. split; [reflexivity|constructor].
  - assert (O : lxok (t :: toks) whole) by (intros _; reflexivity).
    destruct (top_lays (t :: toks) n yes _ _ _ _ _ O I Et) as (_ & _ & ts & N & G & sub & ->). exists sub. cbn in N. rewrite app_nil_r in N. split; [exact N|].
    inversion G as [|? ? G1 _]; subst. inversion G1; subst. assumption.
Qed.

