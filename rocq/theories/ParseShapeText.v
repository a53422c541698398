(** The layout of the nodes made inside a line. *)
From Verif Require Import Base StrModel TokKind KindEq NodeKind.
From Verif Require RegroupModel TreeModel TreeSpec TreeProofs.
From Verif Require Import ParseModel ParseSpec LayoutKindSpec ParseLogic ParseText ParseFold ParseProofs ParseShape.
Local Open Scope nat_scope.

Create HintDb shape.
Ltac adm := cbn [admits]; first [exact I | assumption | cbv; repeat first [left; reflexivity | right]].
#[export] Hint Extern 1 (admits _ _) => adm : shape.
Ltac fnil := first [reflexivity | apply open_nil; reflexivity].
Ltac lay :=
  lazymatch goal with
  | |- sh _ _ (bind _ _) (out [Rep _]) => apply has_both; [reflexivity|lay|intros ?; cbv beta; lay]
  | |- sh _ _ (bind _ _) (out [Any]) => apply has_both; [reflexivity|lay|intros ?; cbv beta; lay]
  | |- sh _ _ (bind _ _) (out _) =>
      first [ apply has_skip; [solve [lay]|intros ?; cbv beta; lay]
            | apply has_first; [lay|intros ?; cbv beta; lay] ]
  | |- sh _ _ (test _ _ _) _ => apply sh_test; lay
  | |- sh _ _ (when_ _ _) _ => unfold when_; apply sh_test; lay
  | |- sh _ _ (if ?b then _ else _) _ => destruct b; lay
  | |- sh _ _ (match ?b with [] => _ | _ :: _ => _ end) _ => destruct b; lay
  | |- sh _ _ (guard (if ?b then _ else _) _) _ => destruct b; lay
  | |- sh _ _ (guard ?k _) (out _) =>
      let L := eval cbv in (layouts k) in
      lazymatch L with
      | [?a] => apply (has_guard _ _ _ _ _ a); [reflexivity|left; reflexivity|adm|lay]
      | [?a; ?b] => first [ apply (has_guard _ _ _ _ _ a); [reflexivity|left; reflexivity|adm|solve [lay]]
                          | apply (has_guard _ _ _ _ _ b); [reflexivity|right; left; reflexivity|adm|lay] ]
      end
  | |- sh _ _ (while_ _ _ _) (out []) => apply has_while_nil; lay
  | |- sh _ _ (while_ _ _ _) (out [_]) => apply has_while; [reflexivity|lay]
  | |- sh _ _ (sub_parse _ _) (out _) => apply has_sub_parse; lay
  | |- sh _ _ (ignore _) (out _) => apply has_ignore; lay
  | |- sh _ _ (in_sub _ _) (out _) => apply has_in_sub; lay
  | |- sh _ _ crash _ => apply sh_crash
  | |- sh _ _ spent _ => apply sh_spent
  | |- sh _ _ (fail_ _) _ => apply has_fail
  | |- sh _ _ (ret _) _ => apply has_ret; fnil
  | |- sh _ _ (ask _) _ => apply has_ask; fnil
  | |- sh _ _ (kind_ _ _) _ => apply has_kind; fnil
  | |- sh _ _ (next_ _) _ => apply has_next_; fnil
  | |- sh _ _ (pop_ _) _ => apply has_pop; fnil
  | |- sh _ _ empty_ _ => apply has_empty; adm
  | |- sh _ _ (tok_ _ _) _ => apply has_tok; [first [reflexivity | assumption]|adm]
  | |- sh _ _ (take _ _) _ => apply has_take; [first [reflexivity | assumption]|adm]
  | |- sh _ _ (expect _ _) _ => apply has_expect; fnil
  | |- sh _ _ (try_skip _ _) _ => apply has_try_skip; fnil
  | |- sh _ _ (must_skip _ _) _ => apply has_must_skip; fnil
  | |- sh _ _ (try_take _ _ _) _ => apply has_try_take; [first [reflexivity | assumption]|adm]
  | |- sh _ _ (space _ _) _ => apply has_space; fnil
  | |- sh _ _ (newline _ _) _ => apply has_newline; fnil
  | |- sh _ _ (collect _ _ _) _ => apply has_collect; fnil
  | |- sh _ _ (collect_until _ _ _) _ => apply has_collect_until; fnil
  | |- sh _ _ _ _ => solve [eauto 3 with shape]
  end.

Section Text.
Variable toks : list RegroupModel.otok.
Notation sh := (sh toks).
Notation has m fs := (sh yes m (out fs)).

Lemma csv_arguments_lays : forall n P, sh P (csv_arguments toks n) (out [One [nWord]; Rep [nRawText]]).
Proof. intros n P. unfold csv_arguments. lay. Qed.
Lemma attr_lisp_lays : forall n P f, admits f nAttrLisp -> sh P (attr_lisp toks n) (out [f]).
Proof.
  induction n as [|n IH]; intros P f H; [intros l g r l' g' O p E; discriminate|].
  assert (X : sh P (attr_lisp_ toks n (attr_lisp toks n)) (out [f])); [|exact X]. unfold attr_lisp_. lay.
Qed.
Hint Resolve csv_arguments_lays attr_lisp_lays : shape.
Lemma attr_value_lays : forall n P f, admits f nAttrValue -> sh P (attr_value toks n) (out [f]).
Proof. intros n P f H. unfold attr_value. lay. Qed.
Hint Resolve attr_value_lays : shape.
Lemma call_arguments_lays : forall n P f, admits f nInlineStmtList -> sh P (call_arguments toks n) (out [f]).
Proof. intros n P f H. unfold call_arguments. lay. Qed.
Hint Resolve call_arguments_lays : shape.
Lemma macro_lays : forall n P f, admits f nMacro -> sh P (macro toks n) (out [f]).
Proof. intros n P f H. unfold macro, close_curly. lay. Qed.
Lemma placeholder_lays : forall P f, admits f nPlaceholder -> admits f nPunctuation -> sh P (placeholder toks) (out [f]).
Proof. intros P f H H'. unfold placeholder. lay. Qed.
Lemma hash_list_lays : forall m item k, has item [Rep [nHashTag]] -> has (hash_list toks m item k) [Rep [nHashTag]].
Proof. intros m item k H. induction m as [|m IH]; cbn [hash_list]; lay. Qed.
Lemma hash_tag_lays : forall n P f, admits f nHashTag -> sh P (hash_tag toks n) (out [f]).
Proof.
  induction n as [|n IH]; intros P f H; [intros l g r l' g' O p E; discriminate|].
  assert (X : sh P (hash_tag_ toks n (hash_tag toks n)) (out [f])); [|exact X]. unfold hash_tag_. pose proof hash_list_lays. lay.
Qed.
Lemma time_stamp_lays : forall n P f, (forall k, In k time_kinds -> admits f k) -> sh P (time_stamp toks n) (out [f]).
Proof.
  intros n P f H. assert (H1 := H nStaticActiveTime). assert (H2 := H nStaticInactiveTime). assert (H3 := H nDynamicActiveTime). assert (H4 := H nDynamicInactiveTime).
  cbn in H1, H2, H3, H4. clear H. assert (admits f nStaticActiveTime /\ admits f nStaticInactiveTime /\ admits f nDynamicActiveTime /\ admits f nDynamicInactiveTime) as (? & ? & ? & ?) by tauto.
  clear H1 H2 H3 H4. unfold time_stamp. destruct f; lay.
Qed.
Lemma time_kinds_one : forall k, In k time_kinds -> admits (One time_kinds) k.
Proof. intros k H. exact H. Qed.
Hint Resolve macro_lays placeholder_lays hash_tag_lays time_stamp_lays time_kinds_one : shape.
Lemma time_range_lays : forall n P f, (forall k, In k (nTimeRange :: time_kinds) -> admits f k) -> sh P (time_range toks n) (out [f]).
Proof.
  intros n P f H. assert (H1 : admits f nTimeRange) by (apply H; left; reflexivity).
  assert (H2 : forall k, In k time_kinds -> admits f k) by (intros k Hk; apply H; right; exact Hk). unfold time_range.
  assert (T : forall Q, sh Q (time_stamp toks n) (out [One time_kinds])) by (intros Q; apply time_stamp_lays; apply time_kinds_one). lay.
Qed.
Lemma src_body_lays : forall n b, has (src_body toks n b) [Rep [nCodeText; nCodeCallout; nCodeTangle]].
Proof. induction n as [|n IH]; intros b; cbn [src_body]; lay. Qed.
Hint Resolve src_body_lays : shape.
Lemma src_inline_lays : forall n P f, admits f nSrcInlineCode -> sh P (src_inline toks n) (out [f]).
Proof. intros n P f H. unfold src_inline. lay. Qed.
Lemma verbatim_body_lays : forall n fin c, has (verbatim_body toks n fin c) [Rep [nRawText; nPlaceholder; nPunctuation]].
Proof. induction n as [|n IH]; intros fin c; cbn [verbatim_body]; lay. Qed.
Hint Resolve verbatim_body_lays : shape.
Lemma verbatim_lays : forall n P f, (forall k, In k [nVerbatim; nMonospace; nPunctuation] -> admits f k) -> sh P (verbatim toks n) (out [f]).
Proof.
  intros n P f H. assert (H1 := H nVerbatim). assert (H2 := H nMonospace). assert (H3 := H nPunctuation). cbn in H1, H2, H3.
  assert (admits f nVerbatim /\ admits f nMonospace /\ admits f nPunctuation) as (? & ? & ?) by tauto. clear H H1 H2 H3.
  unfold verbatim. apply has_skip; [lay|]. intros k. cbv zeta. intros l g r l' g' O _ E. unfold bind at 1, ask in E. cbv beta iota in E. unfold bind at 1, node_count in E. cbv beta iota in E.
  unfold bind at 1 in E. match type of E with context [guard ?k ?m l g] => set (gk := k) in *; set (body := m) in * end.
  assert (G : has (guard gk body) [f]). { subst gk body. clear E. destruct (is kMonospaceBegin k); lay. }
  destruct (guard gk body l g) as [[[[b|] l1] g1]| | |] eqn:Eg; try discriminate.
  - destruct (G _ _ _ _ _ O I Eg) as (O1 & B1 & ts & N1 & G1 & Q1). destruct b.
    + injection E as <- <- <-. split; [exact O1|]. split; [exact B1|]. exists ts. split; [exact N1|]. split; [exact G1|].
      destruct Q1 as [Q1|[_ Q1]]; [left; exact Q1|right; split; [discriminate|exact Q1]].
    + unfold bind at 1, drop_tail, TreeModel.remove_tail in E. destruct (length (nodes g) <=? length (nodes g1)); [|discriminate]. cbn [omap obind] in E.
      assert (N2 : firstn (length (nodes g)) (nodes g1) = nodes g) by (rewrite N1, firstn_app, firstn_all, Nat.sub_diag; cbn; apply app_nil_r).
      rewrite N2, B1 in E. unfold bind at 1, set_pos in E. 
      assert (X : forall lz, take toks nPunctuation lz (TreeModel.mkGroup (nodes g) (pending g)) = Ok (r, l', g') ->
        lxok toks l' /\ pending g' = pending g /\ exists us, nodes g' = nodes g ++ fflat us /\ Forall (laid_out toks (fun body => body = [])) us /\ out [f] r us).
      { intros lz Ez. unfold take, bind, pop_, tok_, push in Ez. injection Ez as <- <- <-. split; [apply advance_ok|]. split; [reflexivity|].
        exists [Leaf nPunctuation (lpos lz)]. split; [reflexivity|]. split; [repeat constructor|]. right. split; [discriminate|]. apply admits_fits. assumption. }
      destruct (lsub l1) as [[sp ids]|].
      * destruct (lpos l) as [x|]; [|discriminate]. destruct (index_of ids x); [|discriminate]. exact (X _ E).
      * exact (X _ E).
  - injection E as <- <- <-. destruct (G _ _ _ _ _ O I Eg) as (O1 & B1 & ts & N1 & G1 & Q1). split; [exact O1|]. split; [exact B1|]. exists ts.
    split; [exact N1|]. split; [exact G1|]. destruct Q1 as [Q1|[Q1 _]]; [left; exact Q1|congruence].
Qed.
Lemma angle_target_lays : forall n P f, (forall k, In k [nRadioTarget; nPunctuation] -> admits f k) -> sh P (angle_target toks n) (out [f]).
Proof.
  intros n P f H. assert (H1 : admits f nRadioTarget) by (apply H; left; reflexivity). assert (H2 : admits f nPunctuation) by (apply H; right; left; reflexivity).
  unfold angle_target. apply has_skip; [lay|]. intros k. cbv zeta. lay.
Qed.
Lemma inline_export_lays : forall P f, admits f nInlineExport -> sh P (inline_export toks) (out [f]).
Proof. intros P f H. unfold inline_export. lay. Qed.

Lemma skip_kind_lays : forall n k P fs, fits fs [] -> sh P (skip_kind toks n k) (out fs).
Proof.
  intros n k P fs F. apply nil_any; [exact F|]. apply sh_weaken with (P := yes) (Q := out []); [|intros; exact I|auto]. clear P.
  induction n as [|n IH]; cbn [skip_kind]; lay.
Qed.
Lemma keep_kind_lays : forall n k, has (keep_kind toks n k) [].
Proof. intros n k. induction n as [|n IH]; cbn [keep_kind]; lay. Qed.
Lemma pass_kind_lays : forall n k b, has (pass_kind toks n k b) [].
Proof. intros n k b. induction n as [|n IH]; cbn [pass_kind]; lay. Qed.
Hint Resolve skip_kind_lays keep_kind_lays pass_kind_lays : shape.
Lemma inside_loop_lays : forall n c, has (inside_loop toks n c) [].
Proof. induction n as [|n IH]; intros c; cbn [inside_loop]; lay. Qed.
Lemma get_inside_lays : forall n P fs, fits fs [] -> sh P (get_inside toks n) (out fs).
Proof. intros n P fs F. apply nil_any; [exact F|]. unfold get_inside. apply has_skip; [apply skip_kind_lays; reflexivity|]. intros []. apply inside_loop_lays. Qed.

(** What one field takes of what another takes. *)
Lemma out_admits : forall A P (m : M A) ks f, sh P m (out [One ks]) -> (forall k, In k ks -> admits f k) -> sh P m (out [f]).
Proof.
  intros A P m ks f H Hf. eapply sh_weaken; [exact H|auto|]. intros r ts _ [Q|[N Q]]; [left; exact Q|]. right. split; [exact N|].
  destruct (map _ ts) as [|k [|k' q]]; cbn in Q; [contradiction| |destruct Q; discriminate]. apply admits_fits. apply Hf. apply Q.
Qed.

Section Nested.
Variables par text : M unit.
Hypothesis Hpar : forall P f, admits f nParagraph -> sh P par (out [f]).
Hypothesis Htext : forall P f, admits f nParagraph -> sh P (guard nParagraph text) (out [f]).
Hint Resolve Hpar : shape.
Lemma par_or_empty_lays : forall P ids f, admits f nParagraph -> admits f nEmpty -> sh P (par_or_empty toks par ids) (out [f]).
Proof. intros P ids f H1 H2. unfold par_or_empty. lay. Qed.
Hint Resolve par_or_empty_lays : shape.
Lemma link_lays : forall n P f, admits f nLink -> sh P (link toks par n) (out [f]).
Proof.
  intros n P f H. unfold link. apply (has_guard _ _ _ _ _ [One [nWord; nEmpty]; One [nRawText; nParagraph; nEmpty]; One [nParagraph; nEmpty]]);
    [reflexivity|left; reflexivity|exact H|]. apply sh_test; [lay|]. apply has_skip; [lay|]. intros []. apply has_skip; [lay|]. intros k.
  apply (has_bind _ _ _ _ _ _ [One [nWord; nEmpty]; One [nRawText; nParagraph; nEmpty]] [One [nParagraph; nEmpty]]); [|intros []; lay].
  destruct (protocol_with_target k); [lay|]. destruct (target_only k); lay.
Qed.
Lemma symbol_lays : forall n P f, admits f nSymbol -> sh P (symbol toks text n) (out [f]).
Proof.
  intros n P f H. unfold symbol. pose proof get_inside_lays.
  assert (X : forall ids, has (guard nParagraph (run_sub ids text)) [Any]).
  { intros ids l g r l' g' O p E. rewrite guard_run_sub in E. exact (has_run_sub toks _ _ _ _ _ (Htext _ Any I) _ _ _ _ _ O p E). }
  apply (has_guard _ _ _ _ _ [One [nWord]; One [nInlineStmtList]; One [nInlineStmtList]]); [reflexivity|left; reflexivity|exact H|].
  apply has_first; [lay|]. intros []. apply has_first; [lay|]. intros [].
  apply (has_guard _ _ _ _ _ [Any]); [reflexivity|left; reflexivity|adm|]. apply has_while; [reflexivity|]. apply sh_test; [lay|].
  apply has_both; [reflexivity|apply get_inside_lays; fnil|]. exact X.
Qed.
Lemma footnote_lays : forall n P f, (forall k, In k [nFootnote; nInlineFootnote] -> admits f k) -> sh P (footnote toks par n) (out [f]).
Proof.
  intros n P f H. assert (H1 : admits f nFootnote) by (apply H; left; reflexivity). assert (H2 : admits f nInlineFootnote) by (apply H; right; left; reflexivity).
  unfold footnote. lay.
Qed.
Lemma critic_lays : forall n P f, admits f nCriticMarkStructure -> sh P (critic toks par n) (out [f]).
Proof. intros n P f H. unfold critic. apply has_skip; [lay|]. intros k. cbv zeta. lay. Qed.
End Nested.
End Text.
