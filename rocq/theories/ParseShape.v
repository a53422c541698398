(** The layout of the nodes the parser makes. *)
From Verif Require Import Base StrModel TokKind KindEq NodeKind.
From Verif Require RegroupModel TreeModel TreeSpec TreeProofs.
From Verif Require Import ParseModel ParseSpec LayoutKindSpec ParseLogic ParseText ParseFold ParseProofs.
Local Open Scope nat_scope.

(** *** Fields *)
Lemma fits_app : forall a b x y, fits a x -> fits b y -> fits (a ++ b) (x ++ y).
Proof.
  induction a as [|[ks|ks|] a IH]; intros b x y Hx Hy; cbn [app fits] in *.
  - subst x. exact Hy.
  - destruct x as [|k x]; [contradiction|]. destruct Hx as [Hk Hx]. split; auto.
  - destruct Hx as (p & q & -> & F & Hq). exists p, (q ++ y). rewrite app_assoc. auto.
  - destruct Hx as (p & q & -> & Hq). exists p, (q ++ y). rewrite app_assoc. auto.
Qed.
Lemma fits_rep : forall ks w, Forall (fun k => In k ks) w -> fits [Rep ks] w.
Proof. intros ks w F. exists w, []. rewrite app_nil_r. cbn. auto. Qed.
Lemma rep_fits : forall ks w, fits [Rep ks] w -> Forall (fun k => In k ks) w.
Proof. intros ks w (a & b & -> & F & E). cbn in E. subst b. rewrite app_nil_r. exact F. Qed.
Lemma fits_any : forall w, fits [Any] w.
Proof. intros w. exists w, []. rewrite app_nil_r. cbn. auto. Qed.
Lemma fits_one : forall k ks, In k ks -> fits [One ks] [k].
Proof. intros. cbn. auto. Qed.
(** [Rep] and [Any] take more. *)
Definition open_field (f : field) : bool := match f with One _ => false | _ => true end.
Lemma fits_open : forall f x y, open_field f = true -> fits [f] x -> fits [f] y -> fits [f] (x ++ y).
Proof.
  intros [ks|ks|] x y O Hx Hy; try discriminate.
  - apply fits_rep. apply Forall_app. split; apply rep_fits; assumption.
  - apply fits_any.
Qed.
Lemma open_nil : forall f, open_field f = true -> fits [f] [].
Proof. intros [ks|ks|] O; try discriminate; [apply fits_rep; constructor|apply fits_any]. Qed.
Definition admits (f : field) (k : nk) : Prop := match f with One ks | Rep ks => In k ks | Any => True end.
Lemma admits_fits : forall f k, admits f k -> fits [f] [k].
Proof. intros [ks|ks|] k H; [apply fits_one; exact H|apply fits_rep; auto|apply fits_any]. Qed.

Section Shape.
Variable toks : list RegroupModel.otok.
Notation kinds := (map (@TreeSpec.kind_of nk (option nat) mono)).
Notation good := (laid_out toks (fun body => body = [])).
Notation at_ := (at_ toks).
Notation at0 := (at0 toks).

Lemma error_flat : forall t, error_in t <-> Exists (fun n => TreeModel.kind n = nErrorInfoToken) (flat t).
Proof. intros t. unfold error_in. rewrite preorder_flat. reflexivity. Qed.
Lemma error_leaf : forall x, error_in (MonoLeaf nErrorInfoToken x).
Proof. intros x. constructor. reflexivity. Qed.
Lemma error_branch : forall k sub, Exists error_in sub -> error_in (Branch k sub).
Proof.
  intros k sub H. apply error_flat. cbn. right. apply Exists_exists in H as (t & Ht & Et). apply error_flat in Et.
  apply Exists_exists in Et as (n & Hn & En). apply Exists_exists. exists n. split; [|exact En]. apply in_flat_map. exists t. auto.
Qed.

(** *** The judgement *)
Definition lxok (l : lx) : Prop := lpos l <> None -> has_next toks l 0 = true.
Lemma advance_ok : forall l, lxok (advance toks l).
Proof.
  intros l. unfold advance, lxok. destruct (lsub l) as [[sp ids]|] eqn:Es; destruct (has_next toks l 1) eqn:Eh; cbn; try congruence;
    unfold has_next in *; rewrite Es in Eh; destruct (lpos l) as [p|]; try discriminate; cbn [lpos lsub option_map]; intros N.
  - destruct (nth (S sp) ids None); [|congruence]. rewrite <- Eh. f_equal. lia.
  - rewrite <- Eh. f_equal. lia.
Qed.
Lemma sub_lexer_ok : forall ids, lxok (sub_lexer ids).
Proof. intros [|[i|] ids] N; [destruct (N eq_refl)|reflexivity|destruct (N eq_refl)]. Qed.

Definition sh {A} (P : lx -> Prop) (m : M A) (Q : option A -> list tree -> Prop) : Prop :=
  forall l g r l' g', lxok l -> P l -> m l g = Ok (r, l', g') ->
    lxok l' /\ pending g' = pending g /\ exists ts, nodes g' = nodes g ++ fflat ts /\ Forall good ts /\ Q r ts.
Definition out {A} (fs : list field) (r : option A) (ts : list tree) : Prop :=
  Exists error_in ts \/ (r <> None /\ fits fs (kinds ts)).
Definition yes (l : lx) : Prop := True.
Notation has m fs := (sh yes m (out fs)).

Lemma sh_weaken : forall A (P P' : lx -> Prop) (m : M A) (Q Q' : option A -> list tree -> Prop), sh P m Q ->
  (forall l, lxok l -> P' l -> P l) -> (forall r ts, Forall good ts -> Q r ts -> Q' r ts) -> sh P' m Q'.
Proof.
  intros A P P' m Q Q' H HP HQ l g r l' g' O p E. destruct (H _ _ _ _ _ O (HP _ O p) E) as (O1 & B & ts & N & G & q).
  split; [exact O1|]. split; [exact B|]. exists ts. auto.
Qed.
Lemma sh_bind : forall A B P (m : M A) (k : A -> M B) Q R (S : option B -> list tree -> Prop),
  sh P m Q -> (forall a, sh yes (k a) (R a)) ->
  (forall a x r y, Forall good x -> Q (Some a) x -> R a r y -> S r (x ++ y)) -> (forall x, Q None x -> S None x) -> sh P (bind m k) S.
Proof.
  intros A B P m k Q R S Hm Hk H1 H2 l g r l' g' O p E. unfold bind in E. destruct (m l g) as [[[[a|] l1] g1]| | |] eqn:Em; try discriminate.
  - destruct (Hm _ _ _ _ _ O p Em) as (O1 & B1 & x & N1 & G1 & q1). destruct (Hk a _ _ _ _ _ O1 I E) as (O2 & B2 & y & N2 & G2 & q2).
    split; [exact O2|]. split; [congruence|]. exists (x ++ y). split; [rewrite N2, N1, TreeProofs.fflat_app, app_assoc; reflexivity|].
    split; [apply Forall_app; auto|]. eapply H1; eauto.
  - injection E as <- <- <-. destruct (Hm _ _ _ _ _ O p Em) as (O1 & B1 & x & N1 & G1 & q1).
    split; [exact O1|]. split; [exact B1|]. exists x. auto.
Qed.
Lemma sh_then : forall A B P (m : M A) (k : A -> M B) Q R (S : option B -> list tree -> Prop),
  sh P m Q -> (forall a, sh yes (k a) R) ->
  (forall a x r y, Forall good x -> Q (Some a) x -> R r y -> S r (x ++ y)) -> (forall x, Q None x -> S None x) -> sh P (bind m k) S.
Proof. intros A B P m k Q R S Hm Hk H1 H2. apply sh_bind with (Q := Q) (R := fun _ => R); auto. Qed.
Lemma has_bind : forall A B P (m : M A) (k : A -> M B) a b, sh P m (out a) -> (forall x, has (k x) b) -> sh P (bind m k) (out (a ++ b)).
Proof.
  intros A B P m k a b Hm Hk. eapply sh_bind; [exact Hm|intros x; exact (Hk x)| |].
  - intros x ts r us _ [E|[_ F]] [E'|[N F']]; try (left; apply Exists_app; auto; fail). right. split; [exact N|]. rewrite map_app. apply fits_app; assumption.
  - intros ts [E|[N _]]; [left; exact E|congruence].
Qed.
Lemma has_skip : forall A B P (m : M A) (k : A -> M B) b, sh P m (out []) -> (forall x, has (k x) b) -> sh P (bind m k) (out b).
Proof. intros. apply (has_bind _ _ _ _ _ [] b); assumption. Qed.
Lemma has_first : forall A B P (m : M A) (k : A -> M B) f b, sh P m (out [f]) -> (forall x, has (k x) b) -> sh P (bind m k) (out (f :: b)).
Proof. intros. apply (has_bind _ _ _ _ _ [f] b); assumption. Qed.
Lemma has_both : forall A B P (m : M A) (k : A -> M B) f, open_field f = true -> sh P m (out [f]) -> (forall x, has (k x) [f]) -> sh P (bind m k) (out [f]).
Proof.
  intros A B P m k f O Hm Hk. eapply sh_bind; [exact Hm|intros x; exact (Hk x)| |].
  - intros x ts r us _ [E|[_ F]] [E'|[N F']]; try (left; apply Exists_app; auto; fail). right. split; [exact N|]. rewrite map_app. apply fits_open; assumption.
  - intros ts [E|[N _]]; [left; exact E|congruence].
Qed.
Lemma sh_test : forall A P c (a b : M A) Q, sh P a Q -> sh P b Q -> sh P (test c a b) Q.
Proof. intros A P c a b Q Ha Hb l g r l' g' O p E. unfold test in E. destruct (c l); eauto. Qed.
Lemma sh_ret : forall A P (a : A) (Q : option A -> list tree -> Prop), Q (Some a) [] -> sh P (ret a) Q.
Proof.
  intros A P a Q q l g r l' g' O p E. injection E as <- <- <-. split; [exact O|]. split; [reflexivity|]. exists []. cbn. rewrite app_nil_r. auto.
Qed.
Lemma out_some_nil : forall A (a : A) fs, fits fs [] -> out fs (Some a) [].
Proof. intros. right. split; [discriminate|exact H]. Qed.
Lemma has_ret : forall A P (a : A) fs, fits fs [] -> sh P (ret a) (out fs).
Proof. intros. apply sh_ret. apply out_some_nil. assumption. Qed.
Lemma sh_crash : forall A P Q, sh P (crash (A:=A)) Q.
Proof. intros A P Q l g r l' g' O p E. discriminate. Qed.
Lemma sh_spent : forall A P Q, sh P (spent (A:=A)) Q.
Proof. intros A P Q l g r l' g' O p E. discriminate. Qed.
Lemma sh_bad : forall A P (Q : option A -> list tree -> Prop), Q None [] -> sh P bad Q.
Proof.
  intros A P Q q l g r l' g' O p E. injection E as <- <- <-. split; [exact O|]. split; [reflexivity|]. exists []. cbn. rewrite app_nil_r. auto.
Qed.
Lemma has_ask : forall A P (f : lx -> A) fs, fits fs [] -> sh P (ask f) (out fs).
Proof.
  intros A P f fs F l g r l' g' O p E. injection E as <- <- <-. split; [exact O|]. split; [reflexivity|]. exists []. cbn. rewrite app_nil_r.
  split; [reflexivity|]. split; [constructor|]. apply out_some_nil. exact F.
Qed.
Lemma has_kind : forall P off fs, fits fs [] -> sh P (kind_ toks off) (out fs).
Proof.
  intros P off fs F l g r l' g' O p E. unfold kind_ in E. destruct (kind_at toks l off); [|discriminate]. injection E as <- <- <-.
  split; [exact O|]. split; [reflexivity|]. exists []. cbn. rewrite app_nil_r. split; [reflexivity|]. split; [constructor|]. apply out_some_nil. exact F.
Qed.
Lemma sh_next : forall P (Q : option unit -> list tree -> Prop), Q (Some tt) [] -> sh P (next_ toks) Q.
Proof.
  intros P Q F l g r l' g' O p E. injection E as <- <- <-. split; [apply advance_ok|]. split; [reflexivity|]. exists []. cbn. rewrite app_nil_r. auto.
Qed.
Lemma has_next_ : forall P fs, fits fs [] -> sh P (next_ toks) (out fs).
Proof. intros. apply sh_next. apply out_some_nil. assumption. Qed.
Lemma has_pop : forall P fs, fits fs [] -> sh P (pop_ toks) (out fs).
Proof.
  intros P fs F l g r l' g' O p E. injection E as <- <- <-. split; [apply advance_ok|]. split; [reflexivity|]. exists []. cbn. rewrite app_nil_r.
  split; [reflexivity|]. split; [constructor|]. apply out_some_nil. exact F.
Qed.
Lemma sh_push : forall P t (Q : option unit -> list tree -> Prop), good t -> flat t = [TreeSpec.node_of t] -> Q (Some tt) [t] -> sh P (push (TreeSpec.node_of t)) Q.
Proof.
  intros P t Q G Ef q l g r l' g' O p E. injection E as <- <- <-. split; [exact O|]. split; [reflexivity|]. exists [t]. cbn. rewrite Ef, app_nil_r. auto.
Qed.
Lemma sh_empty : forall P (Q : option unit -> list tree -> Prop), Q (Some tt) [MonoLeaf nEmpty MNone] -> sh P empty_ Q.
Proof. intros P Q q. apply (sh_push P (MonoLeaf nEmpty MNone)); [constructor; reflexivity|reflexivity|exact q]. Qed.
Lemma has_empty : forall P f, admits f nEmpty -> sh P empty_ (out [f]).
Proof. intros P f H. apply sh_empty. right. split; [discriminate|]. apply admits_fits. exact H. Qed.
Lemma has_tok : forall P k o f, leaf_kind k = true -> admits f k -> sh P (tok_ k o) (out [f]).
Proof.
  intros P k o f L H. apply (sh_push P (Leaf k o)); [constructor; exact L|reflexivity|]. right. split; [discriminate|]. apply admits_fits. exact H.
Qed.
Lemma has_take : forall P k f, leaf_kind k = true -> admits f k -> sh P (take toks k) (out [f]).
Proof. intros P k f L H. unfold take. apply has_skip; [apply has_pop; reflexivity|]. intros o. apply has_tok; assumption. Qed.
Lemma sh_error : forall P (Q : option unit -> list tree -> Prop), (forall r ts, Exists error_in ts -> Q r ts) -> sh P (error_ toks) Q.
Proof.
  intros P Q H l g r l' g' O p E. unfold error_ in E.
  assert (X : sh P (push (TreeSpec.node_of (MonoLeaf nErrorInfoToken MErr))) Q).
  { apply sh_push; [constructor; reflexivity|reflexivity|]. apply H. constructor. apply error_leaf. }
  destruct (if finished toks l then llast l else lpos l) as [i|]; [destruct (has_loc toks i); [|discriminate]|]; exact (X _ _ _ _ _ O p E).
Qed.
Lemma sh_fail : forall A P (Q : option A -> list tree -> Prop), (forall r ts, Exists error_in ts -> Q r ts) -> sh P (fail_ toks) Q.
Proof.
  intros A P Q H. unfold fail_. apply sh_bind with (Q := fun _ ts => Exists error_in ts) (R := fun _ _ ts => ts = []).
  - apply sh_error. auto.
  - intros []. apply sh_bad. reflexivity.
  - intros a x r y _ X ->. rewrite app_nil_r. apply H. exact X.
  - intros x X. apply H. exact X.
Qed.
Lemma has_fail : forall A P fs, sh P (fail_ toks (A:=A)) (out fs).
Proof. intros. apply sh_fail. intros r ts X. left. exact X. Qed.
Lemma has_expect : forall P f fs, fits fs [] -> sh P (expect toks f) (out fs).
Proof. intros. apply sh_test; [apply has_ret; assumption|apply has_fail]. Qed.
Lemma has_try_skip : forall P f fs, fits fs [] -> sh P (try_skip toks f) (out fs).
Proof. intros P f fs F. apply has_skip; [apply has_expect; reflexivity|]. intros []. apply has_next_. exact F. Qed.
Lemma has_must_skip : forall P k fs, fits fs [] -> sh P (must_skip toks k) (out fs).
Proof. intros. apply sh_test; [apply has_next_; assumption|apply sh_crash]. Qed.
Lemma has_try_take : forall P k t f, leaf_kind k = true -> admits f k -> sh P (try_take toks k t) (out [f]).
Proof. intros P k t f L H. apply has_skip; [apply has_expect; reflexivity|]. intros []. apply has_take; assumption. Qed.
Lemma has_sub_parse : forall A P (m : M A) fs, sh P m (out fs) -> sh P (sub_parse toks m) (out fs).
Proof.
  intros A P m fs H l g r l' g' O p E. unfold sub_parse in E. destruct (m l g) as [[[[a|] l1] g1]| | |] eqn:Em; try discriminate.
  - injection E as <- <- <-. exact (H _ _ _ _ _ O p Em).
  - destruct (H _ _ _ _ _ O p Em) as (O1 & B1 & ts & N1 & G1 & Q1).
    destruct (sh_fail A yes (fun _ ts => Exists error_in ts) (fun _ _ x => x) _ _ _ _ _ O1 I E) as (O2 & B2 & us & N2 & G2 & Q2).
    split; [exact O2|]. split; [congruence|]. exists (ts ++ us). split; [rewrite N2, N1, TreeProofs.fflat_app, app_assoc; reflexivity|].
    split; [apply Forall_app; auto|]. left. apply Exists_app. auto.
Qed.
Lemma sh_attempt : forall A P (m : M A) fs, sh P m (out fs) ->
  sh P (attempt m) (fun r ts => exists b, r = Some b /\ (b = false -> Exists error_in ts) /\ out fs r ts).
Proof.
  intros A P m fs H l g r l' g' O p E. unfold attempt in E. destruct (m l g) as [[[[a|] l1] g1]| | |] eqn:Em; try discriminate; injection E as <- <- <-;
    destruct (H _ _ _ _ _ O p Em) as (O1 & B1 & ts & N1 & G1 & Q1); (split; [exact O1|]; split; [exact B1|]; exists ts; split; [exact N1|]; split; [exact G1|]).
  - exists true. split; [reflexivity|]. split; [discriminate|]. destruct Q1 as [Q1|[_ Q1]]; [left; exact Q1|right; split; [discriminate|exact Q1]].
  - exists false. destruct Q1 as [Q1|[Q1 _]]; [|congruence]. split; [reflexivity|]. split; [auto|left; exact Q1].
Qed.
Lemma has_attempt : forall A P (m : M A) fs, sh P m (out fs) -> sh P (attempt m) (out fs).
Proof. intros A P m fs H. eapply sh_weaken; [apply sh_attempt; exact H|auto|]. intros r ts _ (b & _ & _ & Q). exact Q. Qed.
Lemma has_ignore : forall A P (m : M A) fs, sh P m (out fs) -> sh P (ignore m) (out fs).
Proof.
  intros A P m fs H. unfold ignore. rewrite <- (app_nil_r fs). apply has_bind; [apply has_attempt; exact H|]. intros b. apply has_ret. reflexivity.
Qed.
Lemma sh_guard : forall A P k (m : M A) (Q R : option A -> list tree -> Prop), sh P m Q ->
  (forall r ts, Forall good ts -> Q r ts -> laid toks (fun body => body = []) k ts /\ R r [Branch k ts]) -> sh P (guard k m) R.
Proof.
  intros A P k m Q R H HR l g r l' g' O p E. unfold guard in E. rewrite start_tree_eq in E.
  destruct (m l _) as [[[r1 l1] g1]| | |] eqn:Em; try discriminate.
  destruct (H _ _ _ _ _ O p Em) as (O1 & B1 & ts & N1 & G1 & Q1). cbn [TreeModel.nodes TreeModel.pending] in *.
  destruct g1 as [ns1 pd1]. cbn [TreeModel.nodes TreeModel.pending] in *. subst ns1 pd1. rewrite <- app_assoc in E. cbn [app] in E.
  rewrite TreeProofs.end_tree_closes in E. cbn [obind TreeModel.pending] in E. rewrite Nat.eqb_refl in E. injection E as <- <- <-.
  destruct (HR _ _ G1 Q1) as [L HQ]. split; [exact O1|]. split; [reflexivity|]. exists [Branch k ts]. split.
  - cbn [TreeModel.nodes]. rewrite TreeProofs.fflat_length. unfold TreeProofs.fflat. cbn. rewrite app_nil_r. reflexivity.
  - split; [|exact HQ]. constructor; [|constructor]. constructor; assumption.
Qed.
Lemma out_laid : forall A k fs (r : option A) ts, nk_eqb k nSubtree = false -> In fs (layouts k) -> out fs r ts -> laid toks (fun body => body = []) k ts.
Proof.
  intros A k fs r ts N H Q. unfold laid. rewrite N. split; [intros X; rewrite X in H; destruct H|]. destruct Q as [Q|[_ Q]]; [left; exact Q|].
  right. apply Exists_exists. exists fs. auto.
Qed.
Lemma has_guard : forall A P k (m : M A) fs f, nk_eqb k nSubtree = false -> In fs (layouts k) -> admits f k -> sh P m (out fs) -> sh P (guard k m) (out [f]).
Proof.
  intros A P k m fs f N Hf Hk H. eapply sh_guard; [exact H|]. intros r ts G Q. split; [eapply out_laid; eauto|].
  destruct Q as [Q|[Q _]]; [left; constructor; apply error_branch; exact Q|right; split; [exact Q|]]. apply admits_fits. exact Hk.
Qed.
Lemma has_while : forall n P c body f, open_field f = true -> has body [f] -> sh P (while_ n c body) (out [f]).
Proof.
  intros n P c body f O H. apply sh_weaken with (P := yes) (Q := out [f]); [|intros; exact I|auto]. clear P.
  induction n as [|n IH]; cbn [while_]; [apply sh_spent|]. apply sh_test.
  - apply has_both; [exact O|exact H|]. intros []. exact IH.
  - apply has_ret. apply open_nil. exact O.
Qed.
Lemma has_while_nil : forall n P c body, has body [] -> sh P (while_ n c body) (out []).
Proof.
  intros n P c body H. apply sh_weaken with (P := yes) (Q := out []); [|intros; exact I|auto]. clear P.
  induction n as [|n IH]; cbn [while_]; [apply sh_spent|]. apply sh_test.
  - apply has_skip; [exact H|]. intros []. exact IH.
  - apply has_ret. reflexivity.
Qed.
Lemma nil_any : forall A P (m : M A) fs, fits fs [] -> (sh P m (out [])) -> sh P m (out fs).
Proof.
  intros A P m fs F H. eapply sh_weaken; [exact H|auto|]. intros r ts _ [Q|[N Q]]; [left; exact Q|]. cbn in Q. destruct ts; [|discriminate].
  right. split; [exact N|exact F].
Qed.
Lemma has_space : forall n P fs, fits fs [] -> sh P (space toks n) (out fs).
Proof. intros n P fs F. apply nil_any; [exact F|]. apply has_while_nil. apply has_next_. reflexivity. Qed.
Lemma has_newline : forall n P fs, fits fs [] -> sh P (newline toks n) (out fs).
Proof. intros n P fs F. apply nil_any; [exact F|]. apply has_while_nil. apply has_next_. reflexivity. Qed.
Lemma has_collect : forall n stop P fs, fits fs [] -> sh P (collect toks n stop) (out fs).
Proof.
  intros n stop P fs F. apply nil_any; [exact F|]. apply sh_weaken with (P := yes) (Q := out []); [|intros; exact I|auto]. clear P.
  induction n as [|n IH]; cbn [collect]; [apply sh_spent|]. apply sh_test; [|apply has_ret; reflexivity].
  apply has_skip; [apply has_pop; reflexivity|]. intros i. apply has_skip; [exact IH|]. intros r. apply has_ret. reflexivity.
Qed.
Lemma has_collect_until : forall n stop P fs, fits fs [] -> sh P (collect_until toks n stop) (out fs).
Proof.
  intros n stop P fs F. apply nil_any; [exact F|]. apply sh_weaken with (P := yes) (Q := out []); [|intros; exact I|auto]. clear P.
  induction n as [|n IH]; cbn [collect_until]; [apply sh_spent|]. apply sh_test; [apply has_ret; reflexivity|].
  apply has_skip; [apply has_pop; reflexivity|]. intros i. apply has_skip; [exact IH|]. intros r. apply has_ret. reflexivity.
Qed.
Lemma has_run_sub : forall A P ids (m : M A) fs, has m fs -> sh P (run_sub ids m) (out fs).
Proof.
  intros A P ids m fs H l g r l' g' O p E. unfold run_sub in E. destruct (m (sub_lexer ids) g) as [[[r1 l1] g1]| | |] eqn:Em; try discriminate.
  injection E as <- <- <-. destruct (H _ _ _ _ _ (sub_lexer_ok ids) I Em) as (_ & X). split; [exact O|exact X].
Qed.
Lemma has_in_sub : forall A P ids (m : M A) fs, has m fs -> sh P (in_sub ids m) (out fs).
Proof. intros A P [|i ids] m fs H; [apply sh_crash|apply has_run_sub; exact H]. Qed.
End Shape.
