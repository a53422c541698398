(** The layout of paragraphs: nested marks, closed ones and those taken back. *)
From Verif Require Import Base StrModel TokKind KindEq NodeKind.
From Verif Require RegroupModel TreeModel TreeSpec TreeProofs.
From Verif Require Import ParseModel ParseSpec LayoutKindSpec ParseLogic ParseText ParseFold ParseProofs ParseShape ParseShapeText.
Local Open Scope nat_scope.

Section Fold.
Variable toks : list RegroupModel.otok.
Notation sh := (sh toks).
Notation has m fs := (sh yes m (out fs)).
Notation good := (laid_out toks (fun body => body = [])).
Notation lxok := (lxok toks).

Definition okg (f : frame) : Prop := let '(k, _, b) := f in mark k = true /\ Forall good b.

Section Base.
Variables (bn : list node) (q : nat) (bp : list nat) (x : node).
Hypothesis Hx : nth_error bn q = Some x.
Hypothesis Hk : mark (TreeModel.kind x) = false.
Notation Z := (Z bn q bp).
Notation zn := (zn bn).

Definition zsh (m : M unit) : Prop :=
  forall fs ts l r l' g', lxok l -> Forall okg fs -> Forall good ts -> m l (Z fs ts) = Ok (r, l', g') ->
    lxok l' /\ exists pre fs' ts', fs = pre ++ fs' /\ g' = Z fs' ts' /\ Forall good ts'.

Lemma zsh_has : forall m fs, has m fs -> zsh m.
Proof.
  intros m fs0 H fs ts l r l' g' O F G E. destruct (H _ _ _ _ _ O I E) as (O1 & B & us & N & G1 & _). split; [exact O1|].
  exists [], fs, (ts ++ us). split; [reflexivity|]. split; [|apply Forall_app; auto]. destruct g' as [ns pd]. cbn in N, B. subst ns pd. unfold ParseFold.Z. rewrite zn_app. reflexivity.
Qed.
Lemma zsh_test : forall c a b, zsh a -> zsh b -> zsh (test c a b).
Proof. intros c a b Ha Hb fs ts l r l' g' O F G E. unfold test in E. destruct (c l); eauto. Qed.
Lemma zsh_bind : forall m k, zsh m -> zsh k -> zsh (bind m (fun _ => k)).
Proof.
  intros m k Hm Hk' fs ts l r l' g' O F G E. unfold bind in E. destruct (m l (Z fs ts)) as [[[[[]|] l1] g1]| | |] eqn:Em; try discriminate.
  - destruct (Hm _ _ _ _ _ _ O F G Em) as (O1 & pre1 & fs1 & ts1 & Es1 & -> & G1).
    assert (F1 : Forall okg fs1) by (rewrite Es1, Forall_app in F; apply F).
    destruct (Hk' _ _ _ _ _ _ O1 F1 G1 E) as (O2 & pre2 & fs2 & ts2 & Es2 & -> & G2). split; [exact O2|].
    exists (pre1 ++ pre2), fs2, ts2. split; [rewrite Es1, Es2, app_assoc; reflexivity|]. auto.
  - injection E as <- <- <-. exact (Hm _ _ _ _ _ _ O F G Em).
Qed.
Lemma zsh_ignore : forall m, zsh m -> zsh (ignore m).
Proof.
  intros m H fs ts l r l' g' O F G E. unfold ignore, bind, attempt in E. destruct (m l (Z fs ts)) as [[[[u|] l1] g1]| | |] eqn:Em; try discriminate;
    injection E as <- <- <-; exact (H _ _ _ _ _ _ O F G Em).
Qed.
Lemma zsh_while : forall n (c : lx -> bool) body, zsh body -> zsh (while_ n c body).
Proof.
  induction n as [|n IH]; intros c body H; cbn [while_]; [intros fs ts l r l' g' O F G E; discriminate|]. apply zsh_test.
  - apply zsh_bind; [exact H|]. apply IH. exact H.
  - apply zsh_has with (fs := []). apply has_ret. reflexivity.
Qed.
Lemma zn_set' : forall fs k i b ts o, TreeModel.set_nth (zn ((k, i, b) :: fs) ts) (length (zn fs b)) (TreeModel.mkNode nPunctuation (TreeModel.Tok o))
  = Some (zn fs (b ++ Leaf nPunctuation o :: ts)).
Proof. intros. cbn [ParseFold.zn]. rewrite TreeProofs.set_nth_mid, zn_app. reflexivity. Qed.
Lemma begin_zsh : forall k aux, mark k = true -> zsh aux -> zsh (begin_ toks k aux).
Proof.
  intros k aux Mk Ha fs ts l r l' g' O F G E. unfold begin_ in E. rewrite start_tree_eq in E.
  assert (Eg : TreeModel.mkGroup (nodes (Z fs ts) ++ [TreeModel.mkNode k (TreeModel.Ext 0)]) (length (nodes (Z fs ts)) :: pending (Z fs ts)) = Z ((k, 0, ts) :: fs) [])
    by reflexivity.
  rewrite Eg in E. destruct (ignore aux (advance toks l) (Z ((k, 0, ts) :: fs) [])) as [[[r1 l1] g1]| | |] eqn:Em; try discriminate.
  assert (F1 : Forall okg ((k, 0, ts) :: fs)) by (constructor; [split; auto|exact F]).
  destruct (zsh_ignore _ Ha _ _ _ _ _ _ (advance_ok toks l) F1 (Forall_nil _) Em) as (O2 & pre & fs' & ts' & Es & -> & G').
  cbn [pending TreeModel.pending ParseFold.Z] in E. unfold ParseFold.Z at 1 2 in E. cbn [TreeModel.pending] in E. rewrite !zp_length in E.
  destruct pre as [|f pre]; cbn [app] in Es.
  - subst fs'. cbn [length] in E. destruct (Nat.ltb_spec (length fs + S (length bp)) (S (length fs) + S (length bp))); [|lia].
    unfold ParseFold.Z in E. cbn [TreeModel.pending TreeModel.nodes zp] in E. rewrite zn_set' in E. injection E as <- <- <-.
    split; [exact O2|]. exists [], fs, (ts ++ Leaf nPunctuation (lpos l) :: ts'). split; [reflexivity|]. split; [reflexivity|].
    apply Forall_app. split; [exact G|]. constructor; [constructor; reflexivity|exact G'].
  - injection Es as _ Es. rewrite Es, app_length in E. destruct (Nat.ltb_spec (length pre + length fs' + S (length bp)) (length fs' + S (length bp))); [lia|].
    injection E as <- <- <-. split; [exact O2|]. exists pre, fs', ts'. auto.
Qed.
Lemma mark_laid : forall k ts, mark k = true -> laid toks (fun body => body = []) k ts.
Proof.
  intros k ts M. unfold laid. destruct k; try discriminate; (split; [discriminate|right; constructor; apply fits_any]).
Qed.
Lemma end_zsh : forall k, mark k = true -> zsh (end_ toks k).
Proof.
  intros k Mk fs ts l r l' g' O F G E. unfold end_ in E. rewrite (pending_kind _ _ _ _ Hx) in E.
  assert (T : zsh (take toks nPunctuation)) by (apply zsh_has with (fs := [Any]); apply has_take; [reflexivity|exact I]).
  destruct fs as [|[[k' i] b] fs].
  - destruct (nk_eqb (TreeModel.kind x) k) eqn:Ek; [apply nk_eqb_eq in Ek; rewrite Ek in Hk; congruence|]. exact (T _ _ _ _ _ _ O F G E).
  - destruct (nk_eqb k' k) eqn:Ek; [|exact (T _ _ _ _ _ _ O F G E)].
    unfold bind, end_tree_ in E. unfold ParseFold.Z in E. cbn [ParseFold.zn zp] in E. rewrite TreeProofs.end_tree_closes in E. cbn [omap obind] in E.
    injection E as <- <- <-. split; [apply advance_ok|]. exists [(k', i, b)], fs, (b ++ [Branch k' ts]). split; [reflexivity|]. split.
    + unfold ParseFold.Z. rewrite zn_app. cbn. rewrite app_nil_r. f_equal. rewrite TreeProofs.fflat_length. reflexivity.
    + apply Forall_inv in F as [Mk' Gb]. apply Forall_app. split; [exact Gb|]. constructor; [|constructor]. constructor; [apply mark_laid; exact Mk'|exact G].
Qed.
Lemma unknown_zsh : forall k aux, mark k = true -> zsh aux -> zsh (unknown_ toks k aux).
Proof.
  intros k aux Mk Ha fs ts l r l' g' O F G E. unfold unknown_ in E. rewrite (pending_kind _ _ _ _ Hx) in E. destruct (nk_eqb _ k).
  - exact (end_zsh k Mk _ _ _ _ _ _ O F G E).
  - exact (begin_zsh k aux Mk Ha _ _ _ _ _ _ O F G E).
Qed.
End Base.

Definition zfolds (aux : M unit) : Prop := forall bn q bp x, nth_error bn q = Some x -> mark (TreeModel.kind x) = false -> zsh bn q bp aux.
Lemma balanced_exact : forall P aux, zfolds aux ->
  sh P (guard nParagraph (balanced aux)) (fun r ts => r <> None /\ exists sub, ts = [Branch nParagraph sub]).
Proof.
  intros P aux Ha l g r l' g' O _ E. unfold guard in E. rewrite start_tree_eq in E. unfold balanced in E.
  set (bn := nodes g ++ [TreeModel.mkNode nParagraph (TreeModel.Ext 0)]) in *.
  assert (Hx : nth_error bn (length (nodes g)) = Some (TreeModel.mkNode nParagraph (TreeModel.Ext 0))) by (apply TreeProofs.nth_error_mid).
  assert (Eg : TreeModel.mkGroup bn (length (nodes g) :: pending g) = Z bn (length (nodes g)) (pending g) [] []).
  { unfold Z. cbn [zn zp]. rewrite app_nil_r. reflexivity. }
  rewrite Eg in E. destruct (ignore aux l (Z bn (length (nodes g)) (pending g) [] [])) as [[[r1 l1] g1]| | |] eqn:Em; try discriminate.
  destruct (zsh_ignore _ _ _ _ (Ha bn (length (nodes g)) (pending g) _ Hx eq_refl) [] [] _ _ _ _ O (Forall_nil _) (Forall_nil _) Em) as (O1 & pre & fs' & ts' & Es & -> & G1).
  symmetry in Es. apply app_eq_nil in Es as [-> ->].
  assert (r1 <> None) as Nr. { unfold ignore, bind, attempt in Em. destruct (aux l _) as [[[[u|] l2] g2]| | |]; try discriminate; injection Em as <- _ _; discriminate. }
  destruct (length _ =? length _); [|discriminate]. unfold Z in E. cbn [zn zp] in E. unfold bn in E. rewrite <- app_assoc in E. cbn [app] in E.
  rewrite TreeProofs.end_tree_closes in E. cbn [obind TreeModel.pending] in E. rewrite Nat.eqb_refl in E. injection E as <- <- <-.
  split; [exact O1|]. split; [reflexivity|]. exists [Branch nParagraph ts']. split.
  { cbn. rewrite app_nil_r. f_equal. rewrite TreeProofs.fflat_length. reflexivity. }
  split; [|split; [exact Nr|eexists; reflexivity]]. constructor; [|constructor]. constructor; [|exact G1].
  split; [discriminate|]. right. constructor. apply fits_any.
Qed.

Lemma balanced_par : forall P f aux, admits f nParagraph -> zfolds aux -> sh P (guard nParagraph (balanced aux)) (out [f]).
Proof.
  intros P f aux Hf Ha. eapply (sh_weaken toks unit P P); [apply balanced_exact; exact Ha|auto|]. intros r ts _ (N & sub & ->). right. split; [exact N|]. apply admits_fits. exact Hf.
Qed.

Lemma single_zsh : forall n aux bn q bp x, nth_error bn q = Some x -> mark (TreeModel.kind x) = false -> zfolds aux ->
  zsh bn q bp (single toks n aux (guard nParagraph (balanced aux)) (balanced aux)).
Proof.
  intros n aux bn q bp x Hx Hk Hf. assert (He : forall P f, admits f nParagraph -> sh P (guard nParagraph (balanced aux)) (out [f])) by (intros; apply balanced_par; auto).
  assert (Ha : zsh bn q bp aux) by (eapply Hf; eauto).
  intros fs ts l r l' g' O F G E. unfold single in E.
  destruct (kind_at toks l 0) as [k|] eqn:Ek; [|unfold bind at 1, kind_ in E; rewrite Ek in E; discriminate].
  apply (kind_run toks _ _ _ _ k) in E; [|exact Ek].
  assert (T : match text_class k with CBegin b | CEnd b | CUnknown b => mark b = true | CTake b => leaf_kind b = true | _ => True end) by (destruct k; try exact I; reflexivity).
  assert (Zs : forall m, has m [Any] -> m l (Z bn q bp fs ts) = Ok (r, l', g') ->
    lxok l' /\ exists pre fs' ts', fs = pre ++ fs' /\ g' = Z bn q bp fs' ts' /\ Forall good ts').
  { intros m A E'. exact (zsh_has bn q bp m _ A fs ts _ _ _ _ O F G E'). }
  assert (Y : forall ks k, In k ks -> admits Any k) by (intros; exact I).
  pose proof (fun n P => time_range_lays toks n P Any (Y _)). pose proof (fun n P => verbatim_lays toks n P Any (Y _)).
  pose proof (fun n P => angle_target_lays toks n P Any (Y _)). pose proof (fun n P => footnote_lays toks _ He n P Any (Y _)).
  pose proof (fun n P => macro_lays toks n P Any I). pose proof (fun n P => hash_tag_lays toks n P Any I).
  pose proof (fun n P => critic_lays toks _ He n P Any I). pose proof (fun n P => link_lays toks _ He n P Any I).
  pose proof (fun n P => symbol_lays toks (balanced aux) He n P Any I). pose proof (fun n P => src_inline_lays toks n P Any I).
  pose proof (fun P => placeholder_lays toks P Any I I). pose proof (fun P => inline_export_lays toks P Any I).
  destruct (text_class k) eqn:Ec.
  1: exact (begin_zsh bn q bp x Hk _ aux T Ha _ _ _ _ _ _ O F G E).
  1: exact (end_zsh bn q bp x Hx Hk _ T _ _ _ _ _ _ O F G E).
  1: exact (unknown_zsh bn q bp x Hx Hk _ aux T Ha _ _ _ _ _ _ O F G E).
  all: refine (Zs _ _ E); lay.
Qed.
Lemma fold_zsh : forall n, zfolds (fold_text toks n).
Proof.
  induction n as [|n IH]; intros bn q bp x Hx Hk; [intros fs ts l r l' g' O F G E; discriminate|].
  assert (X : zsh bn q bp (fold_text_ toks n (fold_text toks n))); [|exact X]. unfold fold_text_. apply zsh_while. apply zsh_ignore. eapply single_zsh; eauto.
Qed.
Lemma paragraph_lays : forall n P f, admits f nParagraph -> sh P (paragraph toks n) (out [f]).
Proof. intros n P f H. apply balanced_par; [exact H|apply fold_zsh]. Qed.
Lemma paragraph_exact : forall n P, sh P (paragraph toks n) (fun r ts => r <> None /\ exists sub, ts = [Branch nParagraph sub]).
Proof. intros n P. apply balanced_exact. apply fold_zsh. Qed.
End Fold.
