(** What the text parser keeps: nested marks, closed ones and those taken back. *)
From Verif Require Import Base StrModel TokKind KindEq NodeKind.
From Verif Require RegroupModel TreeModel TreeSpec TreeProofs.
From Verif Require Import ParseModel ParseSpec ParseLogic ParseText.
Local Open Scope nat_scope.

Section Fold.
Variable toks : list RegroupModel.otok.
Notation drop := (droppable toks).
Notation okl := (okl toks).
Notation rest := (rest toks).
Notation spec := (spec toks).
Notation eats m := (eats toks m).
Notation adds m := (spec [] (fun _ => True) m (fun _ => []) (fun _ _ => True)).
Notation adds_if P m := (spec [] P m (fun _ => []) (fun _ _ => True)).

Lemma keeps_less : forall a c b i, drop i -> keeps drop c (a ++ Some i :: b) -> keeps drop c (a ++ b).
Proof.
  intros a c b i D K. remember (a ++ Some i :: b) as s eqn:E. revert a b E.
  induction K as [|j c ts K IH|j c ts Dj K IH|c ts K IH]; intros a b E.
  - destruct a; discriminate.
  - destruct a as [|x a]; cbn in E; injection E as E1 E2.
    + subst j ts. apply keeps_drop; auto.
    + subst x. cbn. constructor. apply IH. exact E2.
  - apply keeps_drop; [exact Dj|]. apply IH. exact E.
  - destruct a as [|x a]; cbn in E; [discriminate|]. injection E as <- E. cbn. constructor. apply IH. exact E.
Qed.

Definition mark (k : nk) : bool := match k with nBold | nItalic | nUnderline | nStrike => true | _ => false end.
(** An open mark: its kind, its token and what stands before it. *)
Definition frame : Type := nk * nat * list tree.
Definition okf (f : frame) : Prop := let '(k, i, _) := f in mark k = true /\ drop i.

Section Base.
Variables (bn : list node) (q : nat) (bp : list nat) (x : node).
Hypothesis Hx : nth_error bn q = Some x.
Hypothesis Hk : mark (TreeModel.kind x) = false.

Fixpoint zn (fs : list frame) (ts : list tree) : list node :=
  match fs with
  | [] => bn ++ fflat ts
  | (k, _, b) :: fs' => zn fs' b ++ TreeModel.mkNode k (TreeModel.Ext 0) :: fflat ts
  end.
Fixpoint zp (fs : list frame) : list nat :=
  match fs with [] => q :: bp | (k, _, b) :: fs' => length (zn fs' b) :: zp fs' end.
Fixpoint zt (fs : list frame) (ts : list tree) : list (option nat) :=
  match fs with [] => ftoks ts | (_, i, b) :: fs' => zt fs' b ++ Some i :: ftoks ts end.
Definition Z (fs : list frame) (ts : list tree) : grp := TreeModel.mkGroup (zn fs ts) (zp fs).
Lemma zn_app : forall fs a b, zn fs (a ++ b) = zn fs a ++ fflat b.
Proof.
  intros [|[[k i] c] fs] a b; cbn [zn]; rewrite TreeProofs.fflat_app; [apply app_assoc|].
  rewrite <- app_assoc. reflexivity.
Qed.
Lemma zt_app : forall fs a b, zt fs (a ++ b) = zt fs a ++ ftoks b.
Proof. intros [|[[k i] c] fs] a b; cbn [zt]; rewrite ftoks_app; [reflexivity|]. rewrite <- app_assoc. reflexivity. Qed.
Lemma zp_length : forall fs, length (zp fs) = length fs + S (length bp).
Proof. induction fs as [|[[k i] b] fs IH]; cbn; [reflexivity|]. rewrite IH. reflexivity. Qed.

Definition zspec (P : lx -> Prop) (m : M unit) (Q : lx -> Prop) : Prop :=
  forall fs ts l r l' g', okl l -> P l -> Forall okf fs -> m l (Z fs ts) = Ok (r, l', g') ->
    okl l' /\ lids l' = lids l /\
    exists c pre fs' ts', rest l = c ++ rest l' /\ fs = pre ++ fs' /\ g' = Z fs' ts' /\
      (forall c0, keeps drop c0 (zt fs ts) -> keeps drop (c0 ++ c) (zt fs' ts')) /\ (r = Some tt -> Q l').

Lemma zspec_adds : forall P m, adds_if P m -> zspec P m (fun _ => True).
Proof.
  intros P m H fs ts l r l' g' O p F E. destruct (H _ _ _ _ _ O p E) as (O1 & I1 & B1 & c & t1 & R & N & K).
  split; [exact O1|]. split; [exact I1|]. exists c, [], fs, (ts ++ t1). split; [exact R|]. split; [reflexivity|]. split.
  - destruct g' as [ns pd]. cbn in N, B1. subst ns pd. unfold Z. rewrite zn_app. reflexivity.
  - split; [|auto]. intros c0 K0. rewrite zt_app. apply keeps_app; [exact K0|].
    destruct r as [a|]; [destruct K as [K _]; cbn [map app] in K; rewrite app_nil_r in K|]; exact K.
Qed.
Lemma zspec_weaken : forall (P P' Q Q' : lx -> Prop) m, zspec P m Q -> (forall l, okl l -> P' l -> P l) -> (forall l, okl l -> Q l -> Q' l) -> zspec P' m Q'.
Proof.
  intros P P' Q Q' m S HP HQ fs ts l r l' g' O p F E. destruct (S _ _ _ _ _ _ O (HP l O p) F E) as (O1 & I1 & c & pre & fs' & ts' & R & Es & G & K & q1).
  split; [exact O1|]. split; [exact I1|]. exists c, pre, fs', ts'. split; [exact R|]. split; [exact Es|].
  split; [exact G|]. split; [exact K|]. intros e. apply HQ; auto.
Qed.
Lemma zspec_test : forall P c a b Q, zspec (fun l => P l /\ c l = true) a Q -> zspec (fun l => P l /\ c l = false) b Q -> zspec P (test c a b) Q.
Proof.
  intros P c a b Q Ha Hb fs ts l r l' g' O p F E. unfold test in E. destruct (c l) eqn:Ec;
    [exact (Ha _ _ _ _ _ _ O (conj p Ec) F E)|exact (Hb _ _ _ _ _ _ O (conj p Ec) F E)].
Qed.
Lemma zspec_bind : forall P m Q k R, zspec P m Q -> zspec Q k R -> zspec P (bind m (fun _ => k)) R.
Proof.
  intros P m Q k R Hm Hk' fs ts l r l' g' O p F E. unfold bind in E. destruct (m l (Z fs ts)) as [[[[[]|] l1] g1]| | |] eqn:Em; try discriminate.
  - destruct (Hm _ _ _ _ _ _ O p F Em) as (O1 & I1 & c1 & pre1 & fs1 & ts1 & R1 & Es1 & -> & K1 & q1). specialize (q1 eq_refl).
    assert (F1 : Forall okf fs1) by (rewrite Es1, Forall_app in F; apply F).
    destruct (Hk' _ _ _ _ _ _ O1 q1 F1 E) as (O2 & I2 & c2 & pre2 & fs2 & ts2 & R2 & Es2 & -> & K2 & q2).
    split; [exact O2|]. split; [congruence|]. exists (c1 ++ c2), (pre1 ++ pre2), fs2, ts2. split; [rewrite R1, R2, app_assoc; reflexivity|].
    split; [rewrite Es1, Es2, app_assoc; reflexivity|]. split; [reflexivity|]. split; [|exact q2].
    intros c0 K0. rewrite app_assoc. apply K2. apply K1. exact K0.
  - injection E as <- <- <-. destruct (Hm _ _ _ _ _ _ O p F Em) as (O1 & I1 & c1 & pre1 & fs1 & ts1 & R1 & Es1 & -> & K1 & _).
    split; [exact O1|]. split; [exact I1|]. exists c1, pre1, fs1, ts1. split; [exact R1|]. split; [exact Es1|]. split; [reflexivity|].
    split; [exact K1|discriminate].
Qed.
Lemma zspec_ignore : forall P m Q, zspec P m Q -> zspec P (ignore m) (fun _ => True).
Proof.
  intros P m Q H fs ts l r l' g' O p F E. unfold ignore, bind, attempt in E. destruct (m l (Z fs ts)) as [[[[u|] l1] g1]| | |] eqn:Em; try discriminate;
    injection E as <- <- <-; destruct (H _ _ _ _ _ _ O p F Em) as (O1 & I1 & c1 & pre1 & fs1 & ts1 & R1 & Es1 & -> & K1 & _);
    (split; [exact O1|]; split; [exact I1|]; exists c1, pre1, fs1, ts1; auto 6).
Qed.
Lemma zspec_while : forall n (c : lx -> bool) body, zspec (fun l => c l = true) body (fun _ => True) ->
  zspec (fun _ => True) (while_ n c body) (fun l => c l = false).
Proof.
  induction n as [|n IH]; intros c body H; cbn [while_]; [intros fs ts l r l' g' O p F E; discriminate|]. apply zspec_test.
  - eapply zspec_bind; [eapply zspec_weaken; [exact H|intros l O [_ C]; exact C|intros l O C; exact C]|]. apply IH. exact H.
  - intros fs ts l r l' g' O [_ p] F E. injection E as <- <- <-. split; [exact O|]. split; [reflexivity|]. exists [], [], fs, ts.
    split; [reflexivity|]. split; [reflexivity|]. split; [reflexivity|]. split; [|auto]. intros c0 K. rewrite app_nil_r. exact K.
Qed.

(** opening a mark *)
Lemma zn_set : forall fs k i b ts, TreeModel.set_nth (zn ((k, i, b) :: fs) ts) (length (zn fs b)) (TreeModel.mkNode nPunctuation (TreeModel.Tok (Some i)))
  = Some (zn fs (b ++ Leaf nPunctuation (Some i) :: ts)).
Proof. intros. cbn [zn]. rewrite TreeProofs.set_nth_mid, zn_app. reflexivity. Qed.
Lemma begin_zspec : forall k aux Q, mark k = true -> zspec (fun _ => True) aux Q -> zspec (head_is toks structural) (begin_ toks k aux) (fun _ => True).
Proof.
  intros k aux Q Mk Ha fs ts l r l' g' O (i & qr & t & Er & Et & St) F E. unfold begin_ in E. rewrite start_tree_eq in E.
  destruct (advance_rest toks l O) as (O1 & R1 & I1). rewrite Er in R1. cbn [tl] in R1.
  assert (Di : drop i) by (left; exists t; auto).
  assert (Eg : TreeModel.mkGroup (nodes (Z fs ts) ++ [TreeModel.mkNode k (TreeModel.Ext 0)]) (length (nodes (Z fs ts)) :: pending (Z fs ts)) = Z ((k, i, ts) :: fs) [])
    by reflexivity.
  rewrite Eg in E. destruct (ignore aux (advance toks l) (Z ((k, i, ts) :: fs) [])) as [[[r1 l1] g1]| | |] eqn:Em; try discriminate.
  assert (F1 : Forall okf ((k, i, ts) :: fs)) by (constructor; [split; auto|exact F]).
  destruct (zspec_ignore _ _ _ Ha _ _ _ _ _ _ O1 I F1 Em) as (O2 & I2 & c & pre & fs' & ts' & R2 & Es & -> & K & _).
  cbn [pending TreeModel.pending Z] in E. unfold Z at 1 2 in E. cbn [TreeModel.pending] in E. rewrite !zp_length in E.
  assert (Kc : forall c0, keeps drop c0 (zt fs ts) -> keeps drop (c0 ++ i :: c) (zt fs' ts')).
  { intros c0 K0. replace (c0 ++ i :: c) with ((c0 ++ [i]) ++ c) by (rewrite <- app_assoc; reflexivity). apply K. cbn [zt].
    apply keeps_app; [exact K0|]. repeat constructor. }
  assert (Rc : rest l = (i :: c) ++ rest l1) by (rewrite Er, <- R1, R2; reflexivity).
  destruct pre as [|f pre]; cbn [app] in Es.
  - subst fs'. cbn [length] in E. destruct (Nat.ltb_spec (length fs + S (length bp)) (S (length fs) + S (length bp))); [|lia].
    unfold Z in E. cbn [TreeModel.pending TreeModel.nodes zp] in E. rewrite (pos_rest toks _ _ _ O Er), zn_set in E. injection E as <- <- <-.
    split; [exact O2|]. split; [congruence|]. exists (i :: c), [], fs, (ts ++ Leaf nPunctuation (Some i) :: ts'). split; [exact Rc|].
    split; [reflexivity|]. split; [reflexivity|]. split; [|auto]. intros c0 K0. rewrite zt_app. exact (Kc c0 K0).
  - injection Es as _ Es. rewrite Es, app_length in E. destruct (Nat.ltb_spec (length pre + length fs' + S (length bp)) (length fs' + S (length bp))); [lia|].
    injection E as <- <- <-. split; [exact O2|]. split; [congruence|]. exists (i :: c), pre, fs', ts'. split; [exact Rc|]. split; [exact Es|].
    split; [reflexivity|]. split; [exact Kc|auto].
Qed.
Lemma pending_kind : forall fs ts (f : nk -> M unit) l, with_pending f l (Z fs ts) =
  f (match fs with [] => TreeModel.kind x | (k, _, _) :: _ => k end) l (Z fs ts).
Proof.
  intros [|[[k i] b] fs] ts f l; unfold with_pending, Z; cbn [TreeModel.pending TreeModel.nodes zp zn].
  - rewrite nth_error_app1; [rewrite Hx; reflexivity|]. apply nth_error_Some. congruence.
  - rewrite TreeProofs.nth_error_mid. reflexivity.
Qed.
Lemma end_zspec : forall k, mark k = true -> zspec (head_is toks structural) (end_ toks k) (fun _ => True).
Proof.
  intros k Mk fs ts l r l' g' O H F E. unfold end_ in E. rewrite pending_kind in E.
  destruct fs as [|[[k' i] b] fs].
  - destruct (nk_eqb (TreeModel.kind x) k) eqn:Ek; [apply nk_eqb_eq in Ek; rewrite Ek in Hk; congruence|].
    exact (zspec_adds _ _ (take_adds toks nPunctuation (head_is toks structural)) [] ts _ _ _ _ O H F E).
  - destruct (nk_eqb k' k) eqn:Ek.
    2:{ exact (zspec_adds _ _ (take_adds toks nPunctuation (head_is toks structural)) _ ts _ _ _ _ O H F E). }
    unfold bind, end_tree_ in E. unfold Z in E. cbn [zn zp] in E. rewrite TreeProofs.end_tree_closes in E. cbn [omap obind] in E.
    destruct H as (j & qr & t & Er & Et & S). destruct (advance_rest toks l O) as (O1 & R1 & I1). injection E as <- <- <-.
    split; [exact O1|]. split; [exact I1|]. rewrite Er in R1. exists [j], [(k', i, b)], fs, (b ++ [Branch k' ts]). split; [rewrite R1, Er; reflexivity|].
    split; [reflexivity|]. split.
    + unfold Z. rewrite zn_app. cbn. rewrite app_nil_r. f_equal. rewrite TreeProofs.fflat_length. reflexivity.
    + split; [|auto]. intros c0 K0. cbn [zt] in K0. rewrite zt_app, ftoks_branch. rewrite <- (app_nil_r (zt fs b ++ ftoks ts)).
      apply keeps_app; [|apply keeps_drop; [left; exists t; auto|constructor]]. apply keeps_less with (i := i); [|exact K0].
      apply Forall_inv in F. apply F.
Qed.
Lemma unknown_zspec : forall k aux Q, mark k = true -> zspec (fun _ => True) aux Q -> zspec (head_is toks structural) (unknown_ toks k aux) (fun _ => True).
Proof.
  intros k aux Q Mk Ha fs ts l r l' g' O H F E. unfold unknown_ in E. rewrite pending_kind in E. destruct (nk_eqb _ k).
  - exact (end_zspec k Mk _ _ _ _ _ _ O H F E).
  - exact (begin_zspec k aux Q Mk Ha _ _ _ _ _ _ O H F E).
Qed.
End Base.

Definition folds (aux : M unit) : Prop := forall bn q bp x, nth_error bn q = Some x -> mark (TreeModel.kind x) = false ->
  zspec bn q bp (fun _ => True) aux (fun l => rest l = []).
Lemma balanced_eats : forall k aux, mark k = false -> folds aux -> (forall l g l' g', aux l g <> Ok (None, l', g')) -> eats (guard k (balanced aux)).
Proof.
  intros k aux Mk Hf Hn. split.
  - intros l g r l' g' O _ E. unfold guard in E. rewrite start_tree_eq in E. unfold balanced in E.
    set (bn := nodes g ++ [TreeModel.mkNode k (TreeModel.Ext 0)]) in *.
    assert (Hx : nth_error bn (length (nodes g)) = Some (TreeModel.mkNode k (TreeModel.Ext 0))) by (apply TreeProofs.nth_error_mid).
    assert (Eg : TreeModel.mkGroup bn (length (nodes g) :: pending g) = Z bn (length (nodes g)) (pending g) [] []).
    { unfold Z. cbn [zn zp]. rewrite app_nil_r. reflexivity. }
    rewrite Eg in E. unfold ignore, bind, attempt in E.
    destruct (aux l (Z bn (length (nodes g)) (pending g) [] [])) as [[[[[]|] l1] g1]| | |] eqn:Em; try discriminate; [|exfalso; exact (Hn _ _ _ _ Em)].
    destruct (Hf bn (length (nodes g)) (pending g) _ Hx Mk [] [] _ _ _ _ O I (Forall_nil _) Em) as (O1 & I1 & c & pre & fs' & ts' & R & Es & -> & K & R0).
    specialize (R0 eq_refl). symmetry in Es. apply app_eq_nil in Es as [-> ->]. unfold ret in E.
    destruct (length _ =? length _); [|discriminate]. unfold Z in E. cbn [zn zp] in E. unfold bn in E. rewrite <- app_assoc in E. cbn [app] in E.
    rewrite TreeProofs.end_tree_closes in E. cbn [obind TreeModel.pending] in E. rewrite Nat.eqb_refl in E. injection E as <- <- <-.
    split; [exact O1|]. split; [exact I1|]. split; [reflexivity|]. exists c, [Branch k ts']. split; [exact R|]. split.
    + cbn. rewrite app_nil_r. f_equal. rewrite TreeProofs.fflat_length. reflexivity.
    + rewrite ftoks_branch. cbn [map]. rewrite app_nil_r. split; [|exact R0]. apply (K []). constructor.
  - intros l g l' g' O E. unfold guard, balanced, ignore, bind, attempt in E.
    destruct (aux l _) as [[[[[]|] l1] g1]| | |] eqn:Em; try discriminate; unfold ret in E;
      (destruct (length _ =? length _); [|discriminate]); (destruct (TreeModel.end_tree g1 0) as [[g2 j]| | |]; try discriminate); cbn [obind] in E;
      (destruct (length _ =? length _); discriminate).
Qed.

Hint Resolve space_adds newline_adds macro_adds placeholder_adds time_range_adds inline_export_adds src_inline_adds hash_tag_adds
  angle_target_adds : parse.
Lemma single_zspec : forall n aux bn q bp x, nth_error bn q = Some x -> mark (TreeModel.kind x) = false ->
  folds aux -> (forall l g l' g', aux l g <> Ok (None, l', g')) ->
  zspec bn q bp (fun l => True) (single toks n aux (guard nParagraph (balanced aux)) (balanced aux)) (fun _ => True).
Proof.
  intros n aux bn q bp x Hx Hk Hf Hn. pose proof (balanced_eats nParagraph aux eq_refl Hf Hn) as He.
  assert (Ha : zspec bn q bp (fun _ => True) aux (fun l => rest l = [])) by (eapply Hf; eauto).
  intros fs ts l r l' g' O _ F E. unfold single in E.
  destruct (kind_at toks l 0) as [k|] eqn:Ek; [|unfold bind at 1, kind_ in E; rewrite Ek in E; discriminate].
  apply (kind_run toks _ _ _ _ k) in E; [|exact Ek]. pose proof (kind_at_head toks l k O Ek) as H.
  assert (Hs : structural k = true -> head_is toks structural l).
  { intros S. apply (head_impl toks (is k)); [intros y Y; apply is_eq in Y; subst y; exact S|exact H]. }
  assert (T : match text_class k with
    | CBegin b | CEnd b | CUnknown b => mark b = true /\ structural k = true | CSkip | CLinkPart => structural k = true | _ => True end)
    by (destruct k; try exact I; try reflexivity; split; reflexivity).
  assert (Zs : forall P m, adds_if P m -> P l -> m l (Z bn q bp fs ts) = Ok (r, l', g') ->
    okl l' /\ lids l' = lids l /\ exists c pre fs' ts', rest l = c ++ rest l' /\ fs = pre ++ fs' /\ g' = Z bn q bp fs' ts' /\
      (forall c0, keeps drop c0 (zt fs ts) -> keeps drop (c0 ++ c) (zt fs' ts')) /\ (r = Some tt -> True)).
  { intros P m A p E'. exact (zspec_adds bn q bp P m A fs ts _ _ _ _ O p F E'). }
  destruct (text_class k) eqn:Ec.
  - destruct T as [Mk S]. exact (begin_zspec bn q bp x Hk _ aux _ Mk Ha _ _ _ _ _ _ O (Hs S) F E).
  - destruct T as [Mk S]. exact (end_zspec bn q bp x Hx Hk _ Mk _ _ _ _ _ _ O (Hs S) F E).
  - destruct T as [Mk S]. exact (unknown_zspec bn q bp x Hx Hk _ aux _ Mk Ha _ _ _ _ _ _ O (Hs S) F E).
  - exact (Zs _ _ (take_adds toks k0 (fun _ => True)) I E).
  - refine (Zs (head_is toks structural) _ _ (Hs T) E). apply spec_next. auto.
  - refine (Zs (fun _ => True) _ _ I E). go.
  - refine (Zs (fun _ => True) _ _ I E). apply sub_parse_adds. apply critic_adds. exact He.
  - refine (Zs (fun _ => True) _ _ I E). go.
  - refine (Zs (fun _ => True) _ _ I E). go.
  - refine (Zs (fun _ => True) _ _ I E). go.
  - refine (Zs (fun _ => True) _ _ I E). go.
  - refine (Zs (fun _ => True) _ _ I E). go.
  - refine (Zs (fun _ => True) _ _ I E). go.
  - refine (Zs (fun _ => True) _ _ I E). apply sub_parse_adds. apply link_adds. exact He.
  - refine (Zs (fun _ => True) _ _ I E). apply sub_parse_adds. apply footnote_adds. exact He.
  - refine (Zs (fun _ => True) _ _ I E). apply sub_parse_adds. apply symbol_adds. exact He.
  - refine (Zs (fun _ => True) _ _ I E). go.
  - refine (Zs (head_is toks (fun k => match text_class k with CVerbatim => true | _ => false end)) _ _ _ E).
    + apply sub_parse_adds. apply verbatim_adds.
    + apply (head_impl toks (is k)); [|exact H]. intros y Y. apply is_eq in Y. subst y. rewrite Ec. reflexivity.
  - refine (Zs (fun _ => True) _ _ I E). go.
  - refine (Zs (head_is toks structural) _ _ (Hs T) E). apply spec_test; [|apply take_adds]. apply spec_next. intros l0 _ [h _]. exact h.
Qed.
Lemma while_total : forall n c body, (forall l g l' g', body l g <> Ok (None, l', g')) -> forall l g l' g', while_ n c body l g <> Ok (None, l', g').
Proof.
  induction n as [|n IH]; intros c body H l g l' g' E; [discriminate|]. cbn [while_] in E. unfold test in E. destruct (c l); [|discriminate].
  unfold bind in E. destruct (body l g) as [[[[u|] l1] g1]| | |] eqn:Eb; try discriminate; [exact (IH _ _ H _ _ _ _ E)|exact (H _ _ _ _ Eb)].
Qed.
Lemma ignore_total : forall A (m : M A) l g l' g', ignore m l g <> Ok (None, l', g').
Proof. intros A m l g l' g' E. unfold ignore, bind, attempt in E. destruct (m l g) as [[[[u|] l1] g1]| | |]; discriminate. Qed.
Lemma fold_text_ok : forall n, folds (fold_text toks n) /\ forall l g l' g', fold_text toks n l g <> Ok (None, l', g').
Proof.
  induction n as [|n [IH1 IH2]]; [split; [intros bn q bp x _ _ fs ts l r l' g' O p F E; discriminate|intros l g l' g' E; discriminate]|]. split.
  - intros bn q bp x Hx Hk. change (zspec bn q bp (fun _ => True) (fold_text_ toks n (fold_text toks n)) (fun l => rest l = [])).
    unfold fold_text_. eapply zspec_weaken; [apply zspec_while| |].
    + eapply zspec_ignore. eapply zspec_weaken; [apply (single_zspec n (fold_text toks n) bn q bp x Hx Hk IH1 IH2)|triv|intros l O H; exact H].
    + triv.
    + cbv beta. intros l O H. rewrite finished_rest in H by exact O. destruct (rest l); [reflexivity|discriminate].
  - intros l g l' g' E. change (fold_text_ toks n (fold_text toks n) l g = Ok (None, l', g')) in E. unfold fold_text_ in E. revert E. apply while_total.
    intros. apply ignore_total.
Qed.
Lemma paragraph_eats : forall n, eats (paragraph toks n).
Proof. intros n. destruct (fold_text_ok n). apply balanced_eats; auto. Qed.
Lemma paragraph_adds : forall n, adds (paragraph toks n).
Proof. intros n. apply eats_adds. apply paragraph_eats. Qed.
Lemma spec_par_of : forall n ids, spec (flat_map olist ids) (fun _ => ids_ok toks ids) (par_of toks n ids) (fun _ => []) (fun _ _ => True).
Proof. intros n ids. apply spec_par_or_empty. apply paragraph_eats. Qed.
End Fold.
