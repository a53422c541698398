(** Proofs about nested headings: what the parser has put in place, and that there is one nesting. *)
From Verif Require Import Base StrModel TokKind KindEq NodeKind.
From Verif Require RegroupModel TreeModel TreeSpec TreeProofs LcsProofs.
From Verif Require Import ParseModel ParseSpec LayoutKindSpec ParseLogic ParseProofs ParseShape ParseShapeStmt ParseNest.
Local Open Scope nat_scope.
Import TreeModel.

(** *** From the layout to heading lines *)
Lemma seven_fields : forall ks, fits heading_fields ks -> length ks = 7.
Proof.
  intros ks H. do 7 (destruct ks as [|? ks]; [cbn in H; tauto|]). cbn in H. destruct ks; [reflexivity|]. exfalso. destruct H as (_ & _ & _ & _ & _ & _ & _ & H). discriminate.
Qed.
Lemma plain_branch : forall k sub, k <> nSubtree -> Forall plain sub -> plain (Branch k sub).
Proof.
  intros k sub N F. unfold plain. rewrite TreeProofs.flat_unfold. constructor; [exact N|]. cbn [TreeSpec.sub_of]. apply Forall_forall. intros x Hx.
  apply in_flat_map in Hx as (t & Ht & Hx). rewrite Forall_forall in F. specialize (F t Ht). unfold plain in F. rewrite Forall_forall in F. exact (F x Hx).
Qed.
Lemma laid_item : forall toks t, laid_out toks (fun body => body = []) t -> Forall no_heading (TreeSpec.sub_of t) ->
  (forall i x, nth_error toks i = Some x -> RegroupModel.okind x = kSubtreeStars -> RegroupModel.otext x <> []) -> item toks t.
Proof.
  intros toks t L H St. assert (Hp : Forall plain (TreeSpec.sub_of t)) by (eapply Forall_impl; [|exact H]; intros a; apply no_heading_plain).
  inversion L as [k x Lk|k x Lk|k sub La F]; subst t.
  - left. constructor; [|constructor]. cbn. intros ->. discriminate.
  - left. constructor; [|constructor]. cbn. intros ->. discriminate.
  - unfold laid in La. destruct (nk_eqb k nSubtree) eqn:Ek.
    + apply nk_eqb_eq in Ek. subst k. destruct La as (i & x & fields & body & -> & -> & Ex & Kx & Fi). right. exists nRawText, i, x, fields.
      split; [reflexivity|]. split; [rewrite <- (map_length TreeSpec.kind_of); apply seven_fields; exact Fi|].
      split; [cbn [TreeSpec.sub_of] in Hp; inversion Hp as [|? ? _ Hp']; subst; apply Forall_app in Hp' as [Hp' _]; exact Hp'|].
      split; [discriminate|]. split; [exact Ex|eauto].
    + left. apply plain_branch; [intros ->; discriminate|exact Hp].
Qed.
Lemma laid_no_empty : forall toks t, laid_out toks (fun body => body = []) t -> Forall (fun n : pnode => kind n = nEmpty -> is_nonterminal n = false) (flat t).
Proof.
  intros toks. induction t as [k sub IH|k x|k x] using TreeProofs.tree_ind'; intros L; [|repeat constructor|repeat constructor].
  inversion L as [| |? ? La F]; subst. rewrite TreeProofs.flat_unfold. constructor.
  - cbn. intros ->. unfold laid in La. cbn in La. destruct La as [N _]. congruence.
  - cbn [TreeSpec.sub_of]. apply Forall_forall. intros x Hx. apply in_flat_map in Hx as (t & Ht & Hx). rewrite Forall_forall in IH, F.
    specialize (IH t Ht (F t Ht)). rewrite Forall_forall in IH. exact (IH x Hx).
Qed.
Lemma laid_fine : forall toks ts, Forall (laid_out toks (fun body => body = [])) ts -> ~ In None (leaf_tokens (fflat ts)) -> Forall fine (fflat ts).
Proof.
  intros toks ts L N. assert (A : Forall (fun n : pnode => kind n = nEmpty -> is_nonterminal n = false) (fflat ts)).
  { induction L as [|t ts Lt _ IH]; [constructor|]. rewrite TreeProofs.fflat_cons in *. rewrite leaf_tokens_app in N. apply Forall_app. split; [eapply laid_no_empty; exact Lt|].
    apply IH. intros X. apply N. apply in_or_app. auto. }
  apply Forall_forall. intros x Hx. rewrite Forall_forall in A. split; [|exact (A x Hx)]. intros V. apply N. unfold leaf_tokens. apply in_flat_map.
  exists x. split; [exact Hx|]. rewrite V. left. reflexivity.
Qed.

(** *** The layout after the headings are nested *)
Lemma laid_weaken : forall toks (P Q : list tree -> Prop), (forall b, P b -> Q b) -> forall t, laid_out toks P t -> laid_out toks Q t.
Proof.
  intros toks P Q H. induction t as [k sub IH|k x|k x] using TreeProofs.tree_ind'; intros L; inversion L; subst; try (constructor; assumption).
  constructor.
  - unfold laid in *. destruct (nk_eqb k nSubtree); [|assumption]. destruct H2 as (i & t & fields & body & -> & Hb & R). exists i, t, fields, body. auto.
  - apply Forall_forall. intros t Ht. rewrite Forall_forall in IH, H3. auto.
Qed.
Lemma nine_app : forall (x : tree) fields (b : list tree) a c d e f g h i k body, x :: fields ++ [Branch nStmtList b] = [a; c; d; e; f; g; h; i; Branch k body] ->
  x = a /\ fields = [c; d; e; f; g; h; i] /\ k = nStmtList /\ body = b.
Proof.
  intros x fields b a c d e f g h i k body E. injection E as -> E. change [c; d; e; f; g; h; i; Branch k body] with ([c; d; e; f; g; h; i] ++ [Branch k body]) in E.
  apply app_inj_tail in E as [-> E]. injection E as <- <-. auto.
Qed.
Lemma in_fsize : forall (ts : list tree) t, In t ts -> TreeSpec.tsize t <= TreeSpec.fsize ts.
Proof. induction ts as [|a ts IH]; intros t []; rewrite TreeProofs.fsize_cons; [subst; lia|]. specialize (IH _ H). lia. Qed.
Lemma laid_nested_n : forall toks n u, TreeSpec.tsize u <= n -> Forall (laid_out toks (fun body => body = [])) (unnest u) -> laid_out toks (fun _ => True) u.
Proof.
  intros toks. induction n as [|n IH]; intros u Hu F; [pose proof (TreeProofs.tsize_pos u); lia|].
  destruct u as [k sub|k x|k x]; [|inversion F as [|? ? L _]; inversion L; constructor; assumption..].
  assert (W : unnest (Branch k sub) = [Branch k sub] -> laid_out toks (fun _ => True) (Branch k sub)).
  { intros E. rewrite E in F. inversion F as [|? ? L _]; subst. eapply laid_weaken; [|exact L]. auto. }
  destruct k; try (apply W; reflexivity).
  do 9 (destruct sub as [|? sub]; [apply W; reflexivity|]). destruct t7 as [k body|? ?|? ?]; try (apply W; destruct sub; reflexivity).
  destruct sub as [|? ?]; [|apply W; reflexivity]. cbn [unnest] in F. inversion F as [|? ? L Fb]; subst. inversion L as [| |? ? La Fs]; subst.
  unfold laid in La. cbn in La. destruct La as (i & x & fields & b & E & -> & Ex & Kx & Fi). symmetry in E. apply nine_app in E as (<- & -> & -> & _).
  rewrite TreeProofs.tsize_sub in Hu. cbn [TreeSpec.sub_of] in Hu. rewrite !TreeProofs.fsize_cons, (TreeProofs.tsize_sub (Branch nStmtList body)) in Hu. cbn [TreeSpec.sub_of] in Hu.
  constructor.
  - cbn. exists i, x, [t0; t1; t2; t3; t4; t5; t6], body. split; [reflexivity|]. auto.
  - assert (M : forall t, laid_out toks (fun body => body = []) t -> laid_out toks (fun _ => True) t) by (apply laid_weaken; auto).
    do 8 (inversion Fs as [|? ? ? Fs']; subst; clear Fs; rename Fs' into Fs; constructor; [auto; fail|]). constructor; [|constructor].
    constructor; [split; [discriminate|right; constructor; apply fits_any]|].
    apply Forall_forall. intros v Hv. apply IH; [pose proof (in_fsize _ _ Hv); lia|]. apply Forall_forall. intros y Hy. rewrite Forall_forall in Fb. apply Fb.
    apply in_flat_map. eauto.
Qed.
Lemma laid_nested : forall toks us, Forall (laid_out toks (fun body => body = [])) (flat_map unnest us) -> Forall (laid_out toks (fun _ => True)) us.
Proof.
  intros toks us F. apply Forall_forall. intros u Hu. eapply laid_nested_n; [apply Nat.le_refl|]. rewrite Forall_forall in F. apply Forall_forall. intros y Hy. apply F. apply in_flat_map. eauto.
Qed.

(** *** There is one nesting *)
Definition stripped (t : tree) : tree :=
  match t with
  | Branch nSubtree [a; b; c; d; e; f; g; h; Branch k body] => Branch nSubtree [a; b; c; d; e; f; g; h; Branch k []]
  | _ => t
  end.
Lemma unnest_parts : forall t, unnest t = stripped t :: flat_map unnest (body_of t).
Proof.
  destruct t as [k sub|? ?|? ?]; try reflexivity. destruct k; try reflexivity. do 9 (destruct sub as [|? sub]; [reflexivity|]).
  destruct t7 as [? ?|? ?|? ?]; destruct sub; reflexivity.
Qed.
Lemma level_stripped : forall toks t, level_of toks (stripped t) = level_of toks t.
Proof.
  destruct t as [k sub|? ?|? ?]; try reflexivity. destruct k; try reflexivity. do 9 (destruct sub as [|? sub]; [reflexivity|]).
  destruct t7 as [? ?|? ?|? ?]; destruct sub; reflexivity.
Qed.
Definition rebuilt (t : tree) (b : list tree) : tree :=
  match t with
  | Branch nSubtree [a; c; d; e; f; g; h; i; Branch k _] => Branch nSubtree [a; c; d; e; f; g; h; i; Branch k b]
  | _ => t
  end.
Lemma rebuild : forall t, rebuilt (stripped t) (body_of t) = t.
Proof.
  destruct t as [k sub|? ?|? ?]; try reflexivity. destruct k; try reflexivity. do 9 (destruct sub as [|? sub]; [reflexivity|]).
  destruct t7 as [? ?|? ?|? ?]; destruct sub; reflexivity.
Qed.
Lemma body_size : forall t, fsize (body_of t) < tsize t.
Proof.
  intros t. pose proof (TreeProofs.tsize_pos t) as P. destruct t as [k sub|? ?|? ?]; try exact P. destruct k; try exact P.
  do 9 (destruct sub as [|? sub]; [exact P|]). destruct t7 as [? b|? ?|? ?]; (destruct sub; [|exact P]); try exact P. cbn [body_of].
  rewrite TreeProofs.tsize_sub. cbn [TreeSpec.sub_of]. rewrite !TreeProofs.fsize_cons, (TreeProofs.tsize_sub (Branch _ b)). cbn [TreeSpec.sub_of]. lia.
Qed.
Lemma nested_tail : forall toks o u us, well_nested toks o (u :: us) -> well_nested toks o us.
Proof.
  intros toks o u us H. inversion H as [? ? A B C D]; subst. constructor.
  - intros; eapply A; [right|]; eauto.
  - intros pre h x post lh -> L. exact (B (u :: pre) h x post lh eq_refl L).
  - intros; eapply C; [right|]; eauto.
  - intros; eapply D; [right|]; eauto.
Qed.
Definition under toks (o : nat) (t : tree) : Prop := forall l, level_of toks t = Some l -> o < l.
Lemma nested_under : forall toks n o us, fsize us <= n -> well_nested toks o us -> Forall (under toks o) (flat_map unnest us).
Proof.
  intros toks. induction n as [|n IH]; intros o us Sz W; (destruct us as [|u us]; [constructor|]); rewrite TreeProofs.fsize_cons in Sz; pose proof (TreeProofs.tsize_pos u) as Pu; [lia|].
  cbn [flat_map]. apply Forall_app. split.
  - rewrite unnest_parts. inversion W as [? ? A B C D]; subst. constructor.
    + intros l. rewrite level_stripped. apply A. left. reflexivity.
    + destruct (level_of toks u) as [l|] eqn:El.
      * pose proof (A u l (or_introl eq_refl) El) as Lt. eapply Forall_impl; [|apply IH; [pose proof (body_size u); lia|exact (C u l (or_introl eq_refl) El)]].
        intros t Ht l' El'. specialize (Ht l' El'). lia.
      * rewrite (D u (or_introl eq_refl) El). constructor.
  - apply IH; [lia|]. eapply nested_tail; exact W.
Qed.
Lemma split_once : forall {A} (Q : A -> Prop) p1 p2 s1 s2, Forall Q p1 -> Forall Q p2 ->
  (forall x r, s1 = x :: r -> ~ Q x) -> (forall x r, s2 = x :: r -> ~ Q x) -> p1 ++ s1 = p2 ++ s2 -> p1 = p2 /\ s1 = s2.
Proof.
  intros A Q. induction p1 as [|a p1 IH]; intros [|b p2] s1 s2 F1 F2 H1 H2 E; cbn in E.
  - auto.
  - exfalso. inversion F2; subst. eapply H1; [reflexivity|assumption].
  - exfalso. inversion F1; subst. eapply H2; [reflexivity|assumption].
  - injection E as <- E. inversion F1; inversion F2; subst. edestruct (IH p2 s1 s2) as [<- <-]; auto.
Qed.
Lemma after_heading : forall toks o u us l, well_nested toks o (u :: us) -> level_of toks u = Some l ->
  forall x r, flat_map unnest us = x :: r -> ~ under toks l x.
Proof.
  intros toks o u us l W El x r E Hu. destruct us as [|v us]; [discriminate|]. inversion W as [? ? A B C D]; subst.
  destruct (B [] u v us l eq_refl El) as (lx & Ex & Le). cbn [flat_map] in E. rewrite unnest_parts in E. injection E as <- _.
  rewrite <- level_stripped in Ex. specialize (Hu _ Ex). lia.
Qed.
Lemma nesting_unique_n : forall toks n o us vs, fsize us <= n -> well_nested toks o us -> well_nested toks o vs -> flat_map unnest us = flat_map unnest vs -> us = vs.
Proof.
  intros toks. induction n as [|n IH]; intros o us vs Sz Wu Wv E; (destruct us as [|u us]; [destruct vs as [|v vs]; [reflexivity|cbn in E; rewrite unnest_parts in E; discriminate]|]);
    rewrite TreeProofs.fsize_cons in Sz; pose proof (TreeProofs.tsize_pos u) as Pu; [lia|].
  destruct vs as [|v vs]; [cbn in E; rewrite unnest_parts in E; discriminate|].
  cbn [flat_map] in E. rewrite !unnest_parts in E. injection E as Es E. assert (El : level_of toks u = level_of toks v) by (rewrite <- (level_stripped toks u), Es; apply level_stripped).
  assert (R : body_of u = body_of v -> flat_map unnest us = flat_map unnest vs -> u :: us = v :: vs).
  { intros Eb Er. f_equal; [rewrite <- (rebuild u), <- (rebuild v); congruence|]. eapply (IH o); [lia| | |exact Er]; eapply nested_tail; eassumption. }
  inversion Wu as [? ? Au Bu Cu Du]; subst. inversion Wv as [? ? Av Bv Cv Dv]; subst. destruct (level_of toks u) as [l|] eqn:Eu.
  - symmetry in El. pose proof (Cu u l (or_introl eq_refl) Eu) as Bdu. pose proof (Cv v l (or_introl eq_refl) El) as Bdv.
    destruct (split_once (under toks l) _ _ _ _ (nested_under toks _ l _ (Nat.le_refl _) Bdu) (nested_under toks _ l _ (Nat.le_refl _) Bdv)
      (after_heading _ _ _ _ _ Wu Eu) (after_heading _ _ _ _ _ Wv El) E) as [E1 E2].
    apply R; [|exact E2]. eapply (IH l); [pose proof (body_size u); lia|exact Bdu|exact Bdv|exact E1].
  - symmetry in El. rewrite (Du u (or_introl eq_refl) Eu), (Dv v (or_introl eq_refl) El) in *. apply R; [reflexivity|exact E].
Qed.
Lemma nesting_unique : forall toks o us vs, well_nested toks o us -> well_nested toks o vs -> flat_map unnest us = flat_map unnest vs -> us = vs.
Proof. intros. eapply nesting_unique_n; eauto. Qed.

(** *** The nested parse *)
Lemma headings_nest : forall toks n ts, parse_flat toks n = Ok (flat (Branch nStmtList ts)) -> Forall (laid_out toks (fun body => body = [])) ts ->
  ~ In None (leaf_tokens (fflat ts)) -> Forall (fun t => Forall no_heading (TreeSpec.sub_of t)) ts ->
  (forall i x, nth_error toks i = Some x -> RegroupModel.okind x = kSubtreeStars -> RegroupModel.otext x <> []) ->
  exists us, parse_full toks n = Ok (flat (Branch nStmtList us)) /\ flat_map unnest us = ts /\ well_nested toks 0 us /\ Forall (laid_out toks (fun _ => True)) us.
Proof.
  intros toks n ts P L N H St. edestruct (full_nested toks n ts P) as (us & Pf & Un & W).
  - apply Forall_forall. intros t Ht. rewrite Forall_forall in L, H. apply laid_item; auto.
  - eapply laid_fine; eassumption.
  - exists us. split; [exact Pf|]. split; [exact Un|]. split; [exact W|]. apply laid_nested. rewrite Un. exact L.
Qed.

(** *** A flat tree has one reading *)
Lemma flat_cut : forall (t u : tree) xs ys, flat t ++ xs = flat u ++ ys -> t = u /\ xs = ys.
Proof.
  induction t as [k sub IH|k x|k x] using TreeProofs.tree_ind'; intros [k' sub'|k' x'|k' x'] xs ys E; rewrite !TreeProofs.flat_unfold in E; cbn [TreeSpec.sub_of app] in E;
    try discriminate; injection E; intros; subst; auto.
  - assert (Fz : fsize sub = fsize sub') by assumption.
    assert (C : forall sub' xs ys, fsize sub = fsize sub' -> fflat sub ++ xs = fflat sub' ++ ys -> sub = sub' /\ xs = ys).
    { clear - IH. induction IH as [|t ts Ht _ IHs]; intros [|u us] xs ys Z Q.
      - auto.
      - rewrite TreeProofs.fsize_cons in Z. pose proof (TreeProofs.tsize_pos u). change (fsize (@nil tree)) with 0 in Z. lia.
      - rewrite TreeProofs.fsize_cons in Z. pose proof (TreeProofs.tsize_pos t). change (fsize (@nil tree)) with 0 in Z. lia.
      - rewrite !TreeProofs.fflat_cons, <- !app_assoc in Q. apply Ht in Q as [<- Q]. rewrite !TreeProofs.fsize_cons in Z.
        apply IHs in Q as [<- <-]; [auto|lia]. }
    destruct (C sub' xs ys Fz H) as [<- <-]. auto.
Qed.
Lemma flat_inj : forall t u : tree, flat t = flat u -> t = u.
Proof. intros t u E. apply (flat_cut t u [] []). rewrite !app_nil_r. exact E. Qed.
