From Coq Require Import Sorted.
From Verif Require Import Base StrModel TokKind TokModel RegroupModel RegroupSpec.
Local Open Scope nat_scope.

(** ** Nothing is lost *)
Lemma base_app : forall a b, base_tokens (a ++ b) = base_tokens a ++ base_tokens b.
Proof. induction a as [|[t|k] a IH]; intros; cbn; auto. now rewrite IH. Qed.
Lemma base_map : forall l, base_tokens (map Base l) = l.
Proof. induction l; cbn; congruence. Qed.

Lemma obind_inv : forall {A B} (o : outcome A) (f : A -> outcome B) y, obind o f = Ok y -> exists x, o = Ok x /\ f x = Ok y.
Proof. intros A B o f y H. destruct o; cbn in H; try discriminate. eauto. Qed.
Lemma omap_inv : forall {A B} (f : A -> B) (o : outcome A) y, omap f o = Ok y -> exists x, o = Ok x /\ y = f x.
Proof. intros A B f o y H. destruct o; cbn in H; try discriminate. injection H as <-. eauto. Qed.

Lemma mk_line_toks : forall ts l, mk_line ts = Ok l -> ltoks l = ts.
Proof.
  intros ts l H. destruct ts; cbn in H; [now injection H as <-|]. apply omap_inv in H. destruct H as (x & _ & ->). reflexivity.
Qed.
Lemma to_lines_toks : forall ts start ls, to_lines start ts = Ok ls -> concat (map ltoks ls) = start ++ ts.
Proof.
  induction ts; intros start ls H; cbn in H.
  - destruct start; [injection H as <-; reflexivity|]. apply omap_inv in H. destruct H as (x & E & ->).
    apply mk_line_toks in E. cbn. now rewrite E, !app_nil_r.
  - destruct (line_end (kind a)).
    + apply obind_inv in H. destruct H as (x & E & H). apply omap_inv in H. destruct H as (y & E' & ->).
      apply mk_line_toks in E. apply IHts in E'. cbn. rewrite E, E'. now rewrite <- app_assoc.
    + apply IHts in H. rewrite H. now rewrite <- app_assoc.
Qed.

(** The lines of a group *)
Fixpoint group_lines (g : group) : list lin :=
  match g with
  | Leaf _ ls => ls
  | Nested b subs e => b :: concat (map group_lines subs) ++ [e]
  end.
Definition all_lines (gs : list group) : list lin := concat (map group_lines gs).
Lemma nested_lines : forall b subs e, group_lines (Nested b subs e) = b :: all_lines subs ++ [e].
Proof. reflexivity. Qed.

Lemma take_while_app : forall f ls a b, take_while f ls = (a, b) -> ls = a ++ b.
Proof.
  induction ls; intros x y H; cbn in H; [injection H as <- <-; auto|]. destruct (f a); [|injection H as <- <-; auto].
  destruct (take_while f ls). injection H as <- <-. cbn. f_equal. auto.
Qed.

Definition toks_of (ls : list lin) : list token := concat (map ltoks ls).
Lemma toks_app : forall a b, toks_of (a ++ b) = toks_of a ++ toks_of b.
Proof. intros. unfold toks_of. now rewrite map_app, concat_app. Qed.

Lemma rec_toks : forall fuel,
  (forall l r g rest, rec_group fuel l r = Ok (g, rest) -> toks_of (l :: r) = toks_of (group_lines g ++ rest)) /\
  (forall r subs e rest, rec_block fuel r = Ok (subs, e, rest) -> toks_of r = toks_of (all_lines subs ++ [e] ++ rest)).
Proof.
  induction fuel as [|fuel [IH1 IH2]]; [split; discriminate|]. split.
  - intros l r g rest H. cbn [rec_group] in H. destruct (lk l).
    + discriminate.
    + destruct (take_while _ _) as [a b] eqn:E. injection H as <- <-. apply take_while_app in E. now rewrite E.
    + destruct (take_while _ _) as [a b] eqn:E. injection H as <- <-. apply take_while_app in E. now rewrite E.
    + apply omap_inv in H. destruct H as ([[subs e] rest'] & E & H). injection H as -> ->. apply IH2 in E.
      rewrite nested_lines. cbn [app]. change (l :: r) with ([l] ++ r). change (l :: (all_lines subs ++ [e]) ++ rest') with ([l] ++ (all_lines subs ++ [e]) ++ rest').
      rewrite toks_app, (toks_app [l]), E. now rewrite <- app_assoc.
    + injection H as <- <-. reflexivity.
    + destruct (take_while _ _) as [a b] eqn:E. injection H as <- <-. apply take_while_app in E. now rewrite E.
    + destruct (take_while _ _) as [a b] eqn:E. injection H as <- <-. apply take_while_app in E. now rewrite E.
  - intros r subs e rest H. cbn [rec_block] in H. destruct r as [|l r'].
    + injection H as <- <- <-. reflexivity.
    + destruct (is_close l); [injection H as <- <- <-; reflexivity|]. apply obind_inv in H. destruct H as ([g rest1] & E & H).
      apply omap_inv in H. destruct H as ([[subs' e'] rest'] & E' & H). injection H as -> -> ->.
      apply IH1 in E. apply IH2 in E'. rewrite E. unfold all_lines. cbn [map concat]. rewrite <- app_assoc. rewrite toks_app, E', (toks_app (group_lines g)). reflexivity.
Qed.
Lemma root_toks : forall fuel ls gs, root_groups fuel ls = Ok gs -> toks_of ls = toks_of (all_lines gs).
Proof.
  induction fuel; intros ls gs H; cbn [root_groups] in H; [discriminate|]. destruct ls as [|l r]; [injection H as <-; reflexivity|].
  apply obind_inv in H. destruct H as ([g rest] & E & H). apply omap_inv in H. destruct H as (gs' & E' & ->).
  apply (proj1 (rec_toks _)) in E. apply IHfuel in E'. rewrite E, toks_app, E'. unfold all_lines. cbn [map concat]. now rewrite toks_app.
Qed.

Lemma add_line_toks : forall ig ts first l, add_line ig first ts = Ok l -> l = map Base ts.
Proof.
  intros ig ts. remember (length ts) as n. revert ts Heqn. induction n as [n IH] using lt_wf_ind. intros ts Hn first l H.
  destruct ts as [|t r]; cbn in H; [now injection H as <-|].
  assert (ONE : forall b l, omap (cons (Base t)) (add_line ig b r) = Ok l -> l = map Base (t :: r)).
  { intros b l' E. apply omap_inv in E. destruct E as (x & E & ->). apply IH with (m := length r) in E; [|subst; cbn; lia|auto]. now subst. }
  assert (TWO : forall w r', r = w :: r' -> forall l, omap (fun l => Base t :: Base w :: l) (add_line ig false r') = Ok l -> l = map Base (t :: r)).
  { intros w r' -> l' E. apply omap_inv in E. destruct E as (x & E & ->). apply IH with (m := length r') in E; [|subst; cbn; lia|auto]. now subst. }
  destruct (dash_kind (kind t)).
  - destruct r as [|w r']; [now injection H as <-|]. destruct (first && is_ws w && ig); eauto.
  - destruct (leading_kind (kind t)); [|eauto]. destruct r as [|w r']; [discriminate|]. destruct (is_ws w); eauto.
Qed.
Lemma add_lines_toks : forall ig ls l, add_lines ig ls = Ok l -> l = map Base (toks_of ls).
Proof.
  induction ls; intros l H; cbn in H; [now injection H as <-|]. apply obind_inv in H. destruct H as (x & E & H).
  apply omap_inv in H. destruct H as (y & E' & ->). apply add_line_toks in E. apply IHls in E'. subst. unfold toks_of. cbn.
  now rewrite map_app.
Qed.

Lemma kept_refl : forall l, Forall2 kept l l.
Proof. induction l; constructor; auto. apply kept_same. Qed.

(** [group] has no useful induction principle of its own *)
Fixpoint group_ind' (P : group -> Prop) (HL : forall k ls, P (Leaf k ls))
  (HN : forall b subs e, Forall P subs -> P (Nested b subs e)) (g : group) : P g :=
  match g with
  | Leaf k ls => HL k ls
  | Nested b subs e =>
      HN b subs e ((fix go gs : Forall P gs := match gs with [] => Forall_nil P | g :: r => Forall_cons g (group_ind' P HL HN g) (go r) end) subs)
  end.

Lemma leaf_lines_all : forall subs ls, leaf_lines subs = Ok ls -> all_lines subs = ls.
Proof.
  induction subs as [|[k x|b s e] subs IH]; intros ls H; cbn in H; [now injection H as <-| |discriminate].
  apply omap_inv in H. destruct H as (y & E & ->). unfold all_lines in *. cbn. f_equal. auto.
Qed.

Lemma run_split : forall f m s, m <= run_len f s -> exists a b, s = a ++ b /\ skipn m s = b /\ length a = m /\ Forall (fun c => f c = true) a.
Proof.
  induction m; intros s H.
  - exists [], s. auto.
  - destruct s as [|c s]; cbn in H; [lia|]. destruct (f c) eqn:E; [|lia]. destruct (IHm s ltac:(lia)) as (a & b & -> & K & L & F).
    exists (c :: a), b. repeat split; auto. cbn. congruence.
Qed.

(** Lines made by [mk_line] from their own tokens *)
Definition real (l : lin) : Prop := match ltoks l with [] => True | t :: _ => indent l = line_indent t end.
Lemma mk_real : forall ts l, mk_line ts = Ok l -> real l.
Proof.
  intros ts l H. unfold real. rewrite (mk_line_toks _ _ H). destruct ts; [auto|]. cbn in H. apply omap_inv in H.
  destruct H as (x & _ & ->). reflexivity.
Qed.
Lemma to_lines_real : forall ts start ls, to_lines start ts = Ok ls -> Forall real ls.
Proof.
  induction ts; intros start ls H; cbn in H.
  - destruct start; [injection H as <-; auto|]. apply omap_inv in H. destruct H as (x & E & ->). apply mk_real in E. auto.
  - destruct (line_end (kind a)); [|eauto].
    apply obind_inv in H. destruct H as (x & E & H). apply omap_inv in H. destruct H as (y & E' & ->). apply mk_real in E. eauto.
Qed.

Lemma src_line_kept : forall m l x, real l -> m <= indent l \/ blank_line l = true -> src_line m l = Ok x ->
  Forall2 kept (ltoks l) (base_tokens x).
Proof.
  intros m l x R M H. unfold src_line in H. unfold real in R. destruct (ltoks l) as [|t r] eqn:E; [injection H as <-; constructor|].
  destruct (text t) as [|c tx] eqn:T.
  - injection H as <-. change (Forall2 kept (t :: r) (base_tokens (map Base (t :: r)))). rewrite base_map. apply kept_refl.
  - destruct (length (c :: tx) <? m); [discriminate|]. injection H as <-. rewrite <- T in *. cbn [base_tokens]. rewrite base_map.
    constructor; [|apply kept_refl]. destruct t as [k tx' p co li]. cbn [kind text tpos tcol tline] in *.
    assert (TX : tx' = firstn m tx' ++ skipn m tx') by (now rewrite firstn_skipn).
    rewrite TX at 1. apply kept_less. destruct (marker_token k) eqn:K; [now left|right]. destruct M as [M|B].
    + rewrite R in M.
      assert (SP : m <= run_len (Z.eqb 32) tx' \/ m = 0).
      { unfold line_indent in M. cbn [kind text] in M. destruct k; try discriminate K; auto; right; lia. }
      destruct SP as [SP| ->]; [|constructor]. destruct (run_split _ _ _ SP) as (a & b & E1 & E2 & E3 & F).
      rewrite E1. rewrite <- E3. rewrite firstn_app, Nat.sub_diag, firstn_all, app_nil_r. eapply Forall_impl; [|exact F].
      intros ? X. now apply Z.eqb_eq.
    + exfalso. unfold blank_line in B. rewrite E in B. cbn [kind text] in B. rewrite T in B.
      destruct r as [|e [|? ?]]; [destruct k; discriminate| |]; discriminate.
Qed.
Lemma min_indent_spec : forall ls s, min_indent s ls <= s /\
  Forall (fun l => min_indent s ls <= indent l \/ blank_line l = true \/ ltoks l = []) ls.
Proof.
  induction ls as [|l ls IH]; intros s; [split; [apply le_n|constructor]|].
  change (min_indent s (l :: ls)) with
    (min_indent (if blank_line l then s else match ltoks l with [] => s | _ => Nat.min (indent l) s end) ls).
  set (s' := if blank_line l then s else _). destruct (IH s') as [A B]. split.
  - etransitivity; [exact A|]. unfold s'. destruct (blank_line l); [lia|]. destruct (ltoks l); lia.
  - constructor; [|exact B]. unfold s' in *. destruct (blank_line l); [auto|]. destruct (ltoks l) eqn:E; [auto|]. left. lia.
Qed.
Lemma src_lines_kept : forall m ls x, Forall real ls -> Forall (fun l => m <= indent l \/ blank_line l = true \/ ltoks l = []) ls ->
  src_lines m ls = Ok x -> Forall2 kept (toks_of ls) (base_tokens x).
Proof.
  induction ls as [|l ls IH]; intros x R M H; cbn in H; [injection H as <-; constructor|].
  apply obind_inv in H. destruct H as (a & E & H). apply omap_inv in H. destruct H as (y & E' & ->).
  inversion R; subst. inversion M; subst. rewrite base_app. apply Forall2_app; [|eauto].
  destruct H3 as [?|[?|Z]]; eauto using src_line_kept.
  unfold src_line in E. rewrite Z in *. injection E as E. subst a. constructor.
Qed.

Lemma dedent_marks : forall i ind m s, dedent i ind = (m, s) -> base_tokens m = [].
Proof.
  induction ind; intros m s H; cbn [dedent] in H; [now injection H as <- <-|]. destruct (i <? a); [|now injection H as <- <-].
  destruct (dedent i ind). injection H as <- <-. cbn. eauto.
Qed.
Lemma markers_marks : forall prev g i ind m s, markers prev g i ind = (m, s) -> base_tokens m = [].
Proof.
  intros prev g i ind m s H. unfold markers in H. destruct (is_item g); [|eauto using dedent_marks].
  destruct ind as [|b ind]; [now injection H as <- <-|]. destruct (b <? i); [now injection H as <- <-|].
  destruct (i <? b).
  - destruct (dedent i (b :: ind)) as [x y] eqn:E. apply dedent_marks in E. destruct y as [|b' y]; [now injection H as <- <-|].
    destruct (b' =? i); injection H as <- <-; [rewrite base_app|]; now rewrite E.
  - destruct (breaks_list prev); now injection H as <- <-.
Qed.

Lemma convert_group_nested : forall b subs e, convert_group (Nested b subs e) =
  obind (add_line false true (ltoks b)) (fun x =>
  obind (if is_src (Nested b subs e) then obind (leaf_lines subs) (fun ls => src_lines (min_indent (indent b) ls) ls)
         else convert None [] subs) (fun y =>
  omap (fun z => x ++ y ++ z) (add_line false true (ltoks e)))).
Proof. reflexivity. Qed.

Lemma convert_kept : forall gs, Forall (fun g => forall x, convert_group g = Ok x -> Forall2 kept (toks_of (group_lines g)) (base_tokens x)) gs ->
  forall prev ind x, convert prev ind gs = Ok x -> Forall2 kept (toks_of (all_lines gs)) (base_tokens x).
Proof.
  induction 1 as [|g gs G _ IH]; intros prev ind x E; cbn [convert] in E.
  - injection E as <-. assert (Z : base_tokens (repeat (Mark kDedent) (length ind)) = []) by (induction ind; auto). rewrite Z. constructor.
  - apply obind_inv in E. destruct E as (i & _ & E). destruct (markers prev g i ind) as [m ind'] eqn:M. apply markers_marks in M.
    apply obind_inv in E. destruct E as (y & E & E'). apply omap_inv in E'. destruct E' as (z & E' & ->).
    rewrite !base_app, M. unfold all_lines. cbn [map concat app]. rewrite toks_app. apply Forall2_app; eauto.
Qed.
Lemma convert_group_kept : forall g, Forall real (group_lines g) -> forall x, convert_group g = Ok x ->
  Forall2 kept (toks_of (group_lines g)) (base_tokens x).
Proof.
  induction g as [k ls|b subs e IH] using group_ind'; intros R x E.
  - cbn [convert_group] in E. apply add_lines_toks in E. subst. rewrite base_map. apply kept_refl.
  - rewrite convert_group_nested in E. rewrite nested_lines in *. inversion R as [|? ? _ R']; subst. apply Forall_app in R'. destruct R' as [R' _].
    apply obind_inv in E. destruct E as (u & Eb & E). apply obind_inv in E. destruct E as (y & Ey & E).
    apply omap_inv in E. destruct E as (z & Ee & ->). apply add_line_toks in Eb. apply add_line_toks in Ee. subst u z.
    change (b :: all_lines subs ++ [e]) with ([b] ++ all_lines subs ++ [e]). rewrite !toks_app, !base_app, !base_map.
    unfold toks_of at 1 3. cbn [map concat]. rewrite !app_nil_r.
    repeat apply Forall2_app; try apply kept_refl. destruct (is_src _).
    + apply obind_inv in Ey. destruct Ey as (ls & L & Ey). apply leaf_lines_all in L. subst ls.
      eapply src_lines_kept; [exact R'| |exact Ey]. apply min_indent_spec.
    + eapply convert_kept; [|exact Ey]. clear - IH R'. unfold all_lines in R'. induction IH as [|g gs G _ IH]; [constructor|].
      cbn in R'. apply Forall_app in R'. destruct R'. constructor; auto.
Qed.

Definition real_or_none (l : lin) : Prop := real l.
Lemma rec_real : forall fuel,
  (forall l r g rest, rec_group fuel l r = Ok (g, rest) -> Forall real (l :: r) -> Forall real (group_lines g ++ rest)) /\
  (forall r subs e rest, rec_block fuel r = Ok (subs, e, rest) -> Forall real r -> Forall real (all_lines subs ++ [e] ++ rest)).
Proof.
  induction fuel as [|fuel [IH1 IH2]]; [split; discriminate|]. split.
  - intros l r g rest H R. cbn [rec_group] in H. destruct (lk l).
    + discriminate.
    + destruct (take_while _ _) as [a b] eqn:E. injection H as <- <-. apply take_while_app in E. now rewrite E in R.
    + destruct (take_while _ _) as [a b] eqn:E. injection H as <- <-. apply take_while_app in E. now rewrite E in R.
    + apply omap_inv in H. destruct H as ([[subs e] rest'] & E & H). injection H as -> ->. inversion R; subst. apply IH2 in E; auto.
      rewrite nested_lines. cbn [app]. rewrite <- app_assoc. constructor; auto.
    + injection H as <- <-. exact R.
    + destruct (take_while _ _) as [a b] eqn:E. injection H as <- <-. apply take_while_app in E. now rewrite E in R.
    + destruct (take_while _ _) as [a b] eqn:E. injection H as <- <-. apply take_while_app in E. now rewrite E in R.
  - intros r subs e rest H R. cbn [rec_block] in H. destruct r as [|l r'].
    + injection H as <- <- <-. repeat constructor.
    + destruct (is_close l); [injection H as <- <- <-; exact R|]. apply obind_inv in H. destruct H as ([g rest1] & E & H).
      apply omap_inv in H. destruct H as ([[subs' e'] rest'] & E' & H). injection H as -> -> ->.
      apply IH1 in E; auto. apply Forall_app in E. destruct E as [E1 E2]. apply IH2 in E'; auto.
      unfold all_lines. cbn [map concat]. rewrite <- app_assoc. apply Forall_app. auto.
Qed.
Lemma root_real : forall fuel ls gs, root_groups fuel ls = Ok gs -> Forall real ls -> Forall real (all_lines gs).
Proof.
  induction fuel; intros ls gs H R; cbn [root_groups] in H; [discriminate|]. destruct ls as [|l r]; [injection H as <-; constructor|].
  apply obind_inv in H. destruct H as ([g rest] & E & H). apply omap_inv in H. destruct H as (gs' & E' & ->).
  apply (proj1 (rec_real _)) in E; auto. apply Forall_app in E. destruct E. unfold all_lines. cbn. apply Forall_app. split; auto.
  eapply IHfuel; eauto.
Qed.
Lemma regroup_kept : forall ts x, regroup ts = Ok x -> Forall2 kept ts (base_tokens x).
Proof.
  intros ts x H. unfold regroup in H. apply obind_inv in H. destruct H as (ls & L & H). apply obind_inv in H. destruct H as (gs & G & H).
  pose proof (to_lines_toks _ _ _ L) as T. apply to_lines_real in L. cbn [app] in T. unfold to_groups in G.
  pose proof (root_real _ _ _ G L) as R. apply root_toks in G. unfold toks_of at 1 in G. rewrite T in G. rewrite G.
  eapply convert_kept; [|exact H]. clear - R. unfold all_lines in R. induction gs; constructor; cbn in R; apply Forall_app in R; destruct R; auto.
  apply convert_group_kept. auto.
Qed.

(** ** Markers are balanced *)
Lemma levels_app : forall a d b, levels d (a ++ b) = match levels d a with Some d' => levels d' b | None => None end.
Proof.
  induction a as [|[t|k] a IH]; intros d b; cbn [app levels]; auto.
  destruct k; try apply IH. destruct d; auto.
Qed.
Lemma levels_base : forall l d, levels d (map Base l) = Some d.
Proof. induction l; intros; cbn; auto. Qed.
Lemma levels_dedent : forall i ind m s, dedent i ind = (m, s) -> forall d, levels (length ind + d) m = Some (length s + d).
Proof.
  induction ind; intros m s H d; cbn [dedent] in H; [now injection H as <- <-|]. destruct (i <? a); [|now injection H as <- <-].
  destruct (dedent i ind). injection H as <- <-. cbn. eauto.
Qed.
Lemma levels_markers : forall prev g i ind m s, markers prev g i ind = (m, s) -> forall d, levels (length ind + d) m = Some (length s + d).
Proof.
  intros prev g i ind m s H d. unfold markers in H. destruct (is_item g); [|eauto using levels_dedent].
  destruct ind as [|b ind]; [now injection H as <- <-|]. destruct (b <? i); [now injection H as <- <-|].
  destruct (i <? b).
  - destruct (dedent i (b :: ind)) as [x y] eqn:E. apply levels_dedent with (d := d) in E.
    destruct y as [|b' y]; [now injection H as <- <-|].
    destruct (b' =? i); injection H as <- <-; [rewrite levels_app|]; now rewrite E.
  - destruct (breaks_list prev); now injection H as <- <-.
Qed.
Lemma src_line_levels : forall m l x d, src_line m l = Ok x -> levels d x = Some d.
Proof.
  intros m l x d H. unfold src_line in H. destruct (ltoks l) as [|t r]; [injection H as <-; reflexivity|].
  destruct (text t); [injection H as <-; apply (levels_base (t :: r))|]. destruct (_ <? _); [discriminate|]. injection H as <-.
  cbn. apply levels_base.
Qed.
Lemma src_lines_levels : forall m ls x d, src_lines m ls = Ok x -> levels d x = Some d.
Proof.
  induction ls; intros x d H; cbn in H; [now injection H as <-|]. apply obind_inv in H. destruct H as (a' & E & H).
  apply omap_inv in H. destruct H as (y & E' & ->). rewrite levels_app, (src_line_levels _ _ _ _ E). eauto.
Qed.
Lemma convert_levels : forall gs, Forall (fun g => forall x d, convert_group g = Ok x -> levels d x = Some d) gs ->
  forall prev ind x d, convert prev ind gs = Ok x -> levels (length ind + d) x = Some d.
Proof.
  induction 1 as [|g gs G _ IH]; intros prev ind x d E; cbn [convert] in E.
  - injection E as <-. induction ind; cbn; auto.
  - apply obind_inv in E. destruct E as (i & _ & E). destruct (markers prev g i ind) as [m ind'] eqn:M.
    apply levels_markers with (d := d) in M.
    apply obind_inv in E. destruct E as (y & E & E'). apply omap_inv in E'. destruct E' as (z & E' & ->).
    rewrite levels_app, M, levels_app, (G _ _ E). eauto.
Qed.
Lemma convert_group_levels : forall g x d, convert_group g = Ok x -> levels d x = Some d.
Proof.
  induction g as [k ls|b subs e IH] using group_ind'; intros x d E.
  - cbn [convert_group] in E. apply add_lines_toks in E. subst. apply levels_base.
  - rewrite convert_group_nested in E.
    apply obind_inv in E. destruct E as (u & Eb & E). apply obind_inv in E. destruct E as (y & Ey & E).
    apply omap_inv in E. destruct E as (z & Ee & ->). apply add_line_toks in Eb. apply add_line_toks in Ee. subst u z.
    rewrite levels_app, levels_base, levels_app.
    assert (Y : levels d y = Some d).
    { destruct (is_src _).
      - apply obind_inv in Ey. destruct Ey as (ls & L & Ey). eapply src_lines_levels; eauto.
      - eapply (convert_levels _ IH None []); eauto. }
    rewrite Y. apply levels_base.
Qed.
Lemma all_levels : forall gs, Forall (fun g => forall x d, convert_group g = Ok x -> levels d x = Some d) gs.
Proof. intros. apply Forall_forall. intros. eapply convert_group_levels; eauto. Qed.
Lemma regroup_levels : forall ts x, regroup ts = Ok x -> levels 0 x = Some 0.
Proof.
  intros ts x H. unfold regroup in H. apply obind_inv in H. destruct H as (ls & L & H). apply obind_inv in H. destruct H as (gs & G & H).
  apply (convert_levels gs (all_levels gs) None [] x 0 H).
Qed.

(** ** Grouping always finishes *)
Definition some_kind (l : lin) : Prop := lk l <> LNone.
Lemma take_while_len : forall f ls a b, take_while f ls = (a, b) -> length b <= length ls.
Proof. intros f ls a b H. apply take_while_app in H. subst. rewrite app_length. lia. Qed.
Lemma take_while_rest : forall f ls a b (P : lin -> Prop), take_while f ls = (a, b) -> Forall P ls -> Forall P b.
Proof. intros f ls a b P H F. apply take_while_app in H. subst. apply Forall_app in F. tauto. Qed.
Lemma rec_total : forall fuel,
  (forall l r, 2 * length r + 2 <= fuel -> Forall some_kind (l :: r) ->
     exists g rest, rec_group fuel l r = Ok (g, rest) /\ length rest <= length r /\ Forall some_kind rest) /\
  (forall r, 2 * length r + 1 <= fuel -> Forall some_kind r ->
     exists subs e rest, rec_block fuel r = Ok (subs, e, rest) /\ length rest <= length r /\ Forall some_kind rest).
Proof.
  induction fuel as [|fuel [IH1 IH2]]; [split; intros; lia|]. split.
  - intros l r HF R. cbn [rec_group]. inversion R as [|? ? K R']; subst. unfold some_kind in K. destruct (lk l) eqn:LK; try congruence.
    + cbn [take_while]. unfold is_text at 1. rewrite LK, Nat.leb_refl. cbn [andb].
      destruct (take_while _ r) as [a b] eqn:E. repeat eexists; eauto using take_while_len, take_while_rest.
    + destruct (take_while _ r) as [a b] eqn:E. repeat eexists; eauto using take_while_len, take_while_rest.
    + destruct (IH2 r ltac:(lia) R') as (subs & e & rest & -> & L & F). cbn [omap]. exists (Nested l subs e), rest. auto.
    + exists (Leaf GLine [l]), r. auto.
    + cbn [take_while]. unfold is_text at 1. rewrite LK, Nat.leb_refl. cbn [andb].
      destruct (take_while _ r) as [a b] eqn:E. repeat eexists; eauto using take_while_len, take_while_rest.
    + cbn [take_while]. unfold is_property at 1. rewrite LK.
      destruct (take_while _ r) as [a b] eqn:E. repeat eexists; eauto using take_while_len, take_while_rest.
  - intros r HF R. cbn [rec_block]. destruct r as [|l r']; [eauto 8|]. cbn [length] in *. inversion R; subst. destruct (is_close l); [repeat eexists; eauto|].
    destruct (IH1 l r' ltac:(lia) R) as (g & rest & -> & L & F). cbn [obind].
    destruct (IH2 rest ltac:(lia) F) as (subs & e & rest' & -> & L' & F'). cbn [omap]. repeat eexists; eauto. lia.
Qed.
Lemma root_total : forall fuel ls, 2 * length ls + 1 <= fuel -> Forall some_kind ls -> exists gs, root_groups fuel ls = Ok gs.
Proof.
  induction fuel; intros ls HF R; [lia|]. cbn [root_groups]. destruct ls as [|l r]; [eauto|]. cbn [length] in *.
  destruct (proj1 (rec_total (S fuel)) l r ltac:(lia) R) as (g & rest & -> & L & F). cbn [obind].
  destruct (IHfuel rest ltac:(lia) F) as (gs & ->). cbn. eauto.
Qed.
Lemma line_kind_some : forall t r k, line_kind t r = Ok k -> k <> LNone.
Proof.
  assert (C : forall r k, line_command_kind r = Ok k -> k <> LNone).
  { intros [|t r] k H; cbn in H; [discriminate|]. unfold which_block_line in H. destruct (block_line (kind t)); [now injection H as <-|].
    destruct (block_open (kind t)); [now injection H as <-|]. destruct (block_close (kind t)); [now injection H as <-|discriminate]. }
  assert (S : forall r k, leading_space_kind r = Ok k -> k <> LNone).
  { intros [|t r] k H; cbn in H; [now injection H as <-|].
    destruct (kind t); try (eapply C; exact H); try (injection H as <-; cbn; discriminate).
    destruct r as [|w r]; [now injection H as <-|]. destruct (is_ws w); now injection H as <-. }
  intros t r k H. unfold line_kind in H. destruct (kind t); try (eapply C; exact H); try (eapply S; exact H); try (injection H as <-; cbn; discriminate).
  destruct r as [|w r]; [now injection H as <-|]. destruct (is_ws w); now injection H as <-.
Qed.
Lemma mk_line_some : forall ts l, ts <> [] -> mk_line ts = Ok l -> some_kind l.
Proof.
  intros [|t r] l N H; [congruence|]. cbn in H. apply omap_inv in H. destruct H as (k & E & ->). apply line_kind_some in E. exact E.
Qed.
Lemma to_lines_some : forall ts start ls, to_lines start ts = Ok ls -> Forall some_kind ls.
Proof.
  induction ts; intros start ls H; cbn in H.
  - destruct start; [injection H as <-; auto|]. apply omap_inv in H. destruct H as (x & E & ->). apply mk_line_some in E; auto. discriminate.
  - destruct (line_end (kind a)); [|eauto].
    apply obind_inv in H. destruct H as (x & E & H). apply omap_inv in H. destruct H as (y & E' & ->).
    apply mk_line_some in E; [eauto|]. intro X. apply app_eq_nil in X. destruct X. discriminate.
Qed.
Lemma to_groups_total : forall ts start ls, to_lines start ts = Ok ls -> exists gs, to_groups ls = Ok gs.
Proof. intros ts start ls H. apply root_total; [lia|]. eapply to_lines_some; eauto. Qed.

(** ** Lists *)
Definition desc (ind : list nat) : Prop := StronglySorted (fun a b => b < a) ind.
Lemma filter_rev' : forall {A} (f : A -> bool) l, filter f (rev l) = rev (filter f l).
Proof.
  induction l; cbn; auto. rewrite filter_app, IHl. cbn. destruct (f a); cbn; auto. now rewrite app_nil_r.
Qed.
Lemma filter_all : forall {A} (f : A -> bool) l, Forall (fun x => f x = true) l -> filter f l = l.
Proof. induction 1; cbn; auto. rewrite H. now f_equal. Qed.
Lemma dedent_filter : forall i ind, desc ind -> snd (dedent i ind) = filter (fun j => j <=? i) ind.
Proof.
  induction 1 as [|b r S IH F]; [reflexivity|]. cbn [dedent filter]. destruct (i <? b) eqn:E.
  - apply Nat.ltb_lt in E. destruct (b <=? i) eqn:E'; [apply Nat.leb_le in E'; lia|]. destruct (dedent i r). exact IH.
  - apply Nat.ltb_ge in E. destruct (b <=? i) eqn:E'; [|apply Nat.leb_gt in E'; lia]. cbn [snd]. f_equal. symmetry. apply filter_all.
    eapply Forall_impl; [|exact F]. intros x X. cbn in X. apply Nat.leb_le. lia.
Qed.
Lemma desc_filter : forall f ind, desc ind -> desc (filter f ind).
Proof.
  induction 1 as [|b r S IH F]; cbn; [constructor|]. destruct (f b); auto. constructor; auto.
  rewrite Forall_forall in *. intros x X. apply filter_In in X. apply F. tauto.
Qed.
Lemma desc_open : forall ind i, desc ind -> In i ind -> filter (fun j => j <? i) (rev ind) ++ [i] = rev (filter (fun j => j <=? i) ind).
Proof.
  intros ind i D IN. rewrite filter_rev'. induction D as [|b r S IH F]; [contradiction|]. destruct IN as [<-|IN].
  - cbn [filter]. rewrite Nat.ltb_irrefl, Nat.leb_refl. cbn [rev]. f_equal. f_equal.
    rewrite !filter_all; auto; eapply Forall_impl; try exact F; intros x X; cbn in X; solve [apply Nat.leb_le; lia|apply Nat.ltb_lt; lia].
  - cbn [filter]. rewrite Forall_forall in F. pose proof (F _ IN) as L. cbn in L.
    destruct (b <? i) eqn:E; [apply Nat.ltb_lt in E; lia|]. destruct (b <=? i) eqn:E'; [apply Nat.leb_le in E'; lia|]. auto.
Qed.
Lemma desc_top : forall i b r, desc (b :: r) -> In i (b :: r) -> i <= b.
Proof. intros i b r D [<-|IN]; auto. inversion D as [|? ? ? F]; subst. rewrite Forall_forall in F. apply F in IN. lia. Qed.
Lemma markers_item : forall prev g i ind m s, is_item g = true -> desc ind ->
  In i (rev ind) \/ Forall (fun j => j < i) (rev ind) -> markers prev g i ind = (m, s) ->
  rev s = open_lists [(true, i)] (rev ind) /\ desc s /\ ends_with_marker m.
Proof.
  intros prev g i ind m s I D R H. unfold markers in H. rewrite I in H. cbn [open_lists].
  destruct ind as [|b r].
  - injection H as <- <-. cbn. repeat split; auto; [repeat constructor|]. exists [], kIndent. cbn. auto.
  - destruct (b <? i) eqn:E.
    + apply Nat.ltb_lt in E. injection H as <- <-. repeat split.
      * cbn [rev]. f_equal. rewrite filter_all; auto. destruct R as [R|R].
        -- apply in_rev in R. apply desc_top in R; auto. lia.
        -- eapply Forall_impl; [|exact R]. intros x X. now apply Nat.ltb_lt.
      * constructor; auto. inversion D as [|? ? ? F]; subst. constructor; auto. eapply Forall_impl; [|exact F]. cbn. lia.
      * exists [], kIndent. cbn. auto.
    + apply Nat.ltb_ge in E. destruct R as [R|R]; [|exfalso; rewrite Forall_forall in R; specialize (R b); cbn in R; rewrite in_app_iff in R; cbn in R; specialize (R (or_intror (or_introl eq_refl))); lia].
      apply in_rev in R. rewrite (desc_open _ _ D R). destruct (i <? b) eqn:E'.
      * pose proof (dedent_filter i _ D) as X. destruct (dedent i (b :: r)) as [x y] eqn:Y. cbn [snd] in X. subst y.
        assert (T : exists t, filter (fun j => j <=? i) (b :: r) = i :: t).
        { clear - D R. induction D as [|c q S IH F]; [contradiction|]. destruct R as [<-|R].
          - exists (filter (fun j => j <=? c) q). cbn [filter]. now rewrite Nat.leb_refl.
          - rewrite Forall_forall in F. pose proof (F _ R) as L. cbn [filter]. destruct (c <=? i) eqn:Z; [apply Nat.leb_le in Z; cbn in L; lia|]. auto. }
        destruct T as (t & T). pose proof (desc_filter (fun j => j <=? i) _ D) as DF. rewrite T in *. rewrite Nat.eqb_refl in H. injection H as <- <-. repeat split; auto.
        exists x, kListItemEnd. cbn. auto.
      * apply Nat.ltb_ge in E'. assert (b = i) by lia. subst b.
        assert (Z : filter (fun j => j <=? i) (i :: r) = i :: r).
        { apply filter_all. inversion D as [|? ? ? F]; subst. constructor; [apply Nat.leb_refl|]. eapply Forall_impl; [|exact F]. intros x X. cbn in X. apply Nat.leb_le. lia. }
        rewrite Z. destruct (breaks_list prev); injection H as <- <-; repeat split; auto.
        -- exists [Mark kDedent], kIndent. cbn. auto.
        -- exists [], kSameIndent. cbn. auto.
Qed.

Definition simple_item (l : lin) (i : nat) : Prop :=
  indent l = i /\ lk l = LItem /\ add_line true true (ltoks l) = Ok (map Base (ltoks l)).
Lemma nest : forall ls is, Forall2 simple_item ls is -> forall prev ind, desc ind ->
  regular_indents (map (pair true) is) (rev ind) ->
  exists x, convert prev ind (map (fun l => Leaf GItem [l]) ls) = Ok x /\
  forall k l, nth_error ls k = Some l -> exists a z, x = a ++ map Base (ltoks l) ++ z /\
    base_tokens a = toks_of (firstn k ls) /\
    levels (length ind) a = Some (length (open_lists (map (pair true) (firstn (S k) is)) (rev ind))) /\ ends_with_marker a.
Proof.
  induction 1 as [|l i ls is (E1 & _ & E3) _ IH]; intros prev ind D R.
  - cbn. eexists. split; [reflexivity|]. intros k l N. destruct k; discriminate.
  - cbn [map convert group_indent obind]. rewrite E1. destruct R as [R1 R2]. specialize (R1 eq_refl).
    destruct (markers _ _ _ _) as [m s] eqn:M. pose proof (levels_markers _ _ _ _ _ _ M 0) as LV. rewrite !Nat.add_0_r in LV.
    pose proof (markers_marks _ _ _ _ _ _ M) as MM. destruct (markers_item _ _ _ _ _ _ (eq_refl : is_item (Leaf GItem [l]) = true) D R1 M) as (O & DS & EM).
    cbn [convert_group add_lines]. rewrite E3. cbn [obind omap]. rewrite app_nil_r.
    rewrite <- O in R2. destruct (IH (Some (Leaf GItem [l])) s DS R2) as (x & -> & X). cbn [omap].
    eexists. split; [reflexivity|]. intros k l' N. destruct k as [|k].
    + injection N as <-. exists m, x. repeat split; auto.
      rewrite LV. f_equal. rewrite <- rev_length, O. reflexivity.
    + destruct (X k l' N) as (a & z & -> & B & L & (a' & kk & -> & IN)). exists (m ++ map Base (ltoks l) ++ a' ++ [Mark kk]), z. repeat split.
      * now rewrite <- !app_assoc.
      * rewrite !base_app, base_map, MM in *. rewrite B. cbn [firstn]. unfold toks_of. reflexivity.
      * rewrite levels_app, LV, levels_app, levels_base, L. f_equal. f_equal. rewrite O. reflexivity.
      * exists (m ++ map Base (ltoks l) ++ a'), kk. rewrite <- !app_assoc. auto.
Qed.

Lemma add_line_ok : forall ig n ts t first, length ts <= n -> leading_kind (kind t) = false ->
  add_line ig first (ts ++ [t]) = Ok (map Base (ts ++ [t])).
Proof.
  intros ig n ts t first L K. enough (exists x, add_line ig first (ts ++ [t]) = Ok x) as (x & E) by (rewrite E; apply add_line_toks in E; congruence).
  revert ts first L. induction n as [n IH] using lt_wf_ind. intros ts first L. destruct ts as [|u ts].
  - cbn [app add_line]. destruct (dash_kind (kind t)); [eauto|]. rewrite K. cbn. eauto.
  - cbn [length] in L. cbn [app add_line].
    assert (ONE : forall b, exists x, omap (cons (Base u)) (add_line ig b (ts ++ [t])) = Ok x).
    { intros b. destruct (IH (length ts) ltac:(lia) ts b (le_n _)) as (x & ->). cbn. eauto. }
    assert (TWO : forall w r', ts ++ [t] = w :: r' -> exists x, omap (fun l => Base u :: Base w :: l) (add_line ig false r') = Ok x).
    { intros w r' E. destruct ts as [|c ts]; cbn in E; injection E as <- <-; [cbn; eauto|]. cbn [length] in L.
      destruct (IH (length ts) ltac:(lia) ts false (le_n _)) as (x & ->). cbn. eauto. }
    destruct (dash_kind (kind u)).
    + destruct (ts ++ [t]) as [|w r'] eqn:E; [eauto|]. destruct (first && is_ws w && ig); eauto.
    + destruct (leading_kind (kind u)); [|eauto]. destruct (ts ++ [t]) as [|w r'] eqn:E; [now destruct ts|]. destruct (is_ws w); eauto.
Qed.
Lemma line_end_leading : forall k, line_end k = true -> leading_kind k = false.
Proof. intros k H. destruct k; cbn in *; congruence. Qed.

(** Cutting into lines that are known *)
Lemma to_lines_line : forall body start e r, Forall (fun t => line_end (kind t) = false) body -> line_end (kind e) = true ->
  to_lines start (body ++ e :: r) = obind (mk_line (start ++ body ++ [e])) (fun l => omap (cons l) (to_lines [] r)).
Proof.
  induction body as [|t body IH]; intros start e r F E; cbn [app to_lines].
  - now rewrite E.
  - inversion F; subst. rewrite H1. rewrite IH; auto. now rewrite <- app_assoc.
Qed.
Lemma item_mk : forall l i, item_line l i -> mk_line l = Ok (Lin l i LItem) /\ simple_item (Lin l i LItem) i.
Proof.
  intros l i (m & w & body & e & -> & K & -> & W & B & E). split.
  - cbn. unfold line_indent, line_kind. cbn in K. destruct K as [<-|[<-|[<-|[]]]]; reflexivity.
  - repeat split. cbn [ltoks]. change (m :: w :: body ++ [e]) with ((m :: w :: body) ++ [e]). eapply add_line_ok; [apply le_n|]. now apply line_end_leading.
Qed.
Lemma item_lines : forall ls is, Forall2 item_line ls is ->
  exists ll, to_lines [] (concat ls) = Ok ll /\ Forall2 simple_item ll is /\ map ltoks ll = ls.
Proof.
  induction 1 as [|l i ls is H _ (ll & L & F & M)]; [exists []; auto|]. destruct (item_mk _ _ H) as [K S].
  destruct H as (m & w & body & e & -> & KM & -> & W & B & E).
  cbn [concat]. change (m :: w :: body ++ [e]) with ((m :: w :: body) ++ [e]). rewrite <- app_assoc. cbn [app].
  change (m :: w :: body ++ e :: concat ls) with ((m :: w :: body) ++ e :: concat ls).
  rewrite to_lines_line; auto.
  - cbn [app]. rewrite K, L. cbn [obind omap]. eexists. split; [reflexivity|]. split; [constructor; auto|]. cbn [map ltoks]. now rewrite M.
  - constructor; [|constructor; auto; now rewrite W]. cbn in KM. destruct KM as [<-|[<-|[<-|[]]]]; reflexivity.
Qed.
Lemma item_groups : forall ls fuel, length ls < fuel -> Forall (fun l => lk l = LItem) ls -> root_groups fuel ls = Ok (map (fun l => Leaf GItem [l]) ls).
Proof.
  induction ls as [|l ls IH]; intros fuel L F; destruct fuel; try (cbn in L; lia); [reflexivity|]. cbn [length] in L.
  cbn [root_groups rec_group]. inversion F; subst. rewrite H1.
  assert (T : take_while (fun x => is_indented x && (indent l <=? indent x)) ls = ([], ls)).
  { destruct ls as [|l' ls]; [reflexivity|]. inversion H2; subst. cbn [take_while]. unfold is_indented. now rewrite H3. }
  rewrite T. cbn [obind]. rewrite IH; auto. lia.
Qed.
Lemma list_nesting : forall ls is, Forall2 item_line ls is -> regular_indents (map (pair true) is) [] ->
  exists x, regroup (concat ls) = Ok x /\
  forall k l, nth_error ls k = Some l -> exists a z, x = a ++ map Base l ++ z /\
    base_tokens a = concat (firstn k ls) /\
    levels 0 a = Some (length (open_lists (map (pair true) (firstn (S k) is)) [])) /\ ends_with_marker a.
Proof.
  intros ls is H R. destruct (item_lines _ _ H) as (ll & L & F & <-). unfold regroup. rewrite L. cbn [obind]. unfold to_groups.
  rewrite item_groups; [|lia|clear - F; induction F as [|? ? ? ? (_ & ? & _)]; constructor; auto]. cbn [obind].
  destruct (nest _ _ F None [] (SSorted_nil _) R) as (x & -> & X). eexists. split; [reflexivity|]. intros k l N.
  apply nth_error_map in N || (rewrite nth_error_map in N). destruct (nth_error ll k) as [y|] eqn:Y; [|discriminate]. injection N as <-.
  destruct (X k y Y) as (a & z & -> & B & LV & EM). exists a, z. rewrite firstn_map. auto.
Qed.

(** ** Source blocks *)
Lemma begin_mk : forall l i, begin_src l i -> mk_line l = Ok (Lin l i LOpen) /\ add_line false true l = Ok (map Base l).
Proof.
  intros l i (sp & cmd & b & rest & e & -> & SP & C & B & R & E). split.
  - destruct SP as [(-> & ->)|(s & -> & S & ->)]; cbn; unfold line_indent, line_kind, leading_space_kind.
    + rewrite C. cbn. now rewrite B.
    + rewrite S, C. cbn. now rewrite B.
  - assert (Z : sp ++ cmd :: b :: rest ++ [e] = (sp ++ cmd :: b :: rest) ++ [e]) by (now rewrite <- app_assoc). rewrite Z. eapply add_line_ok; [apply le_n|]. now apply line_end_leading.
Qed.
Lemma begin_cut : forall l i r, begin_src l i -> to_lines [] (l ++ r) = omap (cons (Lin l i LOpen)) (to_lines [] r).
Proof.
  intros l i r H. destruct (begin_mk _ _ H) as [K _]. destruct H as (sp & cmd & b & rest & e & -> & SP & C & B & R & E).
  assert (Z : (sp ++ cmd :: b :: rest ++ [e]) = (sp ++ cmd :: b :: rest) ++ [e]) by (now rewrite <- app_assoc). rewrite Z in *.
  rewrite <- app_assoc. cbn [app]. rewrite to_lines_line; auto.
  - cbn [app]. rewrite K. reflexivity.
  - apply Forall_app. split; [|repeat constructor; auto; [now rewrite C|now rewrite B]].
    destruct SP as [(-> & _)|(s & -> & S & _)]; constructor; auto. now rewrite S.
Qed.
Lemma end_mk : forall l, end_src l -> mk_line l = Ok (Lin l 0 LClose) /\ add_line false true l = Ok (map Base l).
Proof.
  intros l (b & rest & e & -> & B & R & E). split.
  - cbn. unfold line_indent, line_kind. now rewrite B.
  - change (b :: rest ++ [e]) with ((b :: rest) ++ [e]). eapply add_line_ok; [apply le_n|]. now apply line_end_leading.
Qed.
Lemma end_cut : forall l, end_src l -> to_lines [] l = Ok [Lin l 0 LClose].
Proof.
  intros l H. destruct (end_mk _ H) as [K _]. destruct H as (b & rest & e & -> & B & R & E).
  change (b :: rest ++ [e]) with ((b :: rest) ++ e :: []) in *. rewrite to_lines_line; auto.
  - cbn [app] in *. rewrite K. reflexivity.
  - constructor; auto. now rewrite B.
Qed.
Definition code_lin (l : list token) : lin := Lin l (code_indent l) LLine.
Lemma code_mk : forall l, code_line l -> mk_line l = Ok (code_lin l).
Proof.
  intros l (t & body & e & -> & [K|(K & X)] & B & E); cbn; unfold code_lin, code_indent, line_indent, line_kind; rewrite K; [reflexivity|now rewrite X].
Qed.
Lemma code_cut : forall ls r, Forall code_line ls -> to_lines [] (concat ls ++ r) = omap (app (map code_lin ls)) (to_lines [] r).
Proof.
  induction ls as [|l ls IH]; intros r F; cbn [concat app map]; [destruct (to_lines [] r); reflexivity|].
  inversion F as [|? ? H F']; subst. pose proof (code_mk _ H) as K. destruct H as (t & body & e & -> & T & B & E).
  change (t :: body ++ [e]) with ((t :: body) ++ [e]) in *. rewrite <- !app_assoc. cbn [app] in *.
  change (t :: body ++ e :: concat ls ++ r) with ((t :: body) ++ e :: concat ls ++ r). rewrite to_lines_line; auto.
  - cbn [app]. rewrite K. cbn [obind]. rewrite IH by auto. destruct (to_lines [] r); reflexivity.
  - constructor; auto. destruct T as [->|[-> _]]; reflexivity.
Qed.

Lemma take_while_map : forall f ls a b, take_while f ls = (a, b) -> Forall (fun l => f l = true) a.
Proof.
  induction ls; intros x y H; cbn in H; [injection H as <- <-; auto|]. destruct (f a) eqn:E; [|injection H as <- <-; auto].
  destruct (take_while f ls). injection H as <- <-. eauto.
Qed.
Definition text_group (g : group) : Prop := exists l ls, g = Leaf GLine (l :: ls).
Lemma code_block : forall n ls e fuel, length ls <= n -> 2 * n + 2 <= fuel -> Forall (fun l => lk l = LLine) ls -> lk e = LClose ->
  exists subs, rec_block fuel (ls ++ [e]) = Ok (subs, e, []) /\ leaf_lines subs = Ok ls /\ Forall text_group subs.
Proof.
  induction n as [n IH] using lt_wf_ind. intros ls e fuel L HF K E. destruct fuel as [|fuel]; [lia|]. cbn [rec_block].
  destruct ls as [|l ls]; cbn [app].
  - unfold is_close. rewrite E. exists []. auto.
  - inversion K as [|? ? KL K']; subst. unfold is_close at 1. rewrite KL. cbn [length] in L. destruct fuel as [|fuel]; [lia|].
    cbn [rec_group]. rewrite KL. cbn [take_while]. unfold is_text at 1. rewrite KL, Nat.leb_refl. cbn [andb].
    destruct (take_while _ (ls ++ [e])) as [a b] eqn:T. cbn [obind].
    pose proof (take_while_app _ _ _ _ T) as A. pose proof (take_while_map _ _ _ _ T) as M.
    assert (B : exists b', b = b' ++ [e] /\ ls = a ++ b').
    { destruct b as [|x b] using rev_ind.
      - exfalso. rewrite app_nil_r in A. subst a. apply Forall_app in M. destruct M as [_ M]. inversion M; subst.
        unfold is_text in H1. rewrite E in H1. discriminate.
      - rewrite app_assoc in A. apply app_inj_tail in A. destruct A as [-> ->]. eauto. }
    destruct B as (b' & -> & ->). rewrite app_length in L.
    destruct (IH (length b') ltac:(lia) b' e (S fuel) (le_n _) ltac:(lia)) as (subs & -> & LL & TG); auto; [apply Forall_app in K'; tauto|].
    cbn [omap]. eexists. split; [reflexivity|]. cbn [leaf_lines]. rewrite LL. split; [reflexivity|]. constructor; auto. unfold text_group. eauto.
Qed.

Lemma code_blank : forall l, code_line l -> blank_line (code_lin l) = empty_code l.
Proof.
  intros l (t & body & e & -> & T & B & E). unfold blank_line, empty_code. cbn [ltoks code_lin].
  destruct body as [|u body]; cbn [app]; [rewrite E; reflexivity|]. destruct (body ++ [e]) eqn:Z; [now destruct body|reflexivity].
Qed.
Lemma code_min : forall ls i, Forall code_line ls -> common_indent (min_indent i (map code_lin ls)) i ls.
Proof.
  induction ls as [|l ls IH]; intros i F; [split; [apply le_n|]; split; [intros ? []|now left]|].
  inversion F as [|? ? H F']; subst. cbn [map].
  change (min_indent i (code_lin l :: map code_lin ls)) with
    (min_indent (if blank_line (code_lin l) then i else match l with [] => i | _ => Nat.min (code_indent l) i end) (map code_lin ls)).
  rewrite (code_blank _ H). destruct (IH (if empty_code l then i else match l with [] => i | _ => Nat.min (code_indent l) i end) F') as (A & B & C).
  assert (N : l <> []) by (destruct H as (? & ? & ? & -> & _); discriminate).
  set (m := min_indent _ _) in *. destruct (empty_code l) eqn:EL.
  - split; [exact A|]. split; [intros ? [<-|?] ?; [congruence|auto]|]. destruct C as [C|(l' & ? & ? & ?)]; [now left|]. right. exists l'. cbn. auto.
  - destruct l as [|t r]; [congruence|]. split; [lia|]. split.
    + intros l' [<-|IN] EM; [lia|auto].
    + destruct C as [C|(l' & ? & ? & ?)]; [|right; exists l'; cbn; auto].
      destruct (Nat.min_spec (code_indent (t :: r)) i) as [(? & Z)|(? & Z)]; rewrite Z in C; [|now left]. right. exists (t :: r). cbn [In]. auto.
Qed.
Lemma run_len_le : forall f s, run_len f s <= length s.
Proof. induction s; cbn; [lia|]. destruct (f a); lia. Qed.
Lemma code_src_line : forall m l, code_line l -> (empty_code l = false -> m <= code_indent l) -> src_line m (code_lin l) = Ok (map Base (strip m l)).
Proof.
  intros m l (t & body & e & -> & T & B & E) M. unfold src_line. cbn [ltoks code_lin strip map].
  destruct t as [k tx p c li]. cbn [text kind tpos tcol tline] in *. destruct tx as [|z tx].
  - now rewrite skipn_nil.
  - assert (L : m <= code_indent (Token k (z :: tx) p c li :: body ++ [e])).
    { apply M. cbn. destruct (body ++ [e]) as [|? [|? ?]]; reflexivity. }
    cbn [code_indent text] in L. pose proof (run_len_le (Z.eqb 32) (z :: tx)). destruct (_ <? m) eqn:X; [apply Nat.ltb_lt in X; lia|]. reflexivity.
Qed.
Lemma code_src_lines : forall m ls, Forall code_line ls -> (forall l, In l ls -> empty_code l = false -> m <= code_indent l) ->
  src_lines m (map code_lin ls) = Ok (map Base (concat (map (strip m) ls))).
Proof.
  induction ls as [|l ls IH]; intros F M; [reflexivity|]. inversion F; subst. cbn [map src_lines concat]. rewrite code_src_line; auto with datatypes.
  cbn [obind]. rewrite IH; auto with datatypes. cbn. now rewrite map_app.
Qed.
Lemma strip0 : forall l, strip 0 l = l.
Proof. destruct l as [|[k tx p c li] l]; reflexivity. Qed.
Lemma code_add : forall ls, Forall code_line ls -> add_lines false (map code_lin ls) = Ok (map Base (concat ls)).
Proof.
  induction 1 as [|l ls H _ IH]; [reflexivity|]. cbn [map add_lines ltoks code_lin]. destruct H as (t & body & e & -> & _ & _ & E).
  change (t :: body ++ [e]) with ((t :: body) ++ [e]). rewrite (add_line_ok _ _ _ _ _ (le_n _)); [|now apply line_end_leading].
  cbn [obind]. rewrite IH. cbn [omap]. cbn [concat]. now rewrite !map_app.
Qed.
Lemma convert_text : forall subs ls prev, Forall text_group subs -> leaf_lines subs = Ok (map code_lin ls) -> Forall code_line ls ->
  convert prev [] subs = Ok (map Base (concat ls)).
Proof.
  induction subs as [|g subs IH]; intros ls prev T L F.
  - cbn in L. destruct ls; [reflexivity|discriminate].
  - inversion T as [|? ? (l & lr & ->) T']; subst. cbn [leaf_lines] in L. apply omap_inv in L. destruct L as (y & L & E).
    apply map_eq_app in E. destruct E as (l1 & l2 & -> & E1 & E2). rewrite <- E2 in L. apply Forall_app in F. destruct F as [F1 F2].
    cbn [convert group_indent obind]. unfold markers. cbn [is_item dedent]. cbn [convert_group]. rewrite <- E1, (code_add _ F1). cbn [obind].
    rewrite (IH l2); auto. cbn [omap app]. now rewrite concat_app, map_app.
Qed.
Lemma fuel_two : forall n m, 2 * m + 4 <= n -> exists k, n = S (S k) /\ 2 * m + 2 <= S k.
Proof. intros n m H. exists (n - 2). lia. Qed.
Lemma source_block : forall b i ls e, begin_src b i -> Forall code_line ls -> end_src e ->
  exists n, common_indent n i ls /\ regroup (b ++ concat ls ++ e) = Ok (map Base (b ++ concat (map (strip n) ls) ++ e)).
Proof.
  intros b i ls e HB HL HE. exists (min_indent i (map code_lin ls)). pose proof (code_min ls i HL) as C. split; [exact C|].
  unfold regroup. rewrite (begin_cut _ _ _ HB), (code_cut _ _ HL), (end_cut _ HE). cbn [omap obind]. unfold to_groups.
  match goal with |- context [root_groups ?n] => destruct (fuel_two n (length ls)) as (fuel & -> & HF) end.
  { cbn [length]. rewrite app_length, map_length. lia. }
  cbn [root_groups rec_group lk].
  destruct (code_block (length ls) (map code_lin ls) (Lin e 0 LClose) (S fuel)) as (subs & -> & LL & TG); [now rewrite map_length|lia| |reflexivity|].
  { apply Forall_forall. intros x X. apply in_map_iff in X. destruct X as (? & <- & _). reflexivity. }
  cbn [omap obind root_groups].
  cbn [convert group_indent obind]. unfold markers. cbn [is_item dedent]. rewrite convert_group_nested. cbn [ltoks].
  rewrite (proj2 (begin_mk _ _ HB)), (proj2 (end_mk _ HE)). cbn [obind].
  assert (Y : (if is_src (Nested (Lin b i LOpen) subs (Lin e 0 LClose))
      then obind (leaf_lines subs) (fun ls0 => src_lines (min_indent (indent (Lin b i LOpen)) ls0) ls0) else convert None [] subs)
      = Ok (map Base (concat (map (strip (min_indent i (map code_lin ls))) ls)))).
  { rewrite LL. cbn [obind indent]. destruct (is_src _) eqn:IS; [apply code_src_lines; [exact HL|apply C]|].
    rewrite (convert_text _ _ _ TG LL HL). f_equal. f_equal. f_equal.
    destruct ls as [|l ls]; [reflexivity|].
    destruct subs as [|g subs]; [discriminate|]. inversion TG as [|? ? (l0 & lr & ->) _]; subst. cbn [leaf_lines] in LL. apply omap_inv in LL.
    destruct LL as (y & _ & LL). cbn [map app] in LL. injection LL as Z _. subst l0. cbn [is_src ltoks code_lin] in IS.
    inversion HL as [|? ? H _]; subst.
    assert (Z : code_indent l = 0 /\ empty_code l = false).
    { destruct H as (t & bd & e' & -> & [K|(K & X)] & _); [rewrite K in IS; discriminate|]. cbn. rewrite X. split; [reflexivity|]. now destruct (bd ++ [e']) as [|? [|? ?]]. }
    destruct Z as [Z1 Z2]. destruct C as (_ & C & _). specialize (C l (or_introl eq_refl) Z2). assert (M0 : min_indent i (map code_lin (l :: ls)) = 0) by lia.
    rewrite M0. rewrite (map_ext _ (fun l => l)); [now rewrite map_id|apply strip0]. }
  rewrite Y. cbn [obind omap app repeat length]. now rewrite app_nil_r, !map_app.
Qed.

(** ** The end of a list *)
Lemma breaks_one : forall l, lk l = LItem -> breaks_list (Some (Leaf GItem [l])) = match rev (ltoks l) with t :: _ => match kind t with kLongNewline => true | _ => false end | [] => false end.
Proof. intros l K. cbn. unfold list_breaking. rewrite K. reflexivity. Qed.


Lemma siblings : forall ls is, Forall2 simple_item ls is -> forall prev ind, desc ind ->
  regular_indents (map (pair true) is) (rev ind) ->
  exists x, convert prev ind (map (fun l => Leaf GItem [l]) ls) = Ok x /\
  forall k l l' i, nth_error ls k = Some l -> nth_error ls (S k) = Some l' -> nth_error is k = Some i -> nth_error is (S k) = Some i ->
    exists a z, x = a ++ map Base (ltoks l) ++ between (ltoks l) ++ map Base (ltoks l') ++ z.
Proof.
  induction 1 as [|l i ls is (E1 & E2 & E3) HF IH]; intros prev ind D R.
  - cbn. eexists. split; [reflexivity|]. intros k l l' i N. destruct k; discriminate.
  - cbn [map convert group_indent obind]. rewrite E1. destruct R as [R1 R2]. specialize (R1 eq_refl).
    destruct (markers _ _ _ _) as [m s] eqn:M. destruct (markers_item _ _ _ _ _ _ (eq_refl : is_item (Leaf GItem [l]) = true) D R1 M) as (O & DS & EM).
    cbn [convert_group add_lines]. rewrite E3. cbn [obind omap]. rewrite app_nil_r.
    rewrite <- O in R2. destruct (IH (Some (Leaf GItem [l])) s DS R2) as (x & CX & X). rewrite CX. cbn [omap].
    eexists. split; [reflexivity|]. intros k l0 l' i0 N1 N2 N3 N4. destruct k as [|k].
    + injection N1 as <-. injection N3 as <-. destruct ls as [|l1 ls]; [discriminate|]. injection N2 as <-.
      destruct is as [|i1 is]; [discriminate|]. injection N4 as ->. inversion HF as [|? ? ? ? (F1 & F2 & F3) _]; subst.
      (* the level of the item is the innermost one *)
      assert (T : exists s', s = indent l :: s').
      { cbn [open_lists] in O. apply (f_equal (@rev nat)) in O. rewrite rev_involutive, rev_app_distr in O. cbn in O. eauto. }
      destruct T as (s' & ->). cbn [map convert group_indent obind] in CX. rewrite F1 in CX.
      unfold markers in CX. cbn [is_item] in CX. rewrite Nat.ltb_irrefl in CX. rewrite (breaks_one _ E2) in CX.
      fold (long_end (ltoks l)) in CX. exists m.
      unfold between. destruct (long_end (ltoks l)); cbn [convert_group add_lines] in CX; rewrite F3 in CX; cbn [obind omap] in CX; rewrite app_nil_r in CX;
        apply omap_inv in CX; destruct CX as (y & _ & ->); exists y; reflexivity.
    + destruct (X k l0 l' i0 N1 N2 N3 N4) as (a & z & ->). exists (m ++ map Base (ltoks l) ++ a), z. now rewrite <- !app_assoc.
Qed.
Lemma list_siblings : forall ls is, Forall2 item_line ls is -> regular_indents (map (pair true) is) [] ->
  exists x, regroup (concat ls) = Ok x /\
  forall k l l' i, nth_error ls k = Some l -> nth_error ls (S k) = Some l' -> nth_error is k = Some i -> nth_error is (S k) = Some i ->
    exists a z, x = a ++ map Base l ++ between l ++ map Base l' ++ z.
Proof.
  intros ls is H R. destruct (item_lines _ _ H) as (ll & L & F & <-). unfold regroup. rewrite L. cbn [obind]. unfold to_groups.
  rewrite item_groups; [|lia|clear - F; induction F as [|? ? ? ? (_ & ? & _)]; constructor; auto]. cbn [obind].
  destruct (siblings _ _ F None [] (SSorted_nil _) R) as (x & -> & X). eexists. split; [reflexivity|]. intros k l l' i N1 N2.
  rewrite nth_error_map in N1, N2. destruct (nth_error ll k) as [y|] eqn:Y; [|discriminate]. injection N1 as <-.
  destruct (nth_error ll (S k)) as [y'|] eqn:Y'; [|discriminate]. injection N2 as <-. eauto.
Qed.

(** For the counterexamples *)
Fixpoint after_marker (p : nat) (x : list item) : bool :=
  match x with
  | Mark k :: ((Base t :: _) as r) => (match k with kIndent | kSameIndent | kListItemEnd => tpos t =? p | _ => false end) || after_marker p r
  | _ :: r => after_marker p r
  | [] => false
  end.
Lemma after_marker_app : forall a k t z, In k [kIndent; kSameIndent; kListItemEnd] -> after_marker (tpos t) (a ++ Mark k :: Base t :: z) = true.
Proof.
  induction a as [|[u|m] a IH]; intros k t z H.
  - cbn. cbn in H. destruct H as [<-|[<-|[<-|[]]]]; now rewrite Nat.eqb_refl.
  - cbn [app after_marker]. auto.
  - cbn [app]. cbn [after_marker]. destruct (a ++ _) as [|[]] eqn:E; rewrite <- ?E; auto. rewrite IH; auto. apply Bool.orb_true_r.
Qed.
Lemma not_after_marker : forall t l x, after_marker (tpos t) x = false -> ~ exists a z, x = a ++ map Base (t :: l) ++ z /\ ends_with_marker a.
Proof.
  intros t l x F (a & z & -> & (a' & k & -> & K)). rewrite <- app_assoc in F. cbn [app map] in F. now rewrite after_marker_app in F.
Qed.
