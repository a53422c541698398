From Verif Require Import Base SliceModel SliceSpec RangeModel RangeSpec.
Local Open Scope Z_scope.

Definition rvalid (r : rng) : Prop := first (rg r) <= last (rg r).
Definition has_pt (p : Z) (r : rng) : bool := sl_contains (rg r) p.

(** Sorting. *)
Lemma insert_perm : forall x l, Permutation (insert x l) (x :: l).
Proof.
  induction l as [|y l IH]; cbn; [reflexivity|]. destruct (x <=? y); [reflexivity|].
  rewrite IH. apply perm_swap.
Qed.
Lemma isort_perm : forall l, Permutation (isort l) l.
Proof. induction l as [|x l IH]; cbn; [reflexivity|]. rewrite insert_perm. now constructor. Qed.

Lemma insert_sorted : forall x l, StronglySorted Z.le l -> StronglySorted Z.le (insert x l).
Proof.
  intros x l H. induction H as [|y l H IH Hf]; cbn; [repeat constructor|].
  destruct (Z.leb_spec x y).
  - constructor; [now constructor|]. constructor; [lia|].
    rewrite Forall_forall in *. intros z Hz. specialize (Hf z Hz). lia.
  - constructor; [assumption|]. rewrite Forall_forall in *. intros z Hz.
    apply (Permutation_in _ (insert_perm x l)) in Hz. destruct Hz as [<-|Hz]; [lia|auto].
Qed.
Lemma isort_sorted : forall l, StronglySorted Z.le (isort l).
Proof. induction l as [|x l IH]; cbn; [constructor|]. now apply insert_sorted. Qed.

Lemma sorted_perm_eq : forall a b, StronglySorted Z.le a -> StronglySorted Z.le b -> Permutation a b -> a = b.
Proof.
  induction a as [|x a IH]; intros b Ha Hb Hp.
  - now apply Permutation_nil in Hp.
  - destruct b as [|y b]; [symmetry in Hp; apply Permutation_nil in Hp; discriminate|].
    apply StronglySorted_inv in Ha as [Ha Fa]. apply StronglySorted_inv in Hb as [Hb Fb].
    rewrite Forall_forall in Fa, Fb.
    assert (x = y).
    { assert (Hx : In x (y :: b)) by (eapply Permutation_in; [exact Hp|now left]).
      assert (Hy : In y (x :: a)) by (eapply Permutation_in; [symmetry; exact Hp|now left]).
      destruct Hx as [->|Hx]; [reflexivity|]. destruct Hy as [->|Hy]; [reflexivity|].
      specialize (Fa y Hy). specialize (Fb x Hx). lia. }
    subst y. f_equal. apply IH; auto. eapply Permutation_cons_inv; exact Hp.
Qed.

(** The tree. *)
Lemma filter_perm : forall {A} (f : A -> bool) a b, Permutation a b -> Permutation (filter f a) (filter f b).
Proof.
  intros A f a b H. induction H; cbn; auto.
  - destruct (f x); auto.
  - destruct (f x), (f y); auto. apply perm_swap.
  - eapply Permutation_trans; eassumption.
Qed.

Lemma split3 : forall c rs,
  Permutation rs (filter (stays c) rs ++ filter (goes_left c) rs ++ filter (goes_right c) rs).
Proof.
  intros c. induction rs as [|r rs IH]; [reflexivity|].
  cbn [filter]. unfold stays at 1, goes_right at 1.
  destruct (goes_left c r); cbn [negb andb app].
  - rewrite <- Permutation_middle. now constructor.
  - destruct (c <? first (rg r)); cbn [negb app].
    + rewrite app_assoc. rewrite <- Permutation_middle. rewrite <- app_assoc. now constructor.
    + cbn [app]. now constructor.
Qed.

Lemma center_in : forall rs, rs <> [] -> In (center_of rs) (points rs).
Proof.
  intros rs H. unfold center_of. eapply Permutation_in; [apply isort_perm|].
  apply nth_In. assert (length (isort (points rs)) = length (points rs)) as ->
    by (apply Permutation_length, isort_perm).
  destruct rs as [|r rs]; [congruence|]. cbn [points flat_map app length].
  apply Nat.div_lt; lia.
Qed.

Lemma center_stays : forall rs, rs <> [] -> Forall rvalid rs -> filter (stays (center_of rs)) rs <> [].
Proof.
  intros rs H Hv E. pose proof (center_in rs H) as Hin. apply in_flat_map in Hin as (r & Hr & Hc).
  rewrite Forall_forall in Hv. specialize (Hv r Hr). unfold rvalid in Hv.
  assert (Hs : In r (filter (stays (center_of rs)) rs)).
  { apply filter_In. split; [assumption|]. unfold stays, goes_left.
    destruct Hc as [Hc|[Hc|[]]]; rewrite <- Hc; lia. }
  rewrite E in Hs. destruct Hs.
Qed.

Lemma get_ranges_node : forall c over l r p,
  get_ranges (RNode c over l r) p =
    filter (has_pt p) over ++ (if p <? c then get_ranges l p else [])
      ++ (if c <? p then get_ranges r p else []).
Proof.
  intros c over l r p. unfold get_ranges. cbn [all_nodes]. rewrite !flat_map_app. f_equal; [|f_equal].
  - destruct (existsb (fun x => sl_contains (rg x) p) over) eqn:E.
    + cbn. now rewrite app_nil_r.
    + cbn. symmetry. unfold has_pt. revert E. induction over as [|x over IH]; cbn; [reflexivity|].
      intros E. apply orb_false_iff in E as [E1 E2]. rewrite E1. auto.
  - destruct (p <? c); reflexivity.
  - destruct (c <? p); reflexivity.
Qed.

Lemma build_rec_ok : forall fuel rs, Forall rvalid rs -> (length rs < fuel)%nat ->
  exists t, build_rec fuel rs = Ok t /\ forall p, Permutation (get_ranges t p) (filter (has_pt p) rs).
Proof.
  induction fuel as [|fuel IH]; intros rs Hv Hf; [lia|]. cbn [build_rec].
  destruct rs as [|r0 rs0] eqn:Ers; [exists RNil; split; [reflexivity|intros; reflexivity]|].
  rewrite <- Ers in *. assert (Hne : rs <> []) by congruence. clear Ers.
  set (c := center_of rs) in *. cbv zeta.
  pose proof (split3 c rs) as Hsp. pose proof (center_stays rs Hne Hv) as Hst. fold c in Hst.
  pose proof (Permutation_length Hsp) as Hlen. rewrite !app_length in Hlen.
  assert (length (filter (stays c) rs) <> 0)%nat by (destruct (filter (stays c) rs); [congruence|cbn; lia]).
  assert (Hsub : forall f, Forall rvalid (filter f rs)).
  { intros f. apply Forall_forall. intros x Hx. apply filter_In in Hx as [Hx _].
    rewrite Forall_forall in Hv. auto. }
  destruct (IH (filter (goes_left c) rs) (Hsub _) ltac:(lia)) as (tl & El & Pl).
  destruct (IH (filter (goes_right c) rs) (Hsub _) ltac:(lia)) as (tr & Er & Pr).
  rewrite El, Er. cbn [obind]. eexists; split; [reflexivity|]. intros p.
  rewrite get_ranges_node. rewrite (filter_perm (has_pt p) _ _ Hsp). rewrite !filter_app.
  apply Permutation_app_head. apply Permutation_app.
  - destruct (Z.ltb_spec p c); [apply Pl|].
    assert (Hnil : filter (has_pt p) (filter (goes_left c) rs) = []).
    { destruct (filter (has_pt p) (filter (goes_left c) rs)) as [|x l] eqn:E; [reflexivity|].
      assert (Hx : In x (filter (has_pt p) (filter (goes_left c) rs))) by (rewrite E; now left).
      apply filter_In in Hx as [Hx H1]. apply filter_In in Hx as [_ H2].
      unfold has_pt, sl_contains, goes_left in *. lia. }
    rewrite Hnil. constructor.
  - destruct (Z.ltb_spec c p); [apply Pr|].
    assert (Hnil : filter (has_pt p) (filter (goes_right c) rs) = []).
    { destruct (filter (has_pt p) (filter (goes_right c) rs)) as [|x l] eqn:E; [reflexivity|].
      assert (Hx : In x (filter (has_pt p) (filter (goes_right c) rs))) by (rewrite E; now left).
      apply filter_In in Hx as [Hx H1]. apply filter_In in Hx as [_ H2].
      unfold has_pt, sl_contains, goes_right, goes_left in *. lia. }
    rewrite Hnil. constructor.
Qed.

Lemma enum_valid : forall l i, Forall nonempty l -> Forall rvalid (enum i l).
Proof.
  induction l as [|s l IH]; intros i H; cbn; constructor.
  - apply Forall_cons_iff in H as [[x Hx] _]. unfold rvalid. cbn. unfold covers in Hx. lia.
  - apply Forall_cons_iff in H as [_ H]. auto.
Qed.
Lemma enum_length : forall l i, length (enum i l) = length l.
Proof. induction l; intros; cbn; auto. Qed.

Lemma enum_rg : forall l i, map rg (enum i l) = l.
Proof. induction l; intros; cbn; f_equal; auto. Qed.

Lemma range_before_both : forall a b, range_before a b && range_before b a = true <-> rg a = rg b.
Proof.
  intros [[a1 a2] i] [[b1 b2] j]. unfold range_before. cbn. split.
  - destruct (Z.eqb_spec a1 b1), (Z.eqb_spec b1 a1); cbn; try lia.
    destruct (Z.eqb_spec a2 b2), (Z.eqb_spec b2 a2); cbn; try lia. intros _. congruence.
  - intros E. injection E as -> ->. rewrite !Z.eqb_refl. reflexivity.
Qed.

Lemma sort_defined_nodup : forall rs, sort_defined rs = true <-> NoDup (map rg rs).
Proof.
  induction rs as [|r rs IH]; cbn; [split; [constructor|reflexivity]|].
  rewrite andb_true_iff, IH, forallb_forall. split.
  - intros [H1 H2]. constructor; [|assumption]. intros Hin. apply in_map_iff in Hin as (s & E & Hs).
    specialize (H1 s Hs). assert (range_before r s && range_before s r = true) by (now apply range_before_both).
    rewrite H in H1. discriminate.
  - intros H. inversion H as [|? ? Hn Hd]; subst. split; [|assumption]. intros s Hs.
    destruct (range_before r s && range_before s r) eqn:E; [|reflexivity].
    apply range_before_both in E. exfalso. apply Hn. rewrite E. now apply in_map.
Qed.

Lemma build_ok : forall order fuel l, permuting order -> Forall nonempty l -> NoDup l ->
  (length l < fuel)%nat ->
  exists t, build order fuel l = Ok t /\ forall p, Permutation (get_ranges t p) (scan l p).
Proof.
  intros order fuel l Ho Hv Hd Hf. unfold build.
  destruct l as [|s0 l0] eqn:El.
  - eexists; split; [reflexivity|]. intros p. cbn.
    destruct (p <? 0), (0 <? p); reflexivity.
  - rewrite <- El in *. clear El.
    assert (sort_defined (enum 0 l) = true) as ->.
    { apply sort_defined_nodup. now rewrite enum_rg. }
    destruct (build_rec_ok fuel (order (enum 0 l))) as (t & E & P).
    + apply Forall_forall. intros x Hx. apply (Permutation_in _ (Ho _)) in Hx.
      pose proof (enum_valid l 0 Hv) as H. rewrite Forall_forall in H. auto.
    + rewrite (Permutation_length (Ho _)), enum_length. exact Hf.
    + exists t. split; [exact E|]. intros p. rewrite P. apply filter_perm. apply Ho.
Qed.

Lemma build_dup : forall order fuel l, ~ NoDup l -> build order fuel l = UB.
Proof.
  intros order fuel l H. unfold build. destruct l as [|s l]; [exfalso; apply H; constructor|].
  destruct (sort_defined (enum 0 (s :: l))) eqn:E; [|reflexivity].
  apply sort_defined_nodup in E. rewrite enum_rg in E. contradiction.
Qed.

Lemma build_reversed : forall fuel a b i, b < a ->
  build_rec fuel [Rng (Slice a b) i] = Fuel.
Proof.
  intros fuel a b i H. induction fuel as [|fuel IH]; [reflexivity|].
  assert (Hc : center_of [Rng (Slice a b) i] = a).
  { unfold center_of. cbn. replace (a <=? b) with false by lia. reflexivity. }
  cbn [build_rec]. rewrite Hc. cbn [filter]. unfold goes_left at 1. cbn [rg last].
  replace (b <? a) with true by lia. rewrite IH. reflexivity.
Qed.

(** Segmentation. *)
Lemma zlist_eqb_spec : forall a b, zlist_eqb a b = true <-> a = b.
Proof.
  induction a as [|x a IH]; intros [|y b]; cbn; split; try congruence; try reflexivity.
  - intros H. apply andb_prop in H as [H1 H2]. apply IH in H2. f_equal; [lia|assumption].
  - intros H. injection H as -> ->. rewrite Z.eqb_refl. now apply IH.
Qed.
Lemma tag_eqb_spec : forall a b, tag_eqb a b = true <-> a = b.
Proof.
  intros [a1 a2] [b1 b2]. unfold tag_eqb. cbn. rewrite andb_true_iff, zlist_eqb_spec, Z.eqb_eq.
  split; [intros [-> ->]; reflexivity|intros E; injection E; auto].
Qed.
Lemma existsb_tag : forall t s, existsb (tag_eqb t) s = true <-> In t s.
Proof.
  intros t s. rewrite existsb_exists. split.
  - intros (x & Hx & E). apply tag_eqb_spec in E as ->. exact Hx.
  - intros H. exists t. split; [exact H|]. now apply tag_eqb_spec.
Qed.
Lemma tags_incl_in : forall t s x, In x (tags_incl t s) <-> x = t \/ In x s.
Proof.
  intros t s x. unfold tags_incl. destruct (existsb (tag_eqb t) s) eqn:E.
  - apply existsb_tag in E. split; [auto|intros [->|H]; auto].
  - rewrite in_app_iff. cbn. intuition congruence.
Qed.
Lemma tags_incl_nodup : forall t s, NoDup s -> NoDup (tags_incl t s).
Proof.
  intros t s H. unfold tags_incl. destruct (existsb (tag_eqb t) s) eqn:E; [exact H|].
  apply (Permutation_NoDup (Permutation_cons_append s t)). constructor; [|exact H].
  intros Hin. apply existsb_tag in Hin. congruence.
Qed.
Lemma tags_eqb_spec : forall a b, NoDup a -> NoDup b ->
  (tags_eqb a b = true <-> forall t, In t a <-> In t b).
Proof.
  intros a b Ha Hb. unfold tags_eqb. rewrite andb_true_iff, forallb_forall, Nat.eqb_eq. split.
  - intros [Hl H] t. split.
    + intros Ht. apply existsb_tag. auto.
    + assert (Hincl : incl a b) by (intros x Hx; apply existsb_tag; auto).
      apply (NoDup_length_incl Ha); [lia|exact Hincl].
  - intros H. split.
    + apply Permutation_length. apply NoDup_Permutation; assumption.
    + intros t Ht. apply existsb_tag. now apply H.
Qed.

Lemma slices_ok : forall l, Forall (fun s => sg_first s <= sg_last s) l ->
  slices_of l = Ok (map (fun s => Slice (sg_first s) (sg_last s)) l).
Proof.
  induction l as [|s l IH]; intros H; [reflexivity|]. apply Forall_cons_iff in H as [H1 H2].
  cbn [slices_of map]. unfold mk_slice. replace (sg_first s <=? sg_last s) with true by lia.
  cbn [obind]. rewrite IH by assumption. reflexivity.
Qed.

Lemma scan_kinds : forall l k p pre, k = length pre ->
  map (fun r => sg_kind (nth (rix r) (pre ++ l) (Seg 0 0 0)))
    (filter (fun r => sl_contains (rg r) p) (enum k (map (fun s => Slice (sg_first s) (sg_last s)) l)))
  = map sg_kind (filter (fun s => seg_coversb s p) l).
Proof.
  induction l as [|s l IH]; intros k p pre Hk; [reflexivity|]. cbn [map enum filter].
  specialize (IH (S k) p (pre ++ [s])). rewrite <- app_assoc in IH. cbn [app] in IH.
  assert (Hc : sl_contains (rg (Rng (Slice (sg_first s) (sg_last s)) k)) p = seg_coversb s p) by reflexivity.
  rewrite Hc. destruct (seg_coversb s p); cbn [map].
  - rewrite IH by (rewrite app_length; cbn; lia). f_equal. cbn [rix]. subst k. now rewrite nth_middle.
  - apply IH. rewrite app_length; cbn; lia.
Qed.

Definition tree_of (t : rtree) (g : group) : Prop :=
  forall p, Permutation (map (fun r => sg_kind (nth (rix r) (gr_segs g) (Seg 0 0 0))) (get_ranges t p))
              (map sg_kind (filter (fun s => seg_coversb s p) (gr_segs g))).

Lemma build_trees_ok : forall order gs, permuting order -> good_groups gs ->
  exists ts, build_trees order gs = Ok ts /\ map snd ts = gs /\ Forall (fun tg => tree_of (fst tg) (snd tg)) ts.
Proof.
  intros order gs Ho. induction gs as [|g gs IH]; intros H.
  - exists []. repeat split. constructor.
  - apply Forall_cons_iff in H as [[Hv Hd] H]. destruct (IH H) as (ts & E & M & F).
    cbn [build_trees]. rewrite (slices_ok _ Hv). cbn [obind].
    set (sl := map (fun s => Slice (sg_first s) (sg_last s)) (gr_segs g)).
    destruct (build_ok order (S (length sl)) sl Ho) as (t & Et & Pt).
    + apply Forall_forall. intros x Hx. apply in_map_iff in Hx as (s & <- & Hs).
      rewrite Forall_forall in Hv. specialize (Hv s Hs). exists (sg_first s). unfold covers. cbn. lia.
    + assert (Hm : map (fun s => Slice (fst s) (snd s)) (map (fun s => (sg_first s, sg_last s)) (gr_segs g)) = sl)
        by (rewrite map_map; reflexivity).
      rewrite <- Hm. apply FinFun.Injective_map_NoDup; [|exact Hd].
      intros [x1 x2] [y1 y2] Exy. cbn in Exy. congruence.
    + lia.
    + rewrite Et. cbn [obind]. rewrite E. cbn [obind]. eexists; split; [reflexivity|].
      cbn [map snd]. split; [now f_equal|]. constructor; [|exact F]. cbn [fst snd].
      intros p. pose proof (Permutation_map (fun r => sg_kind (nth (rix r) (gr_segs g) (Seg 0 0 0))) (Pt p)) as Hp.
      eapply Permutation_trans; [exact Hp|]. unfold scan, sl.
      pose proof (scan_kinds (gr_segs g) 0 p [] eq_refl) as Hk. cbn [app] in Hk. rewrite Hk. reflexivity.
Qed.

Lemma point_groups_from_spec : forall ts p acc, Forall (fun tg => tree_of (fst tg) (snd tg)) ts -> NoDup acc ->
  NoDup (point_groups_from acc ts p)
  /\ forall t, In t (point_groups_from acc ts p) <-> In t acc \/ tag_at (map snd ts) p t.
Proof.
  induction ts as [|[tr g] ts IH]; intros p acc HF Hn.
  - split; [exact Hn|]. intros t. cbn. split; [auto|]. intros [H|(g & [] & _)]. exact H.
  - apply Forall_cons_iff in HF as [Ht HF]. cbn [fst snd] in Ht. specialize (Ht p).
    cbn [point_groups_from].
    set (ks := map (fun r => sg_kind (nth (rix r) (gr_segs g) (Seg 0 0 0))) (get_ranges tr p)) in *.
    set (acc' := match get_ranges tr p with [] => acc | _ => tags_incl (gr_kind g, isort ks) acc end).
    assert (Hacc' : NoDup acc' /\ forall t, In t acc' <->
              In t acc \/ (fst t = gr_kind g /\ Permutation (snd t) (map sg_kind (filter (fun s => seg_coversb s p) (gr_segs g)))
                  /\ StronglySorted Z.le (snd t) /\ snd t <> [])).
    { subst acc'. destruct (get_ranges tr p) as [|r0 rs] eqn:Eg.
      - split; [exact Hn|]. intros t. split; [auto|]. intros [H|(_ & H2 & _ & H3)]; [exact H|].
        exfalso. apply H3. subst ks. cbn in Ht. apply Permutation_nil in Ht. rewrite Ht in H2.
        symmetry in H2. now apply Permutation_nil in H2.
      - assert (Hks : ks <> []) by (subst ks; discriminate).
        split; [now apply tags_incl_nodup|]. intros t. rewrite tags_incl_in. split.
        + intros [->|H]; [|auto]. right. cbn [fst snd]. split; [reflexivity|]. split; [|split].
          * rewrite isort_perm. exact Ht.
          * apply isort_sorted.
          * intros E. pose proof (isort_perm ks) as Hp. rewrite E in Hp. apply Permutation_nil in Hp. congruence.
        + intros [H|(H1 & H2 & H3 & H4)]; [auto|]. left. destruct t as [k l]. cbn [fst snd] in *. subst k. f_equal.
          apply sorted_perm_eq; [exact H3|apply isort_sorted|]. rewrite isort_perm, Ht. exact H2. }
    destruct Hacc' as [Hn' Hin']. destruct (IH p acc' HF Hn') as [N I]. split; [exact N|].
    intros t. rewrite I, Hin'. unfold tag_at. cbn [map snd]. split.
    + intros [[H|H]|(g' & H1 & H2)]; [auto| |].
      * right. exists g. split; [now left|exact H].
      * right. exists g'. split; [now right|exact H2].
    + intros [H|(g' & [<-|H1] & H2)]; auto. right. exists g'. auto.
Qed.

Section Sweep.
  Variable ts : list (rtree * group).
  Hypothesis HF : Forall (fun tg => tree_of (fst tg) (snd tg)) ts.
  Let gs := map snd ts.
  Let P := point_groups ts.

  Lemma P_nodup : forall p, NoDup (P p).
  Proof. intros p. apply point_groups_from_spec; [exact HF|constructor]. Qed.
  Lemma P_in : forall p t, In t (P p) <-> tag_at gs p t.
  Proof.
    intros p t. destruct (point_groups_from_spec ts p [] HF (NoDup_nil _)) as [_ H].
    unfold P, point_groups. rewrite H. cbn. tauto.
  Qed.
  Lemma P_eqb : forall p q, tags_eqb (P p) (P q) = true <-> same_tags gs p q.
  Proof.
    intros p q. rewrite tags_eqb_spec by apply P_nodup. unfold same_tags.
    split; intros H t; specialize (H t); rewrite ?P_in in *; exact H.
  Qed.
  Lemma P_neqb : forall p q, tags_eqb (P p) (P q) = false <-> ~ same_tags gs p q.
  Proof. intros p q. rewrite <- P_eqb. destruct (tags_eqb (P p) (P q)); split; congruence. Qed.

  Lemma same_refl : forall p, same_tags gs p p. Proof. intros p t. tauto. Qed.
  Lemma same_sym : forall p q, same_tags gs p q -> same_tags gs q p.
  Proof. intros p q H t. specialize (H t). tauto. Qed.
  Lemma same_trans : forall p q r, same_tags gs p q -> same_tags gs q r -> same_tags gs p r.
  Proof. intros p q r H1 H2 t. specialize (H1 t). specialize (H2 t). tauto. Qed.

  Variables a b : Z.

  Record good_annot (x : annot) (lim : Z) : Prop := {
    ga_range : a <= an_first x <= an_last x /\ an_last x < lim;
    ga_tags : an_tags x = P (an_first x);
    ga_nonempty : an_tags x <> [];
    ga_same : forall q, an_first x <= q <= an_last x -> same_tags gs (an_first x) q;
    ga_left : an_first x = a \/ ~ same_tags gs (an_first x - 1) (an_first x);
    ga_right : an_last x = b \/ ~ same_tags gs (an_last x) (an_last x + 1) }.

  Record inv (i start : Z) (prev : list tag) (res : list annot) : Prop := {
    i_start : a <= start /\ (start <= i - 1 \/ (start = a /\ i = a));
    i_prev : prev = P start;
    i_run : forall q, start <= q < i -> same_tags gs start q;
    i_left : start = a \/ ~ same_tags gs (start - 1) start;
    i_res : Forall (fun x => good_annot x start) res;
    i_sorted : StronglySorted (fun x y => an_last x < an_first y) res;
    i_cover : forall q, a <= q < start -> P q <> [] -> exists x, In x res /\ an_first x <= q <= an_last x }.

  Lemma good_weaken : forall x l l', good_annot x l -> l <= l' -> good_annot x l'.
  Proof. intros x l l' [H1 H2 H3 H4 H5 H6] Hl. constructor; auto. lia. Qed.

  Lemma sorted_snoc : forall res x, StronglySorted (fun x y => an_last x < an_first y) res ->
    Forall (fun y => an_last y < an_first x) res ->
    StronglySorted (fun x y => an_last x < an_first y) (res ++ [x]).
  Proof.
    intros res x H. induction H as [|y res H IH Hf]; intros HF'; cbn; [repeat constructor|].
    apply Forall_cons_iff in HF' as [H1 H2]. constructor; [auto|].
    apply Forall_app. split; [exact Hf|]. repeat constructor. exact H1.
  Qed.

  (** Closing the run [start, e]. *)
  Lemma close_run : forall start e prev res,
    a <= start <= e -> prev = P start -> (forall q, start <= q <= e -> same_tags gs start q) ->
    (start = a \/ ~ same_tags gs (start - 1) start) ->
    (e = b \/ ~ same_tags gs e (e + 1)) ->
    Forall (fun x => good_annot x start) res ->
    StronglySorted (fun x y => an_last x < an_first y) res ->
    (forall q, a <= q < start -> P q <> [] -> exists x, In x res /\ an_first x <= q <= an_last x) ->
    let res' := match prev with [] => res | _ => res ++ [Annot start e prev] end in
    Forall (fun x => good_annot x (e + 1)) res'
    /\ StronglySorted (fun x y => an_last x < an_first y) res'
    /\ (forall q, a <= q <= e -> P q <> [] -> exists x, In x res' /\ an_first x <= q <= an_last x).
  Proof.
    intros start e prev res Hse Hp Hrun Hl Hr Hres Hs Hc res'.
    assert (Hw : Forall (fun x => good_annot x (e + 1)) res).
    { eapply Forall_impl; [|exact Hres]. intros x Hx. eapply good_weaken; [exact Hx|lia]. }
    assert (Hemp : forall q, start <= q <= e -> P q = [] <-> prev = []).
    { intros q Hq. specialize (Hrun q Hq). subst prev. apply P_eqb in Hrun.
      unfold tags_eqb in Hrun. apply andb_prop in Hrun as [Hrun _]. apply Nat.eqb_eq in Hrun.
      destruct (P q), (P start); cbn in Hrun; split; intros; try discriminate; auto. }
    subst res'. destruct prev as [|t0 prev0] eqn:Ep.
    - split; [exact Hw|]. split; [exact Hs|]. intros q Hq Hne.
      destruct (Z.lt_ge_cases q start); [apply Hc; [lia|exact Hne]|].
      exfalso. apply Hne. apply Hemp; [lia|reflexivity].
    - rewrite <- Ep in *. assert (Hne : prev <> []) by congruence. clear Ep.
      split; [|split].
      + apply Forall_app. split; [exact Hw|]. constructor; [|constructor]. constructor; cbn; auto. lia.
      + apply sorted_snoc; [exact Hs|]. eapply Forall_impl; [|exact Hres].
        intros x [Hx _ _ _ _]. cbn. lia.
      + intros q Hq Hq'. destruct (Z.lt_ge_cases q start).
        * destruct (Hc q ltac:(lia) Hq') as (x & Hx & Hb'). exists x. split; [apply in_or_app; auto|exact Hb'].
        * exists (Annot start e prev). split; [apply in_or_app; right; now left|]. cbn. lia.
  Qed.

  Lemma ann_loop_inv : forall n i start prev res, inv i start prev res ->
    exists start' prev' res', ann_loop ts n i prev start res = (prev', start', res')
      /\ inv (i + Z.of_nat n) start' prev' res'.
  Proof.
    induction n as [|n IH]; intros i start prev res Hinv.
    - exists start, prev, res. split; [reflexivity|]. now rewrite Z.add_0_r.
    - destruct Hinv as [H1 H2 H3 H4 H5 H6 H7]. cbn [ann_loop]. fold P.
      change (point_groups ts i) with (P i).
      replace (i + Z.of_nat (S n)) with (i + 1 + Z.of_nat n) by lia.
      destruct (tags_eqb (P i) prev) eqn:E; cbn [negb].
      + apply IH. subst prev. apply P_eqb in E. apply same_sym in E. constructor; auto.
        * lia.
        * intros q Hq. destruct (Z.eq_dec q i) as [->|]; [exact E|apply H3; lia].
      + subst prev.
        assert (Hsi : start <= i - 1).
        { destruct H1 as [_ [H1|[-> ->]]]; [exact H1|]. exfalso.
          apply P_neqb in E. apply E. apply same_refl. }
        assert (Hdiff : ~ same_tags gs (i - 1) i).
        { apply P_neqb in E. intros Hc. apply E. apply same_sym. eapply same_trans; [|exact Hc]. apply H3. lia. }
        destruct (close_run start (i - 1) (P start) res) as (A1 & A2 & A3); auto.
        * lia.
        * intros q Hq. apply H3. lia.
        * right. now replace (i - 1 + 1) with i by lia.
        * apply IH. constructor; auto.
          -- lia.
          -- intros q Hq. replace q with i by lia. apply same_refl.
          -- eapply Forall_impl; [|exact A1]. intros x Hx. eapply good_weaken; [exact Hx|lia].
          -- intros q Hq. apply A3. lia.
  Qed.

  Definition swept (res : list annot) : Prop :=
    Forall (fun x => good_annot x (b + 1)) res
    /\ StronglySorted (fun x y => an_last x < an_first y) res
    /\ (forall p, a <= p <= b -> (exists t, tag_at gs p t) ->
          ((exists x, In x res /\ an_first x <= p <= an_last x)
             <-> ~ (p = b /\ (a = b \/ ~ same_tags gs (b - 1) b)))).

  Lemma P_nonempty : forall p, (exists t, tag_at gs p t) -> P p <> [].
  Proof. intros p [t H] E. apply P_in in H. rewrite E in H. destruct H. Qed.

  Lemma sweep_ok : a <= b ->
    let '(prev, start, res) := ann_loop ts (Z.to_nat (b - a + 1)) a (P a) a [] in
    swept (if (start <? b) && negb (match prev with [] => true | _ => false end)
           then res ++ [Annot start b prev] else res).
  Proof.
    intros Hab.
    assert (Hinit : inv a a (P a) []).
    { constructor; auto; try (constructor; fail); try lia. }
    destruct (ann_loop_inv (Z.to_nat (b - a + 1)) a a (P a) [] Hinit) as (start & prev & res & E & Hinv).
    rewrite E. clear E Hinit. replace (a + Z.of_nat (Z.to_nat (b - a + 1))) with (b + 1) in Hinv by lia.
    destruct Hinv as [H1 H2 H3 H4 H5 H6 H7].
    assert (Hsb : a <= start <= b) by lia.
    destruct (Z.ltb_spec start b) as [Hlt|Hge]; cbn [andb].
    - destruct (close_run start b prev res) as (A1 & A2 & A3); auto.
      { intros q Hq. apply H3. lia. }
      assert (Hres : (if negb (match prev with [] => true | _ => false end) then res ++ [Annot start b prev] else res)
                = match prev with [] => res | _ => res ++ [Annot start b prev] end) by (destruct prev; reflexivity).
      rewrite Hres. split; [exact A1|]. split; [exact A2|].
      intros p Hp Ht. split.
      + intros _ [-> [?|Hd]]; [lia|]. apply Hd. eapply same_trans; [apply same_sym; apply H3; lia|]. apply H3. lia.
      + intros _. apply A3; [lia|]. now apply P_nonempty.
    - assert (start = b) by lia. subst start. split; [|split].
      + eapply Forall_impl; [|exact H5]. intros x Hx. eapply good_weaken; [exact Hx|lia].
      + exact H6.
      + intros p Hp Ht. split.
        * intros (x & Hx & Hxp) [-> _]. rewrite Forall_forall in H5. destruct (H5 x Hx) as [Hr _ _ _ _ _]. lia.
        * intros Hn. apply H7; [|now apply P_nonempty].
          destruct (Z.eq_dec p b) as [->|]; [|lia]. exfalso. apply Hn. split; [reflexivity|].
          destruct H4 as [H4|H4]; [left; lia|right; exact H4].
  Qed.
End Sweep.

Lemma annotate_ok : forall order gs a b, permuting order -> good_groups gs -> a <= b ->
  exists res, annotate order gs a b = Ok res
    /\ StronglySorted (fun x y => an_last x < an_first y) res
    /\ Forall (fun x =>
         a <= an_first x /\ an_first x <= an_last x /\ an_last x <= b /\ an_tags x <> [] /\ NoDup (an_tags x)
         /\ (forall p t, an_first x <= p <= an_last x -> (In t (an_tags x) <-> tag_at gs p t))
         /\ (an_first x = a \/ ~ same_tags gs (an_first x - 1) (an_first x))
         /\ (an_last x = b \/ ~ same_tags gs (an_last x) (an_last x + 1))) res
    /\ (forall p, a <= p <= b -> (exists t, tag_at gs p t) ->
          ((exists x, In x res /\ an_first x <= p <= an_last x)
             <-> ~ (p = b /\ (a = b \/ ~ same_tags gs (b - 1) b)))).
Proof.
  intros order gs a b Ho Hg Hab.
  destruct (build_trees_ok order gs Ho Hg) as (ts & E & M & F).
  unfold annotate. rewrite E. cbn [obind].
  pose proof (sweep_ok ts F a b Hab) as Hs.
  destruct (ann_loop ts (Z.to_nat (b - a + 1)) a (point_groups ts a) a []) as [[prev start] res].
  eexists; split; [reflexivity|]. destruct Hs as (H1 & H2 & H3). rewrite M in *.
  split; [exact H2|]. split; [|exact H3].
  eapply Forall_impl; [|exact H1]. intros x [G1 G2 G3 G4 G5 G6]. rewrite M in *.
  split; [lia|]. split; [lia|]. split; [lia|]. split; [exact G3|].
  split; [rewrite G2; now apply P_nodup|]. split; [|split; assumption].
  intros p t Hp. rewrite G2. rewrite (P_in ts F). rewrite M. apply G4. lia.
Qed.

Lemma annotated_with_spec : forall gs x p, (forall t, In t (an_tags x) <-> tag_at gs p t) -> forall gk sk,
  annotated_with x gk sk = true <->
    exists g s, In g gs /\ gr_kind g = gk /\ In s (gr_segs g) /\ sg_kind s = sk /\ seg_covers s p.
Proof.
  intros gs x p H gk sk. unfold annotated_with. rewrite existsb_exists. split.
  - intros (t & Ht & E). apply H in Ht as (g & Hg & E1 & E2 & _ & _).
    apply andb_prop in E as [Ek Es]. apply existsb_exists in Es as (k & Hk & Ek').
    apply Z.eqb_eq in Ek'. subst k. apply (Permutation_in _ E2) in Hk.
    apply in_map_iff in Hk as (s & Es & Hs). apply filter_In in Hs as [Hs Hc].
    exists g, s. split; [exact Hg|]. split; [lia|]. split; [exact Hs|]. split; [exact Es|].
    unfold seg_coversb in Hc. unfold seg_covers. lia.
  - intros (g & s & Hg & Ek & Hs & Es & Hc).
    set (ks := map sg_kind (filter (fun s => seg_coversb s p) (gr_segs g))).
    assert (Hin : In sk ks).
    { apply in_map_iff. exists s. split; [exact Es|]. apply filter_In. split; [exact Hs|].
      unfold seg_covers in Hc. unfold seg_coversb. lia. }
    exists (gk, isort ks). split.
    + apply H. exists g. cbn [fst snd]. split; [exact Hg|]. split; [congruence|]. split; [apply isort_perm|].
      split; [apply isort_sorted|]. intros E. pose proof (isort_perm ks) as Hp. rewrite E in Hp.
      apply Permutation_nil in Hp. rewrite Hp in Hin. destruct Hin.
    + cbn [fst snd]. rewrite Z.eqb_refl. cbn [andb]. apply existsb_exists. exists sk.
      split; [|apply Z.eqb_refl]. eapply Permutation_in; [symmetry; apply isort_perm|exact Hin].
Qed.

Lemma annotate_query : forall order gs a b res x p, permuting order -> good_groups gs -> a <= b ->
  annotate order gs a b = Ok res -> In x res -> an_first x <= p <= an_last x -> forall gk sk,
  annotated_with x gk sk = true <->
    exists g s, In g gs /\ gr_kind g = gk /\ In s (gr_segs g) /\ sg_kind s = sk /\ seg_covers s p.
Proof.
  intros order gs a b res x p Ho Hg Hab E Hx Hp.
  destruct (annotate_ok order gs a b Ho Hg Hab) as (res' & E' & _ & HF & _).
  rewrite E in E'. injection E' as <-. rewrite Forall_forall in HF.
  destruct (HF x Hx) as (_ & _ & _ & _ & _ & Ht & _). apply annotated_with_spec.
  intros t. now apply Ht.
Qed.
