(** Proofs about the nesting of headings. *)
From Verif Require Import Base StrModel TokKind KindEq NodeKind.
From Verif Require RegroupModel TreeModel TreeSpec TreeProofs LcsProofs.
From Verif Require Import ParseModel ParseSpec ParseLogic ParseProofs.
Local Open Scope nat_scope.
Import TreeModel.
Notation tsize := TreeSpec.tsize.
Notation fsize := TreeSpec.fsize.

(** *** assertValidStructure accepts every tree without nil tokens *)
Definition fine (n : pnode) : Prop := value n <> Tok None /\ (kind n = nEmpty -> is_nonterminal n = false).
Lemma fine_no_nil : forall l, Forall fine l -> existsb nil_token l = false.
Proof.
  induction 1 as [|n l [H _] F IH]; [reflexivity|]. cbn. rewrite IH, orb_false_r. unfold nil_token. destruct (value n) as [|[|]|]; congruence.
Qed.
Lemma valid_complete : forall t pre post fuel, Forall fine (flat t) -> 2 * tsize t <= fuel ->
  valid_structure fuel (pre ++ flat t ++ post) (length pre) = Ok tt.
Proof.
  induction t as [k sub IH|k x|k x] using TreeProofs.tree_ind'; intros pre post fuel F L.
  - assert (C : forall ts, Forall (fun t => forall pre post fuel, Forall fine (flat t) -> 2 * tsize t <= fuel ->
        valid_structure fuel (pre ++ flat t ++ post) (length pre) = Ok tt) ts -> Forall fine (fflat ts) ->
      forall f g pre post, 1 + 2 * fsize ts <= f -> valid_children f g (pre ++ fflat ts ++ post) (length pre) (length pre + fsize ts - 1) = Ok tt \/ (fsize ts = 0 /\ length pre = 0)).
    { clear. induction 1 as [|t ts Ht _ IH]; intros F f g pre post L; (destruct f as [|f]; [lia|]); cbn [valid_children].
      - destruct pre as [|p pre]; [right; split; reflexivity|left]. change (fsize (@nil tree)) with 0.
        destruct (Nat.leb_spec (length (p :: pre)) (length (p :: pre) + 0 - 1)); [cbn in *; lia|]. rewrite (proj2 (Nat.eqb_eq _ _)) by (cbn; lia). reflexivity.
      - left. rewrite TreeProofs.fflat_cons in *. apply Forall_app in F as [Ft Fs]. rewrite TreeProofs.fsize_cons in *. pose proof (TreeProofs.tsize_pos t).
        destruct (Nat.leb_spec (length pre) (length pre + (tsize t + fsize ts) - 1)); [|lia]. rewrite <- app_assoc. rewrite Ht by (auto; lia). cbn [obind].
        rewrite TreeProofs.nth_error_flat. rewrite TreeProofs.get_extent_node_of.
        destruct (Nat.ltb_spec (length pre + (tsize t - 1)) (length (pre ++ flat t ++ fflat ts ++ post))) as [_|X].
        2:{ rewrite !app_length, TreeProofs.flat_length in X. lia. }
        destruct (IH Fs f g (pre ++ flat t) post) as [E|[_ E]]; [lia| |rewrite app_length, TreeProofs.flat_length in E; lia].
        rewrite app_length, TreeProofs.flat_length in E. rewrite <- app_assoc in E. rewrite <- E. f_equal; lia. }
    destruct fuel as [|f]; [cbn in L; lia|]. rewrite TreeProofs.flat_unfold in *. cbn [TreeSpec.node_of TreeSpec.sub_of] in *. change (flat_map flat sub) with (fflat sub) in *.
    inversion F as [|? ? [F1 F2] Fs]; subst. cbn [valid_structure]. cbn [app]. rewrite TreeProofs.nth_error_mid.
    cbn [is_terminal is_mono value orb kind get_extent is_nonterminal] in *. destruct (nk_eqb k nEmpty) eqn:Ek.
    { apply nk_eqb_eq in Ek. discriminate (F2 Ek). }
    destruct (Nat.ltb_spec 0 (fsize sub)); [|reflexivity].
    destruct (Nat.ltb_spec (length pre + fsize sub) (length (pre ++ mkNode k (Ext (fsize sub)) :: fflat sub ++ post))) as [_|X].
    2:{ rewrite app_length in X. cbn [length] in X. rewrite app_length, TreeProofs.fflat_length in X. lia. }
    assert (Sk : skipn (S (length pre)) (pre ++ mkNode k (Ext (fsize sub)) :: fflat sub ++ post) = fflat sub ++ post).
    { change (mkNode k (Ext (fsize sub)) :: fflat sub ++ post) with ([mkNode k (Ext (fsize sub))] ++ fflat sub ++ post). rewrite app_assoc.
      rewrite skipn_app, skipn_all2 by (rewrite app_length; cbn; lia). rewrite app_length. cbn. replace (length pre + 1) with (S (length pre)) by lia. rewrite Nat.sub_diag. reflexivity. }
    rewrite Sk. rewrite firstn_app, firstn_all2 by (rewrite TreeProofs.fflat_length; lia). rewrite TreeProofs.fflat_length, Nat.sub_diag. cbn [firstn]. rewrite app_nil_r.
    rewrite fine_no_nil by exact Fs.
    destruct (C sub IH Fs f f (pre ++ [mkNode k (Ext (fsize sub))]) post) as [E|[E _]]; [|rewrite app_length in E; cbn in E|lia].
    { change (2 * S (fsize sub) <= S f) in L. lia. }
    rewrite <- app_assoc in E. cbn [app] in E. rewrite <- E. f_equal; lia.
  - destruct fuel as [|f]; [cbn in L; lia|]. cbn [valid_structure]. rewrite TreeProofs.nth_error_flat. reflexivity.
  - destruct fuel as [|f]; [cbn in L; lia|]. cbn [valid_structure]. rewrite TreeProofs.nth_error_flat. reflexivity.
Qed.

(** *** extendSubtreeTrails *)
Section Nest.
Variable toks : list RegroupModel.otok.
Notation level_of := (level_of toks).
Notation ext := (extend_trails toks).
Definition plain (t : tree) : Prop := Forall (fun n : pnode => kind n <> nSubtree) (flat t).
Lemma no_heading_plain : forall t, no_heading t <-> plain t.
Proof. intros t. unfold no_heading, plain. rewrite preorder_flat. reflexivity. Qed.

Lemma skip_plain : forall l, Forall (fun n : pnode => kind n <> nSubtree) l -> forall pre post f level,
  ext (length l + f) (pre ++ l ++ post) (length pre) level = ext f (pre ++ l ++ post) (length pre + length l) level.
Proof.
  induction 1 as [|n l H F IH]; intros pre post f level; cbn [length plus app]; [rewrite Nat.add_0_r; reflexivity|].
  cbn [extend_trails]. rewrite TreeProofs.nth_error_mid. destruct (nk_eqb (kind n) nSubtree) eqn:E; [apply nk_eqb_eq in E; contradiction|].
  specialize (IH (pre ++ [n]) post f level). rewrite <- app_assoc in IH. cbn [app] in IH. rewrite app_length in IH. cbn [length] in IH.
  replace (S (length pre)) with (length pre + 1) by lia. rewrite IH. f_equal. lia.
Qed.

Lemma subnode_flat : forall pre (t : tree) post i c, (forall k x, t <> Leaf k x) -> nth_error (TreeSpec.sub_of t) i = Some c ->
  subnode (pre ++ flat t ++ post) (length pre) i = Ok (length pre + 1 + fsize (firstn i (TreeSpec.sub_of t))).
Proof.
  intros pre t post i c Nl E. pose proof (TreeProofs.children_flat pre t post) as C. destruct t as [k sub|k x|k x]; [|destruct (Nl k x eq_refl)|destruct i; discriminate].
  destruct (TreeProofs.count_and_index_agree _ _ _ C) as [_ A]. rewrite A. cbn [TreeSpec.sub_of] in *. unfold TreeProofs.positions.
  rewrite nth_error_map. assert (L : i < length sub) by (apply nth_error_Some; congruence).
  rewrite (nth_error_nth' _ 0) by (rewrite seq_length; exact L). rewrite seq_nth by exact L. reflexivity.
Qed.
Lemma node_size_flat : forall pre k sub post, exists n, node_size (pre ++ flat (Branch k sub : tree) ++ post) (length pre) = Ok n.
Proof.
  intros. pose proof (TreeProofs.children_flat pre (Branch k sub : tree) post) as C. destruct (TreeProofs.count_and_index_agree _ _ _ C) as [A _].
  eexists. exact A.
Qed.
Lemma update_mid : forall pre k e post e', (0 <= e')%Z ->
  update (pre ++ mkNode k (Ext e) :: post) (length pre) e' = Ok (pre ++ mkNode k (Ext (Z.to_nat e')) :: post).
Proof.
  intros pre k e post e' H. unfold update. rewrite TreeProofs.nth_error_mid. unfold extend. cbn [is_nonterminal value kind].
  destruct (Z.leb_spec 0 e'); [|lia]. cbn [obind]. rewrite TreeProofs.set_nth_mid. reflexivity.
Qed.

Definition sub_head (k : nk) (i : nat) (fields body : list tree) : tree :=
  Branch nSubtree (Leaf k (Some i) :: fields ++ [Branch nStmtList body]).
Lemma seven : forall A (l : list A), length l = 7 -> exists a b c d e f g, l = [a; b; c; d; e; f; g].
Proof. intros A l H. do 7 (destruct l as [|? l]; [discriminate|]). destruct l; [|discriminate]. repeat eexists. Qed.
Lemma head_level : forall k i fields body x, nth_error toks i = Some x -> level_of (sub_head k i fields body) = Some (length (RegroupModel.otext x)).
Proof. intros k i fields body x E. unfold sub_head, ParseSpec.level_of. rewrite E. reflexivity. Qed.
Lemma head_body : forall k i fields body, length fields = 7 -> body_of (sub_head k i fields body) = body.
Proof. intros k i fields body L. destruct (seven _ _ L) as (a & b & c & d & e & f & g & ->). reflexivity. Qed.
Lemma head_unnest : forall k i fields body, length fields = 7 ->
  unnest (sub_head k i fields body) = sub_head k i fields [] :: flat_map unnest body.
Proof. intros k i fields body L. destruct (seven _ _ L) as (a & b & c & d & e & f & g & ->). reflexivity. Qed.
Lemma plain_unnest : forall t, plain t -> unnest t = [t] /\ level_of t = None /\ body_of t = [].
Proof.
  intros [k sub|k x|k x] P; [|repeat split|repeat split]. unfold plain in P. cbn in P. inversion P as [|? ? H _]; subst. cbn in H.
  destruct k; try (repeat split; fail). congruence.
Qed.
Lemma flat_sub_head : forall k i fields body,
  flat (sub_head k i fields body) = (mkNode nSubtree (Ext (fsize fields + 2 + fsize body)) :: mkNode k (Tok (Some i)) :: fflat fields) ++
    mkNode nStmtList (Ext (fsize body)) :: fflat body.
Proof.
  intros. unfold sub_head. rewrite TreeProofs.flat_unfold. cbn [TreeSpec.node_of TreeSpec.sub_of]. change (flat_map flat) with (fflat (K := nk) (T := option nat) (M := mono)).
  rewrite TreeProofs.fflat_cons, TreeProofs.fflat_app. rewrite TreeProofs.fflat_cons, app_nil_r. rewrite (TreeProofs.flat_unfold (Branch nStmtList body)).
  cbn [app flat TreeSpec.node_of TreeSpec.sub_of]. f_equal. rewrite TreeProofs.fsize_cons, TreeProofs.fsize_app, TreeProofs.fsize_cons. f_equal. f_equal.
  cbn [tsize]. change (list_sum (map tsize body)) with (fsize body). change (fsize (@nil tree)) with 0. lia.
Qed.

Definition item (t : tree) : Prop :=
  plain t \/ exists k i x fields, t = sub_head k i fields [] /\ length fields = 7 /\ Forall plain fields /\ k <> nSubtree /\
    nth_error toks i = Some x /\ RegroupModel.otext x <> [].

Lemma nest_step : forall m ts, length ts <= m -> Forall item ts -> Forall fine (fflat ts) -> forall pre level f, fsize ts < f ->
  exists us vs, ext f (pre ++ fflat ts) (length pre) level = Ok (pre ++ fflat us ++ fflat vs, length pre + fsize us) /\
    flat_map unnest us ++ vs = ts /\ well_nested toks level us /\ Forall fine (fflat us) /\
    match vs with [] => True | v :: _ => exists l, level_of v = Some l /\ l <= level end.
Proof.
  induction m as [|m IH]; intros ts L It Fn pre level f Hf.
  { destruct ts; [|cbn in L; lia]. exists [], []. split.
    - destruct f as [|f]; [lia|]. cbn [extend_trails]. cbn [fflat flat_map]. rewrite app_nil_r. rewrite (proj2 (nth_error_None _ _)) by lia.
      rewrite app_nil_r, Nat.add_0_r. reflexivity.
    - split; [reflexivity|]. split; [constructor; [intros u l []|intros [|p pre0]; discriminate|intros u l []|intros u []]|]. split; [constructor|exact I]. }
  destruct ts as [|t ts].
  { apply (IH []); auto. cbn. lia. }
  inversion It as [|? ? Ht Its]; subst. rewrite TreeProofs.fflat_cons in *. rewrite TreeProofs.fsize_cons in *. apply Forall_app in Fn as [Ft Fs].
  pose proof (TreeProofs.tsize_pos t) as Tp. cbn in L. destruct Ht as [Pl|(k & i & x & fields & -> & L7 & Fp & Nk & Ex & Nx)].
  - replace f with (length (flat t) + (f - tsize t)) by (rewrite TreeProofs.flat_length; lia). rewrite skip_plain by exact Pl.
    rewrite <- app_length, app_assoc. destruct (IH ts ltac:(lia) Its Fs (pre ++ flat t) level (f - tsize t) ltac:(lia)) as (us & vs & E & U & W & Fu & Hv).
    exists (t :: us), vs. rewrite E. destruct (plain_unnest t Pl) as (Ut & Lt & Bt). split.
    { rewrite TreeProofs.fflat_cons, TreeProofs.fsize_cons, app_length, TreeProofs.flat_length, <- !app_assoc. do 2 f_equal. lia. }
    split; [cbn [flat_map]; rewrite Ut; cbn; rewrite U; reflexivity|]. split; [|split; [rewrite TreeProofs.fflat_cons; apply Forall_app; auto|exact Hv]].
    inversion W as [? ? W1 W2 W3 W4]; subst. constructor.
    + intros u l [<-|Hu] El; [congruence|eauto].
    + intros [|p pre0] h y post lh Eq El; injection Eq as <- Eq; [congruence|eauto].
    + intros u l [<-|Hu] El; [congruence|eauto].
    + intros u [<-|Hu] El; [exact Bt|eauto].
  - destruct f as [|f]; [lia|]. cbn [extend_trails]. rewrite TreeProofs.nth_error_flat.
    change (nk_eqb (kind (TreeSpec.node_of (sub_head k i fields []))) nSubtree) with true. cbv iota.
    destruct (node_size_flat pre nSubtree (Leaf k (Some i) :: fields ++ [Branch nStmtList []]) (fflat ts)) as [sz Esz].
    fold (sub_head k i fields []) in Esz. rewrite Esz. cbn [obind].
    rewrite (subnode_flat pre _ _ 0 (Leaf k (Some i))) by (try discriminate; reflexivity). cbn [obind firstn]. change (fsize (@nil tree)) with 0.
    assert (Sc : star_count toks (pre ++ flat (sub_head k i fields []) ++ fflat ts) (length pre + 1 + 0) = Ok (length (RegroupModel.otext x))).
    { unfold star_count. rewrite flat_sub_head. cbn [app]. replace (length pre + 1 + 0) with (length (pre ++ [mkNode nSubtree (Ext (fsize fields + 2 + fsize (@nil tree)))] : list pnode)) by (rewrite app_length; cbn; lia).
      match goal with |- context [pre ++ ?a :: ?r] => change (pre ++ a :: r) with (pre ++ [a] ++ r) end. rewrite app_assoc, TreeProofs.nth_error_mid. cbn [value]. rewrite Ex. reflexivity. }
    rewrite Sc. cbn [obind]. set (lv := length (RegroupModel.otext x)) in *.
    destruct (Nat.ltb_spec level lv) as [Lv|Lv].
    2:{ exists [], (sub_head k i fields [] :: ts). split; [rewrite TreeProofs.fflat_cons, Nat.add_0_r; reflexivity|]. split; [reflexivity|].
      split; [constructor; [intros u l []|intros [|p pre0]; discriminate|intros u l []|intros u []]|]. split; [constructor|]. exists lv. split; [apply head_level; exact Ex|exact Lv]. }
    assert (N8 : nth_error (TreeSpec.sub_of (sub_head k i fields [])) 8 = Some (Branch nStmtList [])).
    { destruct (seven _ _ L7) as (a & b & c & d & e & g & h & ->). reflexivity. }
    rewrite (subnode_flat pre _ _ 8 _) with (2 := N8) by discriminate. cbn [obind]. set (hd := mkNode nSubtree (Ext (fsize fields + 2 + fsize (@nil tree))) :: mkNode k (Tok (Some i)) :: fflat fields).
    assert (P8 : length pre + 1 + fsize (firstn 8 (TreeSpec.sub_of (sub_head k i fields []))) = length (pre ++ hd)).
    { destruct (seven _ _ L7) as (a & b & c & d & e & g & h & E7). subst hd. rewrite app_length. cbn [length]. rewrite TreeProofs.fflat_length.
      change (fsize (firstn 8 (TreeSpec.sub_of (sub_head k i fields [])))) with (S (fsize (firstn 7 (fields ++ [Branch nStmtList []])))).
      rewrite firstn_app, L7. change (firstn (7 - 7) [Branch nStmtList []]) with (@nil tree). rewrite app_nil_r, firstn_all2 by lia. lia. }
    rewrite P8. assert (Fl : pre ++ flat (sub_head k i fields []) ++ fflat ts = (pre ++ hd) ++ mkNode nStmtList (Ext 0) :: fflat ts).
    { rewrite flat_sub_head. fold hd. rewrite <- !app_assoc. reflexivity. }
    rewrite Fl. rewrite TreeProofs.nth_error_mid. change (trail_kind (mkNode nStmtList (Ext 0))) with true. cbv iota.
    assert (Sh : tsize (sub_head k i fields []) = fsize fields + 3).
    { rewrite <- TreeProofs.flat_length, flat_sub_head, app_length. cbn [length]. rewrite !TreeProofs.fflat_length. change (fsize (@nil tree)) with 0. lia. }
    destruct (IH ts ltac:(lia) Its Fs (pre ++ hd ++ [mkNode nStmtList (Ext 0)]) lv f ltac:(lia)) as (us1 & vs1 & E1 & U1 & W1 & F1 & H1).
    assert (S (length (pre ++ hd)) = length (pre ++ hd ++ [mkNode nStmtList (Ext 0)])) as ->. { rewrite !app_length. cbn. lia. }
    change (mkNode nStmtList (Ext 0) :: fflat ts) with ([mkNode nStmtList (Ext 0)] ++ fflat ts). rewrite app_assoc. rewrite <- (app_assoc pre hd). rewrite E1. cbn [obind].
    destruct (Nat.leb_spec (length (pre ++ hd ++ [mkNode nStmtList (Ext 0)])) (length (pre ++ hd ++ [mkNode nStmtList (Ext 0)]) + fsize us1)) as [_|Y]; [|lia].
    assert (Fl1 : (pre ++ hd ++ [mkNode nStmtList (Ext 0)]) ++ fflat us1 ++ fflat vs1 = (pre ++ hd) ++ mkNode nStmtList (Ext 0) :: fflat us1 ++ fflat vs1).
    { rewrite <- !app_assoc. reflexivity. }
    rewrite Fl1. rewrite update_mid by (rewrite !app_length; cbn; lia). cbn [obind].
    assert (Fl2 : (pre ++ hd) ++ mkNode nStmtList (Ext (Z.to_nat (Z.of_nat (length (pre ++ hd ++ [mkNode nStmtList (Ext 0)]) + fsize us1) - Z.of_nat (length (pre ++ hd)) - 1))) :: fflat us1 ++ fflat vs1
      = pre ++ mkNode nSubtree (Ext (fsize fields + 2 + fsize (@nil tree))) :: (mkNode k (Tok (Some i)) :: fflat fields) ++ mkNode nStmtList (Ext (fsize us1)) :: fflat us1 ++ fflat vs1).
    { subst hd. rewrite <- app_assoc. cbn [app]. do 5 f_equal. f_equal. f_equal. rewrite !app_length. cbn. rewrite !app_length. cbn. lia. }
    rewrite Fl2. rewrite update_mid by (subst hd; rewrite !app_length; cbn; lia). cbn [obind].
    assert (Fl3 : pre ++ mkNode nSubtree (Ext (Z.to_nat (Z.of_nat (length (pre ++ hd ++ [mkNode nStmtList (Ext 0)]) + fsize us1) - Z.of_nat (length pre) - 1))) :: (mkNode k (Tok (Some i)) :: fflat fields) ++ mkNode nStmtList (Ext (fsize us1)) :: fflat us1 ++ fflat vs1
      = pre ++ flat (sub_head k i fields us1) ++ fflat vs1).
    { rewrite flat_sub_head. rewrite <- app_assoc. cbn [app]. do 4 f_equal. subst hd. rewrite !app_length. cbn [length]. rewrite ?TreeProofs.fflat_length. lia. }
    rewrite Fl3. rewrite TreeProofs.all_subnodes_flat.
    assert (Z1 : fsize (TreeSpec.sub_of (sub_head k i fields us1)) = fsize fields + 2 + fsize us1).
    { pose proof (TreeProofs.tsize_sub (sub_head k i fields us1)) as T. rewrite <- TreeProofs.flat_length, flat_sub_head, app_length in T. cbn [length] in T. rewrite !TreeProofs.fflat_length in T. lia. }
    destruct (Nat.ltb_spec 0 (fsize (TreeSpec.sub_of (sub_head k i fields us1)))) as [_|Y]; [|lia]. cbn [obind].
    assert (Fh : Forall fine (flat (sub_head k i fields us1))).
    { rewrite flat_sub_head in *. apply Forall_app in Ft as [Ft1 Ft2]. inversion Ft1 as [|? ? _ Ft3]; subst. apply Forall_app. split; [constructor; [split; discriminate|exact Ft3]|].
      constructor; [split; discriminate|exact F1]. }
    rewrite valid_complete; [|exact Fh|rewrite !app_length, TreeProofs.flat_length; lia]. cbn [obind].
    destruct (Nat.ltb_spec (length pre + fsize (TreeSpec.sub_of (sub_head k i fields us1))) (length (pre ++ flat (sub_head k i fields us1) ++ fflat vs1))) as [_|Y].
    2:{ rewrite !app_length, TreeProofs.flat_length, TreeProofs.tsize_sub in Y. lia. }
    assert (Lv1 : length vs1 <= length ts) by (rewrite <- U1, app_length; lia).
    assert (Iv : Forall item vs1) by (rewrite <- U1 in Its; apply Forall_app in Its as [_ X]; exact X).
    assert (Fv : Forall fine (fflat vs1)) by (rewrite <- U1, TreeProofs.fflat_app in Fs; apply Forall_app in Fs as [_ X]; exact X).
    assert (Zv : fsize vs1 <= fsize ts) by (rewrite <- U1, TreeProofs.fsize_app; lia).
    destruct (IH vs1 ltac:(lia) Iv Fv (pre ++ flat (sub_head k i fields us1)) level f ltac:(lia)) as (us2 & vs2 & E2 & U2 & W2 & F2 & H2).
    assert (length (pre ++ hd ++ [mkNode nStmtList (Ext 0)]) + fsize us1 = length (pre ++ flat (sub_head k i fields us1))) as ->.
    { rewrite !app_length, TreeProofs.flat_length, TreeProofs.tsize_sub, Z1. subst hd. cbn [length]. rewrite TreeProofs.fflat_length. lia. }
    rewrite <- app_assoc in E2. rewrite E2. exists (sub_head k i fields us1 :: us2), vs2. split.
    { rewrite TreeProofs.fflat_cons, TreeProofs.fsize_cons, app_length, TreeProofs.flat_length, <- !app_assoc. do 2 f_equal. lia. }
    split. { cbn [flat_map]. rewrite head_unnest by exact L7. cbn [app]. f_equal. rewrite <- app_assoc, U2. exact U1. }
    split; [|split; [rewrite TreeProofs.fflat_cons; apply Forall_app; auto|exact H2]].
    assert (Hl : level_of (sub_head k i fields us1) = Some lv) by (apply head_level; exact Ex).
    inversion W2 as [o0 us0 A1 A2 A3 A4 Eo Eu]; clear Eo Eu o0 us0. constructor.
    + intros u l [<-|Hu] El; [congruence|eauto].
    + intros [|p pre0] h y post lh Eq El; injection Eq as <- Eq; [|eauto].
      assert (lh = lv) as -> by congruence. destruct us2 as [|u2 us2]; [discriminate|]. injection Eq as -> _. clear -U2 H1.
      assert (Hd : exists r, unnest y = r :: skipn 1 (unnest y) /\ level_of r = level_of y).
      { destruct y as [q sub|q z|q z]; try (eexists; split; reflexivity). destruct q; try (eexists; split; reflexivity).
        do 9 (destruct sub as [|? sub]; [eexists; split; reflexivity|]). destruct sub; [|destruct t7; eexists; split; reflexivity].
        destruct t7; eexists; split; try reflexivity; destruct t; reflexivity. }
      destruct Hd as (r & Er & Lr). cbn [flat_map] in U2. rewrite Er in U2. cbn [app] in U2. subst vs1. destruct H1 as (l & El & Ll). exists l. split; [congruence|exact Ll].
    + intros u l [<-|Hu] El; [|eauto]. assert (l = lv) as -> by congruence. rewrite head_body by exact L7. exact W1.
    + intros u [<-|Hu] El; [congruence|eauto].
Qed.
End Nest.

Lemma full_nested : forall toks n ts,
  parse_flat toks n = Ok (flat (Branch nStmtList ts)) -> Forall (item toks) ts -> Forall fine (fflat ts) ->
  exists us, parse_full toks n = Ok (flat (Branch nStmtList us)) /\ flat_map unnest us = ts /\ well_nested toks 0 us.
Proof.
  intros toks n ts E It Fn. unfold parse_full. rewrite E. cbn [obind].
  set (root := TreeSpec.node_of (Branch nStmtList ts) : pnode). assert (Fr : flat (Branch nStmtList ts) = [root] ++ fflat ts) by reflexivity.
  assert (E0 : extend_trails toks (S (2 * length (flat (Branch nStmtList ts)))) (flat (Branch nStmtList ts)) 0 0 =
    extend_trails toks (2 * length (flat (Branch nStmtList ts))) (flat (Branch nStmtList ts)) 1 0) by reflexivity.
  rewrite E0. clear E0.
  destruct (nest_step toks (length ts) ts (le_n _) It Fn [root] 0 (2 * length (flat (Branch nStmtList ts)))) as (us & vs & E1 & U & W & Fu & Hv).
  { rewrite Fr, app_length, TreeProofs.fflat_length. cbn [length]. lia. }
  rewrite <- Fr in E1. change (length [root]) with 1 in E1. rewrite E1. cbn [obind]. 
  assert (vs = []) as ->.
  { destruct vs as [|v vs]; [reflexivity|]. destruct Hv as (l & El & Ll). exfalso. assert (I : item toks v).
    { rewrite Forall_forall in It. apply It. rewrite <- U. apply in_or_app. right. left. reflexivity. }
    destruct I as [P|(k & i & x & fields & -> & _ & _ & _ & Ex & Nx)]; [apply (plain_unnest toks) in P as (_ & P & _); congruence|].
    rewrite (head_level toks _ _ _ _ _ Ex) in El. injection El as <-. destruct (RegroupModel.otext x); [congruence|cbn in Ll; lia]. }
  rewrite app_nil_r in U. cbn [fflat flat_map] in *. rewrite app_nil_r in *.
  assert (Z : fsize us = fsize ts).
  { destruct (extend_trails_same _ _ _ _ _ _ _ E1) as (Sm & _ & _). apply LcsProofs.Forall2_length in Sm. rewrite Fr, !app_length, !TreeProofs.fflat_length in Sm. lia. }
  assert (Fr2 : [root] ++ fflat us = flat (Branch nStmtList us)).
  { rewrite TreeProofs.flat_unfold. subst root. cbn [TreeSpec.node_of TreeSpec.sub_of app]. rewrite Z. reflexivity. }
  rewrite Fr2. exists us. split; [|split; [exact U|exact W]].
  pose proof (valid_complete (Branch nStmtList us) [] [] (S (2 * length (flat (Branch nStmtList us))))) as V. rewrite app_nil_r in V. cbn [app length] in V.
  rewrite V; [reflexivity| |rewrite TreeProofs.flat_length; lia]. rewrite <- Fr2. constructor; [split; discriminate|exact Fu].
Qed.
