(** Proofs about the parser: what it keeps, and the tree it writes. *)
From Verif Require Import Base StrModel TokKind KindEq NodeKind.
From Verif Require RegroupModel TreeModel TreeSpec TreeProofs LcsProofs.
From Verif Require Import ParseModel ParseSpec ParseLogic ParseText ParseFold ParseStmt.
Local Open Scope nat_scope.
Import TreeModel.
Notation nodes := TreeModel.nodes.
Notation flat := TreeProofs.flat.
Notation pnode := (TreeModel.node nk (option nat) mono) (only parsing).

Lemma preorder_flat : forall t : tree, preorder t = flat t.
Proof.
  induction t as [k sub IH|k x|k x] using TreeProofs.tree_ind'; try reflexivity. cbn [preorder TreeProofs.flat]. f_equal.
  induction IH as [|t ts H _ IH]; [reflexivity|]. cbn [flat_map]. rewrite H, IH. reflexivity.
Qed.

(** *** parseTop *)
Lemma top_flat : forall toks n ns, parse_flat toks n = Ok ns ->
  exists ts, ns = flat (Branch nStmtList ts) /\ keeps (droppable toks) (seq 0 (length toks)) (leaf_tokens ns).
Proof.
  intros toks n ns E. unfold parse_flat in E. destruct (top toks n whole TreeModel.empty_group) as [[[r l'] g']| | |] eqn:Et; try discriminate.
  injection E as <-.
  assert (Tree : forall ts, nodes g' = fflat ts -> exists ts', nodes g' = flat (Branch nStmtList ts')).
  { intros ts0 N0. unfold top, guard in Et. rewrite start_tree_eq in Et. cbn [TreeModel.empty_group nodes TreeModel.pending app length] in Et.
    destruct (while_ n _ _ whole _) as [[[r1 l1] g1]| | |] eqn:Em; try discriminate.
    destruct toks as [|t0 toks].
    - destruct n; [discriminate|]. injection Em as <- <- <-. cbn in Et. injection Et as <- <- <-. exists []. reflexivity.
    - assert (O : okl (t0 :: toks) whole) by (cbn; lia).
      destruct (top_loop_adds (t0 :: toks) n _ _ _ _ _ O I Em) as (O1 & I1 & B1 & c1 & t1 & R1 & N1 & K1). cbn [TreeModel.nodes TreeModel.pending] in *.
      destruct g1 as [ns1 pd1]. cbn [nodes TreeModel.pending] in *. subst ns1 pd1.
      assert (C := TreeProofs.end_tree_closes (K := nk) (T := option nat) (M := mono) [] nStmtList (fflat t1) []). cbn [app length] in C, Et. rewrite C in Et. cbn [obind] in Et.
      cbn in Et. injection Et as <- <- <-. exists t1. cbn [nodes]. rewrite TreeProofs.fflat_length. reflexivity. }
  destruct toks as [|t0 toks].
  - destruct n; [discriminate|]. cbn in Et. injection Et as <- <- <-. exists []. split; [reflexivity|]. constructor.
  - destruct (top_adds (t0 :: toks) n whole TreeModel.empty_group _ _ _ ltac:(cbn; lia) I Et) as (O & _ & _ & c & ts & R & N & K).
    cbn [TreeModel.empty_group nodes app] in N. destruct (Tree ts N) as [ts' N']. exists ts'. split; [exact N'|].
    rewrite N. fold (ftoks ts). change (rest (t0 :: toks) whole) with (seq 0 (length (t0 :: toks))) in R.
    destruct r as [a|].
    + destruct K as [K Q]. rewrite Q in R. rewrite app_nil_r in R. rewrite R. cbn [app map] in K. rewrite app_nil_r in K. exact K.
    + exfalso. clear -Et. unfold top, guard in Et. destruct (while_ n _ _ whole _) as [[[r1 l1] g1]| | |] eqn:Em; try discriminate.
      assert (T : forall m l g l' g', while_ m (fun l => negb (finished (t0 :: toks) l))
        (test (at0 (t0 :: toks) kComment) (next_ (t0 :: toks))
        (bind (attempt (stmt (t0 :: toks) n)) (fun ok => if (ok : bool) then ret tt
         else guard nErrorSkipGroup (while_ n (can_search (t0 :: toks) (at_ (t0 :: toks) 0 newline_kind)) (take (t0 :: toks) nErrorSkipToken))))) l g <> Ok (None, l', g')).
      { intros m. apply while_total. intros l g lz gz E. unfold test in E. destruct (at0 _ _ l); [discriminate|].
        unfold bind, attempt in E. destruct (stmt (t0 :: toks) n l g) as [[[[u|] ly] gy]| | |]; try discriminate. unfold guard in E.
        destruct (while_ n _ _ ly _) as [[[[u|] l2] g2]| | |] eqn:Ew; try discriminate.
        - destruct (end_tree g2 0) as [[g3 x]| | |]; try discriminate. cbn [obind] in E. destruct (_ =? _); discriminate.
        - revert Ew. apply while_total. intros; discriminate. }
      destruct (end_tree g1 0) as [[g2 x]| | |]; try discriminate. cbn [obind] in Et. destruct (_ =? _); [|discriminate]. injection Et as -> -> ->.
      exact (T _ _ _ _ _ Em).
Qed.

(** *** assertValidStructure accepts only trees *)
Lemma firstn_add : forall A a b (l : list A), firstn (a + b) l = firstn a l ++ firstn b (skipn a l).
Proof. induction a as [|a IH]; intros b [|x l]; cbn; auto; [rewrite firstn_nil; reflexivity|]. rewrite IH. reflexivity. Qed.
Lemma skipn_skipn' : forall A a b (l : list A), skipn a (skipn b l) = skipn (b + a) l.
Proof. induction b as [|b IH]; intros [|x l]; cbn; auto; apply skipn_nil. Qed.
Lemma valid_sound : forall fuel ns,
  (forall id n, valid_structure fuel ns id = Ok tt -> nth_error ns id = Some n -> id + get_extent n < length ns ->
    exists t, firstn (S (get_extent n)) (skipn id ns) = flat t /\ TreeSpec.node_of t = n) /\
  (forall g id last, valid_children fuel g ns id last = Ok tt -> last < length ns ->
    id <= S last /\ exists ts : list tree, firstn (S last - id) (skipn id ns) = fflat ts).
Proof.
  induction fuel as [|f IH]; intros ns; [split; intros; discriminate|]. destruct (IH ns) as [IHs IHc]. split.
  - intros id n V En L. cbn [valid_structure] in V. rewrite En in V. pose proof (nth_skipn _ _ _ _ En) as Sk. rewrite Sk. cbn [firstn].
    destruct n as [k [e|t|x]]; cbn [is_terminal is_mono value orb get_extent kind] in *.
    + destruct (nk_eqb k nEmpty); [discriminate|]. destruct e as [|e].
      * exists (Branch k []). split; reflexivity.
      * change (0 <? S e) with true in V. cbv iota in V. destruct (Nat.ltb_spec (id + S e) (length ns)); [|discriminate].
        destruct (existsb _ _); [discriminate|]. destruct (IHc _ _ _ V H) as [_ [ts Ets]].
        replace (S (id + S e) - S id) with (S e) in Ets by lia. exists (Branch k ts). rewrite Ets.
        assert (Ln : TreeSpec.fsize ts = S e).
        { rewrite <- TreeProofs.fflat_length, <- Ets, firstn_length, skipn_length. lia. }
        split; [rewrite TreeProofs.flat_unfold|]; cbn [TreeSpec.node_of TreeSpec.sub_of]; rewrite Ln; reflexivity.
    + exists (Leaf k t). split; reflexivity.
    + exists (MonoLeaf k x). split; reflexivity.
  - intros g id last V L. cbn [valid_children] in V. destruct (Nat.leb_spec id last).
    + destruct (valid_structure f ns id) as [[]| | |] eqn:Es; try discriminate. cbn [obind] in V.
      destruct (nth_error ns id) as [n|] eqn:En; [|discriminate]. destruct (Nat.ltb_spec (id + get_extent n) (length ns)); [|discriminate].
      destruct (IHs _ _ Es En H0) as (t & Et & _). destruct (IHc _ _ _ V L) as [Le [ts Ets]]. split; [lia|]. exists (t :: ts).
      rewrite TreeProofs.fflat_cons. replace (S last - id) with (S (get_extent n) + (S last - S (id + get_extent n))) by lia.
      rewrite firstn_add, skipn_skipn', Et. f_equal. rewrite <- Ets. f_equal. f_equal. lia.
    + destruct (Nat.eqb_spec (S last) id); [|discriminate]. split; [lia|]. exists []. replace (S last - id) with 0 by lia. reflexivity.
Qed.

(** *** extendSubtreeTrails changes extents only *)
Definition same (a b : pnode) : Prop :=
  kind a = kind b /\ match value a, value b with Ext _, Ext _ => True | x, y => x = y end.
Lemma same_refl : forall a, same a a.
Proof. intros [k [e|t|x]]; split; exact I || reflexivity. Qed.
Lemma same_trans : forall a b c, same a b -> same b c -> same a c.
Proof. intros [k [e|t|x]] [k' [e'|t'|x']] [k'' [e''|t''|x'']] [E F] [E' F']; split; cbn in *; congruence || exact I. Qed.
Lemma sames_refl : forall l, Forall2 same l l.
Proof. induction l; constructor; auto using same_refl. Qed.
Lemma sames_trans : forall a b c, Forall2 same a b -> Forall2 same b c -> Forall2 same a c.
Proof. induction a as [|x a IH]; intros b c H K; inversion H; subst; inversion K; subst; constructor; eauto using same_trans. Qed.
Lemma leaf_tokens_same : forall a b, Forall2 same a b -> leaf_tokens a = leaf_tokens b.
Proof.
  induction 1 as [|x y a b [_ V] H IH]; [reflexivity|]. unfold leaf_tokens in *. cbn [flat_map]. rewrite IH. f_equal.
  destruct (value x), (value y); congruence.
Qed.
Lemma update_same : forall ns i e ns', update ns i e = Ok ns' ->
  Forall2 same ns ns' /\ forall j, j <= i -> firstn j ns' = firstn j ns.
Proof.
  intros ns i e ns' E. unfold update in E. destruct (nth_error ns i) as [n|] eqn:En; [|discriminate].
  destruct (extend n e) as [n'| | |] eqn:Ex; try discriminate. cbn [obind] in E.
  assert (Sn : same n n').
  { unfold extend in Ex. destruct n as [k [x|x|x]]; cbn in Ex; try discriminate. destruct (0 <=? e)%Z; [|discriminate]. injection Ex as <-. split; reflexivity || exact I. }
  clear Ex. revert i ns' En E. induction ns as [|y ns IH]; intros [|i] ns' En E; try discriminate; cbn in *.
  - injection En as ->. injection E as <-. split; [constructor; [exact Sn|apply sames_refl]|]. intros j Hj. replace j with 0 by lia. reflexivity.
  - destruct (set_nth ns i n') as [ns1|] eqn:E1; [|discriminate]. injection E as <-. destruct (IH i ns1 En) as [H1 H2]; [rewrite E1; reflexivity|].
    split; [constructor; [apply same_refl|exact H1]|]. intros [|j] Hj; [reflexivity|]. cbn. f_equal. apply H2. lia.
Qed.
Lemma subnode_loop_ge : forall fuel (ns : list pnode) b e i k r, subnode_loop fuel ns b e i k = Ok r -> b <= r.
Proof.
  induction fuel as [|f IH]; intros ns b e i k r E; [discriminate|]. cbn [subnode_loop] in E. destruct (b =? e); [discriminate|].
  destruct (i =? k); [destruct (b <? length ns); [injection E as <-; lia|discriminate]|].
  unfold iter_next in E. destruct (nth_error ns b) as [n|]; [|discriminate]. cbn [obind] in E. apply IH in E. lia.
Qed.
Lemma subnode_gt : forall (ns : list pnode) id k r, subnode ns id k = Ok r -> id < r.
Proof.
  intros ns id k r E. unfold subnode, subnodes_of in E. destruct (nth_error ns id) as [n|] eqn:En; [|discriminate].
  destruct (is_terminal n); [discriminate|]. cbn [obind] in E. pose proof (subnode_loop_ge _ _ _ _ _ _ _ E) as G. unfold iter_begin in G.
  destruct (Nat.ltb_spec (id + 1) (length ns)); [lia|]. assert (L : id < length ns) by (apply nth_error_Some; congruence).
  replace (length ns) with (id + 1) in G by lia. lia.
Qed.
Lemma extend_trails_same : forall toks fuel ns id level ns' id', extend_trails toks fuel ns id level = Ok (ns', id') ->
  Forall2 same ns ns' /\ (forall j, j <= id -> firstn j ns' = firstn j ns) /\ id <= id'.
Proof.
  intros toks. induction fuel as [|f IH]; intros ns id level ns' id' E; [discriminate|]. cbn [extend_trails] in E.
  destruct (nth_error ns id) as [n|]; [|injection E as <- <-; split; [apply sames_refl|split; auto]].
  destruct (nk_eqb (kind n) nSubtree).
  - destruct (node_size ns id); try discriminate. cbn [obind] in E. destruct (subnode ns id 0) as [s0| | |]; try discriminate. cbn [obind] in E.
    destruct (star_count toks ns s0) as [sub| | |]; try discriminate. cbn [obind] in E.
    destruct (level <? sub); [|injection E as <- <-; split; [apply sames_refl|split; auto]].
    destruct (subnode ns id 8) as [st| | |] eqn:Es; try discriminate. cbn [obind] in E. apply subnode_gt in Es.
    destruct (nth_error ns st) as [sn|]; [|discriminate]. destruct (trail_kind sn); [|discriminate].
    destruct (extend_trails toks f ns (S st) sub) as [[ns1 id1]| | |] eqn:E1; try discriminate. cbn [obind] in E.
    destruct (S st <=? id1); [|discriminate]. destruct (update ns1 st _) as [ns2| | |] eqn:E2; try discriminate. cbn [obind] in E.
    destruct (update ns2 id _) as [ns3| | |] eqn:E3; try discriminate. cbn [obind] in E.
    destruct (all_subnodes_of ns3 id) as [[[fst0 last]|]| | |]; try discriminate. cbn [obind] in E.
    destruct (valid_structure _ ns3 id); try discriminate. cbn [obind] in E. destruct (last <? length ns3); [|discriminate].
    destruct (IH _ _ _ _ _ E1) as (S1 & F1 & L1). destruct (update_same _ _ _ _ E2) as [S2 F2]. destruct (update_same _ _ _ _ E3) as [S3 F3].
    destruct (IH _ _ _ _ _ E) as (S4 & F4 & L4).
    split; [eapply sames_trans; [exact S1|]; eapply sames_trans; [exact S2|]; eapply sames_trans; [exact S3|exact S4]|].
    split; [|lia]. intros j Hj. rewrite F4, F3, F2, F1 by lia. reflexivity.
  - destruct (IH _ _ _ _ _ E) as (S1 & F1 & L1). split; [exact S1|]. split; [|lia]. intros j Hj. apply F1. lia.
Qed.

Lemma keeps_sorted : forall D c ts, keeps D c ts -> StronglySorted lt c -> (forall x, In x ts -> x <> None) ->
  exists js, ts = map Some js /\ StronglySorted lt js /\ incl js c /\ forall i, In i c -> In i js \/ D i.
Proof.
  induction 1 as [|i c ts K IH|i c ts Di K IH|c ts K IH]; intros Sc Nn.
  - exists []. split; [reflexivity|]. split; [constructor|]. split; [intros x []|]. intros i [].
  - apply StronglySorted_inv in Sc as [Sc F]. destruct IH as (js & -> & Sj & In1 & In2); [exact Sc|intros x Hx; apply Nn; right; exact Hx|].
    exists (i :: js). split; [reflexivity|]. split; [constructor; [exact Sj|]|]. { rewrite Forall_forall in *. intros x Hx. apply F. apply In1. exact Hx. }
    split; [intros x [->|Hx]; [left; reflexivity|right; auto]|]. intros x [->|Hx]; [left; left; reflexivity|]. destruct (In2 x Hx); [left; right; auto|right; auto].
  - apply StronglySorted_inv in Sc as [Sc F]. destruct IH as (js & -> & Sj & In1 & In2); [exact Sc|exact Nn|].
    exists js. split; [reflexivity|]. split; [exact Sj|]. split; [intros x Hx; right; auto|]. intros x [->|Hx]; auto.
  - exfalso. apply (Nn None); [left; reflexivity|reflexivity].
Qed.
Lemma sorted_seq : forall n a, StronglySorted lt (seq a n).
Proof. induction n as [|n IH]; intros a; cbn; constructor; auto. rewrite Forall_forall. intros x Hx. apply in_seq in Hx. lia. Qed.

Lemma full_tree : forall toks n ns, parse_full toks n = Ok ns -> exists ts flat_ts,
  parse_flat toks n = Ok (flat (Branch nStmtList flat_ts)) /\ ns = flat (Branch nStmtList ts) /\
  Forall2 same (flat (Branch nStmtList flat_ts)) ns /\ forall x, In x (leaf_tokens ns) -> x <> None.
Proof.
  intros toks n ns E. unfold parse_full in E. destruct (parse_flat toks n) as [ns0| | |] eqn:E0; try discriminate. cbn [obind] in E.
  destruct (extend_trails toks _ ns0 0 0) as [[ns1 id1]| | |] eqn:E1; try discriminate. cbn [obind] in E.
  destruct (valid_structure _ ns1 0) as [[]| | |] eqn:E2; try discriminate. cbn [obind] in E. injection E as <-.
  destruct (top_flat _ _ _ E0) as (ts0 & -> & _). destruct (extend_trails_same _ _ _ _ _ _ _ E1) as (S1 & _ & _).
  set (root := TreeSpec.node_of (Branch nStmtList ts0)).
  assert (F : nth_error ns1 0 = Some root /\ length ns1 = S (TreeSpec.fsize ts0)).
  { split.
    - cbn [extend_trails] in E1. cbn [TreeProofs.flat nth_error] in E1. change (nk_eqb (kind (TreeSpec.node_of (Branch nStmtList ts0))) nSubtree) with false in E1. cbv iota in E1.
      destruct (extend_trails_same _ _ _ _ _ _ _ E1) as (_ & F & _). specialize (F 1 (le_n _)). destruct ns1 as [|a ns1]; [inversion S1|].
      cbn in F. injection F as ->. reflexivity.
    - rewrite <- (LcsProofs.Forall2_length _ _ _ S1), TreeProofs.flat_length. reflexivity. }
  destruct F as [F L]. assert (X : get_extent root = TreeSpec.fsize ts0) by reflexivity.
  destruct (valid_sound (S (2 * length ns1)) ns1) as [Vs _]. destruct (Vs _ _ E2 F) as (t & Et & En); [rewrite X, L; lia|].
  rewrite X in Et. cbn [skipn] in Et. rewrite firstn_all2 in Et by lia. subst ns1.
  assert (exists ts, t = Branch nStmtList ts) as [ts ->]. { destruct t; try discriminate. injection En as -> _. eexists; reflexivity. }
  exists ts, ts0. split; [reflexivity|]. split; [reflexivity|]. split; [exact S1|]. intros x Hx ->.
  clear -E2 Hx. cbn [valid_structure] in E2. cbn [TreeProofs.flat nth_error] in E2.
  change (nk_eqb (kind (TreeSpec.node_of (Branch nStmtList ts))) nEmpty) with false in E2. cbv iota in E2.
  change (get_extent (TreeSpec.node_of (Branch nStmtList ts))) with (TreeSpec.fsize ts) in E2. cbn [is_terminal is_mono TreeSpec.node_of value orb] in E2.
  cbn [TreeProofs.flat] in Hx. unfold leaf_tokens in Hx. cbn [flat_map TreeSpec.node_of value app] in Hx.
  change (flat_map flat ts) with (fflat ts) in *.
  destruct (Nat.ltb_spec 0 (TreeSpec.fsize ts)).
  - destruct (_ <? _); [|discriminate]. destruct (existsb nil_token _) eqn:Ex; [discriminate|]. cbn [skipn] in Ex.
    rewrite firstn_all2 in Ex by (rewrite TreeProofs.fflat_length; lia). apply in_flat_map in Hx as (m & Im & Hm).
    assert (C : existsb nil_token (fflat ts) = true); [|congruence]. apply existsb_exists. exists m. split; [exact Im|].
    unfold nil_token. destruct (value m) as [|o|]; [destruct Hm| |destruct Hm]. destruct Hm as [->|[]]. reflexivity.
  - assert (Z : fflat ts = []) by (apply length_zero_iff_nil; rewrite TreeProofs.fflat_length; lia). rewrite Z in Hx. destruct Hx.
Qed.

Lemma full_keeps : forall toks n ns, parse_full toks n = Ok ns ->
  exists js, leaf_tokens ns = map Some js /\ StronglySorted lt js /\ (forall i, In i js -> i < length toks) /\
    forall i, i < length toks -> In i js \/ droppable toks i.
Proof.
  intros toks n ns E. destruct (full_tree _ _ _ E) as (ts & ts0 & E0 & _ & Sm & Nn). destruct (top_flat _ _ _ E0) as (_ & _ & K).
  rewrite (leaf_tokens_same _ _ Sm) in K. destruct (keeps_sorted _ _ _ K (sorted_seq _ _) Nn) as (js & Ej & Sj & I1 & I2).
  exists js. split; [exact Ej|]. split; [exact Sj|]. split.
  - intros i Hi. apply I1 in Hi. apply in_seq in Hi. lia.
  - intros i Hi. apply I2. apply in_seq. lia.
Qed.
