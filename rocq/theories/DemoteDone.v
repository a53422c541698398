(** The two outcomes of demoting a heading: it stays where it is, or it goes under the heading before it. *)
From Coq Require Import List Bool Arith ZArith Lia Permutation Sorted.
From Verif Require Import Base ImmModel ImmSpec ImmProofs ImmAssign ImmCascade ImmList DemoteModel DemoteSpec DemoteProofs DemoteTree DemoteMain.
Import ListNotations.
Local Open Scope nat_scope.

Lemma place s root t pp tp c1 T c2 id : wf_store s -> denotes s root t -> subtree t pp = Some tp -> subtrees tp = c1 ++ T :: c2 ->
  id_at s root (pp ++ [(0, Idx (length c1))]) = Ok id ->
  exists P n kids l1 l2, id_at s root pp = Ok P /\ node_at s P = Some n /\ tp = Node (kind n) (data n) (loc n) kids /\
    denotes_kids s (subs n) kids /\ children n = l1 ++ id :: l2 /\ Forall2 (denotes s) l1 c1 /\ denotes s id T /\ Forall2 (denotes s) l2 c2.
Proof.
  intros W D Sub Ch A. destruct (path_tree s pp root t tp D Sub) as (P & AP & DP). destruct DP as [|P n kids M K]; [destruct c1; discriminate|].
  cbn [subtrees] in Ch. pose proof (sub_ids _ _ _ K) as F. rewrite Ch in F. apply Forall2_app_inv_r in F.
  destruct F as (l1 & l2' & F1 & F2 & E). inversion F2 as [|i T' l2 c2' D1 D2]; subst.
  exists P, n, kids, l1, l2. split; [exact AP|]. split; [exact M|]. split; [reflexivity|]. split; [exact K|].
  assert (i = id).
  { rewrite id_at_app, AP in A. cbn [obind id_at] in A. unfold id_step in A. rewrite M in A. destruct (wf_node _ _ _ W M) as [Sh _].
    assert (I : In ((0, Idx (length c1)), i) (subs n)).
    { apply (filter_In is_child). rewrite (filter_index _ Sh), E, index_from_app. apply in_or_app. right.
      replace (length c1) with (length l1) by (clear - F1; induction F1; cbn; auto). now left. }
    rewrite (proj2 (find_step (subs n) (0, Idx (length c1)) (0, Idx (length c1), i) (shaped_nodup _ Sh)) (conj I eq_refl)) in A. cbn [obind] in A. now injection A. }
  subst i. split; [exact E|]. split; [exact F1|]. split; [exact D1|exact D2].
Qed.
Lemma forall2_len {A B} (R : A -> B -> Prop) l1 l2 : Forall2 R l1 l2 -> length l1 = length l2.
Proof. induction 1; cbn; auto. Qed.
Lemma not_in_ids s l c id T : Forall2 (denotes s) l c -> denotes s id T -> ~ In T c -> ~ In id l.
Proof.
  intros F D N I. apply N. clear N. induction F as [|i t l c H F IH]; [destruct I|]. destruct I as [->|I]; [|right; auto].
  left. now apply (denotes_fun s id).
Qed.
Lemma index_of_app l1 x l2 : ~ In x l1 -> index_of (l1 ++ x :: l2) x = Some (length l1).
Proof.
  induction l1 as [|y l1 IH]; intros H; cbn; [now rewrite Nat.eqb_refl|].
  destruct (Nat.eqb_spec y x) as [->|N]; [exfalso; apply H; now left|]. rewrite IH; [reflexivity|]. intros I. apply H. now right.
Qed.
Lemma forall2_ext s s' l c : extends s s' -> Forall2 (denotes s) l c -> Forall2 (denotes s') l c.
Proof. intros X. induction 1; constructor; auto. eapply denotes_ext; eauto. Qed.
Lemma tree_kind_of s i A : denotes s i A -> kind_of s i = tree_kind A.
Proof. intros D. destruct D as [|id n kids M K]; [reflexivity|]. unfold kind_of. now rewrite M. Qed.
Lemma small_le a b s : a <= b -> small a s -> small b s.
Proof. intros L S id m H. specialize (S id m H). lia. Qed.

Lemma filter_length_le {A} (f : A -> bool) l : length (filter f l) <= length l.
Proof. induction l as [|x l IH]; cbn; [lia|]. destruct (f x); cbn; lia. Qed.

Section Done.
  Variable level : nat -> Z.
  Variable deeper : nat -> nat.
  Hypothesis Up : forall d, level (deeper d) = (level d + 1)%Z.
  Lemma deeper_ne d : deeper d <> d.
  Proof. intros E. specialize (Up d). rewrite E in Up. lia. Qed.
  Notation headings := (headings heading).
  Notation lowered := (lowered deeper).
  Notation above := (above heading level).
  Lemma tree_level_of s i A : denotes s i A -> level_of level s i = tree_level level A.
  Proof. intros D. destruct D as [|id n kids M K]; [reflexivity|]. unfold level_of. now rewrite M. Qed.

  Variable s : store.
  Variable root : nat.
  Variable t tp T : tree.
  Variable pp : path.
  Variable c1 c2 : list tree.
  Variable id : nat.
  Hypothesis W : wf_store s.
  Hypothesis D : denotes s root t.
  Hypothesis Doc : kind_of s root = 1 \/ kind_of s root = 2.
  Hypothesis Sub : subtree t pp = Some tp.
  Hypothesis Ch : subtrees tp = c1 ++ T :: c2.
  Hypothesis First : ~ In T c1.
  Hypothesis HT : headings T.
  Notation p := (pp ++ [(0, Idx (length c1))]).
  Hypothesis At : id_at s root p = Ok id.
  Hypothesis Sm : small 15 s.
  Notation u := (mkU id root p).

  Lemma path_ne : p <> [].
  Proof. destruct pp; discriminate. Qed.
  Lemma is_heading_T s' : denotes s' id T -> is_heading s' id = true.
  Proof. intros H. unfold is_heading. rewrite (tree_kind_of _ _ _ H). destruct HT. apply Nat.eqb_refl. Qed.

  Lemma start fuel : height T < fuel -> exists s1 g1 id' T' m, lower_tree deeper fuel s [] u = (s1, Ok (g1 ++ [(u, moved u id')], (u, moved u id'))) /\
    extends s s1 /\ wf_store s1 /\ small 15 s1 /\ valid s1 root (g1 ++ [(u, moved u id')]) /\
    (forall o r, In (o, r) g1 -> exists st x, is_sub st = true /\ upath o = p ++ st :: x) /\
    denotes s1 id' T' /\ noloc T' = noloc (lowered T) /\ level_of level s1 id' = (tree_level level T + 1)%Z /\
    node_at s1 id' = Some m /\ (forall st c, In (st, c) (subs m) -> is_sub st = true -> id_at s1 root (p ++ [st]) <> Ok c).
  Proof.
    intros Hf. destruct (place s root t pp tp c1 T c2 id W D Sub Ch At) as (P & n & kids & l1 & l2 & AP & M & Etp & K & El & F1 & DT & F2).
    destruct (lower_tree_ok deeper deeper_ne root 15 fuel T u Hf HT eq_refl path_ne s []) as (s1 & g1 & id' & R & X & (W1 & S1 & V1 & L1) & P1 & m & M1 & N1).
    - split; [exact W|]. split; [exact Sm|]. split; intros ? ? [].
    - exact DT.
    - exact At.
    - intros ? ? [].
    - cbn [app] in *. destruct (L1 u (moved u id')) as (T0 & T' & A0 & A1 & A2). { apply in_or_app. right. now left. }
      cbn [uid moved] in A0, A1. assert (T0 = T). { eapply denotes_fun; [exact A0|]. eapply denotes_ext; eauto. } subst T0.
      exists s1, g1, id', T', m. split; [exact R|]. split; [exact X|]. split; [exact W1|]. split; [exact S1|]. split; [exact V1|].
      split; [exact P1|]. split; [exact A1|]. split; [exact A2|]. split.
      { rewrite (tree_level_of _ _ _ A1). destruct HT as [d lo ks Hk]. destruct T' as [|k' d' l' ks']; [discriminate|]. cbn in A2. injection A2 as _ Ed _.
        cbn [tree_level]. rewrite Ed. apply Up. }
      split; [exact M1|exact N1].
  Qed.

  Lemma around s1 P n l1 l2 : extends s s1 -> id_at s root pp = Ok P -> node_at s P = Some n -> children n = l1 ++ id :: l2 ->
    length l1 = length c1 -> ~ In id l1 ->
    parent_of s1 u = Ok (Some (mkU P root pp)) /\
    adjacent s1 u (-1) = Ok (match rev l1 with [] => None | a :: r => Some (mkU a root (pp ++ [(0, Idx (length r))])) end).
  Proof.
    intros X AP M El Len NI. assert (PA : parent_of s1 u = Ok (Some (mkU P root pp))).
    { unfold parent_of. cbn [upath uroot]. rewrite removelast_last. pose proof path_ne as PN. destruct p; [congruence|].
      rewrite (id_at_ext _ _ X _ _ _ AP). reflexivity. }
    split; [exact PA|]. unfold adjacent, self_index. rewrite PA. cbn [obind omap uid upath uroot].
    rewrite (node_at_ext _ _ _ _ X M), El, index_of_app by exact NI. cbn [obind omap].
    destruct (rev l1) as [|a r] eqn:Rv.
    - assert (l1 = []) by (rewrite <- (rev_involutive l1), Rv; reflexivity). subst l1. cbn. reflexivity.
    - assert (E1 : l1 = rev r ++ [a]) by (rewrite <- (rev_involutive l1), Rv; reflexivity).
      assert (E2 : (Z.of_nat (length l1) + -1 = Z.of_nat (length r))%Z) by (rewrite E1, app_length, rev_length; cbn [length]; lia).
      rewrite E2, (proj2 (in_range_iff _ _)) by (rewrite app_length; lia).
      rewrite v_at_in by (rewrite app_length; lia). rewrite Nat2Z.id. cbn [omap obind]. do 2 f_equal. f_equal.
      rewrite app_nth1 by lia. rewrite E1, app_nth2; rewrite rev_length; [|lia]. rewrite Nat.sub_diag. reflexivity.
  Qed.

  Lemma levels_only fuel : height T < fuel -> ~ (exists c A, c1 = c ++ [A] /\ above A T) ->
    exists s1 g, demote_levels level deeper fuel s u = (s1, Ok g) /\ extends s s1 /\
    exists F, forall fuel, F <= fuel -> exists s' root' ep t', cascade fuel std_sort s1 root g = (s', Ok (root', ep)) /\
      extends s s' /\ denotes s' root' t' /\ noloc t' = noloc (replace_at p (lowered T) t).
  Proof.
    intros Hf NA. destruct (start fuel Hf) as (s1 & g1 & id' & T' & m & R & X & W1 & S1 & V1 & P1 & D1 & E1 & Lv & M1 & N1).
    destruct (place s root t pp tp c1 T c2 id W D Sub Ch At) as (P & n & kids & l1 & l2 & AP & M & Etp & K & El & F1 & DT & F2).
    pose proof (forall2_len _ _ _ F1) as Len. pose proof (not_in_ids _ _ _ _ _ F1 DT First) as NI.
    destruct (around s1 P n l1 l2 X AP M El Len NI) as [PA AD].
    exists s1, (g1 ++ [(u, moved u id')]). split.
    { unfold demote_levels. cbn [uid]. rewrite (is_heading_T s DT), R. cbn [bind]. rewrite PA. cbn [lift bind]. rewrite AD. cbn [lift bind].
      destruct (rev l1) as [|a r] eqn:Rv; [reflexivity|]. cbn [uid moved].
      assert (E2 : l1 = rev r ++ [a]) by (rewrite <- (rev_involutive l1), Rv; reflexivity).
      rewrite E2 in F1. apply Forall2_app_inv_l in F1. destruct F1 as (c & cA & F3 & F4 & Ec). inversion F4 as [|? A ? cB DA F5 Y1 Y2]. subst cA.
      inversion F5. subst cB. assert (DA1 : denotes s1 a A) by (eapply denotes_ext; eauto).
      destruct (is_heading s1 a && (level_of level s1 a <? level_of level s1 id')%Z) eqn:Q; [|reflexivity]. exfalso. apply NA.
      apply andb_true_iff in Q. destruct Q as [Q1 Q2]. exists c, A. split; [exact Ec|]. split.
      - unfold is_heading in Q1. rewrite (tree_kind_of _ _ _ DA1) in Q1. now apply Nat.eqb_eq.
      - rewrite (tree_level_of _ _ _ DA1), Lv in Q2. now apply Z.ltb_lt. }
    split; [exact X|].
    assert (Ne : id <> id'). { destruct (V1 u (moved u id')) as (_ & _ & _ & Y). { apply in_or_app. right. now left. } exact Y. }
    assert (Below : forall o r, In (o, r) (g1 ++ [(u, moved u id')]) -> is_prefix p (upath o)).
    { intros o r I. apply in_app_or in I. destruct I as [I|[I|[]]].
      - destruct (P1 o r I) as (st & x & _ & E). exists (st :: x). exact E.
      - injection I as <- _. exists []. cbn. now rewrite app_nil_r. }
    destruct (finish s1 s1 root t p id id' T' (g1 ++ [(u, moved u id')])) as [F H]; auto.
    - apply extends_refl.
    - apply (small_le 15); [lia|exact S1].
    - eapply denotes_ext; eauto.
    - unfold kind_of in *. destruct (node_at s root) as [mr|] eqn:Mr; [|destruct Doc; discriminate]. now rewrite (node_at_ext _ _ _ _ X Mr).
    - apply path_ne.
    - eapply id_at_ext; eauto.
    - exists u, (moved u id'). split; [apply in_or_app; right; now left|reflexivity].
    - intros psa Pa f. remember (S f) as f1 eqn:Hf1. cbn [recurse].
      assert (Lk : lookup (g1 ++ [(u, moved u id')]) u = Some (moved u id')).
      { apply lookup_app. intros o r I E. destruct (P1 o r I) as (st & x & _ & Q). rewrite E in Q. cbn [upath] in Q.
        apply (f_equal (@length _)) in Q. rewrite (app_length p) in Q. cbn [length] in Q. lia. }
      rewrite Lk. assert (Pm : upath (moved u id') <> []) by exact path_ne. assert (Pu : upath u <> []) by exact path_ne.
      assert (Um : u <> moved u id') by (unfold moved; cbn; congruence).
      destruct (existsb (uniq_eqb u) psa) eqn:Q.
      + cbn [uid moved]. rewrite M1. change (mkU id' (uroot u) (upath u)) with (moved u id').
        assert (Eo : each (recurse std_sort (g1 ++ [(u, moved u id')]) psa f1) s1 [] (moved u id') (subs m) = (s1, Ok (map snd (subs m), []))).
        { apply each_off. intros s' ep [st c] I. cbn [fst snd moved uroot upath]. rewrite Hf1.
          apply (recurse_off std_sort s1 root _ psa V1 Pa); [cbn [upath]; destruct pp; discriminate|]. cbn [upath uid].
          destruct (is_sub st) eqn:Qs; [left; now apply N1|right]. intros o r x J E. apply in_app_or in J. destruct J as [J|[J|[]]].
          - destruct (P1 o r J) as (st' & x' & Qs' & E'). rewrite E' in E. rewrite <- (app_assoc p) in E. apply app_inv_head in E.
            cbn in E. injection E as E _. congruence.
          - injection J as <- _. cbn [upath] in E. apply (f_equal (@length _)) in E. rewrite <- (app_assoc p), (app_length p) in E. cbn [length app] in E. lia. }
        rewrite Eo. rewrite (proj2 (list_eqb_eq Nat.eqb Nat.eqb_eq _ _) eq_refl).
        destruct (group_set_ok s1 [] u (moved u id')) as [g' G]; [now apply rooted_path|now apply rooted_path|exact Um|].
        rewrite G. cbn [omap obind]. eauto.
      + rewrite group_incl_new; [|intros ? ? []|now apply rooted_path|now apply rooted_path|exact Um]. cbn [omap obind uid moved]. eauto.
    - exists F. intros fuel' Hf'. destruct (H fuel' Hf') as (s' & r' & ep & t' & H1 & H2 & H3 & H4). exists s', r', ep, t'.
      split; [exact H1|]. split; [eapply extends_trans; eauto|]. split; [exact H3|]. rewrite H4. now apply noloc_replace.
  Qed.

  Lemma combine_one {X Y} (l1 l2 : list (X * Y)) st a b :
    combine (map fst (l1 ++ (st, a) :: l2)) (map snd l1 ++ b :: map snd l2) = l1 ++ (st, b) :: l2.
  Proof.
    induction l1 as [|[x y] l1 IH]; cbn.
    - f_equal. induction l2 as [|[x y] l2 IH]; cbn; [reflexivity|]. now rewrite IH.
    - now rewrite IH.
  Qed.
  Lemma nat_ne_app (x y : nat) (l : list nat) : l ++ [x] <> l.
  Proof. intros E. apply (f_equal (@length _)) in E. rewrite app_length in E. cbn in E. lia. Qed.
  Lemma kind_ext a b i k : extends a b -> kind_of a i = k -> k <> 0 -> kind_of b i = k.
  Proof.
    unfold kind_of. intros X E N. destruct (node_at a i) as [m|] eqn:M; [|congruence]. now rewrite (node_at_ext _ _ _ _ X M).
  Qed.

  Lemma moves fuel c A : height T < fuel -> c1 = c ++ [A] -> above A T -> ~ In T c2 -> listed A ->
    exists s1 g, demote_levels level deeper fuel s u = (s1, Ok g) /\ extends s s1 /\
    exists F, forall fuel, F <= fuel -> exists s' root' ep t', cascade fuel std_sort s1 root g = (s', Ok (root', ep)) /\
      extends s s' /\ denotes s' root' t' /\
      noloc t' = noloc (replace_at pp (with_subtrees tp (c ++ with_subtrees A (subtrees A ++ [lowered T]) :: c2)) t).
  Proof.
    intros Hf Ec [AK AL] Only LA. destruct (start fuel Hf) as (s1 & g1 & id' & T' & m & R & X & W1 & S1 & V1 & P1 & D1 & E1 & Lv & M1 & N1).
    destruct (place s root t pp tp c1 T c2 id W D Sub Ch At) as (P & n & kids & l1 & l2 & AP & M & Etp & K & El & F1 & DT & F2).
    pose proof (forall2_len _ _ _ F1) as Len. pose proof (not_in_ids _ _ _ _ _ F1 DT First) as NI.
    pose proof (not_in_ids _ _ _ _ _ F2 DT Only) as NI2.
    destruct (around s1 P n l1 l2 X AP M El Len NI) as [PA AD].
    rewrite Ec in F1. apply Forall2_app_inv_r in F1. destruct F1 as (la & lb & F3 & F4 & Elb). inversion F4 as [|a A' lc cc DA F5 Y1 Y2].
    subst lb. inversion F5. subst lc. clear F4 F5. assert (Ra : rev l1 = a :: rev la) by (rewrite Elb, rev_app_distr; reflexivity).
    rewrite Ra in AD. rewrite rev_length in AD.
    assert (DA1 : denotes s1 a A) by (eapply denotes_ext; eauto).
    assert (Nid : id <> id'). { destruct (V1 u (moved u id')) as (_ & _ & _ & Y). { apply in_or_app. right. now left. } exact Y. }
    set (k := length la) in *.
    assert (Lc1 : length c1 = S k) by (rewrite <- Len, Elb, app_length; cbn; fold k; lia).
    (* the parent without the heading *)
    assert (Sz : length (subs n) <= 15) by (eapply Sm; eauto).
    pose proof (length_with n (la ++ a :: l2)) as LW. rewrite El, Elb, !app_length in LW. cbn [length] in LW.
    destruct (wf_node _ _ _ W M) as [Shn Bln].
    assert (Lstn : forall st c, In (st, c) (subs n) -> fst st = 0 -> is_sub st = true).
    { intros st x I Q. destruct (is_sub st) eqn:Qs; [reflexivity|]. exfalso. pose proof (Shn 0) as Fs.
      assert (J : In st (filter (fun st : step => Nat.eqb (fst st) 0) (map fst (subs n)))).
      { apply filter_In. split; [now apply (in_map fst) in I|]. now rewrite Q. }
      assert (J2 : In (0, Idx 0) (filter (fun st : step => Nat.eqb (fst st) 0) (map fst (subs n)))).
      { apply filter_In. split; [|reflexivity]. pose proof (filter_index _ Shn) as FI. fold (children n) in FI. rewrite El, Elb in FI.
        assert (J3 : exists y, In ((0, Idx 0), y) (filter is_child (subs n))).
        { rewrite FI. destruct la as [|y la]; [exists a; now left|exists y; now left]. }
        destruct J3 as [y J3]. apply filter_In in J3. destruct J3 as [J3 _]. now apply (in_map fst) in J3. }
      destruct Fs as [E|[E|[E|[(z & E)|(ks & _ & E)]]]]; rewrite E in J, J2.
      - exact J.
      - destruct J2 as [J2|[]]. discriminate.
      - destruct J2 as [J2|[]]. discriminate.
      - apply in_map_iff in J. destruct J as (i & <- & _). discriminate.
      - apply in_map_iff in J2. destruct J2 as (i & J2 & _). discriminate. }
    assert (M1n : node_at s1 P = Some n) by (eapply node_at_ext; eauto).
    assert (AP1 : id_at s1 root pp = Ok P) by (eapply id_at_ext; eauto).
    assert (Lel : forall i, In i (children n) -> i <= length s1).
    { intros i I. unfold children in I. apply in_map_iff in I. destruct I as ([st j] & <- & I). apply filter_In in I. destruct I as [I _].
      specialize (Bln _ _ I). apply node_at_le in M1n. cbn. lia. }
    destruct (set_sub 15 s1 (mkU P root pp) n (la ++ a :: l2)) as (s2 & P' & mP & R2 & X2 & W2 & S2 & NeP & MP & KP & DP & SP); auto.
    { rewrite El, Elb. intros E. apply (f_equal (@length _)) in E. rewrite !app_length in E. cbn in E. lia. }
    { apply with_shape; auto. }
    { lia. }
    { intros i I. apply Lel. rewrite El, Elb. apply in_app_or in I. apply in_or_app. destruct I as [I|[I|I]].
      - left. apply in_or_app. now left.
      - left. apply in_or_app. right. now left.
      - right. now right. }
    cbn [uid] in NeP.
    (* the heading before it, with the lowered heading as its last subtree *)
    inversion DA as [|a' na kA Ma Ka Q1 Q2]; [exfalso; match goal with H : Nil = A |- _ => rewrite <- H in AK; discriminate AK end|]. subst a'.
    assert (X12 : extends s s2) by (eapply extends_trans; eauto).
    assert (M2a : node_at s2 a = Some na) by (eapply node_at_ext; eauto).
    assert (Sza : length (subs na) <= 15) by (eapply Sm; eauto).
    pose proof (length_with na (children na ++ [id'])) as LWa. rewrite app_length in LWa. cbn [length] in LWa.
    destruct (wf_node _ _ _ W Ma) as [Sha Bla].
    assert (Lsta : forall st c, In (st, c) (subs na) -> fst st = 0 -> is_sub st = true).
    { rewrite <- Q2 in LA. cbn [listed] in LA. intros st x I. destruct (kids_in _ _ _ Ka st x I) as (y & J & _). now apply (LA st y). }
    destruct (set_sub 16 s2 (mkU a root (pp ++ [(0, Idx k)])) na (children na ++ [id'])) as (s3 & a' & ma & R3 & X3 & W3 & S3 & Nea & M3a & K3a & D3a & S3a); auto.
    { now apply nat_ne_app. }
    { apply (small_le 15); [lia|exact S2]. }
    { now apply with_shape. }
    { lia. }
    { intros i I. apply in_app_or in I. destruct I as [I|[<-|[]]].
      - unfold children in I. apply in_map_iff in I. destruct I as ([st j] & <- & I). apply filter_In in I. destruct I as [I _].
        specialize (Bla _ _ I). apply node_at_le in M2a. cbn. lia.
      - apply (node_at_ext s1 s2) in M1; [|exact X2]. apply node_at_le in M1. lia. }
    cbn [uid] in Nea.
    set (uP := mkU P root pp) in *. set (ua := mkU a root (pp ++ [(0, Idx k)])) in *.
    set (g := ((g1 ++ [(u, moved u id')]) ++ [(uP, moved uP P')]) ++ [(ua, moved ua a')]).
    assert (Paths : forall o r, In (o, r) (g1 ++ [(u, moved u id')]) -> exists x, upath o = pp ++ (0, Idx (S k)) :: x).
    { intros o r I. apply in_app_or in I. destruct I as [I|[I|[]]].
      - destruct (P1 o r I) as (st & x & _ & E). exists (st :: x). rewrite E, Lc1, <- app_assoc. reflexivity.
      - injection I as <- _. exists []. cbn [upath]. now rewrite Lc1. }
    assert (Pua : upath ua <> []) by (unfold ua; cbn; destruct pp; discriminate).
    assert (Pma : upath (moved ua a') <> []) by exact Pua.
    assert (NeP1 : forall o r, In (o, r) (g1 ++ [(u, moved u id')]) -> o <> uP).
    { intros o r I E. destruct (Paths o r I) as [x Q]. rewrite E in Q. cbn [upath uP] in Q. apply (f_equal (@length _)) in Q.
      rewrite app_length in Q. cbn [length] in Q. lia. }
    assert (Nea1 : forall o r, In (o, r) ((g1 ++ [(u, moved u id')]) ++ [(uP, moved uP P')]) -> o <> ua).
    { intros o r I E. apply in_app_or in I. destruct I as [I|[I|[]]].
      - destruct (Paths o r I) as [x Q]. rewrite E in Q. unfold ua in Q. cbn [upath] in Q. apply app_inv_head in Q. injection Q as Q _. lia.
      - injection I as I _. rewrite <- I in E. apply (f_equal (fun v => length (upath v))) in E. unfold uP, ua in E. cbn [upath] in E.
        rewrite app_length in E. cbn [length] in E. lia. }
    assert (RP : forall s', extends s s' -> rooted s' uP = true).
    { intros s' Xs. unfold rooted, uP. cbn [uid upath]. destruct pp as [|st0 p0]; [|apply orb_true_r]. cbn in AP. injection AP as <-.
      destruct Doc as [Q|Q]; rewrite (kind_ext s s' root _ Xs Q) by discriminate; reflexivity. }
    assert (RN : forall s' i mi, node_at s' i = Some mi -> kind mi = kind n -> rooted s' (mkU i root pp) = true).
    { intros s' i mi Hi Ki. unfold rooted. cbn [uid upath]. destruct pp as [|st0 p0]; [|apply orb_true_r]. cbn in AP. injection AP as <-.
      unfold kind_of in Doc |- *. rewrite M in Doc. rewrite Hi, Ki. destruct Doc as [-> | ->]; reflexivity. }
    exists s3, g. split.
    { unfold demote_levels. cbn [uid]. rewrite (is_heading_T s DT), R. cbn [bind]. rewrite PA. cbn [lift bind]. rewrite AD. cbn [lift bind uid moved].
      assert (Hh : is_heading s1 a = true) by (unfold is_heading; rewrite (tree_kind_of _ _ _ DA1), AK; reflexivity).
      change (uid ua) with a. rewrite Hh, (tree_level_of _ _ _ DA1), Lv, (proj2 (Z.ltb_lt _ _) AL). cbn [andb].
      assert (Dr : drop_subnode_id s1 uP id = set_subnodes s1 uP (la ++ a :: l2)).
      { unfold drop_subnode_id, with_node. unfold uP at 1. cbn [uid]. rewrite M1n, El, index_of_app by exact NI.
        unfold drop_subnode, with_node. unfold uP at 1. cbn [uid]. rewrite M1n. f_equal. rewrite El.
        rewrite v_erase_in; [|rewrite app_length; cbn [length]; lia|].
        - rewrite Nat2Z.id, firstn_app, Nat.sub_diag, firstn_all. cbn [firstn]. rewrite app_nil_r, skipn_app, skipn_all2 by lia.
          replace (S (length l1) - length l1) with 1 by lia. cbn [skipn app]. rewrite Elb, <- app_assoc. reflexivity.
        - assert (HC : length (children n) <= 15).
          { unfold children. rewrite map_length. pose proof (filter_length_le is_child (subs n)) as FL. lia. }
          rewrite El, app_length in HC. cbn [length] in HC. lia. }
      rewrite Dr, R2. cbn [bind fst snd]. unfold lift.
      rewrite group_incl_new; [|exact NeP1|apply RP; exact X12| |].
      2: { apply (RN s2 P' mP MP KP). }
      2: { unfold uP, moved. cbn. congruence. }
      cbn [bind].
      assert (Ap : append_subnode s2 ua id' = set_subnodes s2 ua (children na ++ [id'])).
      { unfold append_subnode, with_node. unfold ua at 1. cbn [uid]. rewrite M2a. unfold insert_subnode, with_node. unfold ua at 1. cbn [uid]. rewrite M2a.
        f_equal. assert (length (children na) <= 15).
        { unfold children. rewrite map_length. pose proof (filter_length_le is_child (subs na)) as FL. lia. }
        rewrite v_insert_in by lia. rewrite Nat2Z.id, firstn_all, skipn_all. now rewrite app_nil_r. }
      rewrite Ap, R3. cbn [bind fst snd].
      rewrite group_incl_new; [reflexivity|exact Nea1|now apply rooted_path|now apply rooted_path|unfold ua, moved; cbn; congruence]. }
    assert (X13 : extends s1 s3) by (eapply extends_trans; eauto).
    assert (X03 : extends s s3) by (eapply extends_trans; eauto).
    split; [exact X03|].
    assert (V : valid s3 root g).
    { apply valid_app; [apply valid_app|].
      - apply (valid_ext s1); auto.
      - intros o r [I|[]]. injection I as <- <-. split; [reflexivity|]. split; [reflexivity|]. split; [eapply id_at_ext; eauto|]. cbn. congruence.
      - intros o r [I|[]]. injection I as <- <-. split; [reflexivity|]. split; [reflexivity|]. split; [|cbn; congruence]. cbn [upath uid ua].
        rewrite id_at_app, (id_at_ext _ _ X03 _ _ _ AP). cbn [obind id_at]. unfold id_step. rewrite (node_at_ext _ _ _ _ X03 M).
        rewrite (proj2 (find_step (subs n) (0, Idx k) (0, Idx k, a) (shaped_nodup _ Shn))); [reflexivity|]. split; [|reflexivity].
        apply (filter_In is_child). rewrite (filter_index _ Shn). fold (children n). rewrite El, Elb, <- app_assoc, index_from_app. apply in_or_app.
        right. left. cbn [Nat.add]. reflexivity. }
    assert (M3P : node_at s3 P' = Some mP) by exact (node_at_ext _ _ _ _ X3 MP).
    set (B1 := index_from 0 la). set (B2 := index_from (S k) l2 ++ filter (fun x => negb (is_child x)) (subs n)).
    assert (Bs : forall y, subs (with_children n (la ++ y :: l2)) = B1 ++ ((0, Idx k), y) :: B2).
    { intros y. unfold with_children, B1, B2. cbn [subs]. rewrite index_from_app. cbn [index_from]. fold k. cbn [Nat.add]. now rewrite <- app_assoc. }
    set (nn := mkN (kind mP) (data mP) (loc mP) (subs (with_children n (la ++ a' :: l2)))).
    assert (A3 : a' <= length s3) by (apply node_at_le in M3a; lia).
    assert (Shnn : well_shaped (map fst (subs nn))) by (unfold nn; cbn [subs]; now apply with_shape).
    destruct (intern_spec s3 nn) as (m4 & I1 & I2 & I3 & I4 & I5).
    pose proof (wf_intern s3 nn W3 Shnn) as W4.
    assert (L4 : length (subs nn) <= 16).
    { unfold nn. cbn [subs]. pose proof (length_with n (la ++ a' :: l2)) as LW'. rewrite El, Elb, !app_length in LW'. cbn [length] in LW'. lia. }
    pose proof (small_intern 16 s3 nn S3 L4) as S4.
    assert (Ids : forall st i, In (st, i) (subs nn) -> i <= length s3).
    { intros st i I. unfold nn in I. cbn [subs] in I. rewrite Bs in I. apply in_app_or in I.
      assert (Old : forall st i, In (st, i) (subs n) -> i <= length s3).
      { intros st' i' J. specialize (Bln _ _ J). pose proof (node_at_ext _ _ _ _ X03 M) as Y. apply node_at_le in Y. lia. }
      assert (OldC : forall i, In i (children n) -> i <= length s3).
      { intros j J. unfold children in J. apply in_map_iff in J. destruct J as ([st' j'] & <- & J). apply filter_In in J. cbn. now apply (Old st'). }
      destruct I as [I|[I|I]].
      - apply index_from_in in I. destruct I as (_ & _ & _ & I). apply OldC. rewrite El, Elb. apply in_or_app. left. apply in_or_app. now left.
      - injection I as _ <-. exact A3.
      - unfold B2 in I. apply in_app_or in I. destruct I as [I|I].
        + apply index_from_in in I. destruct I as (_ & _ & _ & I). apply OldC. rewrite El. apply in_or_app. right. now right.
        + apply filter_In in I. now apply (Old st). }
    specialize (W4 Ids). destruct (intern s3 nn) as [s4 i4] eqn:Int. cbn [fst snd] in *. unfold nn in I3, I4, I5. cbn [kind data subs] in I3, I4, I5.
    assert (Chm4 : children m4 = la ++ a' :: l2). { unfold children. rewrite I5. rewrite <- (children_with n (la ++ a' :: l2)) at 2. reflexivity. }
    assert (ChmP : children mP = la ++ a :: l2). { unfold children. rewrite SP. rewrite <- (children_with n (la ++ a :: l2)) at 2. reflexivity. }
    assert (Ne4 : i4 <> P').
    { intros ->. rewrite (node_at_ext _ _ _ _ I1 M3P) in I2. injection I2 as <-. rewrite Chm4 in ChmP. apply app_inv_head in ChmP. congruence. }
    assert (X04 : extends s s4) by (eapply extends_trans; eauto).
    assert (NeP4 : P <> i4).
    { intros <-. rewrite (node_at_ext _ _ _ _ X04 M) in I2. injection I2 as <-. rewrite Chm4, Elb in El. apply (f_equal (@length _)) in El.
      rewrite !app_length in El. cbn [length] in El. lia. }
    assert (There : forall psa, edit_parents s3 g = Ok psa -> forall f, exists ep, recurse std_sort g psa (S (S f)) s3 [] uP = (s4, Ok (i4, ep))).
    { intros psa Pa f. remember (S f) as f1 eqn:Hf1. cbn [recurse].
      rewrite (parent_true s3 root g psa V Pa); [|reflexivity|exact (id_at_ext _ _ X03 _ _ _ AP)|].
      2: { exists ua, (moved ua a'). split; [apply in_or_app; right; now left|]. right. exists [(0, Idx k)]. split; [discriminate|reflexivity]. }
      assert (LkP : lookup g uP = Some (moved uP P')). { unfold g. rewrite <- app_assoc. cbn [app]. apply lookup_app. exact NeP1. }
      rewrite LkP. cbn [uid moved]. rewrite M3P. change (mkU P' (uroot uP) (upath uP)) with (moved uP P'). rewrite SP, Bs.
      rewrite each_path.
      2: { intros s' ep [st y] I. cbn [fst snd moved uroot upath uP]. rewrite Hf1. apply (recurse_off std_sort s3 root g psa V Pa); [destruct pp; discriminate|].
           cbn [upath uid].
           assert (St : st <> (0, Idx k) /\ (st = (0, Idx (S k)) -> y <> id)).
           { apply in_app_or in I. destruct I as [I|I].
             - apply index_from_in in I. destruct I as (j & -> & J1 & _). fold k in J1. split; [intros E; injection E as E; lia|intros E; injection E as E; lia].
             - unfold B2 in I. apply in_app_or in I. destruct I as [I|I].
               + apply index_from_in in I. destruct I as (j & -> & J1 & J2). split; [intros E; injection E as E; lia|]. intros _ ->. contradiction.
               + apply filter_In in I. destruct I as [_ I]. rewrite is_child_sub in I. cbn [fst] in I. split; intros ->; discriminate. }
           destruct St as [St1 St2].
           assert (Dec : {st = (0, Idx (S k))} + {st <> (0, Idx (S k))}).
           { destruct (step_eqb st (0, Idx (S k))) eqn:Q; [left; now apply step_eqb_eq|right; now apply step_eqb_neq]. }
           destruct Dec as [->|St3].
           - left. rewrite <- Lc1. rewrite (id_at_ext _ _ X03 _ _ _ At). intros E. injection E as E. now apply St2.
           - right. intros o r x J E. unfold g in J. apply in_app_or in J. destruct J as [J|[J|[]]].
             + apply in_app_or in J. destruct J as [J|[J|[]]].
               * destruct (Paths o r J) as [z Q]. rewrite Q, <- app_assoc in E. apply app_inv_head in E. cbn in E. injection E as E _. congruence.
               * injection J as <- _. cbn [upath uP] in E. apply (f_equal (@length _)) in E. rewrite !app_length in E. cbn [length] in E. lia.
             + injection J as <- _. unfold ua in E. cbn [upath] in E. rewrite <- app_assoc in E. apply app_inv_head in E. cbn in E. injection E as E _. congruence. }
      cbn [moved uroot upath uP]. change (mkU a root (pp ++ [(0, Idx k)])) with ua.
      assert (Ra' : recurse std_sort g psa f1 s3 [] ua = (s3, Ok (a', [(ua, moved ua a')]))).
      { rewrite Hf1. cbn [recurse]. rewrite (parent_false s3 root g psa V Pa).
        2: { exact Pua. }
        2: { right. intros o r x J Nx E. unfold g in J. apply in_app_or in J. destruct J as [J|[J|[]]].
             + apply in_app_or in J. destruct J as [J|[J|[]]].
               * destruct (Paths o r J) as [z Q]. unfold ua in E. cbn [upath] in E. rewrite Q, <- app_assoc in E. apply app_inv_head in E. cbn in E.
                 injection E as E _. lia.
               * injection J as <- _. unfold ua in E. cbn [upath uP] in E. apply (f_equal (@length _)) in E. rewrite !app_length in E. cbn [length] in E. lia.
             + injection J as <- _. rewrite <- (app_nil_r (upath ua)) in E at 1. apply app_inv_head in E. congruence. }
        assert (Lka : lookup g ua = Some (moved ua a')) by (unfold g; apply lookup_app; exact Nea1).
        rewrite Lka. rewrite group_incl_new; [reflexivity|intros ? ? []|now apply rooted_path|now apply rooted_path|unfold ua, moved; cbn; congruence]. }
      rewrite Ra'.
      assert (Chg : list_eqb Nat.eqb (map snd B1 ++ a' :: map snd B2) (map snd (B1 ++ (0, Idx k, a) :: B2)) = false).
      { destruct (list_eqb Nat.eqb _ _) eqn:Q; [|reflexivity]. apply (list_eqb_eq Nat.eqb Nat.eqb_eq) in Q. rewrite map_app in Q. apply app_inv_head in Q.
        cbn in Q. congruence. }
      rewrite Chg, combine_one, <- !Bs.
      assert (LB : length (subs (with_children n (la ++ a' :: l2))) <= 16) by exact L4.
      assert (Ass : assign_all (subs (with_children n (la ++ a :: l2))) (group_by (std_sort (subs (with_children n (la ++ a' :: l2))))) =
        Ok (subs (with_children n (la ++ a' :: l2)))).
      { apply (assign_stable (subs (with_children n (la ++ a' :: l2))) Shnn std_sort).
        - rewrite std_sort_small by exact LB. apply stable_sort_sorts.
        - intros f0. rewrite std_sort_small by exact LB. apply stable_sort_stable.
        - rewrite !Bs, !map_app. reflexivity. }
      rewrite Ass. fold nn. rewrite Int, (proj2 (Nat.eqb_neq _ _) Ne4).
      destruct (group_set_ok s4 [(ua, moved ua a')] (moved uP P') (moved (moved uP P') i4)) as [g' G].
      - apply (RN s4 P' mP); [exact (node_at_ext _ _ _ _ I1 M3P)|exact KP].
      - apply (RN s4 i4 m4); [exact I2|congruence].
      - unfold moved. cbn. congruence.
      - change (mkU P' root pp) with (moved uP P'). change (mkU i4 root pp) with (moved (moved uP P') i4).
        match goal with |- context [group_set s4 ?x ?y ?z] => replace (group_set s4 x y z) with (Ok g') end. cbn [omap obind]. eauto. }
    (* what the new parent denotes *)
    assert (Aden : exists A', denotes s3 a' A' /\ noloc A' = noloc (with_subtrees A (subtrees A ++ [lowered T]))).
    { assert (F : Forall2 (denotes s3) (children na ++ [id']) (subtrees A ++ [T'])).
      { apply Forall2_app; [|constructor; [exact (denotes_ext _ _ _ _ X13 D1)|constructor]]. rewrite <- Q2. cbn [subtrees].
        apply (forall2_ext s); [exact X03|]. now apply sub_ids. }
      pose proof (with_kids s3 na kA (children na ++ [id']) (subtrees A ++ [T']) (kids_ext _ _ _ _ X03 Ka) F) as WK. rewrite <- S3a in WK.
      eexists. split; [econstructor; [exact M3a|exact WK]|].
      transitivity (noloc (with_subtrees A (subtrees A ++ [T']))).
      - rewrite <- Q2 at 3. cbn [with_subtrees noloc]. now rewrite K3a, D3a.
      - apply noloc_with. rewrite !map_app. cbn. now rewrite E1. }
    destruct Aden as (Ax & DAx & EAx).
    assert (Nden : exists tn, denotes s4 i4 tn /\ noloc tn = noloc (with_subtrees tp (c ++ with_subtrees A (subtrees A ++ [lowered T]) :: c2))).
    { assert (F : Forall2 (denotes s4) (la ++ a' :: l2) (c ++ Ax :: c2)).
      { apply Forall2_app; [now apply (forall2_ext s)|]. constructor; [exact (denotes_ext _ _ _ _ I1 DAx)|]. now apply (forall2_ext s). }
      pose proof (with_kids s4 n kids _ _ (kids_ext _ _ _ _ X04 K) F) as WK. rewrite <- I5 in WK.
      eexists. split; [econstructor; [exact I2|exact WK]|].
      transitivity (noloc (with_subtrees tp (c ++ Ax :: c2))).
      - rewrite Etp. cbn [with_subtrees noloc]. now rewrite I3, I4, KP, DP.
      - apply noloc_with. rewrite !map_app. cbn. now rewrite EAx. }
    destruct Nden as (tn & Dtn & Etn).
    assert (PpDec : pp = [] \/ pp <> []) by (destruct pp; [now left|right; discriminate]).
    destruct PpDec as [Pp|Pp].
    - exists 2. intros f Hf2. destruct f as [|[|f]]; [lia|lia|]. destruct (parents_in s3 root g V) as (psa & Pa & _).
      destruct (There psa Pa f) as [ep Q]. exists s4, i4, ep, tn. unfold cascade. rewrite Pa.
      assert (uP = mkU root root []) as <-. { unfold uP. rewrite Pp in AP |- *. cbn in AP. now injection AP as <-. }
      rewrite Q. split; [reflexivity|]. split; [exact X04|]. split; [exact Dtn|]. rewrite Pp, Q2. exact Etn.
    - destruct (finish s3 s4 root t pp P i4 tn g) as [F HF]; auto.
      + eapply denotes_ext; eauto.
      + destruct Doc as [Q|Q]; [left|right]; now apply (kind_ext s).
      + eapply id_at_ext; eauto.
      + intros o r J. unfold g in J. apply in_app_or in J. destruct J as [J|[J|[]]].
        * apply in_app_or in J. destruct J as [J|[J|[]]].
          -- destruct (Paths o r J) as [z Q]. exists ((0, Idx (S k)) :: z). exact Q.
          -- injection J as <- _. exists []. cbn. now rewrite app_nil_r.
        * injection J as <- _. exists [(0, Idx k)]. reflexivity.
      + exists uP, (moved uP P'). split; [|reflexivity]. unfold g. apply in_or_app. left. apply in_or_app. right. now left.
      + exists F. intros f Hf2. destruct (HF f Hf2) as (s' & r' & ep & t' & H1 & H2 & H3 & H4). exists s', r', ep, t'.
        split; [exact H1|]. split; [eapply extends_trans; eauto|]. split; [exact H3|]. rewrite H4, Q2. now apply noloc_replace.
  Qed.
End Done.
