(** Lowering every heading of a tree. *)
From Coq Require Import List Bool Arith ZArith Lia Permutation Sorted.
From Verif Require Import Base ImmModel ImmSpec ImmProofs ImmAssign ImmCascade ImmList DemoteModel DemoteSpec DemoteProofs.
Import ListNotations.
Local Open Scope nat_scope.

Definition small (B : nat) (s : store) : Prop := forall id m, node_at s id = Some m -> length (subs m) <= B.
Lemma small_intern B s n : small B s -> length (subs n) <= B -> small B (fst (intern s n)).
Proof.
  intros S L id m H. unfold intern in H. destruct (find_value s n); [now apply (S id)|]. cbn [fst] in H.
  destruct id as [|i]; [discriminate|]. cbn in H. destruct (Nat.lt_ge_cases i (length s)) as [Q|Q].
  - rewrite nth_error_app1 in H by auto. now apply (S (Datatypes.S i)).
  - rewrite nth_error_app2 in H by auto. destruct (i - length s) as [|j]; [|destruct j; discriminate]. cbn in H. now injection H as <-.
Qed.
Lemma with_ids_map f l : with_ids l (map f (map snd (filter is_child l))) =
  map (fun x => if is_child x then (fst x, f (snd x)) else x) l.
Proof.
  induction l as [|x l IH]; [reflexivity|]. cbn [with_ids filter map]. destruct (is_child x) eqn:Q; cbn [map]; now rewrite IH.
Qed.

Section Lower.
  Variable deeper : nat -> nat.
  Hypothesis Deeper : forall d, deeper d <> d.
  Variable root : nat.
  Variable B : nat.
  Notation headings := (headings heading).
  Notation lowered := (lowered deeper).

  (** Every replacement is the lowered tree. *)
  Definition lows (s : store) (g : list (uniq * uniq)) : Prop := forall o r, In (o, r) g ->
    exists T T', denotes s (uid o) T /\ denotes s (uid r) T' /\ noloc T' = noloc (lowered T).
  Lemma lows_ext s s' g : extends s s' -> lows s g -> lows s' g.
  Proof. intros X L o r H. destruct (L o r H) as (T & T' & A & C & D). exists T, T'. split; [|split; [|exact D]]; eapply denotes_ext; eauto. Qed.
  Lemma new_id_found s g o r : lows s g -> valid s root g -> In (o, r) g ->
    new_id g (uid o) <> uid o /\ forall T, denotes s (uid o) T -> exists T', denotes s (new_id g (uid o)) T' /\ noloc T' = noloc (lowered T).
  Proof.
    intros L V I. unfold new_id. destruct (find (fun x => Nat.eqb (uid (fst x)) (uid o)) (rev g)) as [[o' r']|] eqn:F.
    - apply find_some in F. destruct F as [F1 F2]. apply in_rev in F1. cbn in F2. apply Nat.eqb_eq in F2. cbn [snd].
      destruct (V _ _ F1) as (_ & _ & _ & Ne). split; [congruence|]. intros T D. destruct (L _ _ F1) as (T0 & T' & A & C & E).
      exists T'. split; [exact C|]. rewrite F2 in A. now rewrite (denotes_fun _ _ _ _ D A).
    - exfalso. pose proof (find_none _ _ F (o, r)) as X. cbn in X. rewrite Nat.eqb_refl in X. assert (In (o, r) (rev g)) by now apply in_rev in I.
      specialize (X H). discriminate.
  Qed.

  Definition state (s : store) (g : list (uniq * uniq)) : Prop := wf_store s /\ small B s /\ valid s root g /\ lows s g.
  Definition lowers (rec : store -> list (uniq * uniq) -> uniq -> store * outcome (list (uniq * uniq) * (uniq * uniq))) (u : uniq) (T : tree) : Prop :=
    forall s g, state s g -> denotes s (uid u) T -> id_at s root (upath u) = Ok (uid u) ->
    (forall o r, In (o, r) g -> ~ is_prefix (upath u) (upath o)) ->
    exists s' g1 id', rec s g u = (s', Ok (g ++ g1 ++ [(u, moved u id')], (u, moved u id'))) /\ extends s s' /\
      state s' (g ++ g1 ++ [(u, moved u id')]) /\
      (forall o r, In (o, r) g1 -> exists st x, is_sub st = true /\ upath o = upath u ++ st :: x) /\
      exists m, node_at s' id' = Some m /\
        forall st c, In (st, c) (subs m) -> is_sub st = true -> id_at s' root (upath u ++ [st]) <> Ok c.

  Lemma lower_all_ok rec q cs : NoDup (map fst cs) ->
    forall s g, state s g ->
    (forall st c, In (st, c) cs -> id_at s root (q ++ [st]) = Ok c /\ exists T, lowers rec (mkU c root (q ++ [st])) T /\ denotes s c T) ->
    (forall o r, In (o, r) g -> ~ exists st x, In st (map fst cs) /\ upath o = q ++ st :: x) ->
    exists s' g1, lower_all rec s g (map (fun x => mkU (snd x) root (q ++ [fst x])) cs) = (s', Ok (g ++ g1)) /\
      extends s s' /\ state s' (g ++ g1) /\
      (forall o r, In (o, r) g1 -> exists st x, In st (map fst cs) /\ upath o = q ++ st :: x) /\
      (forall x, In x cs -> exists r, In (mkU (snd x) root (q ++ [fst x]), r) g1).
  Proof.
    induction cs as [|[st c] cs IH]; intros N s g St K G.
    - exists s, []. cbn. rewrite app_nil_r. split; [reflexivity|]. split; [apply extends_refl|]. split; [exact St|]. split; [intros ? ? []|intros ? []].
    - cbn [map fst] in N. inversion N as [|? ? N1 N2]; subst. cbn [map lower_all fst snd].
      destruct (K st c (or_introl eq_refl)) as (A & T & R & D).
      destruct (R s g St D A) as (s1 & g1 & id' & R1 & X1 & S1 & P1 & _).
      { intros o r I [x E]. cbn [upath] in E. apply (G o r I). exists st, x. split; [now left|]. rewrite E, <- app_assoc. reflexivity. }
      rewrite R1. cbn [bind fst].
      set (u := mkU c root (q ++ [st])) in *.
      destruct (IH N2) with (s := s1) (g := g ++ g1 ++ [(u, moved u id')]) as (s2 & g2 & R2 & X2 & S2 & P2 & A2).
      + exact S1.
      + intros st' c' I. destruct (K st' c' (or_intror I)) as (A' & T' & R' & D'). split; [eapply id_at_ext; eauto|].
        exists T'. split; [exact R'|eapply denotes_ext; eauto].
      + intros o r I (st' & x & I1 & E). apply in_app_or in I. destruct I as [I|I]; [apply (G o r I); exists st', x; split; [now right|exact E]|].
        apply in_app_or in I. destruct I as [I|[I|[]]].
        * destruct (P1 o r I) as (st2 & y & _ & E2). rewrite E2 in E. unfold u in E. cbn [upath] in E. rewrite <- app_assoc in E.
          apply app_inv_head in E. cbn in E. injection E as E _. apply N1. now rewrite E.
        * injection I as <- _. unfold u in E. cbn [upath] in E. apply app_inv_head in E. injection E as E _. apply N1. now rewrite E.
      + exists s2, ((g1 ++ [(u, moved u id')]) ++ g2). rewrite R2. rewrite <- !app_assoc in S2 |- *.
        split; [reflexivity|]. split; [eapply extends_trans; eauto|]. split; [exact S2|]. split.
        * intros o r I. apply in_app_or in I. destruct I as [I|[I|I]].
          -- destruct (P1 o r I) as (st2 & y & _ & E2). exists st, (st2 :: y). split; [now left|]. rewrite E2. unfold u. cbn [upath].
             now rewrite <- app_assoc.
          -- injection I as <- _. exists st, []. split; [now left|reflexivity].
          -- destruct (P2 o r I) as (st2 & y & I2 & E2). exists st2, y. split; [now right|exact E2].
        * intros x [<-|I].
          -- exists (moved u id'). apply in_or_app. right. now left.
          -- destruct (A2 x I) as [r I2]. exists r. apply in_or_app. right. now right.
  Qed.

  Lemma lowered_kids s g l kids : lows s g -> valid s root g -> denotes_kids s l kids ->
    (forall st c, In (st, c) l -> is_sub st = true -> exists o r, In (o, r) g /\ uid o = c) ->
    exists kids', denotes_kids s (map (fun x => if is_child x then (fst x, new_id g (snd x)) else x) l) kids' /\
      map (fun c : step * tree => (fst c, noloc (snd c))) kids' =
      map (fun c : step * tree => (fst c, noloc (snd c))) (map (fun c => if is_sub (fst c) then (fst c, lowered (snd c)) else c) kids).
  Proof.
    intros L V K. induction K as [|st id t l kids D K IH]; intros H.
    - exists []. split; [constructor|reflexivity].
    - destruct IH as (kids' & A & E). { intros st' c' I. apply H. now right. }
      cbn [map]. rewrite is_child_sub. cbn [fst snd]. destruct (is_sub st) eqn:Q.
      + destruct (H st id (or_introl eq_refl) Q) as (o & r & I & U). destruct (new_id_found s g o r L V I) as [_ F].
        rewrite U in F. destruct (F t D) as (t' & D' & E'). exists ((st, t') :: kids'). split; [constructor; auto|]. cbn [map fst snd]. now rewrite E, E'.
      + exists ((st, t) :: kids'). split; [constructor; auto|]. cbn [map fst snd]. now rewrite E.
  Qed.

  Lemma lower_tree_ok : forall fuel T u, height T < fuel -> headings T -> uroot u = root -> upath u <> [] ->
    lowers (lower_tree deeper fuel) u T.
  Proof.
    induction fuel as [|fuel IH]; intros T u Hh HT Ru Pu s g St D A G; [lia|]. destruct HT as [d lo kids Hk].
    inversion D as [|id n kids' M K E1 E2]; subst. destruct St as (W & S & V & L).
    destruct (wf_node _ _ _ W M) as [Sh _]. pose proof (shaped_nodup _ Sh) as ND.
    assert (Step : forall st i, In (st, i) (subs n) -> id_at s root (upath u ++ [st]) = Ok i).
    { intros st i H. rewrite id_at_app, A. cbn [obind id_at]. unfold id_step. rewrite M.
      rewrite (proj2 (find_step (subs n) st (st, i) ND) (conj H eq_refl)). reflexivity. }
    assert (Kid : forall st c, In (st, c) (filter is_child (subs n)) -> is_sub st = true /\ In (st, c) (subs n) /\
      exists T, In (st, T) kids /\ denotes s c T /\ headings T /\ height T < fuel).
    { intros st c I. apply filter_In in I. destruct I as [I Q]. rewrite is_child_sub in Q. cbn in Q. split; [exact Q|]. split; [exact I|].
      destruct (kids_in _ _ _ K st c I) as (T & T1 & T2). exists T. split; [exact T1|]. split; [exact T2|]. split; [now apply (Hk st)|].
      cbn [height] in Hh. pose proof (height_kid kids (st, T) T1) as Y. cbn [snd] in Y. lia. }
    assert (NDc : NoDup (map fst (filter is_child (subs n)))).
    { clear - ND. induction (subs n) as [|x l IHl]; [constructor|]. cbn [map] in ND. inversion ND as [|? ? N1 N2]; subst. cbn [filter].
      destruct (is_child x); [|auto]. cbn [map]. constructor; [|auto]. intros H. apply N1. apply in_map_iff in H. destruct H as (y & Y1 & Y2).
      apply filter_In in Y2. rewrite <- Y1. apply in_map. tauto. }
    cbn [lower_tree]. unfold subnodes. rewrite M, Ru.
    destruct (lower_all_ok (lower_tree deeper fuel) (upath u) (filter is_child (subs n)) NDc) with (s := s) (g := g)
      as (s1 & g1 & R1 & X1 & S1 & P1 & A1).
    { split; [exact W|split; [exact S|split; [exact V|exact L]]]. }
    { intros st c I. destruct (Kid st c I) as (Q & I' & T & T1 & T2 & T3 & T4). split; [now apply Step|]. exists T. split; [|exact T2].
      apply IH; auto. cbn. now destruct (upath u). }
    { intros o r I (st & x & _ & E). apply (G o r I). exists (st :: x). exact E. }
    rewrite R1. cbn [bind].
    rewrite map_map. cbn [uid]. unfold lower. rewrite (node_at_ext _ _ _ _ X1 M).
    match goal with H : kind n = heading |- _ => rename H into Hkind end.
    rewrite Hkind, Nat.eqb_refl. change (map (fun x : step * nat => snd x) (filter is_child (subs n))) with (map snd (filter is_child (subs n))).
    rewrite with_ids_map. destruct S1 as (W1 & S1 & V1 & L1).
    set (subs' := map (fun x => if is_child x then (fst x, new_id (g ++ g1) (snd x)) else x) (subs n)).
    assert (Fst : map fst subs' = map fst (subs n)).
    { unfold subs'. rewrite map_map. apply map_ext. intros x. now destruct (is_child x). }
    assert (InG : forall st c, In (st, c) (subs n) -> is_sub st = true -> exists o r, In (o, r) (g ++ g1) /\ uid o = c).
    { intros st c I Q. destruct (A1 (st, c)) as [r I2]. { apply filter_In. split; [exact I|]. now rewrite is_child_sub. }
      exists (mkU c root (upath u ++ [st])), r. split; [apply in_or_app; now right|reflexivity]. }
    destruct (lowered_kids s1 (g ++ g1) (subs n) kids L1 V1 (kids_ext _ _ _ _ X1 K) InG) as (kids' & K' & E').
    fold subs' in K'.
    destruct (intern_spec s1 (mkN heading (deeper (data n)) (loc n) subs')) as (m & I1 & I2 & I3 & I4 & I5).
    pose proof (wf_intern s1 (mkN heading (deeper (data n)) (loc n) subs') W1) as Wi. cbn [subs] in Wi.
    rewrite Fst in Wi. specialize (Wi Sh (kids_le _ _ _ K')).
    pose proof (small_intern B s1 (mkN heading (deeper (data n)) (loc n) subs') S1) as Si. cbn [subs] in Si.
    rewrite <- (map_length fst subs'), Fst, map_length in Si. specialize (Si (S _ _ M)).
    destruct (intern s1 (mkN heading (deeper (data n)) (loc n) subs')) as [s2 id']. cbn [fst snd kind data subs] in *.
    assert (X2 : extends s s2) by (eapply extends_trans; eauto).
    assert (Ne : id' <> uid u).
    { intros ->. rewrite (node_at_ext _ _ _ _ X2 M) in I2. injection I2 as <-. now apply (Deeper (data n)). }
    rewrite (proj2 (Nat.eqb_neq _ _) Ne). unfold lift.
    assert (Pu' : upath (moved u id') <> []) by exact Pu.
    rewrite group_incl_new; [|  |now apply rooted_path|now apply rooted_path|].
    2: { intros o r I ->. apply in_app_or in I. destruct I as [I|I].
         - apply (G u r I). exists []. now rewrite app_nil_r.
         - destruct (P1 u r I) as (st & x & _ & E). apply (f_equal (@length _)) in E. rewrite app_length in E. cbn in E. lia. }
    2: { destruct u as [a b c]. unfold moved. cbn. cbn in Ne. congruence. }
    cbn [bind]. exists s2, g1, id'. rewrite <- app_assoc. split; [reflexivity|]. split; [exact X2|]. split.
    { split; [exact Wi|]. split; [exact Si|]. split.
      - rewrite app_assoc. apply valid_app; [now apply (valid_ext s1)|]. intros o r [H|[]]. injection H as <- <-.
        split; [exact Ru|]. split; [reflexivity|]. split; [eapply id_at_ext; eauto|]. cbn. congruence.
      - intros o r I. rewrite app_assoc in I. apply in_app_or in I. destruct I as [I|[I|[]]]; [now apply (lows_ext s1 s2 _ I1 L1)|].
        injection I as <- <-. exists (Node heading (data n) (loc n) kids), (Node heading (data m) (loc m) kids').
        split; [now apply (denotes_ext s s2 _ _ X2)|]. split.
        + rewrite <- I3. constructor; [exact I2|]. rewrite I5. now apply (kids_ext s1 s2).
        + cbn [noloc DemoteSpec.lowered]. rewrite I4. f_equal. exact E'. }
    split.
    { intros o r I. destruct (P1 o r I) as (st & x & I' & E). exists st, x. split; [|exact E]. apply in_map_iff in I'.
      destruct I' as ([st' c] & <- & I'). now destruct (Kid st' c I'). }
    exists m. split; [exact I2|]. rewrite I5. intros st c I Q. unfold subs' in I. apply in_map_iff in I. destruct I as ([st' c'] & E & I).
    rewrite is_child_sub in E. cbn [fst snd] in E. destruct (is_sub st') eqn:Q'; [|injection E as <- <-; congruence]. injection E as <- <-.
    rewrite (id_at_ext _ _ X2 _ _ _ (Step _ _ I)). destruct (InG st' c' I Q') as (o & r & J & <-).
    destruct (new_id_found s1 (g ++ g1) o r L1 V1 J) as [F _]. congruence.
  Qed.
End Lower.
