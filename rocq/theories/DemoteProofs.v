(** Proofs about demoting headings. *)
From Coq Require Import List Bool Arith ZArith Lia Permutation Sorted.
From Verif Require Import Base ImmModel ImmSpec ImmProofs ImmAssign ImmCascade ImmList DemoteModel DemoteSpec.
Import ListNotations.
Local Open Scope nat_scope.

Lemma is_child_sub x : is_child x = is_sub (fst x).
Proof. destruct x as [[[|f] [| |i|k]] j]; reflexivity. Qed.

(** ** Groups of replacements at their places *)
Definition valid (s : store) (root : nat) (g : list (uniq * uniq)) : Prop := forall o r, In (o, r) g ->
  uroot o = root /\ r = moved o (uid r) /\ id_at s root (upath o) = Ok (uid o) /\ uid o <> uid r.
Lemma valid_ext s s' root g : extends s s' -> valid s root g -> valid s' root g.
Proof. intros X V o r H. destruct (V o r H) as (A & B & C & D). split; [auto|split; [auto|split; [|auto]]]. eapply id_at_ext; eauto. Qed.
Lemma valid_app s root a b : valid s root a -> valid s root b -> valid s root (a ++ b).
Proof. intros A B o r H. apply in_app_or in H. destruct H; auto. Qed.

Lemma parents_in s root g : valid s root g -> exists ps, edit_parents s g = Ok ps /\
  forall u, In u ps <-> uroot u = root /\ id_at s root (upath u) = Ok (uid u) /\
    exists o r, In (o, r) g /\ (upath u = [] \/ exists x, x <> [] /\ upath o = upath u ++ x).
Proof.
  induction g as [|[o r] g IH]; intros V.
  - exists []. split; [reflexivity|]. intros u. split; [intros []|]. intros (_ & _ & o & r & [] & _).
  - destruct IH as (ps & A & B). { intros o' r' H. apply V. now right. }
    destruct (V o r (or_introl eq_refl)) as (V1 & V2 & V3 & V4).
    destruct (adapt_all_ok s root (spans (upath o) (length (upath o)) ++ [[]])) as (us & C & D).
    { intros q Hq. apply in_app_or in Hq. destruct Hq as [Hq|[<-|[]]]; [|now exists root].
      apply in_spans in Hq; auto. apply proper_prefix in Hq. destruct Hq as (x & _ & E). rewrite E, id_at_app in V3.
      destruct (id_at s root q); try discriminate. eauto. }
    exists (us ++ ps). cbn [edit_parents]. unfold parent_chain. rewrite V1, C. cbn [obind]. rewrite A. split; [reflexivity|].
    intros u. rewrite in_app_iff, B, D, in_app_iff, in_spans, proper_prefix by auto. cbn [In]. split.
    + intros [([(x & X1 & X2)|[X|[]]] & Y & Z)|(X & Y & o' & r' & F & G)].
      * split; [auto|split; [auto|]]. exists o, r. split; [now left|]. right. eauto.
      * split; [auto|split; [auto|]]. exists o, r. split; [now left|]. left. now rewrite <- X.
      * split; [auto|split; [auto|]]. exists o', r'. auto.
    + intros (X & Y & o' & r' & [F|F] & G).
      * injection F as <- <-. left. split; [|auto]. destruct G as [G|G]; [right; left; auto|left; auto].
      * right. split; [auto|split; [auto|]]. exists o', r'. auto.
Qed.

Lemma lookup_none g u : (forall o r, In (o, r) g -> o <> u) -> lookup g u = None.
Proof.
  intros H. unfold lookup. destruct (find _ g) as [[o r]|] eqn:F; [|reflexivity]. apply find_some in F. destruct F as [F1 F2].
  apply uniq_eqb_eq in F2. cbn in F2. subst. now destruct (H u r F1).
Qed.
Lemma lookup_app g g' u r : (forall o r, In (o, r) g -> o <> u) -> lookup (g ++ (u, r) :: g') u = Some r.
Proof.
  induction g as [|[o x] g IH]; intros H.
  - unfold lookup. cbn [app find fst]. now rewrite (proj2 (uniq_eqb_eq u u) eq_refl).
  - unfold lookup. cbn [app find fst]. destruct (uniq_eqb o u) eqn:Q.
    + exfalso. apply uniq_eqb_eq in Q. now apply (H o x (or_introl eq_refl)).
    + apply IH. intros o' r' H'. apply (H o' r'). now right.
Qed.
Lemma filter_all {A} (f : A -> bool) l : (forall x, In x l -> f x = true) -> filter f l = l.
Proof. induction l as [|x l IH]; intros H; [reflexivity|]. cbn. rewrite (H x) by (now left). f_equal. apply IH. intros y Hy. apply H. now right. Qed.
Lemma group_incl_new s g o r : (forall o' r', In (o', r') g -> o' <> o) -> rooted s o = true -> rooted s r = true -> o <> r ->
  group_incl s g o r = Ok (g ++ [(o, r)]).
Proof.
  intros H R1 R2 N. unfold group_incl. rewrite lookup_none by exact H. unfold group_set. rewrite R1, R2.
  assert (Q : uniq_eqb o r = false). { destruct (uniq_eqb o r) eqn:Q; [|reflexivity]. apply uniq_eqb_eq in Q. contradiction. }
  rewrite Q. cbn [andb negb]. f_equal. f_equal. apply filter_all. intros [o' r'] I. cbn [fst].
  destruct (uniq_eqb o' o) eqn:Q'; [|reflexivity]. apply uniq_eqb_eq in Q'. now destruct (H o' r' I).
Qed.
Lemma rooted_path s u : upath u <> [] -> rooted s u = true.
Proof. intros H. unfold rooted. destruct (upath u); [congruence|]. apply orb_true_r. Qed.
Lemma group_set_ok s g o r : rooted s o = true -> rooted s r = true -> o <> r -> exists g', group_set s g o r = Ok g'.
Proof.
  intros R1 R2 N. unfold group_set. rewrite R1, R2. destruct (uniq_eqb o r) eqn:Q; [apply uniq_eqb_eq in Q; contradiction|]. cbn. eauto.
Qed.

(** ** One run of the cascade *)
Section Run.
  Variable srt : list (step * nat) -> list (step * nat).
  Variable s0 : store.
  Variable root : nat.
  Variable g : list (uniq * uniq).
  Variable ps : list uniq.
  Hypothesis V : valid s0 root g.
  Hypothesis Ps : edit_parents s0 g = Ok ps.

  Lemma parent_false u : (upath u <> []) -> (id_at s0 root (upath u) <> Ok (uid u) \/
      forall o r x, In (o, r) g -> x <> [] -> upath o <> upath u ++ x) -> existsb (uniq_eqb u) ps = false.
  Proof.
    intros N H. destruct (parents_in s0 root g V) as (ps' & A & B). rewrite Ps in A. injection A as <-.
    destruct (existsb (uniq_eqb u) ps) eqn:Q; [|reflexivity]. exfalso. apply existsb_exists in Q. destruct Q as (u' & Q1 & Q2).
    apply uniq_eqb_eq in Q2. subst u'. apply B in Q1. destruct Q1 as (_ & Q2 & o & r & Q3 & [Q4|(x & Q4 & Q5)]); [contradiction|].
    destruct H as [H|H]; [contradiction|]. now apply (H o r x Q3 Q4).
  Qed.
  Lemma parent_true u : uroot u = root -> id_at s0 root (upath u) = Ok (uid u) ->
    (exists o r, In (o, r) g /\ (upath u = [] \/ exists x, x <> [] /\ upath o = upath u ++ x)) -> existsb (uniq_eqb u) ps = true.
  Proof.
    intros R A H. destruct (parents_in s0 root g V) as (ps' & A' & B). rewrite Ps in A'. injection A' as <-.
    apply existsb_exists. exists u. split; [|now apply uniq_eqb_eq]. apply B. auto.
  Qed.
  Lemma lookup_off u : id_at s0 root (upath u) <> Ok (uid u) \/ (forall o r, In (o, r) g -> upath o <> upath u) -> lookup g u = None.
  Proof.
    intros H. apply lookup_none. intros o r I ->. destruct H as [H|H]; [|now apply (H u r I)].
    destruct (V u r I) as (_ & _ & X & _). contradiction.
  Qed.
  Lemma recurse_off fuel s ep u : upath u <> [] -> (id_at s0 root (upath u) <> Ok (uid u) \/
      forall o r x, In (o, r) g -> upath o <> upath u ++ x) -> recurse srt g ps (S fuel) s ep u = (s, Ok (uid u, ep)).
  Proof.
    intros N H. cbn [recurse]. rewrite parent_false; [|exact N|destruct H as [H|H]; [now left|right; intros o r x I _; now apply (H o r x)]].
    rewrite lookup_off; [reflexivity|]. destruct H as [H|H]; [now left|right]. intros o r I E. apply (H o r [] I). now rewrite app_nil_r.
  Qed.
End Run.

Lemma each_off rec tgt l : (forall s ep x, In x l -> rec s ep (mkU (snd x) (uroot tgt) (upath tgt ++ [fst x])) = (s, Ok (snd x, ep))) ->
  forall s ep, each rec s ep tgt l = (s, Ok (map snd l, ep)).
Proof.
  induction l as [|[st c] l IH]; intros H s ep; [reflexivity|]. cbn [each map snd].
  pose proof (H s ep (st, c) (or_introl eq_refl)) as Q. cbn [fst snd] in Q. rewrite Q, IH; [reflexivity|]. intros s' ep' x I. apply H. now right.
Qed.
Lemma each_path rec s ep tgt l1 st c l2 :
  (forall s ep x, In x (l1 ++ l2) -> rec s ep (mkU (snd x) (uroot tgt) (upath tgt ++ [fst x])) = (s, Ok (snd x, ep))) ->
  each rec s ep tgt (l1 ++ (st, c) :: l2) =
  match rec s ep (mkU c (uroot tgt) (upath tgt ++ [st])) with
  | (s1, Ok (i, e)) => (s1, Ok (map snd l1 ++ i :: map snd l2, e))
  | (s1, Throw) => (s1, Throw)
  | (s1, UB) => (s1, UB)
  | (s1, Fuel) => (s1, Fuel)
  end.
Proof.
  induction l1 as [|[st1 c1] l1 IH]; intros H.
  - cbn [app each map]. destruct (rec s ep (mkU c (uroot tgt) (upath tgt ++ [st]))) as [s1 [[i e]| | |]]; try reflexivity.
    rewrite each_off; [reflexivity|]. intros s' ep' x I. apply H. exact I.
  - cbn [app each map snd]. pose proof (H s ep (st1, c1) (or_introl eq_refl)) as Q. cbn [fst snd] in Q. rewrite Q.
    rewrite IH by (intros s' ep' x I; apply H; now right).
    destruct (rec s ep (mkU c (uroot tgt) (upath tgt ++ [st]))) as [s1 [[i e]| | |]]; reflexivity.
Qed.

(** ** A run with more edits at and below one place does what a run with one edit there does *)
Section Sim.
  Variable srt : list (step * nat) -> list (step * nat).
  Variables sa sb : store.
  Variable root : nat.
  Variable p : path.
  Variables o n : nat.
  Variable g : list (uniq * uniq).
  Variables psa psb : list uniq.
  Hypothesis Wa : wf_store sa.
  Hypothesis Xab : extends sa sb.
  Hypothesis V : valid sa root g.
  Hypothesis Pa : edit_parents sa g = Ok psa.
  Hypothesis Pn : p <> [].
  Hypothesis At : id_at sa root p = Ok o.
  Hypothesis On : o <> n.
  Hypothesis Below : forall u r, In (u, r) g -> is_prefix p (upath u).
  Hypothesis Some_there : exists u r, In (u, r) g /\ upath u = p.
  Hypothesis Pb : edit_parents sb (replacements root [(p, o, n)]) = Ok psb.
  Hypothesis There : forall f, exists ep, recurse srt g psa (S (S f)) sa [] (mkU o root p) = (sb, Ok (n, ep)).

  Lemma valid_b : valid sb root (replacements root [(p, o, n)]).
  Proof.
    intros u r [H|[]]. cbn in H. injection H as <- <-. split; [reflexivity|]. split; [reflexivity|]. split; [|exact On].
    cbn. eapply id_at_ext; eauto.
  Qed.
  Lemma sim f : forall q i r, p = q ++ r -> id_at sa root q = Ok i -> forall s2 x ep,
    recurse srt (replacements root [(p, o, n)]) psb f sb [] (mkU i root q) = (s2, Ok (x, ep)) ->
    exists ep', recurse srt g psa (S f) sa [] (mkU i root q) = (s2, Ok (x, ep')).
  Proof.
    induction f as [|f IH]; intros q i r Pq A s2 x ep R; [discriminate|]. destruct r as [|st r].
    - rewrite app_nil_r in Pq. subst q. assert (i = o) by congruence. subst i. destruct (There f) as [ep' T]. exists ep'. rewrite T.
      cbn [recurse] in R. rewrite (parent_false sb root _ _ valid_b Pb) in R; [|exact Pn|].
      + pose proof (lookup_app [] [] (mkU o root p) (mkU n root p)) as L. cbn [app] in L. cbn [replacements map fst snd] in R.
        rewrite L in R by (intros ? ? []). rewrite group_incl_new in R.
        * cbn [omap obind uid app] in R. injection R as <- <- _. reflexivity.
        * intros ? ? [].
        * now apply rooted_path.
        * now apply rooted_path.
        * congruence.
      + right. intros u r y [H|[]] Hy E. cbn in H. injection H as <- <-. cbn in E. rewrite <- (app_nil_r p) in E at 1.
        apply app_inv_head in E. congruence.
    - assert (Bel : id_at sa i (st :: r) = Ok o). { rewrite Pq, id_at_app, A in At. exact At. }
      cbn [id_at] in Bel. unfold id_step in Bel. destruct (node_at sa i) as [m|] eqn:M; [|discriminate].
      destruct (find (fun y => step_eqb (fst y) st) (subs m)) as [[st' c]|] eqn:F; [|discriminate]. cbn [obind] in Bel.
      destruct (wf_node _ _ _ Wa M) as [Sh _]. pose proof (shaped_nodup _ Sh) as ND.
      apply (find_step _ _ _ ND) in F. destruct F as [F1 F2]. cbn in F2. subst st'.
      apply in_split in F1. destruct F1 as (l1 & l2 & F1).
      assert (Oth : forall y, In y (l1 ++ l2) -> fst y <> st).
      { intros y Hy E. rewrite F1 in ND. rewrite map_app in ND. cbn [map fst] in ND. apply NoDup_remove_2 in ND. apply ND.
        rewrite <- map_app. rewrite <- E. now apply in_map. }
      assert (OffPath : forall y z, In y (l1 ++ l2) -> p <> (q ++ [fst y]) ++ z).
      { intros y z Hy E. rewrite Pq, <- app_assoc in E. apply app_inv_head in E. cbn in E. injection E as E _. now apply (Oth y Hy). }
      assert (Ext : forall y z w, In y (l1 ++ l2) -> is_prefix p w -> w <> (q ++ [fst y]) ++ z).
      { intros y z w Hy [v ->] E. rewrite Pq, <- !app_assoc in E. apply app_inv_head in E. cbn in E. injection E as E _.
        now apply (Oth y Hy). }
      change (recurse srt g psa (S (S f)) sa [] (mkU i root q)) with
        (let u := mkU i root q in let s := sa in
         if existsb (uniq_eqb u) psa then
          let tgt := match lookup g u with Some r => r | None => u end in
          match node_at s (uid tgt) with
          | None => (s, Throw)
          | Some n =>
              match each (recurse srt g psa (S f)) s [] tgt (subs n) with
              | (s1, Ok (flat, ep1)) =>
                  if list_eqb Nat.eqb flat (map snd (subs n)) then
                    (s1, omap (fun ep2 => (uid tgt, ep2)) (group_set s1 ep1 u tgt))
                  else
                    match assign_all (subs n) (group_by (srt (combine (map fst (subs n)) flat))) with
                    | Ok sub' =>
                        let '(s2, id') := intern s1 (mkN (kind n) (data n) (loc n) sub') in
                        if Nat.eqb id' (uid tgt) then (s2, Throw)
                        else (s2, omap (fun ep2 => (id', ep2)) (group_set s2 ep1 tgt (moved tgt id')))
                    | Throw => (s1, Throw)
                    | UB => (s1, UB)
                    | Fuel => (s1, Fuel)
                    end
              | (s1, Throw) => (s1, Throw)
              | (s1, UB) => (s1, UB)
              | (s1, Fuel) => (s1, Fuel)
              end
          end
        else match lookup g u with
             | Some r => (s, omap (fun ep' => (uid r, ep')) (group_incl s [] u r))
             | None => (s, Ok (uid u, []))
             end).
      cbv zeta. cbn [recurse] in R.
      assert (Ab : id_at sb root q = Ok i) by (eapply id_at_ext; eauto).
      assert (Lq : forall w, is_prefix p w -> w <> q).
      { intros w [v ->] E. apply (f_equal (@length _)) in E. rewrite Pq, !app_length in E. cbn in E. lia. }
      rewrite (parent_true sb root _ _ valid_b Pb) in R; [|reflexivity|exact Ab|].
      2: { eexists _, _. split; [now left|]. right. exists (st :: r). cbn. split; [discriminate|exact Pq]. }
      rewrite (parent_true sa root _ _ V Pa); [|reflexivity|exact A|].
      2: { destruct Some_there as (u & w & S1 & S2). exists u, w. split; [exact S1|]. right. exists (st :: r). cbn. split; [discriminate|]. now rewrite S2. }
      rewrite (lookup_off sb root _ valid_b) in R.
      2: { right. intros u w [H|[]]. cbn in H. injection H as <- <-. cbn. apply Lq. exists []. now rewrite app_nil_r. }
      rewrite (lookup_off sa root _ V) by (right; intros u w H; apply Lq; eapply Below; eauto).
      cbn [uid] in *. rewrite M. rewrite (node_at_ext _ _ _ _ Xab M) in R. rewrite F1 in R |- *.
      destruct f as [|f].
      { exfalso. destruct l1 as [|[a b] l1]; cbn in R; discriminate. }
      rewrite each_path in R.
      2: { intros s' ep' y Hy. cbn [uroot upath]. apply (recurse_off srt sb root _ _ valid_b Pb); [destruct q; discriminate|].
           right. intros u w z [H|[]]. cbn in H. injection H as <- <-. cbn. apply Ext; [exact Hy|]. exists []. now rewrite app_nil_r. }
      rewrite each_path.
      2: { intros s' ep' y Hy. cbn [uroot upath]. apply (recurse_off srt sa root _ _ V Pa); [destruct q; discriminate|].
           right. intros u w z H. cbn. apply Ext; [exact Hy|]. eapply Below; eauto. }
      cbn [uroot upath] in *.
      destruct (recurse srt (replacements root [(p, o, n)]) psb (S f) sb [] (mkU c root (q ++ [st]))) as [s3 [[i3 e3]| | |]] eqn:R3; try discriminate.
      assert (Ac : id_at sa root (q ++ [st]) = Ok c).
      { rewrite id_at_app, A. cbn [obind id_at]. unfold id_step. rewrite M.
        rewrite (proj2 (find_step (subs m) st (st, c) ND)); [reflexivity|]. split; [rewrite F1; apply in_or_app; right; now left|reflexivity]. }
      assert (Pc : p = (q ++ [st]) ++ r) by (rewrite <- app_assoc; exact Pq).
      destruct (IH (q ++ [st]) c r Pc Ac s3 i3 e3 R3) as [e4 R4]. rewrite R4.
      destruct (list_eqb Nat.eqb (map snd l1 ++ i3 :: map snd l2) (map snd (l1 ++ (st, c) :: l2))).
      + exfalso. injection R as _ R. unfold group_set in R. rewrite (proj2 (uniq_eqb_eq _ _) eq_refl) in R. cbn [negb] in R.
        rewrite andb_false_r in R. discriminate.
      + destruct (assign_all _ _) as [sub'| | |]; try discriminate. destruct (intern s3 _) as [s5 id5].
        destruct (Nat.eqb id5 i); [discriminate|]. unfold group_set in *.
        destruct (rooted s5 (mkU i root q) && rooted s5 (moved (mkU i root q) id5) && negb (uniq_eqb (mkU i root q) (moved (mkU i root q) id5)));
          [|discriminate]. cbn [omap obind] in *. injection R as <- <- _. eauto.
  Qed.
End Sim.
