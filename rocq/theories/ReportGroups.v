(** Proofs about reports: groups of labels and what is written for them. *)
From Coq Require Import ZArith List Bool Arith Lia Permutation.
From Verif Require Import Base ReportModel ReportSpec ReportProofs.
Import ListNotations.

Definition idf (id : nat) (ll : line_label) : bool := lid (lab ll) =? id.

Lemma flat_map_nil {A B} (f : A -> list B) l : (forall x, In x l -> f x = []) -> flat_map f l = [].
Proof.
  induction l as [|x l IH]; intros H; [reflexivity|]. cbn. rewrite (H x (or_introl eq_refl)). apply IH. intros y Y. apply H. right. exact Y.
Qed.
Lemma flat_seq_one {B} (f : nat -> list B) b n a : b <= a < b + n ->
  (forall i, i <> a -> f i = []) -> flat_map f (seq b n) = f a.
Proof.
  intros R H. replace n with ((a - b) + Datatypes.S (b + n - a - 1)) by lia.
  rewrite seq_app, flat_map_app. replace (b + (a - b)) with a by lia. cbn [seq flat_map].
  rewrite !flat_map_nil; [rewrite app_nil_r; reflexivity| |]; intros i I; apply in_seq in I; apply H; lia.
Qed.
Lemma flat_seq_two {B} (f : nat -> list B) b n a c : b <= a -> a < c -> c < b + n ->
  (forall i, i <> a -> i <> c -> f i = []) -> flat_map f (seq b n) = f a ++ f c.
Proof.
  intros R1 R2 R3 H. replace n with ((a - b) + Datatypes.S (b + n - a - 1)) by lia.
  rewrite seq_app, flat_map_app. replace (b + (a - b)) with a by lia. cbn [seq flat_map].
  rewrite flat_map_nil; [|intros i I; apply in_seq in I; apply H; lia]. cbn [app]. f_equal.
  replace (b + n - a - 1) with ((c - a - 1) + Datatypes.S (b + n - c - 1)) by lia.
  rewrite seq_app, flat_map_app. replace (Datatypes.S a + (c - a - 1)) with c by lia. cbn [seq flat_map].
  rewrite !flat_map_nil; [rewrite app_nil_r; reflexivity| |]; intros i I; apply in_seq in I; apply H; lia.
Qed.
Lemma filter_none {A} (f : A -> bool) l : (forall x, In x l -> f x = false) -> filter f l = [].
Proof.
  induction l as [|x l IH]; intros H; [reflexivity|]. cbn. rewrite (H x (or_introl eq_refl)). apply IH. intros y Y. apply H. right. exact Y.
Qed.
Lemma filter_all {A} (f : A -> bool) l : (forall x, In x l -> f x = true) -> filter f l = l.
Proof.
  induction l as [|x l IH]; intros H; [reflexivity|]. cbn. rewrite (H x (or_introl eq_refl)). f_equal. apply IH. intros y Y. apply H. right. exact Y.
Qed.
Lemma Permutation_filter' {A} (f : A -> bool) a b : Permutation a b -> Permutation (filter f a) (filter f b).
Proof.
  induction 1; cbn; auto.
  - destruct (f x); auto.
  - destruct (f x), (f y); auto. apply perm_swap.
  - eapply perm_trans; eauto.
Qed.
Lemma filter_flat {A} (key : A -> nat) (f : A -> list line_label) id xs :
  (forall x ll, In ll (f x) -> lid (lab ll) = key x) -> NoDup (map key xs) ->
  (forall x, In x xs -> key x = id -> filter (idf id) (flat_map f xs) = f x) /\
  (~ In id (map key xs) -> filter (idf id) (flat_map f xs) = []).
Proof.
  intros K. induction xs as [|y xs IH]; intros ND; [split; [intros x []|reflexivity]|].
  inversion ND as [|? ? N1 N2]; subst. destruct (IH N2) as [I1 I2]. cbn [flat_map]. rewrite filter_app. split.
  - intros x [->|X] E.
    + rewrite I2 by congruence. rewrite filter_all; [apply app_nil_r|]. intros ll L. unfold idf. rewrite (K x ll L), E. apply Nat.eqb_refl.
    + rewrite (I1 x X E). rewrite filter_none; [reflexivity|]. intros ll L. unfold idf. rewrite (K y ll L).
      apply Nat.eqb_neq. intros C. apply N1. rewrite C, <- E. apply in_map, X.
  - intros N. cbn in N. rewrite I2 by tauto. rewrite filter_none; [reflexivity|]. intros ll L. unfold idf. rewrite (K y ll L).
    apply Nat.eqb_neq. intros C. apply N. left. exact C.
Qed.

Section Lines.
  Variable sort_multi : list label -> list label.
  Variable sort_notes : list line_label -> list line_label.
  Variable attach_to : att.
  Variable compact : bool.
  Hypothesis P1 : forall l, Permutation l (sort_multi l).
  Hypothesis P2 : forall l, Permutation l (sort_notes l).
  Notation line_labels := (line_labels sort_multi attach_to).
  Notation source_lines := (source_lines sort_multi sort_notes attach_to compact).
  Notation multi_labels := (multi_labels sort_multi).

  Lemma sort_nil : sort_notes [] = [].
  Proof. apply Permutation_nil, P2. Qed.

  Lemma notes_block id lls rest : forall cur,
    notes id cur (map Note lls ++ rest) = map (fun ll => (cur, lcol ll)) (filter (idf id) lls) ++ notes id cur rest.
  Proof.
    induction lls as [|ll lls IH]; intros cur; [reflexivity|]. cbn [map app notes filter]. rewrite IH. unfold idf at 2.
    destruct (lid (lab ll) =? id); reflexivity.
  Qed.
  Definition at_index (s : source) (is : list info) (id i : nat) : list (nat * nat) :=
    match nth_error (slines s) i with
    | None => []
    | Some ln => map (fun ll => (i + 1, lcol ll)) (filter (idf id) (sort_notes (line_labels s ln is)))
    end.
  Lemma notes_lines s is id : forall n idx gap cur,
    notes id cur (source_lines s is idx n gap) = flat_map (at_index s is id) (seq idx n).
  Proof.
    induction n as [|n IH]; intros idx gap cur; [reflexivity|]. cbn [ReportModel.source_lines seq flat_map]. unfold at_index at 1.
    replace (Datatypes.S idx) with (idx + 1) by lia.
    destruct (nth_error (slines s) idx) as [ln|]; [|apply IH].
    assert (B : notes id cur (Src (idx + 1) (line_text s ln) :: map Note (sort_notes (line_labels s ln is)) ++ source_lines s is (idx + 1) n false) =
      map (fun ll => (idx + 1, lcol ll)) (filter (idf id) (sort_notes (line_labels s ln is))) ++ flat_map (at_index s is id) (seq (idx + 1) n)).
    { cbn [notes]. rewrite notes_block, IH. reflexivity. }
    destruct (line_labels s ln is) as [|ll lls] eqn:L; [|exact B].
    destruct (margin_label ln (multi_labels is) None) as [m|]; [exact B|]. rewrite sort_nil. cbn [filter map app].
    destruct (negb gap && _); [cbn [notes]; apply IH|].
    destruct (negb compact && negb gap); cbn [app notes]; apply IH.
  Qed.

  Lemma in_lines s is it : forall n idx gap, In it (source_lines s is idx n gap) -> it = Gap \/
    exists i ln, idx <= i < idx + n /\ nth_error (slines s) i = Some ln /\
      (it = Src (i + 1) (line_text s ln) /\ (line_labels s ln is <> [] \/ margin_label ln (multi_labels is) None <> None) \/
       exists ll, it = Note ll /\ In ll (line_labels s ln is)).
  Proof.
    induction n as [|n IH]; intros idx gap I; [destruct I|]. cbn [ReportModel.source_lines] in I.
    assert (ST : forall g, In it (source_lines s is (idx + 1) n g) -> it = Gap \/
      exists i ln, idx <= i < idx + Datatypes.S n /\ nth_error (slines s) i = Some ln /\
      (it = Src (i + 1) (line_text s ln) /\ (line_labels s ln is <> [] \/ margin_label ln (multi_labels is) None <> None) \/
       exists ll, it = Note ll /\ In ll (line_labels s ln is))).
    { intros g G. destruct (IH _ _ G) as [->|(i & ln & A & B)]; [left; reflexivity|right; exists i, ln; split; [lia|exact B]]. }
    destruct (nth_error (slines s) idx) as [ln|] eqn:N; [|exact (ST _ I)].
    assert (B : line_labels s ln is <> [] \/ margin_label ln (multi_labels is) None <> None ->
      In it (Src (idx + 1) (line_text s ln) :: map Note (sort_notes (line_labels s ln is)) ++ source_lines s is (idx + 1) n false) ->
      it = Gap \/
      exists i ln, idx <= i < idx + Datatypes.S n /\ nth_error (slines s) i = Some ln /\
      (it = Src (i + 1) (line_text s ln) /\ (line_labels s ln is <> [] \/ margin_label ln (multi_labels is) None <> None) \/
       exists ll, it = Note ll /\ In ll (line_labels s ln is))).
    { intros C [<-|J].
      - right. exists idx, ln. split; [lia|]. split; [exact N|]. left. split; [reflexivity|exact C].
      - apply in_app_or in J as [J|J]; [|exact (ST _ J)]. apply in_map_iff in J as (ll & <- & J). right. exists idx, ln.
        split; [lia|]. split; [exact N|]. right. exists ll. split; [reflexivity|]. eapply Permutation_in; [apply Permutation_sym, P2|exact J]. }
    destruct (line_labels s ln is) as [|ll lls] eqn:L; [|apply B; [left; discriminate|exact I]].
    destruct (margin_label ln (multi_labels is) None) as [m|] eqn:M; [apply B; [right; discriminate|exact I]|]. clear B.
    destruct (negb gap && _); [destruct I as [<-|I]; [left; reflexivity|exact (ST _ I)]|].
    apply in_app_or in I as [I|I]; [|exact (ST _ I)]. destruct (negb compact && negb gap); [destruct I as [<-|[]]; left; reflexivity|destruct I].
  Qed.

  Lemma multi_note_lab ln mg l ll : In ll (multi_note ln mg l) -> lab ll = l.
  Proof.
    unfold multi_note. destruct (_ && _); [intros [<-|[]]; reflexivity|]. destruct (contains ln (to l)); [intros [<-|[]]; reflexivity|intros []].
  Qed.
  Lemma inline_note_lab s ln i ll : In ll (inline_note attach_to s ln i) -> lab ll = snd i.
  Proof. unfold inline_note. destruct (_ && _); [intros [<-|[]]; reflexivity|intros []]. Qed.
  Lemma in_multi is l : In l (multi_labels is) <-> In (true, l) is.
  Proof.
    unfold ReportModel.multi_labels. split; intros H.
    - eapply Permutation_in in H; [|apply Permutation_sym, P1]. apply in_map_iff in H as ([k l'] & E & H). apply filter_In in H as [H K].
      cbn in *. subst. exact H.
    - eapply Permutation_in; [apply P1|]. apply in_map_iff. exists (true, l). split; [reflexivity|]. apply filter_In. split; [exact H|reflexivity].
  Qed.
  Lemma multi_nodup is : NoDup (map (fun i => lid (snd i)) is) -> NoDup (map lid (multi_labels is)).
  Proof.
    intros N. eapply Permutation_NoDup; [apply Permutation_map, P1|]. rewrite map_map.
    induction is as [|i is IH]; [constructor|]. cbn in N. inversion N as [|? ? N1 N2]; subst. cbn. destruct (fst i); [|apply IH, N2].
    cbn. constructor; [|apply IH, N2]. intros C. apply N1. apply in_map_iff in C as (j & E & J). apply in_map_iff. exists j.
    split; [exact E|]. apply filter_In in J. tauto.
  Qed.
  Lemma in_line_labels s ln is ll : In ll (line_labels s ln is) -> exists k, In (k, lab ll) is.
  Proof.
    unfold ReportModel.line_labels. intros H. apply in_app_or in H as [H|H]; apply in_flat_map in H as (x & X & Y).
    - apply multi_note_lab in Y. subst x. exists true. apply in_multi, X.
    - apply inline_note_lab in Y. exists (fst x). rewrite Y, <- surjective_pairing. exact X.
  Qed.

  Lemma line_filter s ln is k l : NoDup (map (fun i => lid (snd i)) is) -> In (k, l) is ->
    filter (idf (lid l)) (line_labels s ln is) =
    if k then multi_note ln (margin_label ln (multi_labels is) None) l else inline_note attach_to s ln (false, l).
  Proof.
    intros N I. unfold ReportModel.line_labels. cbv zeta. rewrite filter_app.
    destruct (filter_flat lid (multi_note ln (margin_label ln (multi_labels is) None)) (lid l) (multi_labels is)) as [A1 A2].
    { intros x ll H. rewrite (multi_note_lab _ _ _ _ H). reflexivity. }
    { apply multi_nodup, N. }
    destruct (@filter_flat info (fun i => lid (snd i)) (inline_note attach_to s ln) (lid l) is) as [B1 _].
    { intros x ll H. rewrite (inline_note_lab _ _ _ _ H). reflexivity. }
    { exact N. }
    rewrite (B1 (k, l) I eq_refl). destruct k.
    - rewrite (A1 l); [|apply in_multi, I|reflexivity].
      unfold inline_note at 1. cbn [fst snd negb]. rewrite andb_false_r. apply app_nil_r.
    - rewrite A2; [reflexivity|]. intros C. apply in_map_iff in C as (l' & E & C). apply in_multi in C.
      assert (X : forall is', NoDup (map (fun i : info => lid (snd i)) is') -> In (false, l) is' -> In (true, l') is' -> False).
      { clear - E. induction is' as [|j is' IH]; intros N H1 H2; [destruct H1|]. destruct H1 as [H1|H1]; subst.
        - destruct H2 as [H2|H2]; [discriminate|]. inversion N as [|? ? N1 N2]; subst. apply N1. cbn. apply in_map_iff. exists (true, l'). auto.
        - inversion N as [|? ? N1 N2]; subst. destruct H2 as [->|H2]; [|exact (IH N2 H1 H2)].
          apply N1. cbn. apply in_map_iff. exists (false, l). auto. }
      exact (X is N I C).
  Qed.
  Lemma at_index_eq s is k l i ln : NoDup (map (fun i => lid (snd i)) is) -> In (k, l) is -> nth_error (slines s) i = Some ln ->
    at_index s is (lid l) i = map (fun ll => (i + 1, lcol ll))
      (if k then multi_note ln (margin_label ln (multi_labels is) None) l else inline_note attach_to s ln (false, l)).
  Proof.
    intros N I E. unfold at_index. rewrite E. f_equal. rewrite <- (line_filter s ln is k l N I).
    assert (LE : length (filter (idf (lid l)) (line_labels s ln is)) <= 1).
    { rewrite (line_filter s ln is k l N I). destruct k.
      - unfold multi_note. destruct (_ && _); [cbn; lia|]. destruct (contains ln (to l)); cbn; lia.
      - unfold inline_note. destruct (_ && _); cbn; lia. }
    pose proof (Permutation_filter' (idf (lid l)) _ _ (P2 (line_labels s ln is))) as Q.
    destruct (filter (idf (lid l)) (line_labels s ln is)) as [|x [|y r]].
    - apply Permutation_nil in Q. exact Q.
    - apply Permutation_length_1_inv in Q. exact Q.
    - cbn in LE. lia.
  Qed.
  Lemma at_index_none s is id i : nth_error (slines s) i = None -> at_index s is id i = [].
  Proof. intros E. unfold at_index. rewrite E. reflexivity. Qed.

  (** What is written for the labels of one source. *)
  Section Source.
    Variable t : list Z.
    Variable ls : list (list Z).
    Hypothesis R : reads t ls.
    Hypothesis NE : t <> [].
    Let s := mkS t (number_lines 0 ls) (length (glue ls)).
    Variable is : list info.
    Hypothesis ND : NoDup (map (fun i => lid (snd i)) is).
    Hypothesis IN : forall i, In i is -> label_inside t (snd i) /\ fst i = negb (line_of t (from (snd i)) =? line_of t (final (snd i))).
    Variables gf gt : nat.
    Hypothesis GF : inside t gf.
    Hypothesis GT : gt <= length t.
    Hypothesis GG : gf <= gt.
    Hypothesis G : forall i, In i is -> gf <= from (snd i) /\ to (snd i) <= gt.

    Lemma range_is : exists e, line_range s gf gt = Ok (line_of t gf, e + 1) /\
      e = pred (until gt (number_lines 0 ls)) /\
      (forall j o' n', e < j -> nth_error (slines s) j = Some (o', n') -> gt < o').
    Proof.
      pose proof (reads_le t ls R) as LE.
      destruct (offset_inside t ls R NE gf GF) as (_ & _ & _ & A & _).
      destruct (offset_any t ls R gt ltac:(lia)) as (e & o & n & B1 & B2 & _ & _ & _ & B3).
      exists e. unfold line_range. fold s in A, B1, B3. rewrite A. cbn [obind]. rewrite Nat.max_l by lia. rewrite B1. cbn [obind].
      split; [reflexivity|]. split; [exact B2|exact B3].
    Qed.

    Lemma label_lines e l : e = pred (until gt (number_lines 0 ls)) -> label_inside t l -> gf <= from l -> to l <= gt ->
      line_of t gf <= line_of t (from l) /\ line_of t (from l) <= line_of t (final l) /\ line_of t (final l) <= e.
    Proof.
      intros E I F T. pose proof (final_inside t l I) as FI. split; [apply (line_mono t ls R NE); [exact GF|apply I|exact F]|]. split.
      - apply (line_mono t ls R NE); [apply I|exact FI|unfold final; lia].
      - destruct (offset_inside t ls R NE _ FI) as (i & _ & _ & _ & <- & _ & _ & _ & ->). subst e.
        apply Nat.pred_le_mono, until_mono. unfold final. destruct I as [? ?]. lia.
    Qed.

    Lemma written_inline l e : line_range s gf gt = Ok (line_of t gf, e + 1) -> e = pred (until gt (number_lines 0 ls)) ->
      In (false, l) is -> clear t l -> forall gap cur,
      notes (lid l) cur (source_lines s is (line_of t gf) (Datatypes.S (e + 1) - line_of t gf) gap) =
      [(line_of t (from l) + 1, place attach_to l - (from l - col_of t (from l)))].
    Proof.
      intros _ E I C gap cur. destruct (IN _ I) as [LI K]. cbn [fst snd] in *. destruct (G _ I) as [G1 G2]. cbn [snd] in *.
      symmetry in K. apply negb_false_iff, Nat.eqb_eq in K.
      destruct (label_lines e l E LI G1 G2) as (L1 & L2 & L3).
      destruct (clear_inside t l LI C) as [C1 C2].
      destruct (offset_inside t ls R NE (from l) (proj1 LI)) as (a & o & n & _ & A1 & A2 & A3 & A4 & _).
      pose proof (inside_lt t ls (to l) R C1 NE) as TL.
      rewrite notes_lines, (flat_seq_one _ _ _ a).
      - rewrite (at_index_eq s is false l a (o, n) ND I A2). unfold inline_note. cbn [fst snd negb].
        replace (o <=? from l) with true by (symmetry; apply Nat.leb_le; lia).
        assert (CT : contains (o, n) (to l) = true).
        { rewrite (contains_iff t ls R NE a o n (to l) C1 A2). apply Nat.eqb_eq. congruence. }
        apply andb_true_iff in CT as [_ CT]. cbn [fst snd] in CT. rewrite CT. cbn [andb orb map lcol].
        rewrite A4, <- A1. repeat f_equal. lia.
      - rewrite A1. lia.
      - intros i Hi. destruct (nth_error (slines s) i) as [[o' n']|] eqn:N; [|apply at_index_none, N].
        rewrite (at_index_eq s is false l i (o', n') ND I N). unfold inline_note. cbn [fst snd negb].
        replace (slen s <=? to l) with false by (symmetry; apply Nat.leb_gt; exact TL). rewrite orb_false_r, andb_true_r.
        destruct ((o' <=? from l) && (to l <=? o' + n')) eqn:X; [|reflexivity]. exfalso. apply Hi.
        apply andb_true_iff in X as [X1 X2]. apply Nat.leb_le in X1, X2.
        pose proof (contains_iff t ls R NE i o' n' (from l) (proj1 LI) N) as Y. unfold contains in Y. cbn [fst snd] in Y.
        replace (o' <=? from l) with true in Y by (symmetry; apply Nat.leb_le; lia).
        replace (from l <=? o' + n') with true in Y by (symmetry; apply Nat.leb_le; destruct LI; lia).
        symmetry in Y. apply Nat.eqb_eq in Y. congruence.
    Qed.

    Lemma written_multi l e : line_range s gf gt = Ok (line_of t gf, e + 1) -> e = pred (until gt (number_lines 0 ls)) ->
      In (true, l) is -> clear t l -> forall gap cur, exists first,
      (first = [] \/ first = [(line_of t (from l) + 1, col_of t (from l))]) /\
      notes (lid l) cur (source_lines s is (line_of t gf) (Datatypes.S (e + 1) - line_of t gf) gap) =
      first ++ [(line_of t (to l) + 1, col_of t (to l))].
    Proof.
      intros _ E I C gap cur. destruct (IN _ I) as [LI K]. cbn [fst snd] in *. destruct (G _ I) as [G1 G2]. cbn [snd] in *.
      symmetry in K. apply negb_true_iff, Nat.eqb_neq in K.
      destruct (label_lines e l E LI G1 G2) as (L1 & L2 & L3).
      destruct (clear_inside t l LI C) as [C1 C2].
      destruct (offset_inside t ls R NE (from l) (proj1 LI)) as (a & o & n & _ & A1 & A2 & A3 & A4 & _).
      destruct (offset_inside t ls R NE (to l) C1) as (b & o2 & n2 & _ & B1 & B2 & B3 & B4 & _).
      fold s in A2, B2.
      rewrite notes_lines, (flat_seq_two _ _ _ a b).
      - rewrite (at_index_eq s is true l a (o, n) ND I A2), (at_index_eq s is true l b (o2, n2) ND I B2).
        unfold multi_note.
        rewrite (contains_iff t ls R NE a o n (from l) (proj1 LI) A2), (contains_iff t ls R NE a o n (to l) C1 A2).
        rewrite (contains_iff t ls R NE b o2 n2 (from l) (proj1 LI) B2), (contains_iff t ls R NE b o2 n2 (to l) C1 B2).
        rewrite A1, B1. replace (line_of t (to l) =? line_of t (from l)) with false by (symmetry; apply Nat.eqb_neq; lia).
        replace (line_of t (from l) =? line_of t (to l)) with false by (symmetry; apply Nat.eqb_neq; lia).
        rewrite !Nat.eqb_refl. cbn [andb]. cbn [map lcol fst]. rewrite B4.
        eexists. split; [|reflexivity]. destruct (margin_label (o, n) (multi_labels is) None) as [m|].
        + destruct (negb (lid l =? lid m)); [right|left; reflexivity]. cbn. rewrite A4. reflexivity.
        + right. cbn. rewrite A4. reflexivity.
      - lia.
      - lia.
      - lia.
      - intros i H1 H2. destruct (nth_error (slines s) i) as [[o' n']|] eqn:N; [|apply at_index_none, N].
        rewrite (at_index_eq s is true l i (o', n') ND I N). unfold multi_note.
        rewrite (contains_iff t ls R NE i o' n' (from l) (proj1 LI) N), (contains_iff t ls R NE i o' n' (to l) C1 N).
        replace (i =? line_of t (from l)) with false by (symmetry; apply Nat.eqb_neq; lia).
        replace (i =? line_of t (to l)) with false by (symmetry; apply Nat.eqb_neq; lia). reflexivity.
    Qed.

    Lemma true_lines_ok idx n gap : true_lines t (source_lines s is idx n gap).
    Proof.
      intros m x I. apply in_lines in I as [C|(i & [o w] & _ & N & [[C _]|(ll & C & _)])]; try discriminate.
      injection C as -> ->. assert (O : o <= length t).
      { cbn [s slines] in N. rewrite number_nth in N. destruct (nth_error ls i) as [l|] eqn:E; [|discriminate]. cbn in N. injection N as <- <-.
        destruct (nth_error_split _ _ E) as (pre & post & -> & <-). rewrite firstn_app, Nat.sub_diag, firstn_all. cbn [firstn]. rewrite app_nil_r.
        pose proof R as (_ & _ & T). rewrite glue_app in T. change (glue (l :: post)) with ((l ++ [10%Z]) ++ glue post) in T.
        destruct T as [->|[T _]]; [rewrite app_length; lia|]. apply (f_equal (@length Z)) in T. rewrite !app_length in T. cbn in T. lia. }
      destruct (at_line t ls i o w o R N ltac:(lia) O) as (A1 & A2 & A3).
      exists o. split; [exact O|]. rewrite A1, A3. split; reflexivity.
    Qed.
    Lemma notes_known ll idx n gap : In (Note ll) (source_lines s is idx n gap) -> In (lab ll) (map snd is).
    Proof.
      intros I. apply in_lines in I as [C|(i & ln & _ & N & [[C _]|(ll' & C & J)])]; try discriminate.
      injection C as ->. apply in_line_labels in J as [k J]. apply in_map_iff. exists (k, lab ll'). split; [reflexivity|exact J].
    Qed.

    Lemma margin_in ln : forall q best m, margin_label ln q best = Some m ->
      best = Some m \/ In m q /\ (contains ln (from m) = true \/ contains ln (to m) = true).
    Proof.
      induction q as [|l q IH]; intros best m H; cbn [margin_label] in H; [left; exact H|].
      destruct (IH _ _ H) as [E|[E1 E2]]; [|right; split; [right; exact E1|exact E2]].
      destruct (contains ln (from l) || contains ln (to l)) eqn:O; [|left; exact E].
      apply orb_true_iff in O. destruct best as [b|].
      - destruct (margin_key ln l <? margin_key ln b); [|left; exact E]. injection E as ->. right. split; [left; reflexivity|exact O].
      - injection E as ->. right. split; [left; reflexivity|exact O].
    Qed.
    Lemma width_ok e gap w : (forall j o' n', e < j -> nth_error (slines s) j = Some (o', n') -> gt < o') ->
      digits (e + 1) <= w -> forall idx n, fits_width w (source_lines s is idx n gap) = true.
    Proof.
      intros E W idx n.
      assert (X : forall its, (forall m x, In (Src m x) its -> m <= e + 1) -> fits_width w its = true).
      { induction its as [|it its IH]; intros H; [reflexivity|]. cbn. destruct it as [|m x|ll]; try (apply IH; intros m' x' I; apply (H m' x'); right; exact I).
        rewrite IH by (intros m' x' I; apply (H m' x'); right; exact I). rewrite andb_true_r. apply Nat.leb_le.
        pose proof (digits_mono m (e + 1) (H m x (or_introl eq_refl))). lia. }
      apply X. intros m x I. apply in_lines in I as [C|(i & [o v] & _ & N & [[C D]|(ll & C & _)])]; try discriminate.
      injection C as -> ->. destruct (Nat.le_gt_cases i e) as [L|L]; [lia|]. exfalso. specialize (E i o v L N).
      assert (CF : forall k l, In (k, l) is -> contains (o, v) (from l) = false /\ contains (o, v) (to l) = false /\ (o <=? from l) = false).
      { intros k l J. destruct (G _ J) as [_ G2]. destruct (IN _ J) as [[_ LI] _]. cbn [snd] in *. unfold contains. cbn [fst snd].
        replace (o <=? from l) with false by (symmetry; apply Nat.leb_gt; lia).
        replace (o <=? to l) with false by (symmetry; apply Nat.leb_gt; lia). auto. }
      destruct D as [D|D].
      - apply D. unfold ReportModel.line_labels. rewrite !flat_map_nil; [reflexivity| |].
        + intros [k l] J. destruct (CF k l J) as (_ & _ & Z). unfold inline_note. cbn [fst snd]. rewrite Z. reflexivity.
        + intros l J. apply in_multi in J. destruct (CF true l J) as (Z1 & Z2 & _). unfold multi_note. rewrite Z1, Z2. reflexivity.
      - destruct (margin_label (o, v) (multi_labels is) None) as [m|] eqn:M; [|congruence].
        destruct (margin_in _ _ _ _ M) as [Q|[Q1 Q2]]; [discriminate|]. apply in_multi in Q1.
        destruct (CF true m Q1) as (Z1 & Z2 & _). destruct Q2; congruence.
    Qed.
  End Source.
End Lines.

Definition kindb (t : list Z) (l : label) : bool := negb (line_of t (from l) =? line_of t (final l)).
Lemma kind_of_ok t l : t <> [] -> label_inside t l -> kind_of (source_of t) l = Ok (kindb t l).
Proof.
  intros NE I. destruct (reads_source t NE) as (ls & R & ->). unfold kind_of.
  replace (to l <? from l) with false by (symmetry; apply Nat.ltb_ge; destruct I; lia).
  destruct (offset_inside t ls R NE (from l) (proj1 I)) as (_ & _ & _ & -> & _). cbn [obind].
  destruct (offset_inside t ls R NE (final l) (final_inside t l I)) as (_ & _ & _ & A & _). unfold final in A at 1. rewrite A. reflexivity.
Qed.

Section Groups.
  Variable texts : nat -> option (list Z).
  Definition okg (done : list label) (g : group) : Prop :=
    map snd (ginfos g) = about (gsrc g) done /\
    (forall i t, In i (ginfos g) -> texts (gsrc g) = Some t -> fst i = kindb t (snd i)) /\
    (exists i, In i (ginfos g) /\ gfrom g = from (snd i)) /\ (exists i, In i (ginfos g) /\ gto g = to (snd i)) /\
    (forall i, In i (ginfos g) -> gfrom g <= from (snd i) /\ to (snd i) <= gto g).

  Lemma put_cases gs i g : In g (put gs i) ->
    In g gs /\ gsrc g <> lsrc (snd i) \/
    g = mkG (lsrc (snd i)) (from (snd i)) (to (snd i)) [i] /\ ~ In (lsrc (snd i)) (map gsrc gs) \/
    In g gs \/
    exists g0, In g0 gs /\ gsrc g0 = lsrc (snd i) /\
      g = mkG (gsrc g0) (Nat.min (gfrom g0) (from (snd i))) (Nat.max (gto g0) (to (snd i))) (ginfos g0 ++ [i]).
  Proof.
    induction gs as [|h gs IH]; cbn [put].
    - intros [<-|[]]. right. left. auto.
    - destruct (Nat.eqb_spec (gsrc h) (lsrc (snd i))) as [E|E].
      + intros [<-|H]; [right; right; right; exists h; split; [left; reflexivity|split; [exact E|reflexivity]]|].
        right. right. left. right. exact H.
      + intros [<-|H]; [left; split; [left; reflexivity|exact E]|].
        destruct (IH H) as [[A B]|[[A B]|[A|(g0 & A & B & C)]]].
        * left. split; [right; exact A|exact B].
        * right. left. split; [exact A|]. cbn. intros [X|X]; [congruence|exact (B X)].
        * right. right. left. right. exact A.
        * right. right. right. exists g0. split; [right; exact A|split; assumption].
  Qed.
  Lemma put_srcs gs i : map gsrc (put gs i) =
    if existsb (Nat.eqb (lsrc (snd i))) (map gsrc gs) then map gsrc gs else map gsrc gs ++ [lsrc (snd i)].
  Proof.
    induction gs as [|h gs IH]; [reflexivity|]. cbn [put map existsb]. rewrite (Nat.eqb_sym (lsrc (snd i))).
    destruct (Nat.eqb_spec (gsrc h) (lsrc (snd i))) as [E|E]; cbn [map orb gsrc]; [reflexivity|].
    rewrite IH. destruct (existsb (Nat.eqb (lsrc (snd i))) (map gsrc gs)); reflexivity.
  Qed.
  (** A group that keeps its label list has another source, if sources are distinct. *)
  Lemma put_cases' gs i g : NoDup (map gsrc gs) -> In g (put gs i) ->
    In g gs /\ gsrc g <> lsrc (snd i) \/
    g = mkG (lsrc (snd i)) (from (snd i)) (to (snd i)) [i] /\ ~ In (lsrc (snd i)) (map gsrc gs) \/
    exists g0, In g0 gs /\ gsrc g0 = lsrc (snd i) /\
      g = mkG (gsrc g0) (Nat.min (gfrom g0) (from (snd i))) (Nat.max (gto g0) (to (snd i))) (ginfos g0 ++ [i]).
  Proof.
    induction gs as [|h gs IH]; intros ND; cbn [put].
    - intros [<-|[]]. right. left. auto.
    - inversion ND as [|? ? N1 N2]; subst. destruct (Nat.eqb_spec (gsrc h) (lsrc (snd i))) as [E|E].
      + intros [<-|H]; [right; right; exists h; split; [left; reflexivity|split; [exact E|reflexivity]]|].
        left. split; [right; exact H|]. intros C. apply N1. rewrite E, <- C. apply in_map, H.
      + intros [<-|H]; [left; split; [left; reflexivity|exact E]|].
        destruct (IH N2 H) as [[A B]|[[A B]|(g0 & A & B & C)]].
        * left. split; [right; exact A|exact B].
        * right. left. split; [exact A|]. cbn. intros [X|X]; [congruence|exact (B X)].
        * right. right. exists g0. split; [right; exact A|split; assumption].
  Qed.
  Definition inv (gs : list group) (done : list label) : Prop :=
    NoDup (map gsrc gs) /\ Forall (okg done) gs /\ (forall l, In l done -> In (lsrc l) (map gsrc gs)).

  Lemma inv_put gs done l t : texts (lsrc l) = Some t -> inv gs done -> inv (put gs (kindb t l, l)) (done ++ [l]).
  Proof.
    intros T (N & F & C). rewrite Forall_forall in F. split; [|split].
    - rewrite put_srcs. cbn [snd]. destruct (existsb (Nat.eqb (lsrc l)) (map gsrc gs)) eqn:E; [exact N|].
      apply (Permutation_NoDup (Permutation_cons_append _ _)). constructor; [|exact N].
      intros I. assert (existsb (Nat.eqb (lsrc l)) (map gsrc gs) = true); [|congruence].
      apply existsb_exists. exists (lsrc l). split; [exact I|apply Nat.eqb_refl].
    - apply Forall_forall. intros g I. apply (put_cases' _ _ _ N) in I. cbn [snd] in I.
      destruct I as [[I D]|[[-> D]|(g0 & I & S & ->)]].
      + destruct (F g I) as (A1 & A2 & A3 & A4 & A5). split; [|auto]. unfold about in *. rewrite filter_app, A1. cbn.
        replace (lsrc l =? gsrc g) with false by (symmetry; apply Nat.eqb_neq; congruence). rewrite app_nil_r. reflexivity.
      + split; [|split; [|split; [|split]]]; cbn [ginfos gsrc gfrom gto map snd].
        * unfold about. rewrite filter_app. cbn. rewrite Nat.eqb_refl. rewrite filter_none; [reflexivity|].
          intros x X. apply Nat.eqb_neq. intros Q. apply D. rewrite <- Q. apply C, X.
        * intros i t' [<-|[]] T'. cbn. congruence.
        * exists (kindb t l, l). split; [left; reflexivity|reflexivity].
        * exists (kindb t l, l). split; [left; reflexivity|reflexivity].
        * intros i [<-|[]]. cbn. lia.
      + destruct (F g0 I) as (A1 & A2 & (i1 & B1 & B2) & (i2 & B3 & B4) & A5).
        split; [|split; [|split; [|split]]]; cbn [ginfos gsrc gfrom gto].
        * rewrite map_app, A1. unfold about. rewrite filter_app. cbn. rewrite S, Nat.eqb_refl. reflexivity.
        * intros i t' X T'. apply in_app_or in X as [X|[<-|[]]]; [exact (A2 i t' X T')|]. cbn. congruence.
        * destruct (Nat.min_spec (gfrom g0) (from l)) as [[_ ->]|[_ ->]].
          -- exists i1. split; [apply in_or_app; left; exact B1|exact B2].
          -- exists (kindb t l, l). split; [apply in_or_app; right; left; reflexivity|reflexivity].
        * destruct (Nat.max_spec (gto g0) (to l)) as [[_ ->]|[_ ->]].
          -- exists (kindb t l, l). split; [apply in_or_app; right; left; reflexivity|reflexivity].
          -- exists i2. split; [apply in_or_app; left; exact B3|exact B4].
        * intros i X. apply in_app_or in X as [X|[<-|[]]]; [specialize (A5 i X); lia|cbn; lia].
    - intros x X. rewrite put_srcs. cbn [snd]. apply in_app_or in X as [X|[<-|[]]].
      + specialize (C x X). destruct (existsb _ _); [exact C|apply in_or_app; left; exact C].
      + destruct (existsb (Nat.eqb (lsrc l)) (map gsrc gs)) eqn:E.
        * apply existsb_exists in E as (y & Y & Q). apply Nat.eqb_eq in Q. subst y. exact Y.
        * apply in_or_app. right. left. reflexivity.
  Qed.
  Lemma grouped_ok : forall ls gs done,
    (forall l, In l ls -> exists t, texts (lsrc l) = Some t /\ t <> [] /\ label_inside t l) -> inv gs done ->
    exists gs', grouped (fun i => option_map source_of (texts i)) gs ls = Ok gs' /\ inv gs' (done ++ ls) /\
      map gsrc gs' = map gsrc gs ++ mentioned (map gsrc gs) ls.
  Proof.
    induction ls as [|l ls IH]; intros gs done H I.
    - exists gs. rewrite !app_nil_r. auto.
    - destruct (H l (or_introl eq_refl)) as (t & T & NE & LI). cbn [grouped]. rewrite T. cbn [option_map].
      rewrite (kind_of_ok t l NE LI). cbn [obind].
      destruct (IH (put gs (kindb t l, l)) (done ++ [l])) as (gs' & A1 & A2 & A3).
      + intros x X. apply H. right. exact X.
      + apply inv_put; assumption.
      + exists gs'. split; [exact A1|]. split; [rewrite <- app_assoc in A2; exact A2|]. rewrite A3, put_srcs. cbn [snd mentioned].
        destruct (existsb (Nat.eqb (lsrc l)) (map gsrc gs)); [reflexivity|]. rewrite <- app_assoc. reflexivity.
  Qed.
End Groups.

Lemma unique_ok ls : forall seen, NoDup (map lid ls) -> (forall l, In l ls -> ~ In (lid l) seen) -> unique seen ls = true.
Proof.
  induction ls as [|l ls IH]; intros seen N H; [reflexivity|]. cbn in N. inversion N as [|? ? N1 N2]; subst. cbn.
  rewrite IH; [rewrite andb_true_r; apply negb_true_iff, not_true_is_false|exact N2|].
  - intros C. apply existsb_exists in C as (x & X & E). apply Nat.eqb_eq in E. subst x. exact (H l (or_introl eq_refl) X).
  - intros x X [C|C]; [apply N1; rewrite C; apply in_map, X|exact (H x (or_intror X) C)].
Qed.
Lemma offset_total t p : exists o, offset_line (source_of t) p = Ok o.
Proof.
  destruct t as [|c t]; [unfold offset_line; cbn; destruct p; eexists; reflexivity|].
  destruct (reads_source (c :: t) ltac:(discriminate)) as (ls & R & ->).
  destruct (Nat.le_gt_cases p (length (glue ls))) as [L|L].
  - destruct (offset_any _ ls R p L) as (i & o & n & A & _). rewrite A. eexists. reflexivity.
  - unfold offset_line. cbn [slen]. replace (p <=? length (glue ls)) with false by (symmetry; apply Nat.leb_gt; exact L). eexists. reflexivity.
Qed.
Lemma offset_at t p : t <> [] -> inside t p -> offset_line (source_of t) p = Ok (Some (line_of t p, col_of t p)).
Proof.
  intros NE I. destruct (reads_source t NE) as (ls & R & ->). destruct (offset_inside t ls R NE p I) as (_ & _ & _ & A & _). exact A.
Qed.

Section Report.
  Variable texts : nat -> option (list Z).
  Let sources := fun i => option_map source_of (texts i).
  Variable sort_multi : list label -> list label.
  Variable sort_notes : list line_label -> list line_label.
  Variable attach_to : att.
  Variable compact : bool.
  Hypothesis P1 : forall l, Permutation l (sort_multi l).
  Hypothesis P2 : forall l, Permutation l (sort_notes l).
  Variable ls : list label.
  Hypothesis ND : NoDup (map lid ls).
  Hypothesis ALL : forall l, In l ls -> exists t, texts (lsrc l) = Some t /\ t <> [] /\ label_inside t l.
  Variable loc : nat * nat.

  (** What is known of a written group. *)
  Definition good_group (x : nat * option (nat * nat) * list item) : Prop :=
    let '(id, h, is) := x in
    forall t, texts id = Some t ->
      true_lines t is /\ (forall ll, In (Note ll) is -> In (lab ll) (about id ls)) /\
      (fst loc = id -> inside t (snd loc) -> h = Some (location t (snd loc))) /\
      (fst loc <> id -> forall l0, hd_error (about id ls) = Some l0 -> h = Some (location t (from l0))) /\
      forall l, In l (about id ls) -> clear t l ->
        (line_of t (from l) = line_of t (final l) ->
         notes (lid l) 0 is = [(line_of t (from l) + 1, place attach_to l - (from l - col_of t (from l)))]) /\
        (many t l -> exists first, (first = [] \/ first = [(line_of t (from l) + 1, col_of t (from l))]) /\
         notes (lid l) 0 is = first ++ [(line_of t (to l) + 1, col_of t (to l))]).

  Lemma group_ok g : okg texts ls g -> exists t e,
    texts (gsrc g) = Some t /\ line_range (source_of t) (gfrom g) (gto g) = Ok (line_of t (gfrom g), e + 1) /\
    forall w, digits (e + 1) <= w -> exists x,
      write_group sources sort_multi sort_notes attach_to compact loc w g = Ok x /\ fst (fst x) = gsrc g /\ good_group x.
  Proof.
    intros (A1 & A2 & (i1 & B1 & B2) & (i2 & B3 & B4) & A5).
    assert (AL : forall i, In i (ginfos g) -> In (snd i) ls /\ lsrc (snd i) = gsrc g).
    { intros i I. assert (X : In (snd i) (about (gsrc g) ls)) by (rewrite <- A1; apply in_map, I).
      apply filter_In in X as [X1 X2]. apply Nat.eqb_eq in X2. auto. }
    destruct (AL i1 B1) as [C1 C2]. destruct (ALL _ C1) as (t & T & NE & LI). rewrite C2 in T.
    assert (IN : forall i, In i (ginfos g) -> label_inside t (snd i) /\ fst i = kindb t (snd i)).
    { intros i I. destruct (AL i I) as [D1 D2]. destruct (ALL _ D1) as (t' & T' & _ & LI'). rewrite D2, T in T'. injection T' as <-.
      split; [exact LI'|]. apply A2; assumption. }
    assert (NDI : NoDup (map (fun i : info => lid (snd i)) (ginfos g))).
    { rewrite <- (map_map snd lid), A1. unfold about. clear - ND. induction ls as [|l q IH]; [constructor|].
      cbn in ND. inversion ND as [|? ? N1 N2]; subst. cbn. destruct (lsrc l =? gsrc g); [|apply IH, N2]. cbn. constructor; [|apply IH, N2].
      intros C. apply N1. apply in_map_iff in C as (x & E & X). apply filter_In in X as [X _]. rewrite <- E. apply in_map, X. }
    destruct (reads_source t NE) as (lns & R & S).
    assert (GF : inside t (gfrom g)) by (rewrite B2; apply LI).
    assert (GT : gto g <= length t) by (rewrite B4; destruct (IN i2 B3) as [[_ X] _]; lia).
    assert (GG : gfrom g <= gto g) by (rewrite B2; destruct (A5 i1 B1) as [_ X]; destruct LI; lia).
    destruct (range_is t lns R NE (gfrom g) (gto g) GF GT GG) as (e & RG & E1 & E2).
    exists t, e. split; [exact T|]. rewrite S. split; [exact RG|]. intros w W.
    set (its := source_lines sort_multi sort_notes attach_to compact (mkS t (number_lines 0 lns) (length (glue lns))) (ginfos g)
                  (line_of t (gfrom g)) (Datatypes.S (e + 1) - line_of t (gfrom g)) false).
    assert (W' : fits_width w its = true).
    { apply (width_ok sort_multi sort_notes attach_to compact P1 P2 t lns (ginfos g) IN (gfrom g) (gto g) GT GG A5 e); assumption. }
    set (p := if gsrc g =? fst loc then snd loc else match ginfos g with i :: _ => from (snd i) | [] => 0 end).
    destruct (offset_total t p) as (o & O).
    exists (gsrc g, option_map (fun x => (fst x + 1, snd x + 1)) o, its). split.
    - unfold write_group. unfold sources at 1. rewrite T. cbn [option_map]. unfold header. fold p. rewrite O. cbn [omap obind]. rewrite S, RG. cbn [obind fst snd].
      cbv zeta. fold its. rewrite W'. reflexivity.
    - split; [reflexivity|]. intros t' T'. rewrite T in T'. injection T' as <-.
      split; [eapply (true_lines_ok sort_multi sort_notes attach_to compact P2 t lns R); eassumption|].
      split.
      { intros ll X. rewrite <- A1. eapply (notes_known sort_multi sort_notes attach_to compact P1 P2). exact X. }
      split.
      { intros EQ IL. unfold p in O. rewrite <- EQ, Nat.eqb_refl in O. rewrite (offset_at t _ NE IL) in O. injection O as <-. reflexivity. }
      split.
      { intros NEQ l0 H0. unfold p in O. replace (gsrc g =? fst loc) with false in O by (symmetry; apply Nat.eqb_neq; congruence).
        rewrite <- A1 in H0. destruct (ginfos g) as [|i0 r]; [discriminate|]. cbn in H0. injection H0 as <-.
        destruct (IN i0 (or_introl eq_refl)) as [[I0 _] _]. rewrite (offset_at t _ NE I0) in O. injection O as <-. reflexivity. }
      intros l X CL. rewrite <- A1 in X. apply in_map_iff in X as ([k l'] & EQ & X). cbn in EQ. subst l'.
      destruct (IN _ X) as [LIl KL]. cbn [fst snd] in *. split.
      + intros SM. unfold kindb in KL. rewrite SM, Nat.eqb_refl in KL. cbn in KL. subst k.
        apply (written_inline sort_multi sort_notes attach_to compact P1 P2 t lns R NE (ginfos g) NDI IN (gfrom g) (gto g) GF GT GG A5 l e RG E1 X CL).
      + intros M. unfold kindb in KL. replace (line_of t (from l) =? line_of t (final l)) with false in KL by (symmetry; apply Nat.eqb_neq; exact M).
        cbn in KL. subst k.
        apply (written_multi sort_multi sort_notes attach_to compact P1 P2 t lns R NE (ginfos g) NDI IN (gfrom g) (gto g) GF GT GG A5 l e RG E1 X CL).
  Qed.

  Lemma groups_ok gs : Forall (okg texts ls) gs -> exists w, number_width sources gs = Ok w /\
    forall w', w <= w' -> exists out, write_groups sources sort_multi sort_notes attach_to compact loc w' gs = Ok out /\
      map (fun x => fst (fst x)) out = map gsrc gs /\ Forall good_group out.
  Proof.
    induction 1 as [|g gs O _ (w & W1 & W2)].
    - exists 0. split; [reflexivity|]. intros w' _. exists []. split; [reflexivity|]. split; [reflexivity|constructor].
    - destruct (group_ok g O) as (t & e & T & RG & H). exists (Nat.max (digits (e + 1)) w). cbn [number_width].
      unfold sources at 1. rewrite T. cbn [option_map]. rewrite RG. cbn [obind]. rewrite W1. split; [reflexivity|].
      intros w' L. destruct (H w' ltac:(lia)) as (x & X1 & X2 & X3). destruct (W2 w' ltac:(lia)) as (out & Y1 & Y2 & Y3).
      exists (x :: out). cbn [write_groups]. rewrite X1. cbn [obind]. rewrite Y1. split; [reflexivity|].
      split; [cbn [map]; rewrite X2, Y2; reflexivity|constructor; assumption].
  Qed.
  Lemma report_ok : exists out, report sources sort_multi sort_notes attach_to compact loc ls = Ok out /\
    map (fun x => fst (fst x)) out = mentioned [] ls /\ Forall good_group out.
  Proof.
    unfold report. rewrite unique_ok by (auto; intros l _ []).
    destruct (grouped_ok texts ls [] [] ALL) as (gs & A1 & (_ & A2 & _) & A3).
    { split; [constructor|]. split; [constructor|intros l []]. }
    cbn [app map] in A2, A3. fold sources in A1. rewrite A1. cbn [obind].
    destruct (groups_ok gs A2) as (w & W1 & W2). rewrite W1. cbn [obind].
    destruct (W2 w (le_n w)) as (out & B1 & B2 & B3). exists out. split; [exact B1|]. split; [rewrite B2; exact A3|exact B3].
  Qed.
End Report.
