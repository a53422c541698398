(** Proofs about reports: lines and positions. *)
From Coq Require Import ZArith List Bool Arith Lia Permutation.
From Verif Require Import Base ReportModel ReportSpec.
Import ListNotations.

Definition glue (ls : list (list Z)) : list Z := concat (map (fun l => l ++ [10%Z]) ls).
Definition free (l : list Z) : Prop := ~ In 10%Z l.

Lemma glue_app a b : glue (a ++ b) = glue a ++ glue b.
Proof. unfold glue. rewrite map_app, concat_app. reflexivity. Qed.
Lemma total_glue ls : forall b, total b ls = b + length (glue ls).
Proof.
  induction ls as [|l ls IH]; intros b; cbn [total]; [cbn; lia|]. rewrite IH. unfold glue. cbn. rewrite !app_length. cbn. lia.
Qed.
Lemma number_nth ls : forall b i, nth_error (number_lines b ls) i =
  option_map (fun l => (b + length (glue (firstn i ls)), length l)) (nth_error ls i).
Proof.
  induction ls as [|l ls IH]; intros b [|i]; cbn; try reflexivity.
  - rewrite Nat.add_0_r. reflexivity.
  - rewrite IH. destruct (nth_error ls i); [|reflexivity]. cbn. unfold glue. cbn. rewrite !app_length. cbn. f_equal. f_equal. lia.
Qed.
Lemma number_length ls : forall b, length (number_lines b ls) = length ls.
Proof. induction ls; intros b; cbn; auto. Qed.

Lemma getlines_spec t : forall cur, free (rev cur) ->
  Forall free (getlines cur t) /\
  (rev cur ++ t = glue (getlines cur t) \/
   (rev cur ++ t) ++ [10%Z] = glue (getlines cur t) /\ forall t', rev cur ++ t <> t' ++ [10%Z]).
Proof.
  induction t as [|c t IH]; intros cur F; cbn [getlines].
  - destruct cur as [|x cur].
    + split; [constructor|]. left. reflexivity.
    + split; [repeat constructor; exact F|]. right. rewrite app_nil_r. split.
      * unfold glue. cbn [map concat]. rewrite app_nil_r. reflexivity.
      * intros t' E. apply F. rewrite E. apply in_or_app. right. left. reflexivity.
  - destruct (Z.eqb_spec c 10) as [->|N].
    + destruct (IH [] ltac:(intros [])) as [A B]. split; [constructor; assumption|].
      unfold glue in *. cbn [map concat rev app] in *. destruct B as [B|[B1 B2]].
      * left. rewrite <- B, <- app_assoc. reflexivity.
      * right. split; [rewrite <- B1, <- !app_assoc; reflexivity|].
        intros t' E. destruct (rev t) as [|z q] eqn:R.
        { assert (t = []) by (rewrite <- (rev_involutive t), R; reflexivity). subst t. cbn in B1. discriminate. }
        assert (T : t = rev q ++ [z]) by (rewrite <- (rev_involutive t), R; reflexivity).
        subst t. apply (B2 (rev q)). f_equal.
        change (10%Z :: rev q ++ [z]) with ((10%Z :: rev q) ++ [z]) in E. rewrite app_assoc in E. apply app_inj_tail in E as [_ ->]. reflexivity.
    + destruct (IH (c :: cur)) as [A B].
      * cbn. intros I. apply in_app_or in I as [I|[I|[]]]; [exact (F I)|exact (N I)].
      * split; [exact A|]. cbn [rev] in B. rewrite <- app_assoc in B. exact B.
Qed.

Lemma breaks_app a b : breaks (a ++ b) = breaks a + breaks b.
Proof. unfold breaks. rewrite filter_app, app_length. reflexivity. Qed.
Lemma breaks_free l : free l -> breaks l = 0.
Proof.
  unfold breaks. induction l as [|c l IH]; intros F; [reflexivity|]. cbn [filter].
  destruct (Z.eqb_spec 10 c) as [<-|N]; [exfalso; apply F; left; reflexivity|]. apply IH. intros I. apply F. right. exact I.
Qed.
Lemma breaks_glue ls : Forall free ls -> breaks (glue ls) = length ls.
Proof.
  unfold glue. induction 1 as [|l ls F _ IH]; [reflexivity|]. cbn [map concat length]. rewrite !breaks_app, (breaks_free l F), IH. reflexivity.
Qed.
Lemma free_firstn k l : free l -> free (firstn k l).
Proof. intros F I. apply F. rewrite <- (firstn_skipn k l). apply in_or_app. left. exact I. Qed.
Lemma free_skipn k l : free l -> free (skipn k l).
Proof. intros F I. apply F. rewrite <- (firstn_skipn k l). apply in_or_app. right. exact I. Qed.
Lemma until_break_app a b : free a -> until_break (a ++ b) = length a + until_break b.
Proof.
  induction a as [|c a IH]; intros F; [reflexivity|]. cbn. destruct (Z.eqb_spec c 10) as [->|N]; [exfalso; apply F; left; reflexivity|].
  rewrite IH; [reflexivity|]. intros I. apply F. right. exact I.
Qed.
Lemma until_break_end a : until_break (a ++ [10%Z]) = until_break a.
Proof. induction a as [|c a IH]; [reflexivity|]. cbn [app until_break]. destruct (Z.eqb c 10); [reflexivity|]. rewrite IH. reflexivity. Qed.
Lemma until_break_glue_rev ls : until_break (rev (glue ls)) = 0.
Proof.
  destruct ls as [|l ls] using rev_ind; [reflexivity|]. rewrite glue_app, rev_app_distr. unfold glue. cbn [map concat].
  rewrite app_nil_r, rev_app_distr. reflexivity.
Qed.

(** A source with at least one character. *)
Definition reads (t : list Z) (ls : list (list Z)) : Prop :=
  Forall free ls /\ ls <> [] /\ (t = glue ls \/ t ++ [10%Z] = glue ls /\ forall t', t <> t' ++ [10%Z]).
Lemma reads_source t : t <> [] -> exists ls, reads t ls /\ source_of t = mkS t (number_lines 0 ls) (length (glue ls)).
Proof.
  intros N. exists (getlines [] t). destruct (getlines_spec t [] ltac:(intros [])) as [A B]. cbn [rev app] in B.
  split.
  - split; [exact A|]. split; [|exact B]. intros E. rewrite E in B. cbn in B. destruct B as [B|[B _]]; [congruence|destruct t; discriminate].
  - unfold source_of. destruct t as [|c t]; [congruence|]. rewrite total_glue. reflexivity.
Qed.
Lemma inside_lt t ls p : reads t ls -> inside t p -> t <> [] -> p < length (glue ls).
Proof.
  intros (_ & _ & [->|[E _]]) [I1 I2] N.
  - destruct (Nat.eq_dec p (length (glue ls))) as [C|C]; [|lia]. exfalso.
    destruct (rev (glue ls)) as [|z q] eqn:R.
    + apply N. rewrite <- (rev_involutive (glue ls)), R. reflexivity.
    + assert (z = 10%Z).
      { pose proof (until_break_glue_rev ls) as U. rewrite R in U. cbn in U. destruct (Z.eqb_spec z 10); [assumption|discriminate]. }
      subst z. apply (I2 C (rev q)). rewrite <- (rev_involutive (glue ls)), R. reflexivity.
  - rewrite <- E, app_length. cbn. lia.
Qed.
Lemma reads_le t ls : reads t ls -> length t <= length (glue ls).
Proof. intros (_ & _ & [->|[E _]]); [lia|]. rewrite <- E, app_length. lia. Qed.

(** Positions in a line. *)
Lemma at_line t ls i o n p : reads t ls -> nth_error (number_lines 0 ls) i = Some (o, n) ->
  o <= p <= o + n -> p <= length t ->
  line_of t p = i /\ col_of t p = p - o /\ text_around t p = firstn n (skipn o t).
Proof.
  intros (F & _ & T) N P L. rewrite number_nth in N. destruct (nth_error ls i) as [l|] eqn:E; [|discriminate].
  cbn in N. injection N as N1 N2.
  destruct (nth_error_split _ _ E) as (pre & post & E1 & E2). subst ls.
  rewrite firstn_app, E2, Nat.sub_diag, <- E2, firstn_all in N1. cbn [firstn] in N1. rewrite app_nil_r in N1.
  apply Forall_app in F as [F1 F2]. inversion F2 as [|? ? Fl F3]; subst.
  rewrite glue_app in T. change (glue (l :: post)) with ((l ++ [10%Z]) ++ glue post) in T.
  set (k := p - length (glue pre)). assert (K : k <= length l) by (unfold k; lia).
  assert (FP : firstn p t = glue pre ++ firstn k l).
  { assert (G : firstn p (glue pre ++ (l ++ [10%Z]) ++ glue post) = glue pre ++ firstn k l).
    { rewrite firstn_app, (firstn_all2 (glue pre)) by lia. f_equal. fold k. rewrite <- app_assoc, firstn_app.
      replace (k - length l) with 0 by lia. cbn. rewrite app_nil_r. reflexivity. }
    destruct T as [->|[T _]]; [exact G|]. rewrite <- T in G. rewrite firstn_app in G.
    replace (p - length t) with 0 in G by lia. cbn in G. rewrite app_nil_r in G. exact G. }
  assert (A1 : line_of t p = length pre).
  { unfold line_of. rewrite FP, breaks_app, (breaks_glue pre F1), (breaks_free _ (free_firstn k l Fl)). lia. }
  assert (A2 : col_of t p = p - length (glue pre)).
  { unfold col_of. rewrite FP, rev_app_distr, until_break_app, until_break_glue_rev, rev_length, firstn_length.
    - fold k. lia.
    - intros I. rewrite <- in_rev in I. exact (free_firstn k l Fl I). }
  split; [exact A1|]. split; [exact A2|].
  unfold text_around. rewrite A2. replace (p - (p - length (glue pre))) with (length (glue pre)) by lia.
  assert (S : until_break (skipn p t) = length l - k).
  { assert (G : skipn p (glue pre ++ (l ++ [10%Z]) ++ glue post) = skipn k l ++ 10%Z :: glue post).
    { rewrite skipn_app, (skipn_all2 (glue pre)) by lia. cbn [app]. fold k. rewrite <- app_assoc, skipn_app.
      replace (k - length l) with 0 by lia. reflexivity. }
    assert (U : until_break (skipn k l ++ 10%Z :: glue post) = length l - k).
    { rewrite until_break_app by (apply free_skipn, Fl). cbn. rewrite skipn_length. lia. }
    destruct T as [T|[T _]]; rewrite <- T in G.
    - rewrite G. exact U.
    - rewrite skipn_app in G. replace (p - length t) with 0 in G by lia. cbn [skipn] in G.
      rewrite <- until_break_end, G. exact U. }
  rewrite S. f_equal. unfold k. lia.
Qed.

Lemma until_spec ls : forall b p, ls <> [] -> b <= p ->
  exists i o n, until p (number_lines b ls) = Datatypes.S i /\ nth_error (number_lines b ls) i = Some (o, n) /\ o <= p /\
    (p <= o + n \/ Datatypes.S i = length ls /\ total b ls <= p) /\
    (forall j o' n', i < j -> nth_error (number_lines b ls) j = Some (o', n') -> p < o').
Proof.
  induction ls as [|l ls IH]; intros b p N P; [congruence|]. cbn [number_lines until fst].
  replace (b <=? p) with true by (symmetry; apply Nat.leb_le; lia).
  destruct (Nat.le_gt_cases (b + length l + 1) p) as [C|C].
  - destruct ls as [|l2 ls2].
    + exists 0, b, (length l). cbn. repeat split; try lia. intros [|[|j]] o' n' J E; [lia|discriminate|discriminate].
    + destruct (IH (b + length l + 1) p ltac:(discriminate) C) as (i & o & n & A1 & A2 & A3 & A4 & A5).
      exists (Datatypes.S i), o, n. rewrite A1. split; [reflexivity|]. split; [exact A2|]. split; [exact A3|]. split.
      * destruct A4 as [A4|[A4 A6]]; [left; exact A4|right]. split; [cbn in *; lia|exact A6].
      * intros [|j] o' n' J E; [lia|]. apply (A5 j o' n'); [lia|exact E].
  - exists 0, b, (length l).
    assert (U : forall q b', p < b' -> until p (number_lines b' q) = 0).
    { intros [|z q] b' H; [reflexivity|]. cbn. replace (b' <=? p) with false by (symmetry; apply Nat.leb_gt; lia). reflexivity. }
    rewrite U by lia. repeat split; try lia; try (left; lia).
    intros [|j] o' n' J E; [lia|]. cbn in E.
    assert (M : forall q b' j, nth_error (number_lines b' q) j = Some (o', n') -> b' <= o').
    { intros q b' j0 Q. rewrite number_nth in Q. destruct (nth_error q j0); [|discriminate]. cbn in Q. injection Q as Q1 Q2. lia. }
    specialize (M _ _ _ E). lia.
Qed.
Lemma until_mono ls p q : p <= q -> until p ls <= until q ls.
Proof.
  intros H. induction ls as [|l ls IH]; [reflexivity|]. cbn [until]. destruct (Nat.leb_spec (fst l) p).
  - replace (fst l <=? q) with true by (symmetry; apply Nat.leb_le; lia). lia.
  - lia.
Qed.

Section Source.
  Variable t : list Z.
  Variable ls : list (list Z).
  Hypothesis R : reads t ls.
  Let s := mkS t (number_lines 0 ls) (length (glue ls)).

  Lemma offset_any p : p <= length (glue ls) -> exists i o n,
    offset_line s p = Ok (Some (i, p - o)) /\ i = pred (until p (number_lines 0 ls)) /\
    nth_error (slines s) i = Some (o, n) /\ o <= p /\ (p < length (glue ls) -> p <= o + n) /\
    (forall j o' n', i < j -> nth_error (slines s) j = Some (o', n') -> p < o').
  Proof.
    intros P. destruct R as (F & N & _).
    destruct (until_spec ls 0 p N ltac:(lia)) as (i & o & n & A1 & A2 & A3 & A4 & A5).
    exists i, o, n. unfold offset_line. cbn [slen slines s].
    replace (p <=? length (glue ls)) with true by (symmetry; apply Nat.leb_le; lia).
    rewrite A1. cbn [pred]. cbn [s slines]. rewrite A2. cbn [fst].
    replace (o <=? p) with true by (symmetry; apply Nat.leb_le; lia).
    split; [reflexivity|]. split; [reflexivity|]. split; [reflexivity|]. split; [exact A3|]. split; [|exact A5].
    intros L. destruct A4 as [A4|[_ A4]]; [exact A4|]. rewrite total_glue in A4. lia.
  Qed.
  Hypothesis NE : t <> [].
  Lemma offset_inside p : inside t p -> exists i o n,
    offset_line s p = Ok (Some (line_of t p, col_of t p)) /\ i = line_of t p /\
    nth_error (slines s) i = Some (o, n) /\ o <= p <= o + n /\ col_of t p = p - o /\
    i = pred (until p (number_lines 0 ls)).
  Proof.
    intros I. pose proof (inside_lt t ls p R I NE) as L.
    destruct (offset_any p ltac:(lia)) as (i & o & n & A1 & A2 & A3 & A4 & A5 & _). specialize (A5 L).
    destruct (at_line t ls i o n p R A3 ltac:(lia) (proj1 I)) as (B1 & B2 & _).
    exists i, o, n. rewrite B1, B2. repeat split; auto; lia.
  Qed.
  (** A line contains a position exactly if it is the line of the position. *)
  Lemma contains_iff i o n p : inside t p -> nth_error (slines s) i = Some (o, n) ->
    contains (o, n) p = (i =? line_of t p).
  Proof.
    intros I N. destruct (offset_inside p I) as (j & o' & n' & _ & J & N' & P & _).
    unfold contains. cbn [fst snd]. destruct (Nat.eqb_spec i (line_of t p)) as [E|E].
    - subst i. rewrite J in N'. assert (X : (o, n) = (o', n')) by congruence. injection X as -> ->.
      apply andb_true_iff. split; apply Nat.leb_le; lia.
    - apply not_true_is_false. intros C. apply andb_true_iff in C as [C1 C2]. apply Nat.leb_le in C1, C2.
      destruct (at_line t ls i o n p R N ltac:(lia) (proj1 I)) as (B & _). congruence.
  Qed.
  Lemma line_mono p q : inside t p -> inside t q -> p <= q -> line_of t p <= line_of t q.
  Proof.
    intros I J H. destruct (offset_inside p I) as (i & _ & _ & _ & -> & _ & _ & _ & E).
    destruct (offset_inside q J) as (j & _ & _ & _ & -> & _ & _ & _ & E'). rewrite E, E'.
    apply Nat.pred_le_mono, until_mono, H.
  Qed.
End Source.

(** The end of a label that does not end with a line break. *)
Lemma final_inside t l : label_inside t l -> inside t (final l).
Proof.
  intros [[I1 I2] B]. unfold final. destruct (Nat.max_spec (to l - 1) (from l)) as [[H ->]|[H ->]]; [split; assumption|].
  destruct (Nat.eq_dec (to l - 1) (from l)) as [E|E]; [rewrite E; split; assumption|]. split; lia.
Qed.
Lemma line_step t p : p < length t -> nth_error t p <> Some 10%Z -> line_of t (Datatypes.S p) = line_of t p.
Proof.
  intros L N. unfold line_of.
  assert (E : firstn (Datatypes.S p) t = firstn p t ++ firstn 1 (skipn p t)).
  { clear N. revert p L. induction t as [|c t IH]; intros [|p] L; cbn in *; try lia; [reflexivity|]. f_equal. apply IH. lia. }
  rewrite E, breaks_app. destruct (skipn p t) as [|c q] eqn:S.
  - cbn. lia.
  - assert (X : nth_error t p = Some c).
    { rewrite <- (firstn_skipn p t), nth_error_app2 by (rewrite firstn_length; lia).
      rewrite firstn_length, Nat.min_l by lia. rewrite Nat.sub_diag, S. reflexivity. }
    cbn [firstn]. unfold breaks. cbn [filter]. destruct (Z.eqb_spec 10 c) as [<-|]; [congruence|]. cbn. lia.
Qed.
Lemma clear_inside t l : label_inside t l -> clear t l -> inside t (to l) /\ line_of t (to l) = line_of t (final l).
Proof.
  intros [I B] [C|C].
  - rewrite C. split; [exact I|]. unfold final. rewrite C. f_equal. lia.
  - destruct (Nat.eq_dec (to l) (from l)) as [E|E].
    { rewrite E. split; [exact I|]. unfold final. rewrite E. f_equal. lia. }
    assert (F : final l = to l - 1) by (unfold final; lia). rewrite F. split.
    + split; [lia|]. intros L t' T. apply C. rewrite T, L. rewrite T, app_length. cbn.
      rewrite nth_error_app2 by lia. replace (length t' + 1 - 1 - length t') with 0 by lia. reflexivity.
    + rewrite <- (line_step t (to l - 1)); [f_equal; lia|lia|exact C].
Qed.

(** ** Digits *)
Lemma digits_to_pos g m : 1 <= digits_to g m.
Proof. destruct g; cbn [digits_to]; [reflexivity|]. destruct (m <? 10); auto with arith. Qed.
Lemma digits_to_mono : forall f g n m, n <= m -> n <= f -> m <= g -> digits_to f n <= digits_to g m.
Proof.
  induction f as [|f IH]; intros g n m H Hf Hg.
  - apply digits_to_pos.
  - cbn [digits_to]. destruct (Nat.ltb_spec n 10).
    + apply digits_to_pos.
    + destruct g as [|g]; [lia|]. cbn [digits_to]. destruct (Nat.ltb_spec m 10); [lia|].
      apply le_n_S, IH.
      * apply Nat.div_le_mono; lia.
      * pose proof (Nat.div_lt n 10). lia.
      * pose proof (Nat.div_lt m 10). lia.
Qed.
Lemma digits_mono n m : n <= m -> digits n <= digits m.
Proof. intros H. unfold digits. apply digits_to_mono; lia. Qed.
