(** Proofs about printed comparisons. *)
From Coq Require Import ZArith List Bool Lia.
From Verif Require Import Base DiffModel ShowModel ShowSpec.
Import ListNotations.
Local Open Scope Z_scope.

Lemma zip_max_nth l r i : nth_error (zip_max l r) i =
  match nth_error l i, nth_error r i with
  | Some x, Some y => Some (x, y) | Some x, None => Some (x, filler) | None, Some y => Some (filler, y) | None, None => None
  end.
Proof.
  revert r i. induction l as [|x l IH]; intros r i.
  - cbn. replace (nth_error ([] : list item) i) with (@None item) by (destruct i; reflexivity).
    rewrite nth_error_map. destruct (nth_error r i); reflexivity.
  - destruct r as [|y r].
    + cbn [zip_max]. rewrite nth_error_map. replace (nth_error ([] : list item) i) with (@None item) by (destruct i; reflexivity).
      destruct (nth_error (x :: l) i); reflexivity.
    + destruct i as [|i]; cbn; [reflexivity|apply IH].
Qed.

Lemma kind_eqb_eq a b : kind_eqb a b = true <-> a = b.
Proof. destruct a, b; cbn; split; congruence. Qed.
Lemma both_kept_iff x : both_kept x = true <-> same x.
Proof. unfold both_kept, same. rewrite andb_true_iff, !kind_eqb_eq. reflexivity. Qed.
Lemma changed_iff x : both_kept x = false <-> ~ same x.
Proof. rewrite <- both_kept_iff. destruct (both_kept x); split; congruence. Qed.
Lemma widest_longest l : widest l = longest l.
Proof. induction l as [|t l IH]; [reflexivity|]. cbn [widest]. rewrite IH. reflexivity. Qed.
Lemma good_row_eq fl lw rw x y :
  row (prefix_of (fst x)) (if kind_eqb (fst x) KNone then [] else text_of fl true x)
      (prefix_of (fst y)) (if kind_eqb (fst y) KNone then [] else text_of fl false y) lw rw = good_row fl lw rw (x, y).
Proof. destruct x as [[] ?], y as [[] ?]; reflexivity. Qed.

(** Cutting, with a count [u] of kept lines before the list. *)
Lemma cut_marks mx l : 0 <= mx -> forall u pre, 0 <= u <= mx ->
  (* the last [u] lines of [pre] are kept, the one before is not unless u = mx *)
  u <= Z.of_nat (length pre) ->
  (forall j x, nth_error pre j = Some x -> Z.of_nat (length pre) - u <= Z.of_nat j -> both_kept x = true) ->
  (u < mx -> u < Z.of_nat (length pre) -> exists j x, Z.of_nat j = Z.of_nat (length pre) - u - 1 /\ nth_error pre j = Some x /\ both_kept x = false) ->
  exists marks, length marks = length l /\ cut mx u l = pick marks l /\
    forall i b, nth_error marks i = Some b -> (b = false <-> deep mx (pre ++ l) (length pre + i)).
Proof.
  intros Hm. induction l as [|x l IH]; intros u pre Hu Hl Hk Hn.
  - exists []. repeat split; try reflexivity; destruct i; discriminate.
  - assert (A : forall y, both_kept x = y -> nth_error ((pre ++ [x])) (length pre) = Some x).
    { intros y _. rewrite nth_error_app2 by lia. rewrite Nat.sub_diag. reflexivity. }
    specialize (A _ eq_refl).
    assert (AA : pre ++ x :: l = (pre ++ [x]) ++ l) by (rewrite <- app_assoc; reflexivity).
    cbn [cut]. destruct (both_kept x) eqn:B.
    + destruct (u <? mx) eqn:L; [apply Z.ltb_lt in L|apply Z.ltb_ge in L].
      * destruct (IH (u + 1) (pre ++ [x])) as (marks & M1 & M2 & M3).
        -- lia.
        -- rewrite app_length; cbn; lia.
        -- intros j y Hj Hle. rewrite app_length in Hle; cbn in Hle.
           destruct (Nat.lt_ge_cases j (length pre)) as [C|C].
           ++ rewrite nth_error_app1 in Hj by lia. apply (Hk j y Hj). lia.
           ++ rewrite nth_error_app2 in Hj by lia. destruct (j - length pre)%nat as [|k]; cbn in Hj; [injection Hj as <-; exact B|destruct k; discriminate].
        -- rewrite app_length; cbn. intros Hlt Hlt2. destruct (Hn ltac:(lia) ltac:(lia)) as (j & y & J1 & J2 & J3).
           exists j, y. split; [lia|]. split; [|exact J3]. rewrite nth_error_app1; [exact J2|lia].
        -- exists (true :: marks). cbn. split; [lia|]. split; [rewrite M2; reflexivity|].
           intros [|i] b Hb; cbn in Hb.
           ++ injection Hb as <-. split; [discriminate|]. intros [D1 D2]. exfalso.
              rewrite Nat.add_0_r in D1, D2.
              destruct (Hn L ltac:(lia)) as (j & y & J1 & J2 & J3).
              destruct (D2 j ltac:(lia)) as (y' & Y1 & Y2). apply both_kept_iff in Y2. rewrite nth_error_app1 in Y1 by lia. congruence.
           ++ rewrite AA. replace (length pre + Datatypes.S i)%nat with (length (pre ++ [x]) + i)%nat by (rewrite app_length; cbn; lia).
              apply M3, Hb.
      * assert (u = mx) by lia. subst u.
        destruct (IH mx (pre ++ [x])) as (marks & M1 & M2 & M3).
        -- lia.
        -- rewrite app_length; cbn; lia.
        -- intros j y Hj Hle. rewrite app_length in Hle; cbn in Hle.
           destruct (Nat.lt_ge_cases j (length pre)) as [C|C].
           ++ rewrite nth_error_app1 in Hj by lia. apply (Hk j y Hj). lia.
           ++ rewrite nth_error_app2 in Hj by lia. destruct (j - length pre)%nat as [|k]; cbn in Hj; [injection Hj as <-; exact B|destruct k; discriminate].
        -- lia.
        -- exists (false :: marks). cbn. split; [lia|]. split; [rewrite M2; reflexivity|].
           intros [|i] b Hb; cbn in Hb.
           ++ injection Hb as <-. split; [|reflexivity]. intros _. rewrite Nat.add_0_r. split; [lia|].
              intros j Hj. destruct (Nat.eq_dec j (length pre)) as [->|C].
              ** exists x. rewrite AA. rewrite nth_error_app1 by (rewrite app_length; cbn; lia). apply both_kept_iff in B. auto.
              ** destruct (nth_error pre j) as [y|] eqn:Y; [|apply nth_error_None in Y; lia].
                 exists y. split; [rewrite nth_error_app1 by lia; exact Y|apply both_kept_iff, (Hk j y Y); lia].
           ++ rewrite AA. replace (length pre + Datatypes.S i)%nat with (length (pre ++ [x]) + i)%nat by (rewrite app_length; cbn; lia).
              apply M3, Hb.
    + destruct (IH 0 (pre ++ [x])) as (marks & M1 & M2 & M3).
      * lia.
      * lia.
      * intros j y Hj Hle. rewrite Z.sub_0_r in Hle. exfalso. assert (j < length (pre ++ [x]))%nat by (apply nth_error_Some; congruence). lia.
      * intros _ _. exists (length pre), x. rewrite app_length; cbn. split; [lia|]. split; [exact A|exact B].
      * exists (true :: marks). cbn. split; [lia|]. split; [rewrite M2; reflexivity|].
        intros [|i] b Hb; cbn in Hb.
        -- injection Hb as <-. split; [discriminate|]. intros [D1 D2]. exfalso. rewrite Nat.add_0_r in D1, D2.
           destruct (D2 (length pre) ltac:(lia)) as (y & Y1 & Y2). apply both_kept_iff in Y2.
           rewrite AA, nth_error_app1 in Y1 by (rewrite app_length; cbn; lia). congruence.
        -- rewrite AA. replace (length pre + Datatypes.S i)%nat with (length (pre ++ [x]) + i)%nat by (rewrite app_length; cbn; lia).
           apply M3, Hb.
Qed.

Lemma cut_correct mx l : 0 <= mx -> exists marks, length marks = length l /\ cut mx 0 l = pick marks l /\
  forall i b, nth_error marks i = Some b -> (b = false <-> deep mx l i).
Proof.
  intros H. destruct (cut_marks mx l H 0 []) as (m & M1 & M2 & M3); cbn in *; try lia.
  - intros j x Hj. destruct j; discriminate.
  - exists m. auto.
Qed.

Lemma cut_big mx l : forall u, 0 <= u -> u + Z.of_nat (length l) <= mx -> cut mx u l = l.
Proof.
  induction l as [|x l IH]; intros u U H; [reflexivity|]. cbn [length] in H. cbn [cut].
  replace (u <? mx) with true by (symmetry; apply Z.ltb_lt; lia).
  destruct (both_kept x); f_equal; apply IH; lia.
Qed.

(** ** The range *)
Lemma lead_spec l : forall i f, 0 <= f -> f <= Z.max 0 i -> 0 <= i ->
  0 <= lead l i f /\ lead l i f <= Z.max f (i + Z.of_nat (length l) - 1) /\
  (forall j x, nth_error l j = Some x -> both_kept x = false -> lead l i f <= i + Z.of_nat j).
Proof.
  induction l as [|x l IH]; intros i f F0 F1 I0; cbn [lead].
  - cbn. repeat split; try lia; intros [|j] y H; discriminate.
  - cbn [length]. destruct (both_kept x) eqn:B.
    + destruct (IH (i + 1) i ltac:(lia) ltac:(lia) ltac:(lia)) as (A1 & A2 & A3). repeat split; try lia.
      intros [|j] y H Hy; cbn in H; [congruence|]. specialize (A3 j y H Hy). lia.
    + repeat split; try lia.
Qed.
Lemma trail_spec l first high : forall i last, first <= last -> i <= last -> last <= high -> i <= high ->
  first <= trail l i first high last /\ trail l i first high last <= high /\
  (forall j x, nth_error l j = Some x -> both_kept x = false -> i - Z.of_nat j <= trail l i first high last).
Proof.
  induction l as [|x l IH]; intros i last H1 H2 H3 H4; cbn [trail].
  - repeat split; try lia.
  - destruct (first <? i) eqn:L; [apply Z.ltb_lt in L|apply Z.ltb_ge in L].
    + destruct (both_kept x) eqn:B.
      * destruct (IH (i - 1) i ltac:(lia) ltac:(lia) ltac:(lia) ltac:(lia)) as (A1 & A2 & A3). repeat split; try lia.
        intros [|j] y H Hy; cbn in H; [congruence|]. specialize (A3 j y H Hy). lia.
      * repeat split; try lia.
    + repeat split; try lia.
Qed.
Lemma range_spec c l : l <> [] -> exists a b, range c l = (Z.of_nat a, Z.of_nat b) /\ (a <= b < length l)%nat /\
  (forall i x, nth_error l i = Some x -> both_kept x = false -> (a <= i <= b)%nat) /\
  (drop_lead c = false -> a = 0%nat) /\ (drop_trail c = false -> b = (length l - 1)%nat).
Proof.
  intros Hl. assert (N : (0 < length l)%nat) by (destruct l; [congruence|cbn; lia]).
  unfold range.
  set (high := Z.of_nat (length l) - 1). set (f := if drop_lead c then lead l 0 0 else 0).
  assert (F : 0 <= f /\ f <= high /\ forall i x, nth_error l i = Some x -> both_kept x = false -> f <= Z.of_nat i).
  { subst f. destruct (drop_lead c).
    - destruct (lead_spec l 0 0 ltac:(lia) ltac:(lia) ltac:(lia)) as (A & B & C). split; [lia|]. split; [lia|].
      intros i x Hi Hx. specialize (C i x Hi Hx). lia.
    - repeat split; lia. }
  destruct F as (F1 & F2 & F3).
  set (t := if drop_trail c then trail (rev l) high f high high else high).
  assert (T : f <= t /\ t <= high /\ forall i x, nth_error l i = Some x -> both_kept x = false -> Z.of_nat i <= t).
  { subst t. destruct (drop_trail c).
    - destruct (trail_spec (rev l) f high high high ltac:(lia) ltac:(lia) ltac:(lia) ltac:(lia)) as (A & B & C). split; [lia|]. split; [lia|].
      intros i x Hi Hx. assert (I : (i < length l)%nat) by (apply nth_error_Some; congruence).
      specialize (C (length l - 1 - i)%nat x).
      rewrite nth_error_nth' with (d := x) in C by (rewrite rev_length; lia).
      rewrite rev_nth in C by lia. replace (length l - Datatypes.S (length l - 1 - i))%nat with i in C by lia.
      rewrite (nth_error_nth l i x Hi) in C. specialize (C eq_refl Hx). lia.
    - split; [lia|]. split; [lia|]. intros i x Hi _. assert (I : (i < length l)%nat) by (apply nth_error_Some; congruence). lia. }
  destruct T as (T1 & T2 & T3).
  exists (Z.to_nat f), (Z.to_nat t). split; [f_equal; lia|]. split; [lia|]. split.
  - intros i x Hi Hx. specialize (F3 i x Hi Hx). specialize (T3 i x Hi Hx). lia.
  - split; intros D; subst f t; rewrite D; lia.
Qed.

Section Format.
  Variable fl : bool -> kind -> Z -> list Z.
  Lemma texts_plain c l : max_l c = None -> max_r c = None ->
    texts fl c l = Ok (map (fun p => (text_of fl true (fst p), text_of fl false (snd p))) l).
  Proof.
    intros E1 E2. induction l as [|[x y] l IH]; [reflexivity|]. cbn [texts map fst snd]. rewrite E1, E2, IH. reflexivity.
  Qed.
  Lemma cell_at sel ts (x : item) i t : fst x = KNone \/ snd x = Z.of_nat i -> nth_error ts i = Some t ->
    cell sel ts x = Ok (if kind_eqb (fst x) KNone then [] else sel t).
  Proof.
    intros H E. unfold cell. destruct (kind_eqb (fst x) KNone) eqn:K; [reflexivity|].
    destruct H as [H|H]; [rewrite H in K; discriminate|]. rewrite H.
    assert ((i < length ts)%nat) by (apply nth_error_Some; congruence).
    replace (0 <=? Z.of_nat i) with true by (symmetry; apply Z.leb_le; lia).
    replace (Z.of_nat i <? Z.of_nat (length ts)) with true by (symmetry; apply Z.ltb_lt; lia).
    cbn [andb]. rewrite Nat2Z.id, E. reflexivity.
  Qed.
  Lemma rows_placed all ts lw rw : ts = map (fun p => (text_of fl true (fst p), text_of fl false (snd p))) all -> placed all ->
    forall l pre post, all = pre ++ l ++ post -> rows ts lw rw l = Ok (map (good_row fl lw rw) l).
  Proof.
    intros Ets P. induction l as [|[x y] l IH]; intros pre post E; [reflexivity|].
    assert (X : nth_error all (length pre) = Some (x, y)).
    { rewrite E, nth_error_app2 by lia. rewrite Nat.sub_diag. reflexivity. }
    destruct (P _ _ _ X) as [P1 P2].
    assert (TT : nth_error ts (length pre) = Some (text_of fl true x, text_of fl false y)).
    { rewrite Ets, nth_error_map, X. reflexivity. }
    cbn [rows map]. rewrite (cell_at fst ts x _ _ P1 TT), (cell_at snd ts y _ _ P2 TT). cbn [obind fst snd].
    rewrite (IH (pre ++ [(x, y)]) post) by (rewrite <- app_assoc; exact E). cbn [omap]. rewrite good_row_eq. reflexivity.
  Qed.
  Lemma format_placed c all : all <> [] -> max_l c = None -> max_r c = None -> placed all ->
    exists a b, range c all = (Z.of_nat a, Z.of_nat b) /\
      format fl c (Unified (map fst all) (map snd all)) =
      Ok (good_header (width fl true (min_l c) (map fst all))
        :: map (good_row fl (width fl true (min_l c) (map fst all)) (width fl false (min_r c) (map snd all)))
             (firstn (b - a + 1) (skipn a all))).
  Proof.
    intros N E1 E2 P. destruct (range_spec c all N) as (a & b & R & AB & _). exists a, b. split; [exact R|].
    unfold format. rewrite !map_length, Nat.eqb_refl. cbn [negb].
    assert (CC : combine (map fst all) (map snd all) = all).
    { clear. induction all as [|[x y] l IH]; [reflexivity|]. cbn. rewrite IH. reflexivity. }
    rewrite CC, (texts_plain c all E1 E2), R. cbn [obind].
    set (ts := map _ all).
    destruct ts as [|t0 ts0] eqn:ET; [subst ts; destruct all; [congruence|discriminate]|]. rewrite <- ET. clear t0 ts0 ET.
    replace (Z.to_nat (Z.of_nat b - Z.of_nat a + 1)) with (b - a + 1)%nat by lia. rewrite Nat2Z.id.
    assert (W1 : map fst ts = map (fun x => fl true (fst x) (snd x)) (map fst all)) by (subst ts; rewrite !map_map; reflexivity).
    assert (W2 : map snd ts = map (fun x => fl false (fst x) (snd x)) (map snd all)) by (subst ts; rewrite !map_map; reflexivity).
    rewrite W1, W2, !widest_longest.
    rewrite (rows_placed all ts _ _ eq_refl P _ (firstn a all) (skipn (b - a + 1) (skipn a all))).
    - reflexivity.
    - rewrite firstn_skipn, firstn_skipn. reflexivity.
  Qed.
End Format.

(** ** Stacked *)
Lemma stacked_sides c : side_by_side c = false -> forall l lb rb ll lr out,
  map snd (filter fst (group_loop c l lb rb ll lr out)) =
    map snd (filter fst out) ++ filter (changed_l c) (lb ++ map fst l) /\
  map snd (filter (fun d => negb (fst d)) (group_loop c l lb rb ll lr out)) =
    map snd (filter (fun d => negb (fst d)) out) ++ filter (changed_r c) (rb ++ map snd l).
Proof.
  intros S.
  assert (F1 : forall lb rb, map snd (filter fst (add_buffers c lb rb)) = filter (changed_l c) lb).
  { intros lb rb. unfold add_buffers. rewrite filter_app, map_app.
    replace (filter fst (map (fun x : item => (false, x)) (filter (changed_r c) rb))) with (@nil (bool * item)).
    2:{ induction (filter (changed_r c) rb); auto. }
    rewrite app_nil_r. induction (filter (changed_l c) lb) as [|z q IH]; [reflexivity|]. cbn. f_equal. exact IH. }
  assert (F2 : forall lb rb, map snd (filter (fun d : bool * item => negb (fst d)) (add_buffers c lb rb)) = filter (changed_r c) rb).
  { intros lb rb. unfold add_buffers. rewrite filter_app, map_app.
    replace (filter (fun d : bool * item => negb (fst d)) (map (fun x : item => (true, x)) (filter (changed_l c) lb))) with (@nil (bool * item)).
    2:{ induction (filter (changed_l c) lb); auto. }
    cbn [map app]. induction (filter (changed_r c) rb) as [|z q IH]; [reflexivity|]. cbn. f_equal. exact IH. }
  induction l as [|[x y] l IH]; intros lb rb ll lr out; cbn [group_loop map fst snd].
  - rewrite !filter_app, !map_app, F1, F2. cbn [filter]. rewrite !app_nil_r. auto.
  - destruct (negb (kind_eqb (fst x) (fst ll)) || negb (kind_eqb (fst y) (fst lr))).
    + destruct (IH [x] [y] x y (out ++ add_buffers c lb rb)) as [A B]. rewrite A, B.
      rewrite !filter_app, !map_app, F1, F2, <- !app_assoc. split; f_equal; f_equal; cbn; (destruct (changed_l c x) + destruct (changed_r c y)); reflexivity.
    + destruct (IH (lb ++ [x]) (rb ++ [y]) x y out) as [A B]. rewrite A, B, <- !app_assoc. split; reflexivity.
Qed.

Lemma limited_short mx t : Z.of_nat (length t) <= mx -> limited (Some mx) t = Throw.
Proof.
  intros H. unfold limited. rewrite Z.min_l by lia. rewrite Z.ltb_irrefl, andb_false_r. reflexivity.
Qed.
Lemma limited_long mx t : 0 <= mx < Z.of_nat (length t) -> limited (Some mx) t = Ok (firstn (Z.to_nat (mx + 1)) t).
Proof.
  intros H. unfold limited. rewrite Z.min_r by lia.
  replace (0 <? Z.of_nat (length t)) with true by (symmetry; apply Z.ltb_lt; lia).
  replace (0 <=? mx) with true by (symmetry; apply Z.leb_le; lia).
  replace (mx <? Z.of_nat (length t)) with true by (symmetry; apply Z.ltb_lt; lia). reflexivity.
Qed.
