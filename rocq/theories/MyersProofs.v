(** Myers diff: furthest-reaching points. *)
From Coq Require Import ZArith List Bool Lia.
From Verif Require Import Base DiffModel DiffSpec LevProofs.
Import ListNotations.
Local Open Scope Z_scope.

Section Myers.
Variables N M : Z.
Variable eq : Z -> Z -> bool.
Hypothesis HN : 0 <= N.
Hypothesis HM : 0 <= M.

(** Points of the (unbounded) edit grid reachable with [d] non-diagonal moves. *)
Inductive reach : Z -> Z -> Z -> Prop :=
| re_0 : reach 0 0 0
| re_right d x y : reach d x y -> reach (d + 1) (x + 1) y
| re_down d x y : reach d x y -> reach (d + 1) x (y + 1)
| re_diag d x y : reach d x y -> x < N -> y < M -> eq x y = true -> reach d (x + 1) (y + 1).

Lemma reach_bounds d x y : reach d x y ->
  0 <= x /\ 0 <= y /\ 0 <= d /\ - d <= x - y <= d /\ exists m, x - y = d - 2 * m.
Proof.
  induction 1 as [|d x y H IH|d x y H IH|d x y H IH]; [|destruct IH as (?&?&?&?&m&?)..].
  - repeat split; try lia. exists 0; lia.
  - repeat split; try lia. exists m; lia.
  - repeat split; try lia. exists (m + 1); lia.
  - repeat split; try lia. exists m; lia.
Qed.

Lemma reach_clamp d x y : reach d x y ->
  reach (d - Z.max 0 (x - N) - Z.max 0 (y - M)) (Z.min x N) (Z.min y M).
Proof.
  induction 1 as [|d x y H IH|d x y H IH|d x y H IH].
  - replace (Z.min 0 N) with 0 by lia. replace (Z.min 0 M) with 0 by lia.
    replace (0 - Z.max 0 (0 - N) - Z.max 0 (0 - M)) with 0 by lia. constructor.
  - destruct (Z_lt_le_dec x N).
    + apply re_right in IH.
      replace (Z.min (x + 1) N) with (Z.min x N + 1) by lia.
      replace (d + 1 - Z.max 0 (x + 1 - N) - Z.max 0 (y - M))
        with (d - Z.max 0 (x - N) - Z.max 0 (y - M) + 1) by lia. exact IH.
    + replace (Z.min (x + 1) N) with (Z.min x N) by lia.
      replace (d + 1 - Z.max 0 (x + 1 - N) - Z.max 0 (y - M))
        with (d - Z.max 0 (x - N) - Z.max 0 (y - M)) by lia. exact IH.
  - destruct (Z_lt_le_dec y M).
    + apply re_down in IH.
      replace (Z.min (y + 1) M) with (Z.min y M + 1) by lia.
      replace (d + 1 - Z.max 0 (x - N) - Z.max 0 (y + 1 - M))
        with (d - Z.max 0 (x - N) - Z.max 0 (y - M) + 1) by lia. exact IH.
    + replace (Z.min (y + 1) M) with (Z.min y M) by lia.
      replace (d + 1 - Z.max 0 (x - N) - Z.max 0 (y + 1 - M))
        with (d - Z.max 0 (x - N) - Z.max 0 (y - M)) by lia. exact IH.
  - replace (Z.min x N) with x in IH by lia. replace (Z.min y M) with y in IH by lia.
    replace (Z.min (x + 1) N) with (x + 1) by lia.
    replace (Z.min (y + 1) M) with (y + 1) by lia.
    replace (d - Z.max 0 (x + 1 - N) - Z.max 0 (y + 1 - M))
      with (d - Z.max 0 (x - N) - Z.max 0 (y - M)) by lia.
    apply re_diag; auto.
Qed.

Lemma reach_grid x y : 0 <= x -> 0 <= y -> reach (x + y) x y.
Proof.
  intros Hx Hy.
  assert (Hr : reach x x 0).
  { clear Hy. pattern x. apply natlike_ind; [constructor| |exact Hx].
    intros z Hz IH. unfold Z.succ. now apply re_right. }
  pattern y. apply natlike_ind; [now rewrite Z.add_0_r| |exact Hy].
  intros z Hz IH. unfold Z.succ. rewrite Z.add_assoc. now apply re_down.
Qed.

Lemma script_reach i j ops i' j' : script eq i j ops i' j' -> no_replace ops ->
  i' <= N -> j' <= M ->
  forall d, reach d i j -> reach (d + cost ops) i' j'.
Proof.
  induction 1 as [i j|i j ops i' j' E H IH|i j t ops i' j' H IH|i j s ops i' j' H IH|i j ops i' j' H IH];
    intros NR L1 L2 d R.
  - unfold cost; cbn [fold_right]. now rewrite Z.add_0_r.
  - change (cost (mkE Keep i j :: ops)) with (0 + cost ops).
    rewrite Z.add_0_l. assert (X := script_le _ _ _ _ _ _ H).
    apply IH; try lia. { intros e I; apply NR; now right. } apply re_diag; auto; lia.
  - change (cost (mkE Delete i t :: ops)) with (1 + cost ops). rewrite Z.add_assoc.
    apply IH; try lia. { intros e I; apply NR; now right. } now apply re_right.
  - change (cost (mkE Insert s j :: ops)) with (1 + cost ops). rewrite Z.add_assoc.
    apply IH; try lia. { intros e I; apply NR; now right. } now apply re_down.
  - exfalso. apply (NR (mkE Replace i j)); [now left|reflexivity].
Qed.

(** A history leading to a point inside the box. *)
Definition hist (d x y : Z) (h : list edit) : Prop :=
  x <= N -> y <= M -> script eq 0 0 h x y /\ cost h = d /\ no_replace h.

Lemma snoc_no_replace h e : no_replace h -> ekind e <> Replace -> no_replace (h ++ [e]).
Proof. intros A B x I. apply in_app_or in I as [I|[<-|[]]]; auto. Qed.

Lemma hist_keep d x y h : hist d x y h -> x < N -> y < M -> eq x y = true ->
  hist d (x + 1) (y + 1) (h ++ [mkE Keep x y]).
Proof.
  intros H Hx Hy E _ _. destruct H as (A & B & C); try lia. split; [|split].
  - apply script_app. exists x, y. split; auto. apply sc_keep; auto. constructor.
  - rewrite cost_app, B. cbn. lia.
  - apply snoc_no_replace; auto. discriminate.
Qed.

Lemma snake_ok fuel : forall d x y h, (Z.to_nat (N - x) < fuel)%nat ->
  reach d x y -> hist d x y h ->
  exists x' h', snake fuel N M eq x y h = Ok (x', x' - (x - y), h') /\ x <= x' /\
    reach d x' (x' - (x - y)) /\ hist d x' (x' - (x - y)) h' /\
    ~ (x' < N /\ x' - (x - y) < M /\ eq x' (x' - (x - y)) = true).
Proof.
  induction fuel as [|f IH]; intros d x y h Hf R H; [lia|]. cbn [snake].
  destruct (Z.ltb_spec x N); [|cbn [andb]].
  1: destruct (Z.ltb_spec y M); [|cbn [andb]].
  1: destruct (eq x y) eqn:E; cbn [andb].
  - destruct (IH d (x + 1) (y + 1) (h ++ [mkE Keep x y])) as (x' & h' & A & B & C & D & F).
    + lia.
    + now apply re_diag.
    + now apply hist_keep.
    + replace (x + 1 - (y + 1)) with (x - y) in * by lia.
      exists x', h'. split; [exact A|]. split; [lia|]. auto.
  - exists x, h. replace (x - (x - y)) with y by lia.
    split; [reflexivity|]. split; [lia|]. split; [auto|]. split; [auto|].
    intros (?&?&?); congruence.
  - exists x, h. replace (x - (x - y)) with y by lia.
    split; [reflexivity|]. split; [lia|]. split; [auto|]. split; [auto|]. lia.
  - exists x, h. replace (x - (x - y)) with y by lia.
    split; [reflexivity|]. split; [lia|]. split; [auto|]. split; [auto|]. lia.
Qed.

(** What is stored for a finished (distance, diagonal). *)
Definition best (d k : Z) (v : Z * list edit) : Prop :=
  reach d (fst v) (fst v - k) /\
  (forall x', reach d x' (x' - k) -> x' <= fst v) /\
  hist d (fst v) (fst v - k) (snd v) /\
  ~ (N <= fst v /\ M <= fst v - k).

Definition unreached (d : Z) : Prop := forall d', d' < d -> ~ reach d' N M.

Definition answer (d : Z) (h : list edit) : Prop :=
  script eq 0 0 h N M /\ cost h = d /\ no_replace h.

(** The part of a loop iteration after the start point is chosen. *)
Definition finish fuel (f : front) (k x : Z) (h : list edit) : outcome (list edit + front) :=
  obind (snake fuel N M eq x (x - k) h) (fun '(x', y', h'') =>
  if (N <=? x') && (M <=? y') then Ok (inl h'')
  else obind (fr_at (N + M) f k) (fun _ => Ok (inr (fr_set f k (x', h''))))).

Lemma finish_ok fuel f d k x h :
  (Z.to_nat N < fuel)%nat -> - (N + M) <= k <= N + M ->
  unreached d ->
  reach d x (x - k) -> hist d x (x - k) h ->
  (d = 0 -> k = 0 -> 0 <= x) ->
  (forall x0, reach (d - 1) x0 (x0 - (k - 1)) -> x0 + 1 <= x) ->
  (forall x0, reach (d - 1) x0 (x0 - (k + 1)) -> x0 <= x) ->
  (exists h', finish fuel f k x h = Ok (inl h') /\ answer d h') \/
  (exists v, finish fuel f k x h = Ok (inr (fr_set f k v)) /\ best d k v).
Proof.
  intros Hf Hk U R H H0 Hr Hd. unfold finish.
  assert (Bx := reach_bounds _ _ _ R).
  destruct (snake_ok fuel d x (x - k) h ltac:(lia) R H) as (x' & h' & S & Lx & R' & H' & Stop).
  rewrite S. cbn [obind]. replace (x - (x - k)) with k in * by lia.
  assert (Max : forall d1 x1 y1, reach d1 x1 y1 -> d1 = d -> x1 - y1 = k -> x1 <= x').
  { intros d1 x1 y1 Hre.
    induction Hre as [|d2 x2 y2 Hre IH|d2 x2 y2 Hre IH|d2 x2 y2 Hre IH Hx2 Hy2 He2]; intros Ed Ek.
    - specialize (H0 ltac:(lia) ltac:(lia)). lia.
    - specialize (Hr x2). replace (d - 1) with d2 in Hr by lia.
      replace (x2 - (k - 1)) with y2 in Hr by lia. specialize (Hr Hre). lia.
    - specialize (Hd x2). replace (d - 1) with d2 in Hd by lia.
      replace (x2 - (k + 1)) with y2 in Hd by lia. specialize (Hd Hre). lia.
    - specialize (IH Ed ltac:(lia)).
      destruct (Z.eq_dec x' x2) as [->|]; [|lia].
      exfalso; apply Stop. replace (x2 - k) with y2 by lia. auto. }
  destruct (Z.leb_spec N x'); [destruct (Z.leb_spec M (x' - k))|]; cbn [andb].
  - left. exists h'. split; [reflexivity|].
    assert (C := reach_clamp _ _ _ R').
    replace (Z.min x' N) with N in C by lia. replace (Z.min (x' - k) M) with M in C by lia.
    destruct (Z_lt_le_dec (d - Z.max 0 (x' - N) - Z.max 0 (x' - k - M)) d) as [Lt|Ge].
    { exfalso. exact (U _ Lt C). }
    assert (x' = N) by lia. assert (Ey : x' - k = M) by lia.
    rewrite Ey in H'. subst x'. apply H'; lia.
  - right. unfold fr_at. replace ((- (N + M) <=? k) && (k <=? N + M)) with true by lia. cbn [obind].
    exists (x', h'). split; [reflexivity|]. unfold best; cbn [fst snd].
    split; [auto|]. split; [|split; [auto|lia]].
    intros x1 R1. eapply Max; eauto; lia.
  - right. unfold fr_at. replace ((- (N + M) <=? k) && (k <=? N + M)) with true by lia. cbn [obind].
    exists (x', h'). split; [reflexivity|]. unfold best; cbn [fst snd].
    split; [auto|]. split; [|split; [auto|lia]].
    intros x1 R1. eapply Max; eauto; lia.
Qed.

Definition row (d : Z) (f : front) (lo hi : Z) : Prop :=
  forall k m, lo <= k < hi -> k = d - 2 * m -> best d k (f k).

Lemma step_ok fuel f d k m :
  (Z.to_nat N < fuel)%nat -> 1 <= d <= N + M -> - d <= k <= d -> k = d - 2 * m ->
  unreached d -> row (d - 1) f (- (d - 1)) (d - 1 + 1) ->
  (exists h', myers_step fuel N M eq f d k = Ok (inl h') /\ answer d h') \/
  (exists v, myers_step fuel N M eq f d k = Ok (inr (fr_set f k v)) /\ best d k v).
Proof.
  intros Hf Hd Hk Hm U Rw. unfold myers_step.
  assert (FA : forall k', - d <= k' <= d -> fr_at (N + M) f k' = Ok (f k')).
  { intros k' Hk'. unfold fr_at. now replace ((- (N + M) <=? k') && (k' <=? N + M)) with true by lia. }
  assert (Lo : k <> - d -> best (d - 1) (k - 1) (f (k - 1))).
  { intros. apply (Rw (k - 1) m); lia. }
  assert (Hi : k <> d -> best (d - 1) (k + 1) (f (k + 1))).
  { intros. apply (Rw (k + 1) (m - 1)); lia. }
  assert (NoLo : k = - d -> forall x0, ~ reach (d - 1) x0 (x0 - (k - 1))).
  { intros Ek x0 R0. apply reach_bounds in R0. lia. }
  assert (NoHi : k = d -> forall x0, ~ reach (d - 1) x0 (x0 - (k + 1))).
  { intros Ek x0 R0. apply reach_bounds in R0. lia. }
  assert (Down : k <> d ->
    (k <> - d -> fst (f (k - 1)) < fst (f (k + 1))) ->
    let x := fst (f (k + 1)) in let h := snd (f (k + 1)) in
    let y := x - k in
    let h' := if (1 <=? y) && (y <=? M) && true then h ++ [mkE Insert (-1) (y - 1)]
              else if (1 <=? x) && (x <=? N) then h ++ [mkE Delete (x - 1) (-1)] else h in
    (exists h0, finish fuel f k x h' = Ok (inl h0) /\ answer d h0) \/
    (exists v, finish fuel f k x h' = Ok (inr (fr_set f k v)) /\ best d k v)).
  { intros Nk Lt x h y h'. destruct (Hi Nk) as (R & Mx & Hs & _). fold x in R, Mx, Hs. fold h in Hs.
    apply finish_ok; auto; try lia.
    - apply re_down in R. replace (d - 1 + 1) with d in R by lia.
      replace (x - (k + 1) + 1) with (x - k) in R by lia. exact R.
    - intros Bx By. fold y in By. destruct Hs as (A & B & C); try lia.
      assert (Bo := reach_bounds _ _ _ R).
      unfold h'. replace ((1 <=? y) && (y <=? M) && true) with true by lia.
      fold y. split; [|split].
      + apply script_app. do 2 eexists; split; [exact A|].
        replace (x - (k + 1)) with (y - 1) by lia. apply sc_ins.
        replace (y - 1 + 1) with y by lia. constructor.
      + rewrite cost_app, B. cbn. lia.
      + apply snoc_no_replace; auto. discriminate.
    - intros x0 R0. destruct (Z.eq_dec k (- d)) as [E|E]; [now apply NoLo in R0|].
      destruct (Lo E) as (_ & Mx' & _). specialize (Mx' _ R0). specialize (Lt E). lia. }
  assert (Right : k <> - d ->
    (k <> d -> fst (f (k + 1)) <= fst (f (k - 1))) ->
    let x := fst (f (k - 1)) + 1 in let h := snd (f (k - 1)) in
    let y := x - k in
    let h' := if (1 <=? y) && (y <=? M) && false then h ++ [mkE Insert (-1) (y - 1)]
              else if (1 <=? x) && (x <=? N) then h ++ [mkE Delete (x - 1) (-1)] else h in
    (exists h0, finish fuel f k x h' = Ok (inl h0) /\ answer d h0) \/
    (exists v, finish fuel f k x h' = Ok (inr (fr_set f k v)) /\ best d k v)).
  { intros Nk Lt x h y h'. destruct (Lo Nk) as (R & Mx & Hs & _).
    set (p := fst (f (k - 1))) in *. fold h in Hs.
    apply finish_ok; auto; try lia.
    - apply re_right in R. replace (d - 1 + 1) with d in R by lia.
      replace (p - (k - 1)) with (p + 1 - k) in R by lia. exact R.
    - intros Bx By. fold y in By. destruct Hs as (A & B & C); try lia.
      assert (Bo := reach_bounds _ _ _ R).
      unfold h'. rewrite andb_false_r. replace ((1 <=? x) && (x <=? N)) with true by lia.
      fold y. split; [|split].
      + apply script_app. do 2 eexists; split; [exact A|].
        replace (p - (k - 1)) with y by lia.
        replace (x - 1) with p by lia. apply sc_del.
        replace (p + 1) with x by lia. constructor.
      + rewrite cost_app, B. cbn. lia.
      + apply snoc_no_replace; auto. discriminate.
    - intros x0 R0. specialize (Mx _ R0). lia.
    - intros x0 R0. destruct (Z.eq_dec k d) as [E|E]; [now apply NoHi in R0|].
      destruct (Hi E) as (_ & Mx' & _). specialize (Mx' _ R0). specialize (Lt E). lia. }
  destruct (Z.eqb_spec k (- d)) as [Ek|Ek].
  - cbn [obind]. rewrite FA by lia. destruct (f (k + 1)) as [x h] eqn:Ef. cbn [obind].
    cbn [fst snd] in Down. apply Down; lia.
  - destruct (Z.eqb_spec k d) as [Ek'|Ek'].
    + cbn [obind]. rewrite FA by lia. cbn [obind].
      apply Right; lia.
    + rewrite (FA (k - 1)), (FA (k + 1)) by lia. cbn [obind].
      destruct (Z.ltb_spec (fst (f (k - 1))) (fst (f (k + 1)))) as [L|L].
      * destruct (f (k + 1)) as [x h] eqn:Ef. cbn [obind].
        cbn [fst snd] in Down. apply Down; auto.
      * cbn [obind]. apply Right; lia.
Qed.

Lemma row_set d f k v lo hi : lo <= hi ->
  (forall m, k <> d - 2 * m) -> row d f lo hi -> row d (fr_set f k v) lo hi.
Proof.
  intros L Np R k' m B E. unfold fr_set. destruct (Z.eqb_spec k' k) as [->|]; [|eauto].
  exfalso; eapply Np; eauto.
Qed.

Lemma inner_ok fuel d : (Z.to_nat N < fuel)%nat -> 1 <= d <= N + M -> unreached d ->
  forall n f m, 
  Z.of_nat n = m + 1 -> d - 2 * m >= - d ->
  row (d - 1) f (- (d - 1)) (d - 1 + 1) -> row d f (- d) (d - 2 * m) ->
  (exists h, myers_inner n fuel N M eq f d (d - 2 * m) = Ok (inl h) /\ answer d h) \/
  (exists f', myers_inner n fuel N M eq f d (d - 2 * m) = Ok (inr f') /\ row d f' (- d) (d + 1)).
Proof.
  intros Hf Hd U. induction n as [|n IH]; intros f m En Ge Ro Rn.
  - right. exists f. split; [reflexivity|]. intros k m' B E. apply (Rn k m'); lia.
  - cbn [myers_inner].
    destruct (step_ok fuel f d (d - 2 * m) m Hf Hd ltac:(lia) eq_refl U Ro) as [(h & S & A)|(v & S & B)];
      rewrite S; cbn [obind]; [left; eauto|].
    replace (d - 2 * m + 2) with (d - 2 * (m - 1)) by lia.
    apply IH; try lia.
    + apply row_set; auto; lia.
    + intros k' m' B' E'. unfold fr_set. destruct (Z.eqb_spec k' (d - 2 * m)) as [->|Ne]; [exact B|].
      apply (Rn k' m'); lia.
Qed.

Lemma row_unreached d f : unreached d -> row d f (- d) (d + 1) -> unreached (d + 1).
Proof.
  intros U R d' L Hr. destruct (Z.eq_dec d' d) as [->|]; [|exact (U d' ltac:(lia) Hr)].
  assert (B := reach_bounds _ _ _ Hr). destruct B as (_ & _ & _ & B & m & E).
  destruct (R (N - M) m ltac:(lia) E) as (_ & Mx & _ & No).
  apply No. specialize (Mx N). replace (N - (N - M)) with M in Mx by lia. specialize (Mx Hr). lia.
Qed.

Lemma outer_ok fuel : (Z.to_nat N < fuel)%nat -> forall n f d,
  1 <= d -> Z.of_nat n = N + M - d + 1 -> 
  unreached d -> row (d - 1) f (- (d - 1)) (d - 1 + 1) ->
  exists h d', myers_outer n fuel N M eq f d = Ok h /\ answer d' h /\ unreached d'.
Proof.
  intros Hf. induction n as [|n IH]; intros f d Hd En U Ro.
  - exfalso. apply (U (N + M)); [lia|]. apply reach_grid; auto.
  - cbn [myers_outer].
    destruct (inner_ok fuel d Hf ltac:(lia) U (S (Z.to_nat d)) f d) as [(h & I & A)|(f' & I & R)];
      try lia; auto.
    + intros k m B. lia.
    + replace (d - 2 * d) with (- d) in I by lia. rewrite I. cbn [obind]. eauto.
    + replace (d - 2 * d) with (- d) in I by lia. rewrite I. cbn [obind].
      apply IH; try lia.
      * eapply row_unreached; eauto.
      * replace (d + 1 - 1) with d by lia. exact R.
Qed.

Lemma myers_run fuel : (Z.to_nat N < fuel)%nat ->
  exists h d, myers fuel N M eq = Ok h /\ answer d h /\ unreached d.
Proof.
  intros Hf. unfold myers.
  destruct (Z.eqb_spec N 0) as [EN|EN]; [destruct (Z.eqb_spec M 0) as [EM|EM]|]; cbn [andb].
  { exists [], 0. split; [reflexivity|]. split.
    - unfold answer. rewrite EN, EM. repeat split; [constructor|]. intros e [].
    - intros d' L R. apply reach_bounds in R. lia. }
  all: replace (S (Z.to_nat (N + M))) with (S (Z.to_nat (N + M - 1 + 1))) by lia;
    cbn [myers_outer];
    assert (U0 : unreached 0) by (intros d' L R; apply reach_bounds in R; lia);
    cbn [Z.to_nat myers_inner];
    assert (St : myers_step fuel N M eq (fun _ => (0, [])) 0 (- 0) = finish fuel (fun _ => (0, [])) 0 0 [])
    by (unfold myers_step, finish, fr_at; cbn [Z.opp Z.eqb Z.add obind];
        replace ((- (N + M) <=? 1) && (1 <=? N + M)) with true by lia;
        cbn [obind Z.sub Z.add Z.opp];
        replace (1 <=? 0) with false by lia; cbn [andb]; reflexivity);
    rewrite St;
    destruct (finish_ok fuel (fun _ => (0, [])) 0 0 0 []) as [(h' & F & A)|(v & F & B)]; auto; try lia;
    [ constructor
    | intros _ _; repeat split; [constructor|intros e []]
    | intros x0 R; apply reach_bounds in R; lia
    | intros x0 R; apply reach_bounds in R; lia
    | rewrite F; cbn [obind]; exists h', 0; auto
    | rewrite F; cbn [obind];
      assert (R0 : row 0 (fr_set (fun _ => (0, [])) 0 v) (- 0) (0 + 1))
        by (intros k m Bk Ek; assert (k = 0) as -> by lia; exact B);
      apply outer_ok; auto; try lia; apply (row_unreached 0 _ U0 R0) ].
Qed.
End Myers.

Lemma myers_correct (N M : Z) eq : 0 <= N -> 0 <= M ->
  exists fuel0, forall fuel, (fuel0 <= fuel)%nat ->
  exists ops, myers fuel N M eq = Ok ops /\ rewrites eq N M ops /\ no_replace ops /\
    forall ops', rewrites eq N M ops' -> no_replace ops' -> cost ops <= cost ops'.
Proof.
  intros HN HM. exists (S (Z.to_nat N)). intros fuel Hf.
  destruct (myers_run N M eq HN HM fuel ltac:(lia)) as (h & d & R & (A & B & C) & U).
  exists h. repeat split; auto. intros ops' S' NR. rewrite B.
  destruct (Z_lt_le_dec (cost ops') d) as [L|]; [|lia]. exfalso. apply (U _ L).
  apply (script_reach N M eq 0 0 ops' N M S' NR ltac:(lia) ltac:(lia) 0). constructor.
Qed.
