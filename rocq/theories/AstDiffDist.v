(** Proofs about the tables of distances and the matches that are read from them. *)
From Coq Require Import List Bool Arith ZArith Lia Permutation.
From Verif Require Import EagerModel EagerSpec EagerProofs AstDiffModel AstDiffSpec AstDiffTree AstDiffMap AstDiffZs.
Import ListNotations.

Lemma set2_same {B} (f : nat -> nat -> B) i j x : set_at2 f i j x i j = x.
Proof. unfold set_at2. rewrite !Nat.eqb_refl. reflexivity. Qed.
Lemma set2_other {B} (f : nat -> nat -> B) i j x a b : a <> i \/ b <> j -> set_at2 f i j x a b = f a b.
Proof. unfold set_at2. intros H. destruct (Nat.eqb_spec a i), (Nat.eqb_spec b j); cbn; try reflexivity. lia. Qed.

Section Dist.
Context {A : Type}.
Variables allowed equal : A -> A -> bool.
Variable ucost : A -> A -> Z.
Variable opts : options.
Variables src dst : list (@node A).
Variables s1 s2 : subtree.
(** Leftmost descendants that lie inside of each other *)
Definition shaped (s : subtree) : Prop := length (lmds s) = sub_size s /\ nest 0 (lmds s).
Hypothesis shape1 : shaped s1.
Hypothesis shape2 : shaped s2.
Lemma shaped_lmd s i : shaped s -> 0 < i <= sub_size s -> lmd_of s i = Some (lmd0 s i) /\ lmd0 s i < i /\ forall k, lmd0 s i < k -> k <= i -> lmd0 s i <= lmd0 s k.
Proof.
  intros [L N] B. unfold lmd0. destruct i as [|i]; [lia|]. cbn [lmd_of].
  destruct (nth_error (lmds s) i) as [m|] eqn:E; [|apply nth_error_None in E; lia]. destruct (N i m E) as [Q R]. split; [reflexivity|]. split; [lia|].
  intros k K1 K2. destruct k as [|k]; [lia|]. cbn [lmd_of]. destruct (nth_error (lmds s) k) as [m'|] eqn:E'; [|apply nth_error_None in E'; lia].
  apply (R k m'); [lia|lia|exact E'].
Qed.
Notation m1 := (lmd0 s1).
Notation m2 := (lmd0 s2).
Notation ucost_at := (update_cost allowed equal ucost src dst s1 s2).
Notation fdist := (forest_dist allowed equal ucost opts src dst s1 s2).

Section One.
Variables i j : nat.
Hypothesis bi : 0 < i <= sub_size s1.
Hypothesis bj : 0 < j <= sub_size s2.
Notation l1 := (m1 i).
Notation l2 := (m2 j).
Definition spans (a b : nat) : bool := (m1 a =? l1) && (m2 b =? l2).
Definition drop (fd : table) (a b : nat) : Z := Z.min (fd (Nat.pred a) b + del_cost opts) (fd a (Nat.pred b) + ins_cost opts).
(** What the place [a], [b] of the tables is *)
Definition eqn (fd td : table) (a b : nat) : Prop :=
  if a =? l1 then if b =? l2 then fd a b = 0%Z else fd a b = (fd a (Nat.pred b) + ins_cost opts)%Z
  else if b =? l2 then fd a b = (fd (Nat.pred a) b + del_cost opts)%Z
  else if spans a b then
    fd a b = (match ucost_at a b with Some u => Z.min (drop fd a b) (fd (Nat.pred a) (Nat.pred b) + u) | None => drop fd a b end) /\ td a b = fd a b
  else fd a b = Z.min (drop fd a b) (fd (m1 a) (m2 b) + td a b).
Lemma eqn_ext fd td fd' td' a b : l1 <= a <= i -> l2 <= b <= j -> (forall x y, x <= a -> y <= b -> fd' x y = fd x y) -> td' a b = td a b -> eqn fd td a b -> eqn fd' td' a b.
Proof.
  intros B1 B2 F T'. unfold eqn, drop. destruct (Nat.eqb_spec a l1), (Nat.eqb_spec b l2).
  - rewrite F by lia. auto.
  - rewrite !F by lia. auto.
  - rewrite !F by lia. auto.
  - assert (m1 a < a) by (apply (shaped_lmd s1 a shape1); lia). assert (m2 b < b) by (apply (shaped_lmd s2 b shape2); lia).
    rewrite T'. destruct (spans a b); rewrite !F by lia; auto.
Qed.
Variable td0 : table.
Definition inside (a b : nat) : Prop := l1 <= a <= i /\ l2 <= b <= j.
Definition inv (D : nat -> nat -> Prop) (t : table * table) : Prop :=
  (forall a b, inside a b -> D a b -> eqn (fst t) (snd t) a b) /\
  (forall a b, (l1 < a <= i /\ l2 < b <= j /\ spans a b = true) \/ snd t a b = td0 a b).
(** Done after the rows up to [p] and the row after it up to [q] *)
Definition done (p q a b : nat) : Prop := (a = l1 /\ (l1 < p \/ b <= q)) \/ (l1 < a <= p) \/ (a = S p /\ b <= q).
Definition rows (p a b : nat) : Prop := (a = l1 /\ (l1 < p \/ b = l2)) \/ (l1 < a <= p).
Lemma inv_impl (D E : nat -> nat -> Prop) t : (forall a b, inside a b -> E a b -> D a b) -> inv D t -> inv E t.
Proof. intros H [I1 I2]. split; [|exact I2]. intros a b IN X. apply I1; [exact IN|]. apply H; assumption. Qed.
Lemma row_start p t : l1 <= p -> S p <= i -> inv (rows p) t -> inv (done p l2) (set_at2 (fst t) (S p) l2 (fst t p l2 + del_cost opts)%Z, snd t).
Proof.
  intros P1 P2 [I1 I2]. split; [|exact I2]. cbn [fst snd]. intros a b [B1 B2] D.
  destruct (Nat.eq_dec a (S p)) as [->|N].
  - destruct D as [[D _]|[D|[_ D]]]; [lia|lia|]. assert (b = l2) by lia. subst b. unfold eqn.
    destruct (Nat.eqb_spec (S p) l1); [lia|]. rewrite Nat.eqb_refl, set2_same. cbn [Nat.pred]. rewrite set2_other by lia. reflexivity.
  - apply (eqn_ext (fst t) (snd t)); auto.
    + intros x y X Y. apply set2_other. unfold done in D. lia.
    + apply I1; [split; assumption|]. unfold done, rows in *. lia.
Qed.
Lemma cell_step p q t : l1 <= p -> S p <= i -> l2 <= q -> S q <= j -> inv (done p q) t ->
  inv (done p (S q)) (forest_cell allowed equal ucost opts src dst s1 s2 l1 l2 (set_at2 (fst t) l1 (S q) (fst t l1 q + ins_cost opts)%Z, snd t) (S p) (S q)).
Proof.
  intros P1 P2 Q1 Q2 I.
  (* the first row *)
  set (f1 := set_at2 (fst t) l1 (S q) (fst t l1 q + ins_cost opts)%Z).
  assert (I' : inv (fun a b => done p q a b \/ (a = l1 /\ b = S q)) (f1, snd t)).
  { destruct I as [I1 I2]. split; [|exact I2]. cbn [fst snd]. intros a b [B1 B2] D.
    destruct (Nat.eq_dec a l1) as [EA|NA]; [destruct (Nat.eq_dec b (S q)) as [EB|NB]|].
    - subst a b. unfold eqn. rewrite Nat.eqb_refl. destruct (Nat.eqb_spec (S q) l2); [lia|]. cbn [Nat.pred]. unfold f1. rewrite set2_same, set2_other by lia. reflexivity.
    - apply (eqn_ext (fst t) (snd t)); auto.
      + intros x y X Y. unfold f1. destruct (Nat.eq_dec x l1) as [->|]; [|apply set2_other; lia]. destruct (Nat.eq_dec y (S q)) as [->|]; [|apply set2_other; lia].
        rewrite set2_same. assert (R : eqn (fst t) (snd t) l1 (S q)) by (apply I1; [split; lia|unfold done in *; lia]).
        unfold eqn in R. rewrite Nat.eqb_refl in R. destruct (Nat.eqb_spec (S q) l2); [lia|]. cbn [Nat.pred] in R. lia.
      + apply I1; [split; lia|]. destruct D as [D|D]; [exact D|lia].
    - apply (eqn_ext (fst t) (snd t)); auto.
      + intros x y X Y. unfold f1. destruct (Nat.eq_dec x l1) as [->|]; [|apply set2_other; lia]. destruct (Nat.eq_dec y (S q)) as [->|]; [|apply set2_other; lia].
        rewrite set2_same. assert (R : eqn (fst t) (snd t) l1 (S q)) by (apply I1; [split; lia|unfold done in *; lia]).
        unfold eqn in R. rewrite Nat.eqb_refl in R. destruct (Nat.eqb_spec (S q) l2); [lia|]. cbn [Nat.pred] in R. lia.
      + apply I1; [split; lia|]. destruct D as [D|D]; [exact D|lia]. }
  (* the place itself *)
  clearbody f1. destruct I' as [I1 I2]. cbn [fst snd] in *. unfold forest_cell. cbn [Nat.pred].
  assert (SP : m1 (S p) < S p) by (apply (shaped_lmd s1 (S p) shape1); lia). assert (SQ : m2 (S q) < S q) by (apply (shaped_lmd s2 (S q) shape2); lia).
  assert (OLD : forall fd td a b, inside a b -> done p (S q) a b -> ~ (a = S p /\ b = S q) -> (forall x y, x <> S p \/ y <> S q -> fd x y = f1 x y) -> td a b = snd t a b -> eqn fd td a b).
  { intros fd td a b [B1 B2] D N F T'. apply (eqn_ext f1 (snd t)); auto.
    - intros x y X Y. apply F. unfold done in D. lia.
    - apply I1; [split; lia|]. unfold done in *. destruct (Nat.eq_dec b (S q)); [|left; lia]. lia. }
  fold (spans (S p) (S q)). destruct (spans (S p) (S q)) eqn:SPN.
  - split; cbn [fst snd].
    + intros a b IN D. destruct (Nat.eq_dec a (S p)) as [EA|NA]; [destruct (Nat.eq_dec b (S q)) as [EB|NB]|].
      * subst a b. unfold eqn. destruct (Nat.eqb_spec (S p) l1); [lia|]. destruct (Nat.eqb_spec (S q) l2); [lia|]. rewrite SPN, !set2_same. split; [|reflexivity].
        unfold drop. cbn [Nat.pred]. rewrite !set2_other by lia. reflexivity.
      * apply OLD; auto; [lia| |]; intros; apply set2_other; lia.
      * apply OLD; auto; [lia| |]; intros; apply set2_other; lia.
    + intros a b. destruct (Nat.eq_dec a (S p)) as [EA|NA]; [destruct (Nat.eq_dec b (S q)) as [EB|NB]|].
      * subst a b. left. split; [lia|]. split; [lia|exact SPN].
      * rewrite set2_other by lia. apply I2.
      * rewrite set2_other by lia. apply I2.
  - split; cbn [fst snd]; [|exact I2].
    intros a b IN D. destruct (Nat.eq_dec a (S p)) as [EA|NA]; [destruct (Nat.eq_dec b (S q)) as [EB|NB]|].
    + subst a b. unfold eqn. destruct (Nat.eqb_spec (S p) l1); [lia|]. destruct (Nat.eqb_spec (S q) l2); [lia|]. rewrite SPN, !set2_same.
      unfold drop. cbn [Nat.pred]. rewrite !set2_other by lia. reflexivity.
    + apply OLD; auto; [lia|]; intros; apply set2_other; lia.
    + apply OLD; auto; [lia|]; intros; apply set2_other; lia.
Qed.
Lemma row_loop p t n : l1 <= p -> S p <= i -> l2 + n <= j -> inv (done p l2) t ->
  inv (done p (l2 + n)) (fold_left (fun (t : table * table) (d2 : nat) =>
    let t2 := (set_at2 (fst t) l1 d2 (fst t l1 (Nat.pred d2) + ins_cost opts)%Z, snd t) in forest_cell allowed equal ucost opts src dst s1 s2 l1 l2 t2 (S p) d2) (seq (l2 + 1) n) t).
Proof.
  intros P1 P2. induction n as [|n IH]; intros L I.
  - rewrite Nat.add_0_r. exact I.
  - rewrite seq_S, fold_left_app. cbn [fold_left]. replace (l2 + 1 + n) with (S (l2 + n)) by lia. replace (l2 + S n) with (S (l2 + n)) by lia. cbn [Nat.pred]. cbn zeta.
    apply cell_step; try lia. apply IH; [lia|exact I].
Qed.
Lemma rows_loop t n : l1 + n <= i -> inv (rows l1) t ->
  inv (rows (l1 + n)) (fold_left (fun (t : table * table) (d1 : nat) =>
       let t1 := (set_at2 (fst t) d1 l2 (fst t (Nat.pred d1) l2 + del_cost opts)%Z, snd t) in
       fold_left (fun (t : table * table) (d2 : nat) =>
         let t2 := (set_at2 (fst t) l1 d2 (fst t l1 (Nat.pred d2) + ins_cost opts)%Z, snd t) in forest_cell allowed equal ucost opts src dst s1 s2 l1 l2 t2 d1 d2) (seq (l2 + 1) (j - l2)) t1)
    (seq (l1 + 1) n) t).
Proof.
  induction n as [|n IH]; intros L I.
  - rewrite Nat.add_0_r. exact I.
  - rewrite seq_S, fold_left_app. cbn [fold_left]. replace (l1 + 1 + n) with (S (l1 + n)) by lia. replace (l1 + S n) with (S (l1 + n)) by lia. cbn [Nat.pred]. cbn zeta.
    assert (LJ : l2 < j) by (apply (shaped_lmd s2 j shape2); lia).
    apply (inv_impl (done (l1 + n) (l2 + (j - l2)))).
    + intros a b [B1 B2] R. unfold done, rows in *. lia.
    + apply row_loop; try lia. apply row_start; try lia. apply IH; [lia|exact I].
Qed.
End One.
(** The tables after a pair of subtrees has been compared *)
Lemma forest_dist_eqn t i j : 0 < i <= sub_size s1 -> 0 < j <= sub_size s2 ->
  let t' := fdist t i j in
  (forall a b, m1 i <= a <= i -> m2 j <= b <= j -> eqn i j (fst t') (snd t') a b) /\
  (forall a b, (m1 i < a <= i /\ m2 j < b <= j /\ spans i j a b = true) \/ snd t' a b = snd t a b).
Proof.
  intros BI BJ t'. assert (LI : m1 i < i) by (apply (shaped_lmd s1 i shape1); lia). assert (LJ : m2 j < j) by (apply (shaped_lmd s2 j shape2); lia).
  destruct (rows_loop i j BI BJ (snd t) (set_at2 (fst t) (m1 i) (m2 j) 0%Z, snd t) (i - m1 i)) as [I1 I2]; [lia| |].
  - split; [|right; reflexivity]. cbn [fst snd]. intros a b [B1 B2] R. unfold rows in R. assert (a = m1 i /\ b = m2 j) as [-> ->] by lia.
    unfold eqn. rewrite !Nat.eqb_refl. apply set2_same.
  - subst t'. unfold forest_dist. split.
    + intros a b B1 B2. apply I1; [split; assumption|]. unfold rows. lia.
    + exact I2.
Qed.

(** * Reading the matches *)
Hypothesis del1 : del_cost opts = 1%Z.
Hypothesis ins1 : ins_cost opts = 1%Z.
Definition extent (p : nat * nat) : nat := (fst p - m1 (fst p)) + (snd p - m2 (snd p)).
Definition matchable (p : nat * nat) : Prop := possible allowed src dst (fst p) (snd p) = true.
Definition valid_pair (p : nat * nat) : Prop := 0 < fst p <= sub_size s1 /\ 0 < snd p <= sub_size s2.
Lemma trace_ok r c fd td : 0 < r <= sub_size s1 -> 0 < c <= sub_size s2 ->
  (forall a b, m1 r <= a <= r -> m2 c <= b <= c -> eqn r c fd td a b) ->
  forall n row col acc, m1 r <= row <= r -> m2 c <= col <= c -> row + col - m1 r - m2 c <= n ->
  exists ms ps, trace n s1 s2 fd r c (m1 r) (m2 c) row col acc = Some (ms ++ fst acc, ps ++ snd acc) /\
    Forall matchable ms /\ Forall valid_pair ps /\ Forall (fun p => extent p < extent (r, c)) ps /\
    list_sum (map extent ps) <= (row - m1 r) + (col - m2 c).
Proof.
  intros BR BC E. induction n as [|n IH]; intros row col acc B1 B2 L; cbn [trace].
  - destruct (_ || _) eqn:C; cbn [negb].
    + apply orb_true_iff in C as [C|C]; apply Nat.ltb_lt in C; lia.
    + exists [], []. destruct acc. repeat split; try constructor. cbn. lia.
  - destruct (_ || _) eqn:C; cbn [negb].
    2: { exists [], []. destruct acc. repeat split; try constructor. cbn. lia. }
    assert (GT : m1 r < row \/ m2 c < col) by (apply orb_true_iff in C as [C|C]; apply Nat.ltb_lt in C; lia). clear C.
    destruct ((m1 r <? row) && _) eqn:C1.
    { apply andb_true_iff in C1 as [C1 _]. apply Nat.ltb_lt in C1.
      destruct (IH (Nat.pred row) col acc) as (ms & ps & -> & M & V & X & S'); try lia. exists ms, ps. repeat split; auto. lia. }
    destruct ((m2 c <? col) && _) eqn:C2.
    { apply andb_true_iff in C2 as [C2 _]. apply Nat.ltb_lt in C2.
      destruct (IH row (Nat.pred col) acc) as (ms & ps & -> & M & V & X & S'); try lia. exists ms, ps. repeat split; auto. lia. }
    pose proof (E row col B1 B2) as EQ. unfold eqn in EQ.
    destruct (Nat.eqb_spec row (m1 r)) as [ER|NR].
    { destruct (Nat.eqb_spec col (m2 c)) as [EC|NC]; [lia|]. exfalso. rewrite ins1 in EQ.
      assert (X : (m2 c <? col) && Z.eqb (fd row (Nat.pred col) + 1) (fd row col) = true); [|congruence].
      apply andb_true_iff. split; [apply Nat.ltb_lt; lia|apply Z.eqb_eq; lia]. }
    destruct (Nat.eqb_spec col (m2 c)) as [EC|NC].
    { exfalso. rewrite del1 in EQ. assert (X : (m1 r <? row) && Z.eqb (fd (Nat.pred row) col + 1) (fd row col) = true); [|congruence].
      apply andb_true_iff. split; [apply Nat.ltb_lt; lia|apply Z.eqb_eq; lia]. }
    assert (N1 : (fd (Nat.pred row) col + 1)%Z <> fd row col).
    { intros X. apply andb_false_iff in C1 as [C1|C1]; [apply Nat.ltb_ge in C1; lia|apply Z.eqb_neq in C1; contradiction]. }
    assert (N2 : (fd row (Nat.pred col) + 1)%Z <> fd row col).
    { intros X. apply andb_false_iff in C2 as [C2|C2]; [apply Nat.ltb_ge in C2; lia|apply Z.eqb_neq in C2; contradiction]. }
    destruct (shaped_lmd s1 row shape1 ltac:(lia)) as (LR & LR2 & _). destruct (shaped_lmd s2 col shape2 ltac:(lia)) as (LC & LC2 & _). rewrite LR, LC.
    destruct (shaped_lmd s1 r shape1 ltac:(lia)) as (_ & _ & NR1). destruct (shaped_lmd s2 c shape2 ltac:(lia)) as (_ & _ & NC1).
    specialize (NR1 row ltac:(lia) ltac:(lia)). specialize (NC1 col ltac:(lia) ltac:(lia)). unfold spans in EQ.
    destruct ((m1 row =? m1 r) && (m2 col =? m2 c)) eqn:SP.
    + destruct EQ as [EQ _]. unfold drop in EQ. rewrite del1, ins1 in EQ. unfold update_cost in EQ.
      destruct (id_in_root s1 row) as [a|] eqn:IA.
      2: { exfalso. lia. }
      destruct (id_in_root s2 col) as [b|] eqn:IB; [|exfalso; lia].
      destruct (negb (possible allowed src dst a b)) eqn:PO; [exfalso; lia|]. apply negb_false_iff in PO.
      destruct (IH (Nat.pred row) (Nat.pred col) ((a, b) :: fst acc, snd acc)) as (ms & ps & -> & M & V & X & S'); try lia.
      exists (ms ++ [(a, b)]), ps. cbn [fst snd]. rewrite <- app_assoc. cbn [app]. split; [reflexivity|]. split; [apply Forall_app; split; [exact M|constructor; [exact PO|constructor]]|].
      split; [exact V|]. split; [exact X|]. lia.
    + assert (NS : m1 r < m1 row \/ m2 c < m2 col).
      { apply andb_false_iff in SP as [SP|SP]; apply Nat.eqb_neq in SP; lia. }
      destruct (IH (m1 row) (m2 col) (fst acc, (row, col) :: snd acc)) as (ms & ps & -> & M & V & X & S'); try lia.
      exists ms, (ps ++ [(row, col)]). cbn [fst snd]. rewrite <- app_assoc. cbn [app]. split; [reflexivity|]. split; [exact M|].
      split; [apply Forall_app; split; [exact V|constructor; [unfold valid_pair; cbn [fst snd]; lia|constructor]]|].
      split; [apply Forall_app; split; [exact X|constructor; [unfold extent; cbn [fst snd]; lia|constructor]]|].
      rewrite map_app, list_sum_app. unfold extent at 2. cbn [map list_sum fold_right fst snd]. lia.
Qed.
Definition work (ps : list (nat * nat)) : nat := list_sum (map (fun p => extent p * extent p) ps).
Lemma work_less ps z : Forall (fun p => extent p < z) ps -> list_sum (map extent ps) <= z -> 0 < z -> work ps < z * z.
Proof.
  intros F S' Z0. assert (G : work ps <= (z - 1) * list_sum (map extent ps)).
  { clear S'. unfold work. induction F as [|p r P F IH]; [cbn; lia|]. cbn [map].
    change (list_sum (extent p * extent p :: map (fun p => extent p * extent p) r)) with (extent p * extent p + list_sum (map (fun p => extent p * extent p) r)).
    change (list_sum (extent p :: map extent r)) with (extent p + list_sum (map extent r)). nia. }
  nia.
Qed.
Lemma work_app ps qs : work (ps ++ qs) = work ps + work qs.
Proof. unfold work. rewrite map_app, list_sum_app. reflexivity. Qed.
Notation ploop := (pairs_loop allowed equal ucost opts src dst).
Lemma pairs_ok n : forall t again pairs matches, Forall valid_pair pairs -> Forall matchable matches -> work pairs <= n ->
  (again = false -> match pairs with (r, c) :: _ => forall a b, m1 r <= a <= r -> m2 c <= b <= c -> eqn r c (fst t) (snd t) a b | [] => True end) ->
  exists ms, ploop n s1 s2 t again pairs matches = Some ms /\ Forall matchable ms.
Proof.
  induction n as [|n IH]; intros t again pairs matches V M W E; destruct pairs as [|[r c] rest]; cbn [pairs_loop].
  - exists (rev matches). split; [reflexivity|]. apply Forall_rev. exact M.
  - exfalso. inversion V as [|? ? VP _]. subst. destruct VP as [VR VC]. cbn [fst snd] in VR, VC.
    assert (m1 r < r) by (apply (shaped_lmd s1 r shape1); lia). unfold work in W. cbn [map list_sum fold_right] in W. unfold extent in W. cbn [fst snd] in W. nia.
  - exists (rev matches). split; [reflexivity|]. apply Forall_rev. exact M.
  - inversion V as [|? ? VP V']. subst. destruct VP as [VR VC]. cbn [fst snd] in VR, VC.
    destruct (shaped_lmd s1 r shape1 VR) as (-> & LR & _). destruct (shaped_lmd s2 c shape2 VC) as (-> & LC & _).
    set (t' := if again then _ else t).
    assert (EQ : forall a b, m1 r <= a <= r -> m2 c <= b <= c -> eqn r c (fst t') (snd t') a b).
    { subst t'. destruct again; [apply forest_dist_eqn; assumption|apply E; reflexivity]. }
    destruct (trace_ok r c (fst t') (snd t') VR VC EQ (r + c) r c (matches, rest)) as (ms & ps & -> & M' & V2 & X & S'); try lia. cbn [fst snd].
    apply IH.
    + apply Forall_app. split; assumption.
    + apply Forall_app. split; assumption.
    + rewrite work_app. assert (WL : work ps < extent (r, c) * extent (r, c)) by (apply work_less; [exact X|exact S'|unfold extent; cbn [fst snd]; lia]).
      unfold work at 1 in W. cbn [map] in W. change (list_sum (extent (r, c) * extent (r, c) :: map (fun p => extent p * extent p) rest)) with (extent (r, c) * extent (r, c) + work rest) in W. lia.
    + discriminate.
Qed.
Lemma key_last (s : subtree) : length (lmds s) = sub_size s -> 0 < sub_size s -> exists l, key_roots s = l ++ [sub_size s].
Proof.
  intros L P. unfold key_roots. destruct (sub_size s) as [|k] eqn:E; [lia|]. cbn [key_loop].
  destruct (nth_error (lmds s) k) as [m|] eqn:N; [|apply nth_error_None in N; lia]. cbn [mem existsb].
  assert (G : forall i v acc, exists l, key_loop s i v (acc ++ [S k]) = l ++ [S k]).
  { clear. induction i as [|i IH]; intros v acc; cbn [key_loop]; [eauto|]. destruct (nth_error (lmds s) i); [|eauto]. destruct (mem n v); [apply IH|].
    apply (IH (n :: v) (S i :: acc)). }
  exact (G k [m] []).
Qed.
Lemma matching_ok : 0 < sub_size s1 -> 0 < sub_size s2 -> exists ms, matching_nodes allowed equal ucost opts src dst s1 s2 = Some ms /\ Forall matchable ms.
Proof.
  intros P1 P2. unfold matching_nodes. apply pairs_ok.
  - constructor; [|constructor]. unfold valid_pair. cbn. lia.
  - constructor.
  - unfold work. cbn [map list_sum fold_right]. unfold extent. cbn [fst snd]. nia.
  - intros _. unfold tree_dist. destruct (key_last s1 (proj1 shape1) P1) as (k1 & ->). destruct (key_last s2 (proj1 shape2) P2) as (k2 & ->).
    rewrite !fold_left_app. cbn [fold_left]. rewrite !fold_left_app. cbn [fold_left]. apply forest_dist_eqn; lia.
Qed.
End Dist.

(** * From the leaves *)
Section Bottom.
Context {A : Type}.
Variables allowed equal : A -> A -> bool.
Variable ucost : A -> A -> Z.
Variable opts : options.
Hypothesis del1 : del_cost opts = 1%Z.
Hypothesis ins1 : ins_cost opts = 1%Z.
Variables s d : tree A.
Notation src := (from_node s).
Notation dst := (from_node d).
Lemma subtree_shaped (t : tree A) i : i < count t -> shaped (subtree_of (from_node t) i) /\ 0 < sub_size (subtree_of (from_node t) i).
Proof.
  intros L. destruct (nth_error (nodes t) i) as [u|] eqn:U; [|apply nth_error_None in U; unfold count in L; lia].
  rewrite (subtree_lmds t i u U). unfold shaped, sub_size. cbn [root_ids lmds]. rewrite post_length, lms_length. split; [|apply count_pos]. split; [reflexivity|apply lms_nest].
Qed.
Lemma add_optimal_good m i j : good allowed s d m -> i < count s -> j < count d -> exists m', add_optimal allowed equal ucost opts src dst m i j = Some m' /\ good allowed s d m'.
Proof.
  intros G I J. unfold add_optimal. destruct (_ <? _); [eauto|].
  destruct (subtree_shaped s i I) as [S1 P1]. destruct (subtree_shaped d j J) as [S2 P2].
  destruct (matching_ok allowed equal ucost opts src dst _ _ S1 S2 del1 ins1 P1 P2) as (ms & -> & M). eexists. split; [reflexivity|].
  revert m G. induction M as [|[a b] r P M IH]; intros m G; [exact G|]. cbn [fold_left]. apply IH. cbn [fst snd].
  unfold has_src, has_dst. destruct (get_dst m a) eqn:DA; [exact G|]. destruct (get_src m b) eqn:SB; [exact G|]. cbn. apply good_link; assumption.
Qed.
Lemma candidate_ok m i j : find_candidate allowed opts src dst m i = Some j -> possible allowed src dst i j = true /\ get_src m j = None.
Proof.
  unfold find_candidate.
  assert (G : forall l st, (forall j, fst st = Some j -> possible allowed src dst i j = true /\ get_src m j = None) ->
    forall j, fst (fold_left (candidate_step allowed opts src dst m i) l st) = Some j -> possible allowed src dst i j = true /\ get_src m j = None).
  { clear. induction l as [|x r IH]; intros st H j; [apply H|]. cbn [fold_left]. apply IH. clear j. intros j. unfold candidate_step.
    destruct (possible allowed src dst i x) eqn:P; cbn [negb]; [|apply H]. destruct (has_dst m x) eqn:D; [apply H|].
    destruct (similarity src dst m i x) as [n e]. destruct (snd st) as [hn hd]. destruct (_ && _); [|apply H]. intros [= <-]. split; [exact P|].
    unfold has_dst in D. destruct (get_src m x); [discriminate|reflexivity]. }
  apply G. discriminate.
Qed.
Lemma bottom_up_good order : forall m, good allowed s d m -> (forall i, In i order -> i < count s) -> exists m', bottom_up allowed equal ucost opts src dst order m = Some m' /\ good allowed s d m'.
Proof.
  induction order as [|i r IH]; intros m G V; cbn [bottom_up]; [eauto|].
  destruct ((i =? 0) && _ && _) eqn:C.
  - destruct (possible allowed src dst 0 0) eqn:P; [|eauto]. apply andb_true_iff in C as [C H2]. apply andb_true_iff in C as [_ H1].
    apply add_optimal_good; [|apply count_pos|apply count_pos]. unfold has_src, has_dst in *. destruct (get_dst m 0) eqn:D; [discriminate|]. destruct (get_src m 0) eqn:S'; [discriminate|].
    apply good_link; assumption.
  - destruct (_ || _) eqn:H; [apply IH; [exact G|intros x X; apply V; right; exact X]|]. apply orb_false_iff in H as [H _].
    destruct (find_candidate allowed opts src dst m i) as [j|] eqn:F; [|apply IH; [exact G|intros x X; apply V; right; exact X]].
    apply candidate_ok in F as [P S']. destruct (possible_range allowed s d i j P) as [BI BJ].
    destruct (add_optimal_good (link m i j) i j) as (m' & -> & G'); [|exact BI|exact BJ|].
    + apply good_link; auto. unfold has_src in H. destruct (get_dst m i); [discriminate|reflexivity].
    + apply IH; [exact G'|]. intros x X. apply V. right. exact X.
Qed.
Lemma compute_good : exists m, compute_mapping allowed equal ucost opts src dst = Some m /\ good allowed s d m.
Proof.
  unfold compute_mapping. destruct (match_top_down_good allowed equal s d opts) as (m0 & E0 & G0). rewrite E0.
  assert (X : exists m, (if greedy opts then Some no_mapping else Some m0) = Some m /\ good allowed s d m).
  { destruct (greedy opts); [exists no_mapping; split; [reflexivity|apply good_none]|eauto]. }
  destruct X as (m & -> & G). destruct (stop_after_top_down opts); [eauto|]. apply bottom_up_good; [exact G|].
  intros i I. rewrite (postorder_post s _ 0 s (nodes_head s) (tall_size s 0 s (nodes_head s))) in I.
  apply (Permutation_in _ (post_perm s 0)) in I. apply in_seq in I. lia.
Qed.
End Bottom.
