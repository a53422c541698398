(** Edit scripts and the Levenshtein table. *)
From Coq Require Import ZArith List Bool Lia.
From Verif Require Import Base DiffModel DiffSpec.
Import ListNotations.
Local Open Scope Z_scope.

Lemma script_app eq i j a b i' j' :
  script eq i j (a ++ b) i' j' <->
  exists m n, script eq i j a m n /\ script eq m n b i' j'.
Proof.
  split.
  - revert i j; induction a as [|e a IH]; cbn [app]; intros i j H.
    + exists i, j; split; [constructor|exact H].
    + inversion H; subst;
        match goal with h : script _ _ _ (a ++ b) _ _ |- _ => apply IH in h as (m & n & A & B) end;
        exists m, n; split; auto; constructor; auto.
  - intros (m & n & A & B). induction A; cbn [app]; auto; constructor; auto.
Qed.

Lemma script_le eq i j ops i' j' : script eq i j ops i' j' -> i <= i' /\ j <= j'.
Proof. induction 1; lia. Qed.

Lemma cost_app a b : cost (a ++ b) = cost a + cost b.
Proof. induction a as [|e a IH]; cbn [app]; [reflexivity|].
  change (op_cost e + cost (a ++ b) = op_cost e + cost a + cost b). lia. Qed.

Lemma cost_nonneg ops : 0 <= cost ops.
Proof.
  induction ops as [|e ops IH]; [reflexivity|].
  change (0 <= op_cost e + cost ops). unfold op_cost; destruct (ekind e); lia.
Qed.

Section Lev.
Variable eq : Z -> Z -> bool.
Notation T := (lev_table eq).

Lemma T_0r r : T 0 r = Z.of_nat r.
Proof. reflexivity. Qed.
Lemma T_l0 l : T l 0 = Z.of_nat l.
Proof. destruct l; reflexivity. Qed.
Lemma T_SS l r : T (S l) (S r) =
  if eq (Z.of_nat l) (Z.of_nat r) then T l r
  else Z.min (Z.min (T l (S r)) (T (S l) r)) (T l r) + 1.
Proof. reflexivity. Qed.

Lemma T_lipschitz n : forall l r, (l + r <= n)%nat ->
  T l (S r) <= T l r + 1 /\ T l r <= T l (S r) + 1 /\
  T (S l) r <= T l r + 1 /\ T l r <= T (S l) r + 1.
Proof.
  induction n as [|n IH]; intros l r Hn.
  - assert (l = 0 /\ r = 0)%nat as [-> ->] by lia. cbn; lia.
  - destruct l as [|l], r as [|r].
    + cbn; lia.
    + assert (I := IH 0%nat r ltac:(lia)).
      assert (E0 := T_0r r). assert (E1 := T_0r (S r)). assert (E2 := T_0r (S (S r))).
      assert (E3 := T_SS 0 r).
      destruct (eq (Z.of_nat 0) (Z.of_nat r)); lia.
    + assert (I := IH l 0%nat ltac:(lia)).
      assert (E0 := T_l0 l). assert (E1 := T_l0 (S l)). assert (E2 := T_l0 (S (S l))).
      assert (E3 := T_SS l 0).
      destruct (eq (Z.of_nat l) (Z.of_nat 0)); lia.
    + assert (I1 := IH l r ltac:(lia)).
      assert (I2 := IH (S l) r ltac:(lia)).
      assert (I3 := IH l (S r) ltac:(lia)).
      rewrite (T_SS l (S r)), (T_SS (S l) r).
      destruct (eq (Z.of_nat l) (Z.of_nat (S r))), (eq (Z.of_nat (S l)) (Z.of_nat r)); lia.
Qed.

Lemma T_lip l r :
  T l (S r) <= T l r + 1 /\ T l r <= T l (S r) + 1 /\
  T (S l) r <= T l r + 1 /\ T l r <= T (S l) r + 1.
Proof. apply (T_lipschitz (l + r)); lia. Qed.

(** Lower bound: no script is cheaper than the table entry. *)
Lemma T_lower ops : forall l r,
  script eq 0 0 ops (Z.of_nat l) (Z.of_nat r) -> T l r <= cost ops.
Proof.
  induction ops as [|e ops IH] using rev_ind; intros l r H.
  - inversion H; subst. assert (l = 0 /\ r = 0)%nat as [-> ->] by lia. cbn; lia.
  - apply script_app in H as (m & n & A & B). rewrite cost_app.
    assert (L := script_le _ _ _ _ _ _ A).
    inversion B; subst;
      match goal with h : script _ _ _ [] _ _ |- _ => inversion h; subst; clear h end;
      cbn [cost fold_right op_cost ekind].
    + destruct l as [|l]; [lia|]; destruct r as [|r]; [lia|].
      assert (m = Z.of_nat l) as -> by lia. assert (n = Z.of_nat r) as -> by lia.
      specialize (IH _ _ A). rewrite T_SS. unfold op_cost; cbn [ekind].
      match goal with h : eq _ _ = true |- _ => rewrite h end. lia.
    + destruct l as [|l]; [lia|].
      assert (m = Z.of_nat l) as -> by lia.
      specialize (IH _ _ A). assert (X := T_lip l r). unfold op_cost; cbn [ekind]. lia.
    + destruct r as [|r]; [lia|].
      assert (n = Z.of_nat r) as -> by lia.
      specialize (IH _ _ A). assert (X := T_lip l r). unfold op_cost; cbn [ekind]. lia.
    + destruct l as [|l]; [lia|]; destruct r as [|r]; [lia|].
      assert (m = Z.of_nat l) as -> by lia. assert (n = Z.of_nat r) as -> by lia.
      specialize (IH _ _ A). rewrite T_SS. unfold op_cost; cbn [ekind].
      destruct (eq _ _); lia.
Qed.

Lemma lev_ops_snoc p last a b :
  lev_ops eq last (p ++ [a; b]) = lev_ops eq last (p ++ [a]) ++ [lev_op eq a b].
Proof.
  revert last; induction p as [|x p IH]; intros last; cbn [app lev_ops]; [reflexivity|].
  now rewrite IH.
Qed.

(** One step of the back-trace. *)
Lemma lev_path_step l r : (l <> 0 \/ r <> 0)%nat ->
  exists l' r', lev_path eq l r = (Z.of_nat l', Z.of_nat r') /\ (l' + r' < l + r)%nat /\
    exists e, lev_op eq (Z.of_nat l', Z.of_nat r') (Z.of_nat l, Z.of_nat r) = e /\
    script eq (Z.of_nat l') (Z.of_nat r') [e] (Z.of_nat l) (Z.of_nat r) /\
    T l r = T l' r' + op_cost e.
Proof.
  intros H. destruct l as [|l], r as [|r]; [lia|..].
  - exists 0%nat, r. split; [cbn [lev_path]; f_equal; lia|]. split; [lia|].
    eexists; split; [reflexivity|]. unfold lev_op; cbn [fst snd].
    replace (Z.of_nat 0 =? Z.of_nat 0 + 1) with false by lia. cbn [andb].
    replace (Z.of_nat 0 =? Z.of_nat 0) with true by lia.
    replace (Z.of_nat (S r) =? Z.of_nat r + 1) with true by lia. cbn [andb].
    split.
    + replace (Z.of_nat (S r) - 1) with (Z.of_nat r) by lia.
      apply sc_ins. replace (Z.of_nat r + 1) with (Z.of_nat (S r)) by lia. constructor.
    + unfold op_cost; cbn [ekind]. assert (X := T_0r r). assert (Y := T_0r (S r)). lia.
  - exists l, 0%nat. split; [cbn [lev_path]; f_equal; lia|]. split; [lia|].
    eexists; split; [reflexivity|]. unfold lev_op; cbn [fst snd].
    replace (Z.of_nat (S l) =? Z.of_nat l + 1) with true by lia.
    replace (Z.of_nat 0 =? Z.of_nat 0 + 1) with false by lia. cbn [andb].
    replace (Z.of_nat (S l) =? Z.of_nat l) with false by lia. cbn [andb].
    replace (Z.of_nat 0 =? Z.of_nat 0) with true by lia. cbn [andb].
    split.
    + replace (Z.of_nat (S l) - 1) with (Z.of_nat l) by lia.
      apply sc_del. replace (Z.of_nat l + 1) with (Z.of_nat (S l)) by lia. constructor.
    + unfold op_cost; cbn [ekind]. assert (X := T_l0 l). assert (Y := T_l0 (S l)). lia.
  - cbn [lev_path].
    assert (Hdel : forall t, script eq (Z.of_nat l) (Z.of_nat (S r))
                     [mkE Delete (Z.of_nat l) t] (Z.of_nat (S l)) (Z.of_nat (S r))).
    { intros t. apply sc_del. replace (Z.of_nat l + 1) with (Z.of_nat (S l)) by lia. constructor. }
    assert (Hins : forall s, script eq (Z.of_nat (S l)) (Z.of_nat r)
                     [mkE Insert s (Z.of_nat r)] (Z.of_nat (S l)) (Z.of_nat (S r))).
    { intros t. apply sc_ins. replace (Z.of_nat r + 1) with (Z.of_nat (S r)) by lia. constructor. }
    assert (E1 : Z.of_nat (S l) - 1 = Z.of_nat l) by lia.
    assert (E2 : Z.of_nat (S r) - 1 = Z.of_nat r) by lia.
    assert (Hdiag : script eq (Z.of_nat (S l)) (Z.of_nat (S r)) [] (Z.of_nat (S l)) (Z.of_nat (S r)))
      by constructor.
    assert (Hdi : script eq (Z.of_nat l + 1) (Z.of_nat r + 1) [] (Z.of_nat (S l)) (Z.of_nat (S r))).
    { replace (Z.of_nat l + 1) with (Z.of_nat (S l)) by lia.
      replace (Z.of_nat r + 1) with (Z.of_nat (S r)) by lia. constructor. }
    unfold lev_op; cbn [fst snd]. rewrite !Nat2Z.id, E1, E2.
    destruct (eq (Z.of_nat l) (Z.of_nat r)) eqn:Eq.
    + exists l, r. split; [reflexivity|]. split; [lia|]. eexists; split; [reflexivity|].
      rewrite !Nat2Z.id, T_SS, Eq.
      rewrite Z.eqb_refl. cbn [negb]. rewrite andb_false_r.
      replace (Z.of_nat (S l) =? Z.of_nat l) with false by lia. cbn [andb].
      replace (Z.of_nat (S r) =? Z.of_nat r) with false by lia. rewrite andb_false_r.
      split; [apply sc_keep; assumption|]. unfold op_cost; cbn [ekind]; lia.
    + set (m := Z.min (Z.min (T l (S r)) (T (S l) r)) (T l r)) in *.
      assert (TS : T (S l) (S r) = m + 1) by (rewrite T_SS, Eq; reflexivity).
      destruct (Z.eqb_spec (T l (S r)) m) as [Em|Em].
      * exists l, (S r). split; [reflexivity|]. split; [lia|]. eexists; split; [reflexivity|].
        replace (Z.of_nat (S l) =? Z.of_nat l + 1) with true by lia.
        replace (Z.of_nat (S r) =? Z.of_nat (S r) + 1) with false by lia. cbn [andb].
        replace (Z.of_nat (S l) =? Z.of_nat l) with false by lia. cbn [andb].
        rewrite Z.eqb_refl. split; [apply Hdel|]. unfold op_cost; cbn [ekind]. lia.
      * destruct (Z.eqb_spec (T (S l) r) m) as [Em'|Em'].
        { exists (S l), r. split; [reflexivity|]. split; [lia|]. eexists; split; [reflexivity|].
          replace (Z.of_nat (S l) =? Z.of_nat (S l) + 1) with false by lia. cbn [andb].
          rewrite Z.eqb_refl. replace (Z.of_nat (S r) =? Z.of_nat r + 1) with true by lia. cbn [andb].
          split; [apply Hins|]. unfold op_cost; cbn [ekind]. lia. }
        destruct (Z.eqb_spec (T l r) m) as [Em''|Em'']; [|lia].
        exists l, r. split; [reflexivity|]. split; [lia|]. eexists; split; [reflexivity|].
        rewrite !Nat2Z.id.
        replace (Z.of_nat (S l) =? Z.of_nat l + 1) with true by lia.
        replace (Z.of_nat (S r) =? Z.of_nat r + 1) with true by lia.
        replace (T (S l) (S r) =? T l r) with false by lia. cbn [andb negb].
        split; [apply sc_rep; assumption|]. unfold op_cost; cbn [ekind]. lia.
Qed.

(** The inner loop, from any cell. *)
Lemma lev_inner_ok fuel : forall l r, (l + r + 2 <= fuel)%nat ->
  exists p, lev_inner fuel eq (Z.of_nat l) (Z.of_nat r) = Ok (p, (0, -1)) /\
    exists q, rev p = (0, 0) :: q /\ last (rev p) (0, 0) = (Z.of_nat l, Z.of_nat r) /\
    script eq 0 0 (lev_ops eq (0, 0) q) (Z.of_nat l) (Z.of_nat r) /\
    cost (lev_ops eq (0, 0) q) = T l r.
Proof.
  induction fuel as [|f IH]; intros l r Hf; [lia|].
  cbn [lev_inner]. replace ((0 <=? Z.of_nat l) && (0 <=? Z.of_nat r)) with true by lia.
  rewrite !Nat2Z.id.
  destruct (Nat.eq_dec (l + r) 0) as [Z0|NZ].
  - assert (l = 0 /\ r = 0)%nat as [-> ->] by lia. cbn [lev_path].
    destruct f as [|f]; [lia|]. cbn.
    eexists; split; [reflexivity|]. exists []. cbn. repeat split; constructor.
  - destruct (lev_path_step l r ltac:(lia)) as (l' & r' & P & Hlt & e & Oe & Sc & Ct).
    rewrite P. destruct (IH l' r' ltac:(lia)) as (p & I & q & Rp & La & Sq & Cq).
    rewrite I. cbn [obind]. eexists; split; [reflexivity|].
    cbn [rev]. rewrite Rp. exists (q ++ [(Z.of_nat l, Z.of_nat r)]).
    split; [reflexivity|]. split; [now rewrite last_last|].
    assert (Q : lev_ops eq (0, 0) (q ++ [(Z.of_nat l, Z.of_nat r)]) =
                lev_ops eq (0, 0) q ++ [e]).
    { rewrite Rp in La. destruct q as [|x q] using rev_ind.
      - cbn in La. cbn [app lev_ops]. rewrite <- Oe. rewrite La. reflexivity.
      - change ((0, 0) :: q ++ [x]) with (((0, 0) :: q) ++ [x]) in La. rewrite last_last in La.
        subst x. rewrite <- app_assoc. cbn [app]. rewrite lev_ops_snoc, Oe. reflexivity. }
    rewrite Q. split.
    + apply script_app. eauto.
    + rewrite cost_app, Cq, Ct. unfold cost; cbn [fold_right]; lia.
Qed.

Lemma levenshtein_run l r fuel : (l + r + 3 <= fuel)%nat ->
  exists ops, levenshtein fuel (Z.of_nat l) (Z.of_nat r) eq = Ok (T l r, ops) /\
    script eq 0 0 ops (Z.of_nat l) (Z.of_nat r) /\ cost ops = T l r.
Proof.
  intros Hf. unfold levenshtein.
  replace ((Z.of_nat l + 1 <? 0) || (Z.of_nat r + 1 <? 0)) with false by lia.
  replace ((Z.of_nat l + 1 =? 0) || (Z.of_nat r + 1 =? 0)) with false by lia.
  destruct fuel as [|f]; [lia|]. cbn [lev_outer].
  replace ((0 <=? Z.of_nat l) && (0 <=? Z.of_nat r)) with true by lia.
  destruct (lev_inner_ok f l r ltac:(lia)) as (p & I & q & Rp & La & Sq & Cq).
  rewrite I. cbn [obind]. destruct f as [|f]; [lia|].
  cbn [lev_outer]. replace ((0 <=? 0) && (0 <=? -1)) with false by lia. cbn [obind].
  rewrite app_nil_r. rewrite Rp. rewrite Rp in La. rewrite La. cbn [fst snd]. rewrite !Nat2Z.id.
  eauto.
Qed.
End Lev.

Lemma levenshtein_correct (N M : Z) eq : 0 <= N -> 0 <= M ->
  exists fuel0, forall fuel, (fuel0 <= fuel)%nat ->
  exists score ops, levenshtein fuel N M eq = Ok (score, ops) /\
    rewrites eq N M ops /\ cost ops = score /\
    forall ops', rewrites eq N M ops' -> score <= cost ops'.
Proof.
  intros HN HM. exists (Z.to_nat N + Z.to_nat M + 3)%nat. intros fuel Hf.
  destruct (levenshtein_run eq (Z.to_nat N) (Z.to_nat M) fuel Hf) as (ops & R & S & C).
  rewrite !Z2Nat.id in R by lia. rewrite !Z2Nat.id in S by lia.
  do 2 eexists. split; [exact R|]. split; [exact S|]. split; [exact C|].
  intros ops' H. apply T_lower. now rewrite !Z2Nat.id by lia.
Qed.

(** Executing scripts on sequences. *)
Lemma nth_error_skipn {A} (l : list A) n : nth_error l n = hd_error (skipn n l).
Proof. revert n; induction l; destruct n; cbn; auto. Qed.

Lemma skipn_cons_S {A} (l : list A) n x t : skipn n l = x :: t -> skipn (S n) l = t.
Proof.
  revert n; induction l as [|y l IH]; intros [|n] H; try discriminate.
  - now injection H.
  - cbn in H. apply IH in H. exact H.
Qed.

Lemma script_execute {A} (eqA : A -> A -> bool) (a b : list A) i j ops i' j' :
  (forall x y, eqA x y = true -> x = y) ->
  script (cmp_of eqA a b) i j ops i' j' -> 0 <= i -> 0 <= j ->
  i' = Z.of_nat (length a) -> j' = Z.of_nat (length b) ->
  execute (skipn (Z.to_nat i) a) b ops = Some (skipn (Z.to_nat j) b).
Proof.
  intros Heq H. 
  assert (G : forall (l : list A) k, 0 <= k -> k < Z.of_nat (length l) ->
     exists x, nth_error l (Z.to_nat k) = Some x /\
       skipn (Z.to_nat k) l = x :: skipn (Z.to_nat (k + 1)) l).
  { intros l k H0 H1. destruct (nth_error l (Z.to_nat k)) as [x|] eqn:E.
    - exists x; split; auto. rewrite nth_error_skipn in E.
      destruct (skipn (Z.to_nat k) l) as [|y t] eqn:Sk; [discriminate|]. cbn in E.
      apply skipn_cons_S in Sk. replace (Z.to_nat (k + 1)) with (S (Z.to_nat k)) by lia.
      congruence.
    - apply nth_error_None in E. lia. }
  induction H as [i j|i j ops i' j' E H IH|i j t ops i' j' H IH|i j s ops i' j' H IH|i j ops i' j' H IH];
    intros Hi Hj Hi' Hj'; cbn [execute ekind etgt].
  - rewrite (skipn_all2 a), (skipn_all2 b) by lia. reflexivity.
  - assert (L := script_le _ _ _ _ _ _ H).
    destruct (G a i ltac:(lia) ltac:(lia)) as (x & Nx & Sx).
    destruct (G b j ltac:(lia) ltac:(lia)) as (y & Ny & Sy).
    rewrite Sx, Sy, IH by lia. cbn [option_map].
    unfold cmp_of in E. rewrite Nx, Ny in E. apply Heq in E. now subst.
  - assert (L := script_le _ _ _ _ _ _ H).
    destruct (G a i ltac:(lia) ltac:(lia)) as (x & Nx & Sx).
    rewrite Sx, IH by lia. reflexivity.
  - assert (L := script_le _ _ _ _ _ _ H).
    destruct (G b j ltac:(lia) ltac:(lia)) as (y & Ny & Sy).
    rewrite Ny, Sy, IH by lia. destruct (skipn (Z.to_nat i) a); reflexivity.
  - assert (L := script_le _ _ _ _ _ _ H).
    destruct (G a i ltac:(lia) ltac:(lia)) as (x & Nx & Sx).
    destruct (G b j ltac:(lia) ltac:(lia)) as (y & Ny & Sy).
    rewrite Sx, Ny, Sy, IH by lia. reflexivity.
Qed.

Lemma rewrites_execute {A} (eqA : A -> A -> bool) (a b : list A) ops :
  (forall x y, eqA x y = true -> x = y) ->
  rewrites (cmp_of eqA a b) (Z.of_nat (length a)) (Z.of_nat (length b)) ops ->
  execute a b ops = Some b.
Proof.
  intros Heq H. apply (script_execute eqA a b 0 0) in H; auto; try lia.
Qed.
