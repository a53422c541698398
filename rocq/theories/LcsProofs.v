(** Longest common subsequence with a memo table. *)
From Coq Require Import ZArith List Bool Lia.
From Verif Require Import Base DiffModel DiffSpec LevProofs.
Import ListNotations.
Local Open Scope Z_scope.

Lemma increasing_snoc lo hi l x :
  increasing lo hi (l ++ [x]) <-> increasing lo x l /\ lo <= x < hi.
Proof.
  revert lo; induction l as [|y l IH]; intros lo; cbn [app increasing].
  - intuition lia.
  - rewrite IH. intuition lia.
Qed.

Lemma increasing_weaken lo hi hi' l : hi <= hi' -> increasing lo hi l -> increasing lo hi' l.
Proof. revert lo; induction l; cbn; intros; intuition eauto; lia. Qed.

Lemma Forall2_length {A B} (P : A -> B -> Prop) l l' : Forall2 P l l' -> length l = length l'.
Proof. induction 1; cbn; auto. Qed.

Section Lcs.
Variable eq : Z -> Z -> bool.

(** Pure length of the best common subsequence of prefixes. *)
Fixpoint lv (l : nat) {struct l} : nat -> Z :=
  match l with
  | O => fun _ => 0
  | S l' =>
      fix row (r : nat) : Z :=
        match r with
        | O => 0
        | S r' => if eq (Z.of_nat l') (Z.of_nat r') then lv l' r' + 1 else Z.max (row r') (lv l' (S r'))
        end
  end.

Lemma lv_SS l r : lv (S l) (S r) =
  if eq (Z.of_nat l) (Z.of_nat r) then lv l r + 1 else Z.max (lv (S l) r) (lv l (S r)).
Proof. reflexivity. Qed.
Lemma lv_l0 l : lv l 0 = 0.
Proof. destruct l; reflexivity. Qed.
Lemma lv_0r r : lv 0 r = 0.
Proof. reflexivity. Qed.

Lemma lv_lip n : forall l r, (l + r <= n)%nat ->
  0 <= lv l r /\ lv l r <= lv (S l) r <= lv l r + 1 /\ lv l r <= lv l (S r) <= lv l r + 1.
Proof.
  induction n as [|n IH]; intros l r Hn.
  - assert (l = 0 /\ r = 0)%nat as [-> ->] by lia. cbn; lia.
  - destruct l as [|l], r as [|r].
    + cbn; lia.
    + assert (I := IH 0%nat r ltac:(lia)). assert (E := lv_SS 0 r).
      assert (E1 := lv_0r r). assert (E2 := lv_0r (S r)). assert (E3 := lv_0r (S (S r))).
      destruct (eq _ _); lia.
    + assert (I := IH l 0%nat ltac:(lia)). assert (E := lv_SS l 0).
      assert (E1 := lv_l0 l). assert (E2 := lv_l0 (S l)). assert (E3 := lv_l0 (S (S l))).
      destruct (eq _ _); lia.
    + assert (I1 := IH l r ltac:(lia)). assert (I2 := IH (S l) r ltac:(lia)).
      assert (I3 := IH l (S r) ltac:(lia)).
      rewrite (lv_SS l (S r)), (lv_SS (S l) r).
      destruct (eq (Z.of_nat l) (Z.of_nat (S r))), (eq (Z.of_nat (S l)) (Z.of_nat r)); lia.
Qed.

Lemma lv_mono l r : 0 <= lv l r /\ lv l r <= lv (S l) r <= lv l r + 1 /\ lv l r <= lv l (S r) <= lv l r + 1.
Proof. apply (lv_lip (l + r)); lia. Qed.

Lemma lv_upper n : forall L R ls rs, (L + R <= n)%nat ->
  increasing 0 (Z.of_nat L) ls -> increasing 0 (Z.of_nat R) rs ->
  Forall2 (fun l r => eq l r = true) ls rs -> Z.of_nat (length ls) <= lv L R.
Proof.
  induction n as [|n IH]; intros L R ls rs Hn Il Ir F;
    (destruct ls as [|x ls _] using rev_ind; [cbn [length]; assert (X := lv_mono L R); lia|]);
    (destruct rs as [|y rs _] using rev_ind; [apply Forall2_length in F; rewrite app_length in F; cbn in F; lia|]);
    assert (Il' := Il); assert (Ir' := Ir);
    apply increasing_snoc in Il as [Il Bx]; apply increasing_snoc in Ir as [Ir By]; [lia|].
  destruct L as [|L]; [lia|]. destruct R as [|R]; [lia|].
  assert (X := lv_mono L R). assert (X1 := lv_mono L (S R)). assert (X2 := lv_mono (S L) R).
  rewrite lv_SS.
  destruct (Z_lt_le_dec x (Z.of_nat L)) as [Lx|Lx].
  { assert (I := IH L (S R) (ls ++ [x]) (rs ++ [y])). 
    assert (Z.of_nat (length (ls ++ [x])) <= lv L (S R)).
    { apply I; auto; [lia|]. apply increasing_snoc. split; auto; lia. }
    destruct (eq _ _); lia. }
  destruct (Z_lt_le_dec y (Z.of_nat R)) as [Ly|Ly].
  { assert (I := IH (S L) R (ls ++ [x]) (rs ++ [y])). 
    assert (Z.of_nat (length (ls ++ [x])) <= lv (S L) R).
    { apply I; auto; [lia|]. apply increasing_snoc. split; auto; lia. }
    destruct (eq _ _); lia. }
  assert (x = Z.of_nat L) as -> by lia. assert (y = Z.of_nat R) as -> by lia.
  assert (Hl : length ls = length rs).
  { apply Forall2_length in F. rewrite !app_length in F. cbn in F. lia. }
  apply Forall2_app_inv_l in F as (r1 & r2 & F1 & F2 & Er).
  assert (L1 := Forall2_length _ _ _ F1).
  inversion F2 as [|? y ? r2' E2 F2']; subst. inversion F2'; subst.
  apply app_inj_tail in Er as [<- <-]. rewrite E2.
  assert (I := IH L R ls rs ltac:(lia) Il Ir F1).
  rewrite app_length; cbn [length]; lia.
Qed.

Definition D (l r : Z) : Z := lv (Z.to_nat (l + 1)) (Z.to_nat (r + 1)).

Lemma D_neg l r : l = -1 \/ r = -1 -> D l r = 0.
Proof. unfold D. intros [->| ->]; cbn; auto using lv_l0. Qed.

Lemma D_step l r : 0 <= l -> 0 <= r ->
  D l r = if eq l r then D (l - 1) (r - 1) + 1 else Z.max (D l (r - 1)) (D (l - 1) r).
Proof.
  intros Hl Hr. unfold D.
  replace (Z.to_nat (l + 1)) with (S (Z.to_nat l)) by lia.
  replace (Z.to_nat (r + 1)) with (S (Z.to_nat r)) by lia.
  replace (l - 1 + 1) with l by lia. replace (r - 1 + 1) with r by lia.
  rewrite lv_SS, !Z2Nat.id by lia. reflexivity.
Qed.

Lemma D_nonneg l r : 0 <= D l r.
Proof. unfold D. apply lv_mono. Qed.

Lemma D_mono l r : -1 <= l -> -1 <= r ->
  D l r <= D (l + 1) r <= D l r + 1 /\ D l r <= D l (r + 1) <= D l r + 1.
Proof.
  intros Hl Hr. unfold D.
  replace (Z.to_nat (l + 1 + 1)) with (S (Z.to_nat (l + 1))) by lia.
  replace (Z.to_nat (r + 1 + 1)) with (S (Z.to_nat (r + 1))) by lia.
  assert (X := lv_mono (Z.to_nat (l + 1)) (Z.to_nat (r + 1))). lia.
Qed.

Definition inv (m : memo) : Prop := forall l r v, mget m l r = Some v ->
  -1 <= l /\ -1 <= r /\ v = D l r /\
  (0 <= l -> 0 <= r -> eq l r = false -> mget m l (r - 1) <> None /\ mget m (l - 1) r <> None).

Definition grows (m m' : memo) : Prop := forall l r, mget m l r <> None -> mget m' l r <> None.

Lemma mget_mset m l r v l' r' :
  mget (mset m l r v) l' r' = if (l =? l') && (r =? r') then Some v else mget m l' r'.
Proof. reflexivity. Qed.

Lemma inv_set m l r : inv m -> -1 <= l -> -1 <= r ->
  (0 <= l -> 0 <= r -> eq l r = false -> mget m l (r - 1) <> None /\ mget m (l - 1) r <> None) ->
  inv (mset m l r (D l r)) /\ grows m (mset m l r (D l r)) /\ mget (mset m l r (D l r)) l r = Some (D l r).
Proof.
  intros I Hl Hr C. 
  assert (G : grows m (mset m l r (D l r))).
  { intros l' r' H. rewrite mget_mset. destruct (_ && _); [discriminate|exact H]. }
  split; [|split; [exact G|]].
  - intros l' r' v H. rewrite mget_mset in H. destruct ((l =? l') && (r =? r')) eqn:E.
    + assert (l = l') as <- by lia. assert (r = r') as <- by lia. injection H as <-.
      repeat split; auto; destruct C; auto.
    + destruct (I _ _ _ H) as (A1 & A2 & A3 & A4). repeat split; auto; destruct A4; auto.
  - rewrite mget_mset, !Z.eqb_refl. reflexivity.
Qed.

Lemma lcs_ok : forall fuel m l r, inv m -> -1 <= l -> -1 <= r ->
  (Z.to_nat (l + r + 3) <= fuel)%nat ->
  exists m', lcs fuel eq m l r = Ok (D l r, m') /\ inv m' /\ grows m m' /\ mget m' l r = Some (D l r).
Proof.
  induction fuel as [|f IH]; intros m l r I Hl Hr Hf; [lia|].
  cbn [lcs]. destruct (mget m l r) as [v|] eqn:G.
  { destruct (I _ _ _ G) as (_ & _ & -> & _). exists m. split; [reflexivity|]. split; [exact I|].
    split; [intros ? ? X; exact X|exact G]. }
  destruct ((l =? -1) || (r =? -1)) eqn:B.
  { assert (E : D l r = 0) by (apply D_neg; lia). 
    destruct (inv_set m l r I Hl Hr) as (A1 & A2 & A3); [lia|]. rewrite E in *.
    eexists; split; [reflexivity|]. auto. }
  destruct (eq l r) eqn:E.
  - destruct (IH m (l - 1) (r - 1)) as (m1 & E1 & I1 & G1 & M1); auto; try lia.
    rewrite E1. cbn [obind].
    assert (Ds : D l r = D (l - 1) (r - 1) + 1) by (rewrite (D_step l r), E by lia; reflexivity).
    rewrite <- Ds. eexists; split; [reflexivity|].
    destruct (inv_set m1 l r I1) as (A1 & A2 & A3); auto; [congruence|].
    split; [exact A1|]. split; [|exact A3]. intros ? ? ?; auto.
  - destruct (IH m l (r - 1)) as (m1 & E1 & I1 & G1 & M1); auto; try lia.
    rewrite E1. cbn [obind].
    destruct (IH m1 (l - 1) r) as (m2 & E2 & I2 & G2 & M2); auto; try lia.
    rewrite E2. cbn [obind].
    assert (Ds : D l r = Z.max (D l (r - 1)) (D (l - 1) r)) by (rewrite (D_step l r), E by lia; reflexivity).
    rewrite <- Ds. eexists; split; [reflexivity|].
    destruct (inv_set m2 l r I2) as (A1 & A2 & A3); auto.
    { intros _ _ _. split; [apply G2|]; congruence. }
    split; [exact A1|]. split; [|exact A3]. intros ? ? ?; auto.
Qed.

Lemma walk_r_ok m cur : inv m -> cur <> 0 -> forall fuel r, 0 <= r -> (Z.to_nat r < fuel)%nat ->
  mget m 0 r = Some cur -> exists r', walk_r fuel m 0 cur r = Ok r' /\ 0 <= r' <= r /\ eq 0 r' = true.
Proof.
  intros I Hc. induction fuel as [|f IH]; intros r Hr Hf G; [lia|]. cbn [walk_r].
  destruct (I _ _ _ G) as (_ & _ & Ec & Cl).
  assert (Stop : (forall v, mget m 0 (r - 1) = Some v -> v <> cur) -> eq 0 r = true).
  { intros Hv. destruct (eq 0 r) eqn:E; auto. exfalso.
    destruct (Cl ltac:(lia) Hr eq_refl) as [C1 _].
    destruct (mget m 0 (r - 1)) as [v|] eqn:Gv; [|congruence].
    apply (Hv v eq_refl). destruct (I _ _ _ Gv) as (_ & _ & -> & _).
    rewrite Ec, (D_step 0 r), E by lia.
    rewrite (D_neg (0 - 1) r) by (left; reflexivity). assert (X := D_nonneg 0 (r - 1)). lia. }
  destruct (mget m 0 (r - 1)) as [v|] eqn:Gv.
  - destruct (Z.eqb_spec v cur) as [->|Ne].
    + assert (r <> 0).
      { intros ->. destruct (I _ _ _ Gv) as (_ & _ & E' & _). rewrite D_neg in E' by (right; reflexivity). lia. }
      destruct (IH (r - 1)) as (r' & W & B & E); auto; try lia.
      exists r'. split; [exact W|]. split; [lia|exact E].
    + exists r. split; [reflexivity|]. split; [lia|]. apply Stop. congruence.
  - exists r. split; [reflexivity|]. split; [lia|]. apply Stop. congruence.
Qed.

Lemma walk_l_ok m cur : inv m -> cur <> 0 -> forall fuel l, 0 <= l -> (Z.to_nat l < fuel)%nat ->
  mget m l 0 = Some cur -> exists l', walk_l fuel m 0 cur l = Ok l' /\ 0 <= l' <= l /\ eq l' 0 = true.
Proof.
  intros I Hc. induction fuel as [|f IH]; intros l Hr Hf G; [lia|]. cbn [walk_l].
  destruct (I _ _ _ G) as (_ & _ & Ec & Cl).
  assert (Stop : (forall v, mget m (l - 1) 0 = Some v -> v <> cur) -> eq l 0 = true).
  { intros Hv. destruct (eq l 0) eqn:E; auto. exfalso.
    destruct (Cl Hr ltac:(lia) eq_refl) as [_ C1].
    destruct (mget m (l - 1) 0) as [v|] eqn:Gv; [|congruence].
    apply (Hv v eq_refl). destruct (I _ _ _ Gv) as (_ & _ & -> & _).
    rewrite Ec, (D_step l 0), E by lia.
    rewrite (D_neg l (0 - 1)) by (right; reflexivity). assert (X := D_nonneg (l - 1) 0). lia. }
  destruct (mget m (l - 1) 0) as [v|] eqn:Gv.
  - destruct (Z.eqb_spec v cur) as [->|Ne].
    + assert (l <> 0).
      { intros ->. destruct (I _ _ _ Gv) as (_ & _ & E' & _). rewrite D_neg in E' by (left; reflexivity). lia. }
      destruct (IH (l - 1)) as (l' & W & B & E); auto; try lia.
      exists l'. split; [exact W|]. split; [lia|exact E].
    + exists l. split; [reflexivity|]. split; [lia|]. apply Stop. congruence.
  - exists l. split; [reflexivity|]. split; [lia|]. apply Stop. congruence.
Qed.

Lemma D_pos : eq 0 0 = true -> forall l r, 0 <= l -> 0 <= r -> 1 <= D l r.
Proof.
  intros E l r Hl Hr.
  assert (H0 : forall r, 0 <= r -> 1 <= D 0 r).
  { apply natlike_ind; [rewrite D_step, E by lia; assert (X := D_nonneg (0 - 1) (0 - 1)); lia|].
    intros z Hz IH. assert (X := D_mono 0 z ltac:(lia) ltac:(lia)). unfold Z.succ; lia. }
  revert l Hl. apply natlike_ind; [auto|].
  intros z Hz IH. assert (X := D_mono z r ltac:(lia) ltac:(lia)). unfold Z.succ; lia.
Qed.

Lemma backtrack_ok : forall fuel m l r, inv m -> 0 <= l -> 0 <= r ->
  (Z.to_nat (l + r + 5) <= fuel)%nat ->
  exists res m', backtrack fuel eq m l r = Ok (res, m') /\ inv m' /\
    (res = [] /\ (eq 0 0 = true -> False) \/
     exists ls rs, res = [(ls, rs)] /\ common eq (l + 1) (r + 1) ls rs /\
       Z.of_nat (length ls) = D l r).
Proof.
  induction fuel as [|f IH]; intros m l r I Hl Hr Hf; [lia|]. cbn [backtrack].
  destruct (lcs_ok f m l r I ltac:(lia) ltac:(lia) ltac:(lia)) as (m1 & E1 & I1 & G1 & M1).
  rewrite E1. cbn [obind].
  destruct (Z.eqb_spec (D l r) 0) as [E0|E0].
  { do 2 eexists; split; [reflexivity|]. split; [exact I1|]. left. split; [reflexivity|].
    intros H. assert (X := D_pos H l r Hl Hr). lia. }
  destruct (Z.eqb_spec l 0) as [->|Nl].
  { destruct (walk_r_ok m1 (D 0 r) I1 E0 f r Hr ltac:(lia) M1) as (r' & W & B & E).
    rewrite W. cbn [obind]. do 2 eexists; split; [reflexivity|]. split; [exact I1|]. right.
    do 2 eexists; split; [reflexivity|]. split.
    - split; [cbn; lia|]. split; [cbn; lia|]. constructor; auto.
    - cbn [length]. assert (X := D_mono (-1) r ltac:(lia) ltac:(lia)).
      rewrite D_neg in X by (now left). cbn [Z.add Z.pos_sub] in X. assert (Y := D_nonneg 0 r).
      change (-1 + 1) with 0 in X. lia. }
  destruct (Z.eqb_spec r 0) as [->|Nr].
  { destruct (walk_l_ok m1 (D l 0) I1 E0 f l Hl ltac:(lia) M1) as (l' & W & B & E).
    rewrite W. cbn [obind]. do 2 eexists; split; [reflexivity|]. split; [exact I1|]. right.
    do 2 eexists; split; [reflexivity|]. split.
    - split; [cbn; lia|]. split; [cbn; lia|]. constructor; auto.
    - cbn [length]. assert (X := D_mono l (-1) ltac:(lia) ltac:(lia)).
      rewrite (D_neg l (-1)) in X by (now right). assert (Y := D_nonneg l 0).
      change (-1 + 1) with 0 in X. lia. }
  destruct (eq l r) eqn:E.
  { destruct (IH m1 (l - 1) (r - 1) I1) as (res & m2 & E2 & I2 & R); try lia.
    rewrite E2. cbn [obind]. do 2 eexists; split; [reflexivity|]. split; [exact I2|].
    destruct R as [[-> C]|(ls & rs & -> & (C1 & C2 & C3) & Len)].
    - left. split; [reflexivity|exact C].
    - right. cbn [map fst snd]. do 2 eexists; split; [reflexivity|].
      replace (l - 1 + 1) with l in C1 by lia. replace (r - 1 + 1) with r in C2 by lia.
      split.
      + split; [apply increasing_snoc; split; auto; lia|].
        split; [apply increasing_snoc; split; auto; lia|]. apply Forall2_app; auto.
      + rewrite app_length. cbn [length]. rewrite (D_step l r), E by lia. lia. }
  assert (Ds : D l r = Z.max (D l (r - 1)) (D (l - 1) r)) by (rewrite (D_step l r), E by lia; reflexivity).
  destruct (lcs_ok f m1 l (r - 1) I1 ltac:(lia) ltac:(lia) ltac:(lia)) as (m2 & E2 & I2 & G2 & M2).
  rewrite E2. cbn [obind].
  destruct (lcs_ok f m2 (l - 1) r I2 ltac:(lia) ltac:(lia) ltac:(lia)) as (m3 & E3 & I3 & G3 & M3).
  rewrite E3. cbn [obind].
  destruct (Z.ltb_spec (D (l - 1) r) (D l (r - 1))) as [Lt|Ge].
  - destruct (IH m3 l (r - 1) I3) as (res & m4 & E4 & I4 & R); try lia.
    rewrite E4. do 2 eexists; split; [reflexivity|]. split; [exact I4|].
    destruct R as [R|(ls & rs & -> & (C1 & C2 & C3) & Len)]; [now left|right].
    do 2 eexists; split; [reflexivity|]. split; [|lia].
    split; auto. split; auto. eapply increasing_weaken; [|exact C2]; lia.
  - destruct (IH m3 (l - 1) r I3) as (res & m4 & E4 & I4 & R); try lia.
    rewrite E4. do 2 eexists; split; [reflexivity|]. split; [exact I4|].
    destruct R as [R|(ls & rs & -> & (C1 & C2 & C3) & Len)]; [now left|right].
    do 2 eexists; split; [reflexivity|]. split; [|lia].
    split; auto. eapply increasing_weaken; [|exact C1]; lia.
Qed.
End Lcs.

Lemma longest_common_correct (N M : Z) eq : 0 <= N -> 0 <= M ->
  exists fuel0, forall fuel, (fuel0 <= fuel)%nat ->
  exists ls rs, longest_common fuel N M eq = Ok [(ls, rs)] /\ common eq N M ls rs /\
    (ls = [] \/ forall ls' rs', common eq N M ls' rs' -> (length ls' <= length ls)%nat) /\
    (eq 0 0 = true -> forall ls' rs', common eq N M ls' rs' -> (length ls' <= length ls)%nat).
Proof.
  intros HN HM. exists (Z.to_nat (N + M + 5)). intros fuel Hf. unfold longest_common.
  assert (Nil : common eq N M [] []) by (split; [exact I|split; [exact I|constructor]]).
  assert (Short : forall ls rs, N = 0 \/ M = 0 -> common eq N M ls rs -> (length ls <= 0)%nat).
  { intros ls rs H (A & B & C). destruct C as [|x y ls rs]; [cbn; lia|]. cbn in A, B. lia. }
  destruct ((N =? 0) || (M =? 0)) eqn:Z0.
  { exists [], []. split; [reflexivity|]. split; [exact Nil|]. split; [now left|].
    intros _ ls' rs' C. apply (Short ls' rs'); [lia|exact C]. }
  assert (I0 : inv eq []) by (intros l r v H; discriminate).
  destruct (backtrack_ok eq fuel [] (N - 1) (M - 1) I0) as (res & m' & E & _ & R); try lia.
  rewrite E. cbn [obind].
  destruct R as [[-> C]|(ls & rs & -> & C & Len)].
  - exists [], []. split; [reflexivity|]. split; [exact Nil|]. split; [now left|]. tauto.
  - replace (N - 1 + 1) with N in C by lia. replace (M - 1 + 1) with M in C by lia.
    exists ls, rs. split; [reflexivity|]. split; [exact C|].
    assert (Mx : forall ls' rs', common eq N M ls' rs' -> (length ls' <= length ls)%nat).
    { intros ls' rs' (A1 & A2 & A3).
      assert (X := lv_upper eq (Z.to_nat N + Z.to_nat M) (Z.to_nat N) (Z.to_nat M) ls' rs').
      rewrite !Z2Nat.id in X by lia. specialize (X ltac:(lia) A1 A2 A3).
      unfold D in Len. replace (N - 1 + 1) with N in Len by lia.
      replace (M - 1 + 1) with M in Len by lia. lia. }
    split; auto.
Qed.
