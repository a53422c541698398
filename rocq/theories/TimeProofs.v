(** Proofs about times. *)
From Verif Require Import Base StrModel TimeModel TimeSpec.
Local Open Scope Z_scope.
Ltac euclid := Z.to_euclidean_division_equations; lia.

(** ** The calendar *)
Lemma leap_iff : forall y, leap y = true <-> leap_year y.
Proof.
  intros y. unfold leap, leap_year. rewrite Bool.andb_true_iff, Bool.orb_true_iff, Bool.negb_true_iff.
  assert (D : forall k, 0 < k -> ((y mod k =? 0) = true <-> (k | y))).
  { intros k K. rewrite Z.eqb_eq. apply Z.mod_divide. lia. }
  rewrite (D 4), (D 400) by lia. split; intros [A B]; (split; [exact A|]); destruct B as [B|B]; auto; left.
  - intros X. apply (D 100) in X; [congruence|lia].
  - destruct (y mod 100 =? 0) eqn:E; [|reflexivity]. exfalso. apply B. apply (D 100); [lia|exact E].
Qed.
Lemma days_iff : forall y m n, days_in y m n <-> (1 <= m <= 12 /\ n = month_days y m).
Proof.
  intros y m n. split.
  - intros [y' m' H|y' m' H|y' H|y' H]; unfold month_days; cbn [In] in H.
    + repeat (destruct H as [<-|H]; [split; [lia|reflexivity]|]). contradiction.
    + repeat (destruct H as [<-|H]; [split; [lia|reflexivity]|]). contradiction.
    + split; [lia|]. rewrite <- leap_iff in H. cbn [Z.eqb Pos.eqb]. destruct (leap y'); [congruence|reflexivity].
    + split; [lia|]. rewrite <- leap_iff in H. cbn [Z.eqb Pos.eqb]. now rewrite H.
  - intros [H ->]. unfold month_days.
    assert (m = 1 \/ m = 2 \/ m = 3 \/ m = 4 \/ m = 5 \/ m = 6 \/ m = 7 \/ m = 8 \/ m = 9 \/ m = 10 \/ m = 11 \/ m = 12) as C by lia.
    assert (F : days_in y 2 (if leap y then 29 else 28)).
    { destruct (leap y) eqn:E; constructor; rewrite <- leap_iff; congruence. }
    destruct C as [->|[->|[->|[->|[->|[->|[->|[->|[->|[->|[->| ->]]]]]]]]]]]; cbn [Z.eqb Pos.eqb orb];
      try exact F; try (apply long; cbn; tauto); apply short; cbn; tauto.
Qed.
Lemma is_date_iff : forall y m d, is_date y m d <-> (1 <= m <= 12 /\ 1 <= d <= month_days y m).
Proof.
  intros y m d. unfold is_date. split.
  - intros (n & N & D). apply days_iff in N. destruct N as [N ->]. auto.
  - intros [M D]. exists (month_days y m). split; [|exact D]. apply days_iff. auto.
Qed.

(** Days, with floor division *)
Definition days_flat (y m d : Z) : Z :=
  let ey := if m <=? 2 then y - 1 else y in
  365 * ey + ey / 4 - ey / 100 + ey / 400 + (153 * (m + (if 2 <? m then -3 else 9)) + 2) / 5 + d - 1 - 719468.
Lemma ord_flat : forall y m d, 1 <= m <= 12 -> ymd_ord y m d = days_flat y m d.
Proof.
  intros y m d M. unfold ymd_ord, days_flat. cbv zeta. set (ey := if m <=? 2 then y - 1 else y). clearbody ey.
  set (mm := m + (if 2 <? m then -3 else 9)). assert (0 <= mm) as P by (unfold mm; destruct (Z.ltb_spec 2 m); lia). clearbody mm.
  assert (E : Z.quot (if 0 <=? ey then ey else ey - 399) 400 = ey / 400).
  { destruct (Z.leb_spec 0 ey); euclid. }
  rewrite E. rewrite (Z.quot_div_nonneg (153 * mm + 2)) by lia.
  assert (Q : ey - ey / 400 * 400 = ey mod 400) by (rewrite Z.mod_eq by lia; lia).
  rewrite Q. pose proof (Z.mod_pos_bound ey 400 ltac:(lia)).
  rewrite !Z.quot_div_nonneg by lia. clear E Q. generalize ((153 * mm + 2) / 5). intros dd. euclid.
Qed.
Lemma next_month : forall y m, 1 <= m < 12 -> days_flat y (m + 1) 1 = days_flat y m (month_days y m) + 1.
Proof.
  intros y m M.
  assert (m = 1 \/ m = 2 \/ m = 3 \/ m = 4 \/ m = 5 \/ m = 6 \/ m = 7 \/ m = 8 \/ m = 9 \/ m = 10 \/ m = 11) as C by lia.
  unfold days_flat, month_days.
  destruct C as [->|[->|[->|[->|[->|[->|[->|[->|[->|[->| ->]]]]]]]]]];
    cbn [Z.eqb Pos.eqb orb Z.leb Z.ltb Z.compare Pos.compare Pos.compare_cont Z.add Pos.add Z.pos_sub Pos.succ Pos.pred_double Z.succ_double Z.double Z.pred_double Pos.add_carry];
    try (change ((153 * _ + 2) / 5) with 0; lia); try lia.
  all: try euclid.
  unfold leap. destruct (Z.eqb_spec (y mod 4) 0), (Z.eqb_spec (y mod 100) 0), (Z.eqb_spec (y mod 400) 0); cbn [andb orb negb]; euclid.
Qed.
Lemma next_year : forall y, days_flat (y + 1) 1 1 = days_flat y 12 31 + 1.
Proof. intros y. unfold days_flat. cbn [Z.leb Z.ltb Z.compare Pos.compare Pos.compare_cont]. replace (y + 1 - 1) with y by lia. euclid. Qed.

Lemma tick_seconds : forall c d, tick c d -> civil_seconds d = civil_seconds c + 1.
Proof.
  intros c d T. unfold civil_seconds. destruct T; cbn [year month day hour minute second]; try lia.
  - apply days_iff in H. destruct H as [M ->]. rewrite !ord_flat by lia. unfold days_flat. lia.
  - pose proof H as H'. apply days_iff in H. destruct H as [M ->]. rewrite !ord_flat by lia. rewrite next_month by lia. lia.
  - rewrite !ord_flat by lia. rewrite next_year. lia.
Qed.
Lemma since_seconds : forall c n, since c n -> n = civil_seconds c.
Proof.
  induction 1 as [|c d n _ IH T|c d n _ IH T]; [reflexivity|apply tick_seconds in T; lia|apply tick_seconds in T; lia].
Qed.

(** Every time is reached *)
Definition near (c d : civil) : Prop := (exists n, since c n) <-> (exists n, since d n).
Lemma near_refl : forall c, near c c.
Proof. intros c. unfold near. tauto. Qed.
Lemma near_sym : forall c d, near c d -> near d c.
Proof. unfold near. tauto. Qed.
Lemma near_trans : forall c d e, near c d -> near d e -> near c e.
Proof. unfold near. tauto. Qed.
Lemma near_tick : forall c d, tick c d -> near c d.
Proof. intros c d T. split; intros [n H]; eexists; [eapply later|eapply earlier]; eauto. Qed.
Lemma walk : forall (f : Z -> civil) k, (forall i, 0 <= i < k -> near (f i) (f (i + 1))) -> forall i, 0 <= i <= k -> near (f 0) (f i).
Proof.
  intros f k H.
  assert (G : forall i, 0 <= i -> i <= k -> near (f 0) (f i)).
  { apply (natlike_ind (fun i => i <= k -> near (f 0) (f i))).
    - intros _. apply near_refl.
    - intros j J IH L. eapply near_trans; [apply IH; lia|]. apply H. lia. }
  intros i [A B]. auto.
Qed.
Lemma day_start : forall y m d h i s, is_date y m d -> 0 <= h <= 23 -> 0 <= i <= 59 -> 0 <= s <= 59 -> near (Civil y m d 0 0 0) (Civil y m d h i s).
Proof.
  intros y m d h i s D H I S.
  assert (A : forall h i s, 0 <= h <= 23 -> 0 <= i <= 59 -> 0 <= s <= 59 -> near (Civil y m d h i 0) (Civil y m d h i s)).
  { intros h' i' s' H' I' S'. apply (walk (fun s => Civil y m d h' i' s) 59); [|lia]. intros j J. apply near_tick. constructor; auto; lia. }
  assert (B : forall h i, 0 <= h <= 23 -> 0 <= i <= 59 -> near (Civil y m d h 0 0) (Civil y m d h i 0)).
  { intros h' i' H' I'. apply (walk (fun i => Civil y m d h' i 0) 59); [|lia]. intros j J.
    eapply near_trans; [apply (A h' j 59); lia|]. apply near_tick. constructor; auto; lia. }
  eapply near_trans; [|apply A; lia]. eapply near_trans; [|apply B; lia].
  apply (walk (fun h => Civil y m d h 0 0) 23); [|lia]. intros j J.
  eapply near_trans; [apply (B j 59); lia|]. eapply near_trans; [apply (A j 59 59); lia|]. apply near_tick. constructor; auto; lia.
Qed.
Lemma day_next : forall y m d d', is_date y m d -> near (Civil y m d 23 59 59) d' -> near (Civil y m d 0 0 0) d'.
Proof. intros y m d d' D N. eapply near_trans; [apply (day_start y m d 23 59 59); auto; lia|exact N]. Qed.
Lemma month_pos : forall y m, 28 <= month_days y m <= 31.
Proof. intros y m. unfold month_days. destruct (m =? 2), (leap y), ((m =? 4) || (m =? 6) || (m =? 9) || (m =? 11))%bool; lia. Qed.
Lemma month_start : forall y m d, is_date y m d -> near (Civil y m 1 0 0 0) (Civil y m d 0 0 0).
Proof.
  intros y m d D. pose proof D as D'. apply is_date_iff in D'. destruct D' as [M B].
  replace d with ((d - 1) + 1) by lia. apply (walk (fun d => Civil y m (d + 1) 0 0 0) (month_days y m - 1)); [|lia].
  intros j J. apply day_next; [apply is_date_iff; lia|]. apply near_tick. econstructor; [apply days_iff; split; [exact M|reflexivity]|lia].
Qed.
Lemma year_start : forall y m, 1 <= m <= 12 -> near (Civil y 1 1 0 0 0) (Civil y m 1 0 0 0).
Proof.
  intros y m M. replace m with ((m - 1) + 1) by lia. apply (walk (fun m => Civil y (m + 1) 1 0 0 0) 11); [|lia].
  intros j J. pose proof (month_pos y (j + 1)).
  eapply near_trans; [apply (month_start y (j + 1) (month_days y (j + 1))); apply is_date_iff; lia|].
  apply day_next; [apply is_date_iff; lia|]. apply near_tick. constructor; [apply days_iff; split; [lia|reflexivity]|lia].
Qed.
Lemma year_next : forall y, near (Civil y 1 1 0 0 0) (Civil (y + 1) 1 1 0 0 0).
Proof.
  intros y. eapply near_trans; [apply (year_start y 12); lia|].
  eapply near_trans; [apply (month_start y 12 31); apply is_date_iff; unfold month_days; cbn; lia|].
  apply day_next; [apply is_date_iff; unfold month_days; cbn; lia|]. apply near_tick. constructor.
Qed.
Lemma all_years : forall y, near (Civil 1970 1 1 0 0 0) (Civil y 1 1 0 0 0).
Proof.
  intros y. destruct (Z.le_gt_cases 1970 y) as [L|L].
  - replace y with (1970 + (y - 1970)) by lia. apply (walk (fun i => Civil (1970 + i) 1 1 0 0 0) (y - 1970)); [|lia].
    intros j J. replace (1970 + (j + 1)) with (1970 + j + 1) by lia. apply year_next.
  - replace y with (1970 - (1970 - y)) by lia.
    apply (walk (fun i => Civil (1970 - i) 1 1 0 0 0) (1970 - y)); [|lia].
    intros j J. apply near_sym. replace (1970 - j) with ((1970 - (j + 1)) + 1) by lia. apply year_next.
Qed.
Lemma reached : forall c, is_time c -> since c (civil_seconds c).
Proof.
  intros [y m d h i s] (D & H & I & S). cbn [year month day hour minute second] in *.
  assert (exists n, since (Civil y m d h i s) n) as [n N].
  { apply (near_trans _ _ _ (all_years y)).
    - eapply near_trans; [apply (year_start y m); apply is_date_iff in D; lia|]. eapply near_trans; [apply month_start; exact D|].
      apply day_start; auto.
    - exists 0. constructor. }
  pose proof (since_seconds _ _ N) as ->. exact N.
Qed.

(** ** Reading numbers *)
Lemma is_dig_iff : forall c, is_dig c = true <-> 48 <= c <= 57.
Proof. intros c. unfold is_dig. rewrite Bool.andb_true_iff, !Z.leb_le. tauto. Qed.
Definition stops (s : str) : Prop := match s with [] => True | c :: _ => is_dig c = false end.
Lemma take_all : forall s v n r, Forall (fun c => 48 <= c <= 57) s -> stops r ->
  take_digits None v n (s ++ r) = (fold_left (fun v c => v * 10 + (c - 48)) s v, (n + length s)%nat, r).
Proof.
  induction s as [|c s IH]; intros v n r F S.
  - cbn. rewrite Nat.add_0_r. destruct r as [|x r]; [reflexivity|]. cbn in S |- *. now rewrite S.
  - inversion F; subst. cbn [app take_digits fold_left length]. rewrite (proj2 (is_dig_iff c)) by auto. cbn [option_map].
    rewrite IH by auto. rewrite Nat.add_succ_r. reflexivity.
Qed.
Lemma take_some : forall s k v n r, Forall (fun c => 48 <= c <= 57) s -> (length s <= k)%nat -> (length s < k -> stops r)%nat ->
  take_digits (Some k) v n (s ++ r) = (fold_left (fun v c => v * 10 + (c - 48)) s v, (n + length s)%nat, r).
Proof.
  induction s as [|c s IH]; intros k v n r F L S.
  - cbn [app fold_left length]. rewrite Nat.add_0_r. destruct k as [|k]; [now destruct r|]. cbn in S. specialize (S ltac:(lia)).
    destruct r as [|x r]; [reflexivity|]. cbn in S |- *. now rewrite S.
  - inversion F; subst. cbn [length] in L, S. destruct k as [|k]; [lia|].
    cbn [app take_digits fold_left length]. rewrite (proj2 (is_dig_iff c)) by auto. cbn [option_map pred].
    rewrite IH; auto; try lia. + rewrite Nat.add_succ_r. reflexivity. + intros. apply S. lia.
Qed.
Definition fits (w : option nat) (s r : str) : Prop :=
  match w with None => stops r | Some k => (length s <= k)%nat /\ ((length s < k)%nat -> stops r) end.
Lemma parse_number : forall w lo hi s v r, number s v -> fits w s r ->
  parse_int w lo hi (s ++ r) = if (lo <=? v) && (v <=? hi) then Some (v, r) else None.
Proof.
  intros w lo hi s v r (N & F & ->) W. unfold parse_int. destruct s as [|c s]; [congruence|].
  assert (C : 48 <= c <= 57) by now inversion F.
  assert (E : match (c :: s) ++ r with 45 :: r0 => (true, option_map pred w, r0) | _ => (false, w, (c :: s) ++ r) end = (false, w, (c :: s) ++ r)).
  { cbn [app]. destruct c as [|p|p]; try reflexivity. do 6 (destruct p as [p|p|]; try reflexivity). lia. }
  rewrite E. destruct w as [k|].
  - destruct W as [A B]. rewrite take_some by auto. reflexivity.
  - rewrite take_all by auto. reflexivity.
Qed.
Lemma digit_ws : forall c, 48 <= c <= 57 -> is_ws c = false.
Proof.
  intros c H. unfold is_ws. destruct (Z.eqb_spec c 32); [lia|]. destruct (Z.leb_spec 9 c), (Z.leb_spec c 13); cbn; lia || reflexivity.
Qed.
Lemma number_ws : forall s v r, number s v -> skip_ws (s ++ r) = s ++ r.
Proof. intros [|c s] v r (N & F & _); [congruence|]. inversion F; subst. cbn. now rewrite digit_ws. Qed.
Lemma number_day : forall s v r, number s v -> first_of weekdays (s ++ r) = None.
Proof.
  intros [|c s] v r (N & F & _); [congruence|]. inversion F as [|? ? H _]; subst. clear - H.
  cbn [app]. unfold weekdays. cbn [map AttrModel.lit first_of].
  assert (X : forall a p, 97 <= lower a <= 122 -> prefix_ci (a :: p) (c :: s ++ r) = None).
  { intros a p A. cbn [prefix_ci]. replace (lower c) with c; [destruct (Z.eqb_spec (lower a) c); [lia|reflexivity]|].
    unfold lower. destruct (Z.leb_spec 65 c); [lia|reflexivity]. }
  repeat (rewrite X; [|vm_compute; split; discriminate]). reflexivity.
Qed.
Lemma number_bounds : forall s v, number s v -> 0 <= v.
Proof.
  intros s v (_ & F & ->). assert (G : forall s v, Forall (fun c => 48 <= c <= 57) s -> 0 <= v -> 0 <= fold_left (fun v c => v * 10 + (c - 48)) s v).
  { clear. induction s as [|c s IH]; intros v F V; [exact V|]. inversion F; subst. cbn. apply IH; auto. lia. }
  apply G; auto; lia.
Qed.
Lemma number_small : forall s v k, number s v -> length s = k -> v < 10 ^ Z.of_nat k.
Proof.
  intros s v k (_ & F & ->) <-.
  assert (G : forall s v b, Forall (fun c => 48 <= c <= 57) s -> v < b -> fold_left (fun v c => v * 10 + (c - 48)) s v < b * 10 ^ Z.of_nat (length s)).
  { clear. induction s as [|c s IH]; intros v b F V; [cbn; lia|]. inversion F; subst. cbn [fold_left length]. rewrite Nat2Z.inj_succ, Z.pow_succ_r by lia.
    replace (b * (10 * 10 ^ Z.of_nat (length s))) with (b * 10 * 10 ^ Z.of_nat (length s)) by lia. apply IH; auto. lia. }
  specialize (G s 0 1 F ltac:(lia)). lia.
Qed.

(** ** Reading dates *)
Definition inr (lo v hi : Z) : bool := (lo <=? v) && (v <=? hi).
Lemma field_number : forall w lo hi set c s v r, number s v -> fits w s r ->
  number_field w lo hi set c (s ++ r) = if inr lo v hi then Some (set v c, r) else None.
Proof. intros w lo hi set c s v r N W. unfold number_field, inr. rewrite (parse_number w lo hi s v r) by auto. destruct ((lo <=? v) && (v <=? hi))%bool; reflexivity. Qed.
Section Date.
Variables (ys ms ds : str) (y m d : Z).
Hypothesis Ly : length ys = 4%nat.
Hypothesis Ny : number ys y.
Hypothesis Lm : length ms = 2%nat.
Hypothesis Nm : number ms m.
Hypothesis Ld : length ds = 2%nat.
Hypothesis Nd : number ds d.
Let date (r : str) : str := ys ++ 45 :: ms ++ 45 :: ds ++ r.
Lemma year_range : inr int64_min y int64_max = true.
Proof.
  pose proof (number_bounds _ _ Ny). pose proof (number_small _ _ _ Ny Ly) as B. cbn in B. unfold inr, int64_min, int64_max.
  apply Bool.andb_true_iff. rewrite !Z.leb_le. lia.
Qed.
Lemma date_prefix : forall p c r, match_all (EY :: ELit 45 :: Em :: ELit 45 :: Ed :: p) c (date r)
  = if inr 1 m 12 && inr 1 d 31 then match_all p (set_day d (set_month m (set_year y c))) r else None.
Proof.
  intros p c r. unfold date. cbn [match_all match_elem].
  rewrite (field_number None _ _ _ _ ys y) by (auto; cbn; auto). rewrite year_range. cbn [Z.eqb Pos.eqb].
  rewrite (field_number (Some 2%nat) _ _ _ _ ms m) by (auto; cbn; rewrite Lm; lia). destruct (inr 1 m 12); [|reflexivity]. cbn [Z.eqb Pos.eqb andb].
  rewrite (field_number (Some 2%nat) _ _ _ _ ds d) by (auto; cbn; rewrite Ld; lia). destruct (inr 1 d 31); reflexivity.
Qed.
Lemma date_slash : forall p c r, match_all (EY :: ELit 47 :: p) c (date r) = None.
Proof.
  intros p c r. unfold date. cbn [match_all match_elem]. rewrite (field_number None _ _ _ _ ys y) by (auto; cbn; auto). rewrite year_range. reflexivity.
Qed.
Lemma date_day : forall x p c r, x = 45 \/ x = 47 -> match_all (Ed :: ELit x :: p) c (date r) = None.
Proof.
  intros x p c r X. unfold date. clear Nm Nd Lm Ld. destruct Ny as (_ & F & _).
  destruct ys as [|a [|b [|e [|f [|]]]]]; cbn in Ly; try discriminate Ly.
  inversion F as [|? ? A F1]; subst. inversion F1 as [|? ? B F2]; subst. inversion F2 as [|? ? E F3]; subst.
  change ([a; b; e; f] ++ 45 :: ms ++ 45 :: ds ++ r) with ([a; b] ++ e :: f :: 45 :: ms ++ 45 :: ds ++ r).
  cbn [match_all match_elem]. rewrite (field_number (Some 2%nat) _ _ _ _ [a; b] (fold_left (fun v c => v * 10 + (c - 48)) [a; b] 0)).
  - destruct (inr _ _ _); [|reflexivity]. destruct (Z.eqb_spec x e) as [Q|Q]; [exfalso; lia|reflexivity].
  - split; [discriminate|]. split; [repeat constructor; lia|reflexivity].
  - cbn. lia.
Qed.
(** The clock part *)
Lemma clock_minutes : forall p c hs is_ h i r, number hs h -> (length hs <= 2)%nat -> number is_ i -> length is_ = 2%nat ->
  match_all (ESp :: EH :: ELit 58 :: EM :: p) c (32 :: hs ++ 58 :: is_ ++ r)
  = if inr 0 h 23 && inr 0 i 59 then match_all p (set_minute i (set_hour h c)) r else None.
Proof.
  intros p c hs is_ h i r Nh Lh Ni Li. cbn [match_all match_elem skip_ws]. change (is_ws 32) with true. cbv iota. rewrite (number_ws _ _ _ Nh).
  rewrite (field_number (Some 2%nat) _ _ _ _ hs h) by first [exact Nh | cbn; split; [lia|reflexivity]]. destruct (inr 0 h 23); [|reflexivity]. cbn [Z.eqb Pos.eqb andb].
  rewrite (field_number (Some 2%nat) _ _ _ _ is_ i) by (auto; cbn; rewrite Li; lia). destruct (inr 0 i 59); reflexivity.
Qed.
Lemma clock_weekday : forall p c hs h r, number hs h -> match_all (ESp :: Ea :: p) c (32 :: hs ++ r) = None.
Proof.
  intros p c hs h r Nh. cbn [match_all match_elem skip_ws]. change (is_ws 32) with true. cbv iota. rewrite (number_ws _ _ _ Nh).
  now rewrite (number_day _ _ _ Nh).
Qed.
Definition sec_field (b : bool) (f : civil) (off : Z) : outcome (option civil) :=
  if b then
    if month_days (year f) (month f) <? day f then Ok None
    else
      let c := if second f =? 60 then plus_second (set_second 59 f) else f in
      let n := civil_seconds c - off in
      if (n <? int64_min) || (int64_max <? n) then Ok None else if in_clock n then Ok (Some c) else UB
  else Ok None.
Lemma parse_parts : forall k h i s a z, clock_text k h i s a ->
  parse_user_time (date (match k with Some x => 32 :: x | None => [] end)) z
  = obind (sec_field (inr 1 m 12 && inr 1 d 31 && inr 0 h 23 && inr 0 i 59 && inr 0 s 60) (Civil y m d h i s) (match z with Some o => o | None => 0 end))
      (fun r => Ok (option_map (fun c => Utime c z a) r)).
Proof.
  intros k h i s a z K. unfold parse_user_time, formats. cbn [parse_formats].
  assert (W : forall r, skip_ws (date r) = date r) by (intros r; apply (number_ws ys y); exact Ny).
  assert (D1 : forall r, match_all [EY; ELit 47; Em; ELit 47; Ed; ESp; EH; ELit 58; EM; ELit 58; ES] (Civil 1970 1 1 0 0 0) (date r) = None) by (intros; apply date_slash).
  assert (D2 : forall r, match_all [Ed; ELit 45; Em; ELit 45; EY; ESp; EH; ELit 58; EM; ELit 58; ES] (Civil 1970 1 1 0 0 0) (date r) = None) by (intros; apply date_day; auto).
  assert (D3 : forall r, match_all [Ed; ELit 47; Em; ELit 47; EY; ESp; EH; ELit 58; EM; ELit 58; ES] (Civil 1970 1 1 0 0 0) (date r) = None) by (intros; apply date_day; auto).
  unfold cctz_parse. rewrite !W, D1, D2, D3. cbn [obind]. rewrite !date_prefix. clear D1 D2 D3 W.
  unfold sec_field. destruct K as [|hs is_ h i Nh Lh Ni Li|hs is_ ss h i s Nh Lh Ni Li Ns Ls].
  - change (inr 0 0 23) with true. change (inr 0 0 59) with true. change (inr 0 0 60) with true. rewrite !Bool.andb_true_r.
    destruct (inr 1 m 12 && inr 1 d 31)%bool; [|reflexivity]. cbn [match_all match_elem skip_ws]. unfold number_field, parse_int. cbn [take_digits Nat.eqb].
    change (first_of weekdays []) with (@None str). cbn [obind]. unfold set_day, set_month, set_year. cbn [year month day hour minute second].
    destruct (month_days y m <? d); [reflexivity|]. cbn [Z.eqb]. cbv zeta. destruct ((_ <? int64_min) || (int64_max <? _))%bool; [reflexivity|]. destruct (in_clock _); reflexivity.
  - change (inr 0 0 60) with true. rewrite !Bool.andb_true_r. destruct (inr 1 m 12 && inr 1 d 31)%bool; [|reflexivity]. cbn [andb].
    rewrite <- (app_nil_r is_). rewrite !(fun p c => clock_minutes p c hs is_ h i) by auto. rewrite (clock_weekday _ _ hs h) by auto.
    assert (T : forall c, match_all [] c (32 :: hs ++ 58 :: is_ ++ []) = None).
    { intros c. cbn [match_all skip_ws]. change (is_ws 32) with true. cbv iota. rewrite (number_ws _ _ _ Nh). destruct hs; [destruct Nh; congruence|reflexivity]. }
    rewrite T. destruct (inr 0 h 23 && inr 0 i 59)%bool; [|reflexivity]. cbn [andb].
    assert (Q : forall c, match_all [ELit 58; ES] c [] = None) by reflexivity. rewrite Q.
    assert (R : forall c, match_all [] c [] = Some c) by reflexivity. rewrite !R. cbn [obind].
    unfold set_day, set_month, set_year, set_hour, set_minute, set_second. cbn [year month day hour minute second].
    destruct (month_days y m <? d); [reflexivity|]. destruct ((_ <? int64_min) || (int64_max <? _))%bool; [reflexivity|]. destruct (in_clock _); reflexivity.
  - destruct (inr 1 m 12 && inr 1 d 31)%bool; [|reflexivity]. cbn [andb].
    rewrite !(fun p c => clock_minutes p c hs is_ h i) by auto. rewrite (clock_weekday _ _ hs h) by auto.
    assert (T : forall c, match_all [] c (32 :: hs ++ 58 :: is_ ++ 58 :: ss) = None).
    { intros c. cbn [match_all skip_ws]. change (is_ws 32) with true. cbv iota. rewrite (number_ws _ _ _ Nh). destruct hs; [destruct Nh; congruence|reflexivity]. }
    rewrite T. destruct (inr 0 h 23 && inr 0 i 59)%bool; [|reflexivity]. cbn [andb].
    assert (Q : forall c, match_all [ELit 58; ES] c (58 :: ss) = if inr 0 s 60 then Some (set_second s c) else None).
    { intros c. cbn [match_all match_elem Z.eqb Pos.eqb]. rewrite <- (app_nil_r ss). rewrite (field_number (Some 2%nat) _ _ _ _ ss s) by (auto; cbn; rewrite Ls; lia).
      destruct (inr 0 s 60); reflexivity. }
    rewrite Q. assert (R : forall c, match_all [] c (58 :: ss) = None) by reflexivity. rewrite !R. cbn [obind].
    destruct (inr 0 s 60); [|reflexivity]. unfold set_day, set_month, set_year, set_hour, set_minute, set_second. cbn [year month day hour minute second].
    destruct (month_days y m <? d); [reflexivity|]. destruct ((_ <? int64_min) || (int64_max <? _))%bool; [reflexivity|]. destruct (in_clock _); reflexivity.
Qed.
End Date.
Lemma inr_true : forall lo v hi, inr lo v hi = true <-> lo <= v <= hi.
Proof. intros lo v hi. unfold inr. rewrite Bool.andb_true_iff, !Z.leb_le. tauto. Qed.
Lemma clock_inside : forall n, -9223372036 <= n <= 9223372036 -> in_clock n = true /\ ((n <? int64_min) || (int64_max <? n))%bool = false.
Proof.
  intros n H. unfold in_clock, clock_max, int64_min, int64_max. split.
  - apply Bool.andb_true_iff. rewrite !Z.leb_le. lia.
  - apply Bool.orb_false_iff. rewrite !Z.ltb_ge. lia.
Qed.
Lemma tick_plus : forall c, is_time c -> tick c (plus_second c).
Proof.
  intros [y m d h i s] (D & H & I & S). cbn [year month day hour minute second] in *. unfold plus_second. cbn [year month day hour minute second].
  pose proof D as D'. apply is_date_iff in D'. destruct D' as [M B].
  destruct (Z.ltb_spec s 59); [constructor; auto; lia|]. replace s with 59 by lia.
  destruct (Z.ltb_spec i 59); [constructor; auto; lia|]. replace i with 59 by lia.
  destruct (Z.ltb_spec h 23); [constructor; auto; lia|]. replace h with 23 by lia.
  destruct (Z.ltb_spec d (month_days y m)); [econstructor; [apply days_iff; split; [exact M|reflexivity]|lia]|].
  replace d with (month_days y m) by lia.
  destruct (Z.ltb_spec m 12); [constructor; [apply days_iff; auto|lia]|].
  replace m with 12 by lia. apply tick_year.
Qed.
Lemma tick_fun : forall c d, tick c d -> d = plus_second c.
Proof.
  intros c d T. destruct T; unfold plus_second; cbn [year month day hour minute second].
  - destruct (Z.ltb_spec s 59); [reflexivity|lia].
  - change (59 <? 59) with false. cbv iota. destruct (Z.ltb_spec i 59); [reflexivity|lia].
  - change (59 <? 59) with false. cbv iota. destruct (Z.ltb_spec h 23); [reflexivity|lia].
  - change (59 <? 59) with false. change (23 <? 23) with false. cbv iota. apply days_iff in H. destruct H as [M ->]. destruct (Z.ltb_spec d (month_days y m)); [reflexivity|lia].
  - change (59 <? 59) with false. change (23 <? 23) with false. cbv iota. apply days_iff in H. destruct H as [M ->]. rewrite Z.ltb_irrefl. destruct (Z.ltb_spec m 12); [reflexivity|lia].
  - reflexivity.
Qed.
Section Read.
Variables (ys ms ds : str) (y m d : Z) (k : option str) (h i s : Z) (a : align) (z : option Z).
Hypothesis Ly : length ys = 4%nat.
Hypothesis Ny : number ys y.
Hypothesis Lm : length ms = 2%nat.
Hypothesis Nm : number ms m.
Hypothesis Ld : length ds = 2%nat.
Hypothesis Nd : number ds d.
Hypothesis K : clock_text k h i s a.
Let off := match z with Some o => o | None => 0 end.
Let text := ys ++ 45 :: ms ++ 45 :: ds ++ match k with Some x => 32 :: x | None => [] end.
Lemma read_time : is_time (Civil y m d h i s) -> -9223372036 <= civil_seconds (Civil y m d h i s) - off <= 9223372036 ->
  parse_user_time text z = Ok (Some (Utime (Civil y m d h i s) z a)).
Proof.
  intros (D & H & I & S) C. cbn [year month day hour minute second] in *. apply is_date_iff in D. pose proof (month_pos y m).
  unfold text. rewrite (parse_parts ys ms ds y m d Ly Ny Lm Nm Ld Nd k h i s a z K).
  rewrite (proj2 (inr_true 1 m 12)), (proj2 (inr_true 1 d 31)), (proj2 (inr_true 0 h 23)), (proj2 (inr_true 0 i 59)), (proj2 (inr_true 0 s 60)) by lia.
  cbn [andb]. unfold sec_field. cbn [year month day hour minute second].
  destruct (Z.ltb_spec (month_days y m) d); [lia|]. destruct (Z.eqb_spec s 60); [lia|]. cbv zeta. fold off.
  destruct (clock_inside _ C) as [-> ->]. reflexivity.
Qed.
Lemma read_leap : forall c, s = 60 -> tick (Civil y m d h i 59) c -> -9223372036 <= civil_seconds c - off <= 9223372036 ->
  parse_user_time text z = Ok (Some (Utime c z a)).
Proof.
  intros c -> T C. assert (is_time (Civil y m d h i 59)) as (D & H & I & S).
  { inversion T; subst; unfold is_time; cbn [year month day hour minute second]; repeat split; try lia; auto.
    - exists n; split; auto; lia.
    - exists d. split; auto. match goal with X : days_in _ _ _ |- _ => apply days_iff in X; destruct X as [? E]; pose proof (month_pos y m) end. lia.
    - exists 31. split; [apply days_iff; split; [lia|reflexivity]|lia]. }
  cbn [year month day hour minute second] in *. apply is_date_iff in D. pose proof (month_pos y m).
  unfold text. rewrite (parse_parts ys ms ds y m d Ly Ny Lm Nm Ld Nd k h i 60 a z K).
  rewrite (proj2 (inr_true 1 m 12)), (proj2 (inr_true 1 d 31)), (proj2 (inr_true 0 h 23)), (proj2 (inr_true 0 i 59)) by lia.
  change (inr 0 60 60) with true. cbn [andb]. unfold sec_field. cbn [year month day hour minute second].
  destruct (Z.ltb_spec (month_days y m) d); [lia|]. cbn [Z.eqb Pos.eqb]. cbv zeta. unfold set_second. cbn [year month day hour minute second].
  apply tick_fun in T. rewrite <- T. fold off. destruct (clock_inside _ C) as [-> ->]. reflexivity.
Qed.
Lemma read_bad : ~ is_time (Civil y m d h i s) -> s <> 60 -> parse_user_time text z = Ok None.
Proof.
  intros B S6. unfold text. rewrite (parse_parts ys ms ds y m d Ly Ny Lm Nm Ld Nd k h i s a z K).
  destruct (inr 1 m 12 && inr 1 d 31 && inr 0 h 23 && inr 0 i 59 && inr 0 s 60)%bool eqn:E; [|reflexivity].
  rewrite !Bool.andb_true_iff, !inr_true in E. unfold sec_field. cbn [year month day hour minute second].
  destruct (Z.ltb_spec (month_days y m) d); [reflexivity|]. exfalso. apply B. unfold is_time. cbn [year month day hour minute second].
  rewrite is_date_iff. lia.
Qed.
End Read.

(** ** Writing numbers *)
Lemma digits_of_spec : forall f z acc, 0 <= z -> (Z.to_nat z < f)%nat ->
  exists s, digits_of f z acc = s ++ acc /\ number s z /\ (0 < z -> 10 ^ (Z.of_nat (length s) - 1) <= z).
Proof.
  induction f as [|f IH]; intros z acc Z0 F; [lia|]. cbn [digits_of]. pose proof (Z.mod_pos_bound z 10 ltac:(lia)) as Mb.
  destruct (Z.ltb_spec z 10) as [L|L].
  - exists [48 + z mod 10]. split; [reflexivity|]. split; [|intros; cbn; lia]. split; [discriminate|]. split; [repeat constructor; lia|].
    cbn [fold_left]. rewrite Z.mod_small by lia. lia.
  - assert (Q : z = 10 * (z / 10) + z mod 10) by (apply Z.div_mod; lia). destruct (IH (z / 10) (48 + z mod 10 :: acc)) as (s & E & (N & Fo & V) & P); [apply Z.div_pos; lia| |].
    { assert (z / 10 < z) by (apply Z.div_lt; lia). assert (0 <= z / 10) by (apply Z.div_pos; lia). lia. }
    exists (s ++ [48 + z mod 10]). rewrite <- app_assoc. split; [exact E|]. split.
    + split; [destruct s; discriminate|]. split; [apply Forall_app; split; [exact Fo|repeat constructor; lia]|]. rewrite fold_left_app. cbn [fold_left]. rewrite <- V. lia.
    + intros _. rewrite app_length. cbn [length]. assert (1 <= z / 10) by (apply Z.div_le_lower_bound; lia).
      replace (Z.of_nat (length s + 1) - 1) with (Z.succ (Z.of_nat (length s) - 1)) by lia. destruct s as [|x s]; [congruence|]. cbn [length] in *.
      rewrite Z.pow_succ_r by lia. specialize (P ltac:(lia)). lia.
Qed.
Lemma decimal_spec : forall z, 0 <= z -> number (decimal z) z.
Proof.
  intros z Z0. unfold decimal. destruct (Z.ltb_spec z 0); [lia|]. destruct (digits_of_spec (S (Z.to_nat z)) z []) as (s & -> & N & _); [lia|lia|]. now rewrite app_nil_r.
Qed.
Lemma decimal_neg : forall z, z < 0 -> exists s, decimal z = 45 :: s /\ number s (- z).
Proof.
  intros z Z0. unfold decimal. destruct (Z.ltb_spec z 0); [|lia]. destruct (digits_of_spec (S (Z.to_nat (- z))) (- z) []) as (s & -> & N & _); [lia|lia|].
  exists s. rewrite app_nil_r. auto.
Qed.
Lemma decimal_year : forall z, 1000 <= z <= 9999 -> number (decimal z) z /\ length (decimal z) = 4%nat.
Proof.
  intros z B. split; [apply decimal_spec; lia|]. unfold decimal. destruct (Z.ltb_spec z 0); [lia|].
  destruct (digits_of_spec (S (Z.to_nat z)) z []) as (s & -> & N & P); [lia|lia|]. rewrite app_nil_r. specialize (P ltac:(lia)).
  pose proof (number_small _ _ _ N eq_refl) as Q.
  assert (Z.of_nat (length s) < 5) as U.
  { destruct (Z.lt_ge_cases (Z.of_nat (length s)) 5) as [|G]; [assumption|]. exfalso. assert (10 ^ 4 <= 10 ^ (Z.of_nat (length s) - 1)) by (apply Z.pow_le_mono_r; lia). lia. }
  assert (3 < Z.of_nat (length s)) as V.
  { destruct (Z.lt_ge_cases 3 (Z.of_nat (length s))) as [|G]; [assumption|]. exfalso. assert (10 ^ Z.of_nat (length s) <= 10 ^ 3) by (apply Z.pow_le_mono_r; lia). lia. }
  lia.
Qed.
Lemma two_spec : forall z, 0 <= z <= 99 -> number (two z) z /\ length (two z) = 2%nat.
Proof.
  intros z B. split; [|reflexivity]. unfold two. pose proof (Z.mod_pos_bound z 10 ltac:(lia)). assert (z = 10 * (z / 10) + z mod 10) by (apply Z.div_mod; lia).
  split; [discriminate|]. split; [repeat constructor; lia|]. cbn [fold_left]. lia.
Qed.
Lemma signed_hours : forall h, 0 <= h <= 24 -> signed 3 h = 43 :: two h.
Proof.
  intros h B. assert (In h (map Z.of_nat (seq 0 25))) as I by (apply in_map_iff; exists (Z.to_nat h); split; [lia|apply in_seq; lia]).
  cbn in I. repeat (destruct I as [<-|I]; [reflexivity|]). contradiction.
Qed.
Lemma stoi_number : forall s v, number s v -> v <= 2147483647 -> stoi s = Ok v.
Proof.
  intros s v (N & F & ->) B. unfold stoi. rewrite <- (app_nil_r s), take_all by (auto; exact I). rewrite app_nil_r. destruct s as [|c s]; [congruence|].
  cbn [length Nat.add]. destruct (Z.leb_spec (fold_left (fun v c0 => v * 10 + (c0 - 48)) (c :: s) 0) 2147483647); [reflexivity|lia].
Qed.
Lemma to_int_number : forall s v, number s v -> v <= 2147483647 -> to_int s = Ok v.
Proof.
  intros s v N B. pose proof N as (N' & F & _). unfold to_int. destruct s as [|c s]; [congruence|]. inversion F as [|? ? C ?]; subst.
  rewrite (stoi_number (c :: s) v N B). destruct c as [|p|p]; try reflexivity. do 6 (destruct p as [p|p|]; try reflexivity). lia.
Qed.
Lemma period_back : forall p, period_of (period_char p) = Ok p.
Proof. intros []; reflexivity. Qed.
Lemma duration_back : forall m n v p, to_int n = Ok v -> duration m (n ++ [period_char p]) = Ok (Repeat m v p).
Proof. intros m n v p H. unfold duration. rewrite removelast_last, rev_unit, H. cbn [obind]. rewrite period_back. reflexivity. Qed.
Lemma zone_back : forall h, 0 <= h <= 24 -> zone_of (two h) = Ok (h * 3600).
Proof.
  intros h B. assert (In h (map Z.of_nat (seq 0 25))) as I by (apply in_map_iff; exists (Z.to_nat h); split; [lia|apply in_seq; lia]).
  cbn in I. repeat (destruct I as [<-|I]; [reflexivity|]). contradiction.
Qed.

(** ** Writing times *)
Definition sign_of (r : repeat_) : str := match r_mode r with Some m => mode_text m | None => [] end.
Definition clock_of (t : utime) : option str :=
  match al t with
  | AMinute => Some (two (hour (civ t)) ++ 58 :: two (minute (civ t)))
  | ASecond => Some (two (hour (civ t)) ++ 58 :: two (minute (civ t)) ++ 58 :: two (second (civ t)))
  | _ => None
  end.
Definition fields_of (s : stamp) : fields :=
  let t := at_time s in let c := civ t in
  Fields (active s) (Some (decimal (year c) ++ 45 :: two (month c) ++ 45 :: two (day c))) (clock_of t)
         (option_map (fun o => two (Z.quot (Z.quot o 60) 60)) (zone t))
         (map (fun r => (sign_of r, decimal (r_count r) ++ [period_char (r_period r)])) (repeats s))
         (option_map warn_text (warn s)).
Lemma digits_two : forall z, 0 <= z <= 99 -> digits 2 (two z).
Proof. intros z B. destruct (two_spec z B) as [(_ & F & _) L]. split; auto. Qed.
Lemma hours_quot : forall h, 0 <= h -> Z.quot (Z.quot (h * 3600) 60) 60 = h /\ Z.rem (Z.quot (h * 3600) 60) 60 = 0.
Proof. intros h H. euclid. Qed.
Lemma letter_char : forall p, letter (period_char p).
Proof. intros []; unfold letter; cbn; tauto. Qed.
Lemma date_bounds : forall c, is_time c -> 1 <= month c <= 12 /\ 1 <= day c <= 31.
Proof. intros c (D & _). apply is_date_iff in D. pose proof (month_pos (year c) (month c)). lia. Qed.
Lemma fields_orderly : forall s, writable s -> orderly (fields_of s).
Proof.
  intros s ((T & Y & R & W & C) & Rs & Wa). destruct (date_bounds _ T) as [M D]. destruct T as (_ & H & I & S).
  unfold orderly, fields_of. cbn [f_date f_clock f_zone f_repeats f_warn]. split; [|split; [|split; [|split]]].
  - destruct (decimal_year _ Y) as [(_ & F & _) L].
    exists (decimal (year (civ (at_time s)))), (two (month (civ (at_time s)))), (two (day (civ (at_time s)))). split; [reflexivity|].
    split; [split; auto|]. split; apply digits_two; lia.
  - intros k E. unfold clock_of in E. destruct (al (at_time s)); try discriminate E; injection E as <-.
    + exists (two (hour (civ (at_time s)))), (two (minute (civ (at_time s)))), []. rewrite app_nil_r. split; [reflexivity|].
      split; [apply digits_two; lia|]. split; [apply digits_two; lia|]. auto.
    + exists (two (hour (civ (at_time s)))), (two (minute (civ (at_time s)))), (58 :: two (second (civ (at_time s)))). split; [reflexivity|].
      split; [apply digits_two; lia|]. split; [apply digits_two; lia|]. right. eexists. split; [reflexivity|]. apply digits_two; lia.
  - intros z E. unfold whole_hours in W. destruct (zone (at_time s)) as [o|]; [|discriminate E]. cbn in E. injection E as <-. destruct W as (h & -> & B).
    destruct (hours_quot h ltac:(lia)) as [-> _]. apply digits_two; lia.
  - apply Forall_map. eapply Forall_impl; [|exact Rs]. cbn [fst snd]. intros r (P & Q & m & E & N). split.
    + unfold sign_of. rewrite E. destruct m; [congruence| | |]; cbn; tauto.
    + exists (decimal (r_count r)), (r_count r), (period_char (r_period r)). split; [reflexivity|]. split; [apply decimal_spec; exact P|apply letter_char].
  - intros w E. destruct (warn s) as [r|] eqn:G; [|discriminate E]. cbn in E. injection E as <-. destruct (Wa r eq_refl) as [P Q].
    destruct (decimal_neg _ P) as (n & E & N). unfold warn_text. rewrite E. exists (n ++ [period_char (r_period r)]). split; [reflexivity|].
    exists n, (- r_count r), (period_char (r_period r)). split; [reflexivity|]. split; [exact N|apply letter_char].
Qed.
Lemma repeats_text_eq : forall l, Forall (fun r => 0 <= r_count r /\ small (r_count r) /\ exists m, r_mode r = Some m /\ m <> MNone) l ->
  repeats_text l = Ok (concat (map (fun x => fst x ++ snd x) (map (fun r => (sign_of r, decimal (r_count r) ++ [period_char (r_period r)])) l))).
Proof.
  induction 1 as [|r l (P & Q & m & E & N) _ IH]; [reflexivity|]. cbn [repeats_text map concat fst snd]. rewrite IH. unfold repeat_text, sign_of. rewrite E. reflexivity.
Qed.
Lemma repeats_back : forall l, Forall (fun r => 0 <= r_count r /\ small (r_count r) /\ exists m, r_mode r = Some m /\ m <> MNone) l ->
  read_repeats (map (fun r => (sign_of r, decimal (r_count r) ++ [period_char (r_period r)])) l) = Ok l.
Proof.
  induction 1 as [|[mo n p] l (P & Q & m & E & N) _ IH]; [reflexivity|]. cbn [map read_repeats]. cbn in P, Q, E. rewrite E in *.
  unfold read_repeat. cbn [fst snd r_count r_period]. change (sign_of (Repeat (Some m) n p)) with (mode_text m).
  rewrite (duration_back _ _ n) by (apply to_int_number; [apply decimal_spec; exact P|exact Q]). cbn [obind]. rewrite IH.
  destruct m; [congruence| | |]; reflexivity.
Qed.
Lemma format_spelled : forall s, writable s ->
  format_org (at_time s) = part [] (f_date (fields_of s)) ++ part [32] (f_clock (fields_of s)) ++ part [32; 43] (f_zone (fields_of s)).
Proof.
  intros s ((T & Y & R & W & C) & Rs & Wa). unfold fields_of. cbn [f_date f_clock f_zone]. unfold part. cbn [app]. unfold format_org.
  assert (Z : match zone (at_time s) with
              | Some o => if Z.rem (Z.quot o 60) 60 =? 0 then 32 :: signed 3 (Z.quot (Z.quot o 60) 60) else 32 :: signed 5 (Z.quot o 60)
              | None => [] end
            = match option_map (fun o => two (Z.quot (Z.quot o 60) 60)) (zone (at_time s)) with Some z => 32 :: 43 :: z | None => [] end).
  { unfold whole_hours in W. destruct (zone (at_time s)) as [o|]; [|reflexivity]. cbn [option_map]. destruct W as (h & -> & B).
    destruct (hours_quot h ltac:(lia)) as [-> ->]. cbn [Z.eqb]. rewrite signed_hours by lia. reflexivity. }
  cbv zeta. rewrite Z. unfold clock_of. unfold rounded in R. destruct (al (at_time s)); try contradiction R; reflexivity.
Qed.
Lemma stamp_written : forall s, writable s -> stamp_text s = Ok (spelling (fields_of s)).
Proof.
  intros s H. unfold stamp_text. rewrite (format_spelled s H). destruct H as (_ & Rs & _). rewrite (repeats_text_eq _ Rs). cbn [obind]. f_equal.
  unfold spelling. rewrite <- !app_assoc. cbn [fields_of f_active f_repeats f_warn]. unfold part at 4. destruct (warn s); reflexivity.
Qed.
Lemma stamp_back : forall s, writable s -> read_stamp (fields_of s) = Ok (Some (kept s)).
Proof.
  intros [act [c z a] rs wa] ((T & Y & R & W & C) & Rs & Wa). cbn [at_time civ zone al repeats warn] in *.
  unfold read_stamp, fields_of. cbn [f_date f_clock f_zone f_repeats f_warn f_active at_time civ zone al repeats warn active].
  assert (Z : match option_map (fun o => two (Z.quot (Z.quot o 60) 60)) z with None => Ok None | Some z => omap Some (zone_of z) end = Ok z).
  { unfold whole_hours in W. cbn [zone] in W. destruct z as [o|]; [|reflexivity]. cbn [option_map]. destruct W as (h & -> & B).
    destruct (hours_quot h ltac:(lia)) as [-> _]. rewrite zone_back by lia. reflexivity. }
  rewrite Z. cbn [obind]. destruct (date_bounds _ T) as [M D].
  assert (P : forall k, match decimal (year c) ++ 45 :: two (month c) ++ 45 :: two (day c) with [] => k | _ => (decimal (year c) ++ 45 :: two (month c) ++ 45 :: two (day c)) ++ 32 :: k end
     = decimal (year c) ++ 45 :: two (month c) ++ 45 :: two (day c) ++ 32 :: k).
  { intros k. destruct (decimal (year c)) eqn:E; cbn [app]; rewrite <- ?app_assoc; cbn [app]; rewrite <- ?app_assoc; reflexivity. }
  assert (K : exists h i s', clock_text (clock_of (Utime c z a)) h i s' a /\ c = Civil (year c) (month c) (day c) h i s').
  { destruct T as (_ & H & I & S). unfold clock_of, rounded in *. cbn [al civ] in *. destruct c as [y m d h i s']. cbn [year month day hour minute second] in *. destruct a; try contradiction R.
    - destruct R as (-> & -> & ->). exists 0, 0, 0. split; [constructor|reflexivity].
    - subst s'. exists h, i, 0. split; [constructor; try apply two_spec; try lia; reflexivity|reflexivity].
    - exists h, i, s'. split; [constructor; try apply two_spec; try lia; reflexivity|reflexivity]. }
  destruct K as (h & i & s' & K & E).
  assert (Q : parse_user_time (decimal (year c) ++ 45 :: two (month c) ++ 45 :: two (day c) ++ match clock_of (Utime c z a) with Some x => 32 :: x | None => [] end) z = Ok (Some (Utime c z a))).
  { destruct (decimal_year _ Y) as [Ny Ly]. destruct (two_spec (month c) ltac:(lia)) as [Nm Lm]. destruct (two_spec (day c) ltac:(lia)) as [Nd Ld].
    pose proof (read_time (decimal (year c)) (two (month c)) (two (day c)) (year c) (month c) (day c) (clock_of (Utime c z a)) h i s' a z Ly Ny Lm Nm Ld Nd K) as G.
    rewrite <- E in G. rewrite G; [reflexivity|exact T|]. apply (C (civil_seconds c)). apply reached. exact T. }
  assert (X : match clock_of (Utime c z a) with
              | Some c0 => match decimal (year c) ++ 45 :: two (month c) ++ 45 :: two (day c) with [] => c0 | _ => (decimal (year c) ++ 45 :: two (month c) ++ 45 :: two (day c)) ++ 32 :: c0 end
              | None => decimal (year c) ++ 45 :: two (month c) ++ 45 :: two (day c) end
            = decimal (year c) ++ 45 :: two (month c) ++ 45 :: two (day c) ++ match clock_of (Utime c z a) with Some x => 32 :: x | None => [] end).
  { destruct (clock_of (Utime c z a)); [apply P|]. now rewrite app_nil_r. }
  rewrite X, Q. cbn [obind]. rewrite (repeats_back _ Rs). cbn [obind].
  destruct wa as [[mo n p]|]; [|reflexivity]. cbn [option_map]. destruct (Wa _ eq_refl) as [A B]. cbn [r_count] in *. unfold warn_text. cbn [r_count r_period].
  destruct (decimal_neg _ A) as (ns & En & Nn). rewrite En.
  rewrite (duration_back None (45 :: ns) n); [reflexivity|]. unfold to_int. rewrite (stoi_number _ _ Nn B). cbn [omap obind]. f_equal. lia.
Qed.
Lemma tick_time : forall c d, tick c d -> is_time d.
Proof.
  intros c d T. destruct T; unfold is_time; cbn [year month day hour minute second]; (split; [|lia]); auto; apply is_date_iff.
  - apply days_iff in H. lia.
  - apply days_iff in H. pose proof (month_pos y (m + 1)). lia.
  - pose proof (month_pos (y + 1) 1). lia.
Qed.

(** ** A text is spelled in one way *)
Lemma app_same : forall {A} (a b x y : list A), length a = length b -> a ++ x = b ++ y -> a = b /\ x = y.
Proof.
  induction a as [|c a IH]; intros [|e b] x y L E; try discriminate L; [auto|]. cbn in E. injection E as -> E. destruct (IH b x y) as [-> ->]; auto.
Qed.
(** The digits before something else *)
Lemma digits_same : forall a b x y, Forall (fun c => 48 <= c <= 57) a -> Forall (fun c => 48 <= c <= 57) b -> stops x -> stops y -> a ++ x = b ++ y -> a = b /\ x = y.
Proof.
  induction a as [|c a IH]; intros [|e b] x y Fa Fb Sx Sy E; cbn in E.
  - auto.
  - subst x. inversion Fb as [|? ? B _]; subst. cbn in Sx. apply is_dig_iff in B. congruence.
  - subst y. inversion Fa as [|? ? B _]; subst. cbn in Sy. apply is_dig_iff in B. congruence.
  - injection E as -> E. inversion Fa; inversion Fb; subst. destruct (IH b x y) as [-> ->]; auto.
Qed.
Lemma letter_stops : forall c s, letter c -> stops (c :: s).
Proof. intros c s L. unfold letter in L. cbn in L. repeat (destruct L as [<-|L]; [reflexivity|]). contradiction. Qed.
Lemma duration_same : forall a b x y, is_duration a -> is_duration b -> a ++ x = b ++ y -> a = b /\ x = y.
Proof.
  intros a b x y (n & v & c & -> & (_ & F & _) & L) (n' & v' & c' & -> & (_ & F' & _) & L') E. rewrite <- !app_assoc in E. cbn in E.
  apply digits_same in E; auto using letter_stops. destruct E as [-> E]. injection E as -> ->. auto.
Qed.
Lemma duration_head : forall a, is_duration a -> exists c r, a = c :: r /\ 48 <= c <= 57.
Proof. intros a (n & v & c & -> & (N & F & _) & _). destruct n as [|e n]; [congruence|]. inversion F; subst. exists e, (n ++ [c]). auto. Qed.
Definition ends (s : str) : Prop := exists r, s = 62 :: r \/ s = 93 :: r \/ s = 45 :: r.
Lemma repeats_same : forall l k x y,
  Forall (fun x => In (fst x) [[43]; [43; 43]; [46; 43]] /\ is_duration (snd x)) l ->
  Forall (fun x => In (fst x) [[43]; [43; 43]; [46; 43]] /\ is_duration (snd x)) k ->
  ends x -> ends y -> concat (map (fun x => fst x ++ snd x) l) ++ x = concat (map (fun x => fst x ++ snd x) k) ++ y -> l = k /\ x = y.
Proof.
  assert (S : forall s d, In s [[43]; [43; 43]; [46; 43]] -> exists c r, s ++ d = c :: r /\ (c = 43 \/ c = 46)).
  { intros s d H. cbn in H. destruct H as [<-|[<-|[<-|[]]]]; cbn; eauto. }
  induction l as [|[s a] l IH]; intros [|[s' b] k] x y Fl Fk Ex Ey E; cbn [map concat app fst snd] in E.
  - auto.
  - exfalso. inversion Fk as [|? ? [B _] _]; subst. cbn in B. rewrite <- !app_assoc in Ex. destruct (S s' (b ++ concat (map (fun x => fst x ++ snd x) k) ++ y) B) as (c & r & C & Q). rewrite C in Ex.
    destruct Ex as (r' & [X|[X|X]]); injection X as -> ->; lia.
  - exfalso. inversion Fl as [|? ? [B _] _]; subst. cbn in B. rewrite <- !app_assoc in Ey. destruct (S s (a ++ concat (map (fun x => fst x ++ snd x) l) ++ x) B) as (c & r & C & Q). rewrite C in Ey.
    destruct Ey as (r' & [X|[X|X]]); injection X as -> ->; lia.
  - inversion Fl as [|? ? [B D] Fl']; subst. inversion Fk as [|? ? [B' D'] Fk']; subst. cbn [fst snd] in *. rewrite <- !app_assoc in E.
    assert (s = s' /\ a ++ concat (map (fun x => fst x ++ snd x) l) ++ x = b ++ concat (map (fun x => fst x ++ snd x) k) ++ y) as [-> G].
    { destruct (duration_head _ D) as (c & r & -> & Hc), (duration_head _ D') as (c' & r' & -> & Hc'). cbn in B, B'.
      destruct B as [<-|[<-|[<-|[]]]], B' as [<-|[<-|[<-|[]]]]; cbn [app] in E |- *; injection E; intros; subst; try lia; (split; [reflexivity|]); congruence. }
    apply duration_same in G; auto. destruct G as [-> G]. apply IH in G; auto. destruct G as [-> ->]. auto.
Qed.
Lemma tail_same : forall (f g : fields), f_active f = f_active g ->
  (forall w, f_warn f = Some w -> exists s, w = 45 :: s /\ is_duration s) -> (forall w, f_warn g = Some w -> exists s, w = 45 :: s /\ is_duration s) ->
  part [] (f_warn f) ++ [if f_active f then 62 else 93] = part [] (f_warn g) ++ [if f_active g then 62 else 93] -> f_warn f = f_warn g.
Proof.
  intros f g A W W' E. rewrite <- A in E. unfold part in E. destruct (f_warn f) as [w|], (f_warn g) as [w'|]; [|exfalso|exfalso|reflexivity].
  - cbn in E. apply app_inv_tail in E. now subst.
  - destruct (W w eq_refl) as (s & -> & _). destruct (f_active f); discriminate E.
  - destruct (W' w' eq_refl) as (s & -> & _). destruct (f_active f); discriminate E.
Qed.
Lemma ends_tail : forall f, (forall w, f_warn f = Some w -> exists s, w = 45 :: s /\ is_duration s) -> ends (part [] (f_warn f) ++ [if f_active f then 62 else 93]).
Proof.
  intros f W. unfold part, ends. destruct (f_warn f) as [w|]; [destruct (W w eq_refl) as (s & -> & _); cbn; eauto 6|]. cbn. destruct (f_active f); eauto 6.
Qed.
(** What follows the zone does not start with a blank, what follows the clock is a blank and a plus, or not a blank *)
Definition rest (f : fields) : str := concat (map (fun x => fst x ++ snd x) (f_repeats f)) ++ part [] (f_warn f) ++ [if f_active f then 62 else 93].
Lemma rest_head : forall f, orderly f -> exists c r, rest f = c :: r /\ c <> 32 /\ is_dig c = false /\ c <> 58.
Proof.
  intros f (_ & _ & _ & R & W). unfold rest. destruct (f_repeats f) as [|[s d] l].
  - destruct (ends_tail f W) as (r & [E|[E|E]]); cbn [map concat app]; rewrite E; eexists _, r; (split; [reflexivity|]); vm_compute; repeat split; discriminate.
  - inversion R as [|? ? [B _] _]; subst. cbn in B. destruct B as [<-|[<-|[<-|[]]]]; cbn [map concat app fst]; eexists _, _; (split; [reflexivity|]); vm_compute; repeat split; discriminate.
Qed.
Lemma digits_len : forall k a b x y, digits k a -> digits k b -> a ++ x = b ++ y -> a = b /\ x = y.
Proof. intros k a b x y [L _] [L' _] E. apply app_same in E; [exact E|congruence]. Qed.
Lemma spelling_injective : forall f g, orderly f -> orderly g -> spelling f = spelling g -> f = g.
Proof.
  intros f g O P E. pose proof (rest_head f O) as (cf & rf & Hf & Nf). pose proof (rest_head g P) as (cg & rg & Hg & Ng).
  destruct O as ((y & m & d & Df & Ly & Lm & Ld) & Cf & Zf & Rf & Wf). destruct P as ((y' & m' & d' & Dg & Ly' & Lm' & Ld') & Cg & Zg & Rg & Wg).
  unfold spelling in E. rewrite Df, Dg in E. cbn [part app] in E. fold (rest f) in E. fold (rest g) in E.
  assert (A : f_active f = f_active g) by (destruct (f_active f), (f_active g); try reflexivity; discriminate E). injection E as _ E.
  rewrite <- !app_assoc in E. cbn [app] in E. apply (digits_len 4) in E; auto. destruct E as [-> E]. injection E as E. rewrite <- !app_assoc in E. cbn [app] in E.
  apply (digits_len 2) in E; auto. destruct E as [-> E]. injection E as E. apply (digits_len 2) in E; auto. destruct E as [-> E].
  assert (Q : f_clock f = f_clock g /\ part [32; 43] (f_zone f) ++ rest f = part [32; 43] (f_zone g) ++ rest g).
  { rewrite Hf, Hg in E |- *. clear Hf Hg. destruct (f_clock f) as [kf|], (f_clock g) as [kg|]; cbn [part app] in E.
    - destruct (Cf kf eq_refl) as (h & i & r & -> & Dh & Di & Dr), (Cg kg eq_refl) as (h' & i' & r' & -> & Dh' & Di' & Dr'). injection E as E.
      rewrite <- !app_assoc in E. apply (digits_len 2) in E; auto. destruct E as [-> E]. cbn [app] in E. injection E as E. rewrite <- !app_assoc in E. apply (digits_len 2) in E; auto. destruct E as [-> E].
      assert (Z : forall z c r, c <> 58 -> part [32; 43] z ++ c :: r <> [] /\ hd 0 (part [32; 43] z ++ c :: r) <> 58).
      { intros z c r0 N. destruct z; cbn; split; try discriminate; auto. }
      destruct Dr as [->|(s & -> & Ds)], Dr' as [->|(s' & -> & Ds')].
      + split; [reflexivity|exact E].
      + exfalso. apply (f_equal (hd 0)) in E. cbn [app hd] in E. now apply (proj2 (Z (f_zone f) cf rf (proj2 (proj2 Nf)))).
      + exfalso. apply (f_equal (hd 0)) in E. cbn [app hd] in E. symmetry in E. now apply (proj2 (Z (f_zone g) cg rg (proj2 (proj2 Ng)))).
      + cbn [app] in E. injection E as E. apply (digits_len 2) in E; auto. destruct E as [-> E]. split; [reflexivity|exact E].
    - exfalso. destruct (Cf kf eq_refl) as (h & i & r & -> & [Lh Dh] & _). destruct h as [|c h]; [discriminate Lh|]. inversion Dh as [|? ? X _]; subst.
      destruct (f_zone g) as [z|]; cbn [part app] in E; injection E; intros; subst; [lia|]. now apply (proj1 Ng).
    - exfalso. destruct (Cg kg eq_refl) as (h & i & r & -> & [Lh Dh] & _). destruct h as [|c h]; [discriminate Lh|]. inversion Dh as [|? ? X _]; subst.
      destruct (f_zone f) as [z|]; cbn [part app] in E; injection E; intros; subst; [lia|]. now apply (proj1 Nf).
    - split; [reflexivity|exact E]. }
  destruct Q as [Q1 Q2].
  assert (S : f_zone f = f_zone g /\ rest f = rest g).
  { clear E. destruct (f_zone f) as [z|], (f_zone g) as [z'|]; cbn [part app] in Q2.
    - injection Q2 as Q2. apply (digits_len 2) in Q2; auto. destruct Q2 as [-> ->]. auto.
    - exfalso. rewrite Hg in Q2. injection Q2 as Q2 _. now apply (proj1 Ng).
    - exfalso. rewrite Hf in Q2. injection Q2 as Q2 _. now apply (proj1 Nf).
    - auto. }
  destruct S as [S1 S2]. unfold rest in S2. apply repeats_same in S2; auto using ends_tail. destruct S2 as [S2 S3]. apply tail_same in S3; auto.
  destruct f, g. cbn in *. congruence.
Qed.
