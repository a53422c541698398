(** Fuzzy matching and the side-by-side form. *)
From Coq Require Import ZArith List Bool Lia.
From Verif Require Import Base DiffModel DiffSpec LevProofs.
Import ListNotations.
Local Open Scope Z_scope.

Lemma set_at_ok l i v : (i < length l)%nat ->
  exists l', set_at l i v = Ok l' /\ length l' = length l /\
    firstn i l' = firstn i l /\ nth_error l' i = Some v /\ firstn (S i) l' = firstn i l ++ [v].
Proof.
  revert i; induction l as [|x l IH]; intros [|i] H; cbn in H; try lia.
  - exists (v :: l). repeat split; reflexivity.
  - destruct (IH i ltac:(lia)) as (l' & E & L & F & N & F').
    exists (x :: l'). cbn [set_at]. rewrite E. cbn [obind]. split; [reflexivity|].
    cbn [length firstn nth_error]. repeat split; auto; try congruence.
    cbn [firstn] in F'. cbn [app]. now rewrite F'.
Qed.

Section Fz.
Variable limit : Z.
Variable eq : Z -> Z -> bool.
Variable score : Z * Z -> Z -> list Z -> Z.
Variables pl sl : Z.

(** A result extending [next] already fixed positions. *)
Definition extends (p s : Z) (src : list Z) (next : nat) (r : Z * list Z) : Prop :=
  exists seg rest, snd r = firstn next src ++ seg ++ rest /\
    length (snd r) = length src /\
    Z.of_nat (length seg) = pl - p + 1 /\ positions eq p s sl seg /\
    exists a, fst r = score (a, sl) (Z.of_nat (next + length seg)) (snd r).

Lemma positions_weaken p s s' e l : s' <= s -> positions eq p s e l -> positions eq p s' e l.
Proof. destruct l; cbn; [auto|]. intros; intuition lia. Qed.

Lemma extends_weaken p s s' src next r : s' <= s -> extends p s src next r -> extends p s' src next r.
Proof.
  intros L (seg & rest & A & B & C & D & E). exists seg, rest. intuition.
  eapply positions_weaken; eauto.
Qed.

Lemma fz_sound : forall fuel,
  (forall p s src next cnt r cnt', (next <= length src)%nat -> p <= pl + 1 ->
     fz fuel limit eq score pl sl p s src next cnt = Ok (Some r, cnt') -> extends p s src next r) /\
  (forall p s cur next cnt best r cnt', (next <= length cur)%nat -> p <= pl + 1 ->
     fz_loop fuel limit eq score pl sl p s cur next cnt best = Ok (Some r, cnt') ->
     best = Some r \/ extends p s cur next r).
Proof.
  induction fuel as [|f [IHf IHl]]; split; intros *; try discriminate.
  - intros Hn Hp. cbn [fz]. destruct (limit <=? cnt + 1); [discriminate|].
    destruct (negb (p <=? pl) || negb (s <=? sl)) eqn:V; [discriminate|].
    intros H. apply IHl in H as [H|H]; auto. discriminate.
  - intros Hn Hp. cbn [fz_loop].
    destruct ((p <=? pl) && (s <=? sl)) eqn:V.
    + destruct (eq p s) eqn:E.
      * destruct (fz f limit eq score pl sl p (s + 1) cur next cnt) as [[rec cnt1]| | |] eqn:Fr;
          try discriminate. cbn [obind].
        destruct (set_at cur next s) as [cur'| | |] eqn:Sa; try discriminate. cbn [obind].
        assert (Hlt : (next < length cur)%nat).
        { destruct (Nat.lt_ge_cases next (length cur)) as [L|L]; auto. exfalso.
          revert Sa. clear -L. revert next L cur'. induction cur as [|x cur IH]; intros [|i] L c; cbn in *;
            try discriminate; try lia.
          destruct (set_at cur i s) eqn:E; try discriminate.
          intros _. apply (IH i ltac:(lia) _ E). }
        destruct (set_at_ok cur next s Hlt) as (l' & E1 & L1 & F1 & N1 & F2).
        rewrite Sa in E1. injection E1 as <-.
        intros H. apply IHl in H as [H|H]; try lia.
        -- destruct rec as [[rs rm]|]; [|now left].
           apply IHf in Fr; try lia.
           apply (extends_weaken p (s + 1) s) in Fr; [|lia].
           destruct best as [[bs bm]|].
           ++ destruct (bs <? rs); [right|now left]. injection H as <-. exact Fr.
           ++ right. injection H as <-. exact Fr.
        -- right. destruct H as (seg & rest & A & B & C & D & a & F).
           exists (s :: seg), rest. rewrite A, F2 at 1.
           split; [now rewrite <- app_assoc|]. split; [congruence|].
           split; [cbn [length]; lia|]. split; [cbn [positions]; repeat split; auto; lia|].
           exists a. rewrite F. f_equal. cbn [length]. lia.
      * intros H. apply IHl in H as [H|H]; auto. right.
        apply (extends_weaken p (s + 1)); auto; lia.
    + set (matched := negb (p <=? pl)).
      assert (Self : matched = true -> forall o, o = score (s, sl) (Z.of_nat next) cur ->
                extends p s cur next (o, cur)).
      { intros M o ->. exists [], (skipn next cur). cbn [fst snd app length positions].
        split; [symmetry; apply firstn_skipn|]. split; [reflexivity|]. split; [lia|]. split; [exact I|].
        exists s. now rewrite Nat.add_0_r. }
      destruct best as [[bs bm]|].
      * destruct (negb matched || _) eqn:C; intros H; injection H as <- <-; [now left|right].
        apply orb_false_iff in C as [C _]. rewrite negb_false_iff in C. rewrite C. auto.
      * destruct matched eqn:C; [|discriminate]. intros H; injection H as <- <-. right. auto.
Qed.

(** Nothing goes wrong, and a match is found when there is one. *)
Lemma fz_total : forall fuel,
  (forall p s src next cnt, (2 * Z.to_nat (sl + 1 - s) + 2 < fuel)%nat ->
     p <= pl + 1 -> Z.of_nat next + (pl - p + 1) <= Z.of_nat (length src) ->
     exists r cnt', fz fuel limit eq score pl sl p s src next cnt = Ok (r, cnt') /\
       (cnt + 1 < limit -> p <= pl ->
        (exists seg, Z.of_nat (length seg) = pl - p + 1 /\ positions eq p s sl seg) -> r <> None)) /\
  (forall p s cur next cnt best, (2 * Z.to_nat (sl + 1 - s) + 1 < fuel)%nat ->
     p <= pl + 1 -> Z.of_nat next + (pl - p + 1) <= Z.of_nat (length cur) ->
     exists r cnt', fz_loop fuel limit eq score pl sl p s cur next cnt best = Ok (r, cnt') /\
       (best <> None \/
        (exists seg, Z.of_nat (length seg) = pl - p + 1 /\ positions eq p s sl seg) -> r <> None)).
Proof.
  induction fuel as [|f [IHf IHl]]; split; intros *; try lia.
  - intros Hf Hp Hn. cbn [fz].
    destruct (Z.leb_spec limit (cnt + 1)) as [|Lc]; [do 2 eexists; split; [reflexivity|]; lia|].
    destruct (negb (p <=? pl) || negb (s <=? sl)) eqn:V.
    + do 2 eexists; split; [reflexivity|]. intros _ Hp' (seg & Ls & P).
      destruct seg as [|x seg]; [cbn in Ls; lia|]. cbn in P. lia.
    + destruct (IHl p s src next (cnt + 1) None) as (r & c & E & C); try lia.
      exists r, c. split; [exact E|]. intros _ _ Hs. apply C. now right.
  - intros Hf Hp Hn. cbn [fz_loop].
    destruct ((p <=? pl) && (s <=? sl)) eqn:V.
    + destruct (eq p s) eqn:E.
      * destruct (IHf p (s + 1) cur next cnt) as (rec & c & Er & _); try lia.
        rewrite Er. cbn [obind].
        destruct (set_at_ok cur next s ltac:(lia)) as (l' & E1 & L1 & _).
        rewrite E1. cbn [obind].
        match goal with |- context [fz_loop f limit eq score pl sl _ _ l' _ c ?b] => set (best' := b) end.
        destruct (IHl (p + 1) (s + 1) l' (S next) c best') as (r & c' & El & C); try lia.
        exists r, c'. split; [exact El|]. intros [Hb|(seg & Ls & P)]; apply C.
        -- left. unfold best'. destruct rec as [[rs rm]|]; [|exact Hb].
           destruct best as [[bs bm]|]; [|discriminate]. destruct (bs <? rs); discriminate.
        -- right. destruct seg as [|x seg]; [cbn in Ls; lia|]. exists seg.
           cbn in P. cbn [length] in Ls. split; [lia|]. destruct P as (A & B & P).
           eapply positions_weaken; [|exact P]. lia.
      * destruct (IHl p (s + 1) cur next cnt best) as (r & c & El & C); try lia.
        exists r, c. split; [exact El|]. intros [Hb|(seg & Ls & P)]; apply C; [now left|right].
        exists seg. split; auto. destruct seg as [|x seg]; [exact I|]. cbn in *.
        destruct P as (A & B & P). repeat split; auto; try lia.
        assert (x <> s) by congruence. lia.
    + destruct best as [[bs bm]|].
      * destruct (negb (negb (p <=? pl)) || _); do 2 eexists; (split; [reflexivity|]); discriminate.
      * destruct (negb (p <=? pl)) eqn:Mt; do 2 eexists; (split; [reflexivity|]); [discriminate|].
        intros [Hb|(seg & Ls & P)]; [congruence|].
        destruct seg as [|x seg]; [cbn in Ls; lia|]. cbn in P. lia.
Qed.
End Fz.

Lemma fuzzy_correct limit eq score p pl s sl :
  1 < limit -> 0 <= p <= pl ->
  exists fuel0, forall fuel, (fuel0 <= fuel)%nat ->
  exists res, fuzzy_match fuel limit eq score (p, pl) (s, sl) = Ok res /\
    (res <> None <->
     exists l, Z.of_nat (length l) = pl - p + 1 /\ positions eq p s sl l) /\
    (forall sc ms, res = Some (sc, ms) ->
      let l := firstn (Z.to_nat (pl - p + 1)) ms in
      Z.of_nat (length l) = pl - p + 1 /\ positions eq p s sl l /\
      exists a, sc = score (a, sl) (pl - p + 1) ms).
Proof.
  intros Hl Hp. exists (2 * Z.to_nat (sl + 1 - s) + 3)%nat. intros fuel Hf.
  unfold fuzzy_match. cbn [fst snd]. replace (pl + 1 <? 0) with false by lia.
  destruct (fz_total limit eq score pl sl fuel) as [Tot _].
  destruct (fz_sound limit eq score pl sl fuel) as [Snd _].
  destruct (Tot p s (repeat 0 (Z.to_nat (pl + 1))) 0%nat 0) as (r & c & E & C); try lia.
  { rewrite repeat_length. lia. }
  rewrite E. cbn [obind]. exists r. split; [reflexivity|].
  assert (G : forall sc ms, r = Some (sc, ms) ->
      let l := firstn (Z.to_nat (pl - p + 1)) ms in
      Z.of_nat (length l) = pl - p + 1 /\ positions eq p s sl l /\
      exists a, sc = score (a, sl) (pl - p + 1) ms).
  { intros sc ms -> l. apply Snd in E; try lia. destruct E as (seg & rest & A & B & Ls & P & a & F).
    cbn [fst snd firstn app] in *.
    assert (l = seg) as ->.
    { unfold l. rewrite A. replace (Z.to_nat (pl - p + 1)) with (length seg + 0)%nat by lia.
      rewrite firstn_app_2. cbn. now rewrite app_nil_r. }
    repeat split; auto. exists a. rewrite F. f_equal. lia. }
  split; [|exact G]. split.
  - intros Nn. destruct r as [[sc ms]|]; [|congruence]. destruct (G sc ms eq_refl) as (A & B & _). eauto.
  - intros Hs. apply C; auto; lia.
Qed.

(** An invalid pattern range (the empty pattern) never matches. *)
Lemma fuzzy_empty fuel limit eq score p pl str :
  pl < p -> -1 <= pl -> (0 < fuel)%nat ->
  fuzzy_match fuel limit eq score (p, pl) str = Ok None.
Proof.
  intros H1 H2 H3. unfold fuzzy_match. cbn [fst snd]. replace (pl + 1 <? 0) with false by lia.
  destruct fuel; [lia|]. cbn [fz]. destruct (limit <=? 0 + 1); [reflexivity|].
  replace (negb (p <=? pl)) with true by lia. reflexivity.
Qed.

(** * Side-by-side form *)

Lemma zrange_length a n : length (zrange a n) = n.
Proof. revert a; induction n; cbn; auto. Qed.

Lemma zrange_app a n m : zrange a (n + m) = zrange a n ++ zrange (a + Z.of_nat n) m.
Proof.
  revert a; induction n as [|n IH]; intros a; cbn [zrange app Nat.add].
  - now rewrite Z.add_0_r.
  - rewrite IH. do 3 f_equal. lia.
Qed.

Lemma zrange_upto n : zrange 0 (Z.to_nat n) = upto n.
Proof.
  unfold upto. generalize (Z.to_nat n) as k. intros k.
  assert (G : forall k a, zrange (Z.of_nat a) k = map Z.of_nat (seq a k)).
  { clear. induction k as [|k IH]; intros a; cbn [zrange seq map]; [reflexivity|].
    rewrite <- IH. do 2 f_equal. lia. }
  apply (G k 0%nat).
Qed.

Lemma side_app a b : side (a ++ b) = side a ++ side b.
Proof. unfold side. now rewrite filter_app, map_app. Qed.

Lemma side_none n : side (repeat (KNone, 0) n) = [].
Proof. induction n; auto. Qed.
Lemma side_none' (l : list Z) : side (map (fun _ => (KNone, 0)) l) = [].
Proof. induction l; auto. Qed.
Lemma side_kind k l : k <> KNone -> side (map (fun i => (k, i)) l) = l.
Proof.
  intros H. unfold side. induction l as [|x l IH]; cbn; [reflexivity|].
  destruct k; try congruence; cbn; now rewrite IH.
Qed.

Lemma combine_app {A B} (a a' : list A) (b b' : list B) : length a = length b ->
  combine (a ++ a') (b ++ b') = combine a b ++ combine a' b'.
Proof. revert b; induction a; destruct b; cbn; intros; try lia; auto. f_equal; auto. Qed.

Lemma rows_del pairs l : Forall (row_ok pairs)
  (combine (map (fun i => (Delete, i)) l) (map (fun _ : Z => (KNone, 0)) l)).
Proof. induction l; cbn; constructor; cbn; auto. Qed.
Lemma rows_ins pairs l : Forall (row_ok pairs)
  (combine (map (fun _ : Z => (KNone, 0)) l) (map (fun i => (Insert, i)) l)).
Proof. induction l; cbn; constructor; cbn; auto. Qed.

Lemma row_ok_mono p q r : incl p q -> row_ok p r -> row_ok q r.
Proof. destruct r as [[[] x] [[] y]]; cbn; auto. Qed.

Lemma track_loop_ok N M : forall ls rs pl pr o n done,
  length ls = length rs -> increasing pl N ls -> increasing pr M rs ->
  0 <= pl <= N -> 0 <= pr <= M ->
  length o = length n -> side o = zrange 0 (Z.to_nat pl) -> side n = zrange 0 (Z.to_nat pr) ->
  Forall (row_ok done) (combine o n) ->
  exists pl' pr' o' n', shift_track_loop ls rs pl pr o n = Ok (pl', pr', o', n') /\
    0 <= pl' <= N /\ 0 <= pr' <= M /\ length o' = length n' /\
    side o' = zrange 0 (Z.to_nat pl') /\ side n' = zrange 0 (Z.to_nat pr') /\
    Forall (row_ok (done ++ combine ls rs)) (combine o' n').
Proof.
  induction ls as [|l ls IH]; intros [|r rs] pl pr o n done Hl Il Ir Bl Br Lo So Sn F;
    cbn in Hl; try lia.
  - exists pl, pr, o, n. cbn. rewrite app_nil_r. repeat split; auto; lia.
  - cbn [increasing] in Il, Ir. destruct Il as [Il1 Il2], Ir as [Ir1 Ir2].
    cbn [shift_track_loop].
    set (dels := zrange pl (Z.to_nat (l - pl))). set (inss := zrange pr (Z.to_nat (r - pr))).
    match goal with |- context [shift_track_loop ls rs _ _ ?o' ?n'] => set (o1 := o'); set (n1 := n') end.
    destruct (IH rs (l + 1) (r + 1) o1 n1 (done ++ [(l, r)])) as (pl' & pr' & o' & n' & E & R);
      try lia; auto.
    + unfold o1, n1. rewrite !app_length, !map_length. cbn. lia.
    + unfold o1. rewrite !side_app, side_kind, side_none', So by discriminate.
      cbn [app side filter map fst snd]. unfold dels.
      replace (Z.to_nat (l + 1)) with (Z.to_nat pl + (Z.to_nat (l - pl) + 1))%nat by lia.
      rewrite !zrange_app. cbn [zrange]. do 3 f_equal; lia.
    + unfold n1. rewrite !side_app, side_kind, side_none', Sn by discriminate.
      cbn [app side filter map fst snd]. unfold inss.
      replace (Z.to_nat (r + 1)) with (Z.to_nat pr + (Z.to_nat (r - pr) + 1))%nat by lia.
      rewrite !zrange_app. cbn [zrange]. do 3 f_equal; lia.
    + unfold o1, n1.
      rewrite combine_app by auto. rewrite combine_app by (now rewrite !map_length).
      rewrite combine_app by (now rewrite !map_length).
      repeat rewrite Forall_app. repeat split.
      * eapply Forall_impl; [|exact F]. intros a. apply row_ok_mono, incl_appl, incl_refl.
      * apply rows_del.
      * apply rows_ins.
      * constructor; [|constructor]. cbn. apply in_or_app. right; now left.
    + exists pl', pr', o', n'. split; [exact E|].
      destruct R as (R1 & R2 & R3 & R4 & R5 & R6). repeat (split; [assumption|]).
      rewrite <- app_assoc in R6. exact R6.
Qed.

Lemma shift_track_correct N M ls rs :
  0 <= N -> 0 <= M -> length ls = length rs -> increasing 0 N ls -> increasing 0 M rs ->
  exists o n, shift_track ls rs N M = Ok (o, n) /\
    side o = upto N /\ side n = upto M /\ length o = length n /\
    Forall (row_ok (combine ls rs)) (combine o n).
Proof.
  intros HN HM L I1 I2. unfold shift_track.
  destruct (track_loop_ok N M ls rs 0 0 [] [] [] L I1 I2 ltac:(lia) ltac:(lia) eq_refl eq_refl eq_refl (Forall_nil _)) as (pl & pr & o & n & E & B1 & B2 & Lo & So & Sn & F).
  rewrite E. cbn [obind].
  do 2 eexists; split; [reflexivity|].
  rewrite !side_app, !side_none', !side_kind, So, Sn by discriminate.
  cbn [app]. rewrite app_nil_r. split; [|split; [|split]].
  - rewrite <- zrange_upto. replace (Z.to_nat N) with (Z.to_nat pl + Z.to_nat (N - pl))%nat by lia.
    rewrite zrange_app. do 2 f_equal. lia.
  - rewrite <- zrange_upto. replace (Z.to_nat M) with (Z.to_nat pr + Z.to_nat (M - pr))%nat by lia.
    rewrite zrange_app. do 2 f_equal. lia.
  - rewrite !app_length, !map_length. lia.
  - rewrite combine_app by auto. rewrite combine_app by (now rewrite !map_length).
    rewrite !Forall_app. repeat split; auto. apply rows_del. apply rows_ins.
Qed.

(** The form built from an edit script. *)
Definition shown_new (ops : list edit) : list Z :=
  map etgt (filter (fun e => match ekind e with Keep | Insert => true | _ => false end) ops).

Lemma nth_error_none_pad {A} (l : list A) n x i : nth_error (l ++ repeat x n) i = nth_error l i \/
  (nth_error (l ++ repeat x n) i = Some x /\ (length l <= i)%nat) \/ nth_error (l ++ repeat x n) i = None.
Proof.
  destruct (Nat.lt_ge_cases i (length l)).
  - left. now apply nth_error_app1.
  - right. rewrite nth_error_app2 by lia.
    destruct (nth_error (repeat x n) (i - length l)) eqn:E; auto.
    left. split; auto. apply nth_error_In, repeat_spec in E. now subst.
Qed.

Definition has_keep (l : list item) (i : nat) : Prop := exists x, nth_error l i = Some (Keep, x).

Lemma has_keep_pad l n i : has_keep (l ++ repeat (KNone, 0) n) i <-> has_keep l i.
Proof.
  unfold has_keep. destruct (nth_error_none_pad l n (KNone, 0) i) as [E|[[E L]|E]].
  - now rewrite E.
  - split; intros (x & H); [rewrite E in H; discriminate|].
    apply nth_error_None in L. congruence.
  - split; intros (x & H); [congruence|].
    assert (i < length l)%nat by (apply nth_error_Some; congruence).
    rewrite nth_error_app1 in E by auto. congruence.
Qed.

Lemma has_keep_snoc_other l k x i : k <> Keep -> has_keep (l ++ [(k, x)]) i <-> has_keep l i.
Proof.
  unfold has_keep. intros Hk. destruct (Nat.lt_ge_cases i (length l)).
  - now rewrite nth_error_app1.
  - rewrite nth_error_app2 by lia. assert (E := H). apply nth_error_None in E. rewrite E.
    destruct (i - length l)%nat as [|j]; cbn.
    + split; intros (y & Hy); congruence.
    + destruct j; cbn; split; intros (y & Hy); congruence.
Qed.

Lemma has_keep_snoc_keep l x i : has_keep (l ++ [(Keep, x)]) i <-> has_keep l i \/ i = length l.
Proof.
  unfold has_keep. destruct (Nat.lt_ge_cases i (length l)).
  - rewrite nth_error_app1 by auto. intuition lia.
  - rewrite nth_error_app2 by lia. assert (E := H). apply nth_error_None in E. rewrite E.
    destruct (i - length l)%nat as [|j] eqn:D; cbn.
    + split; [intros _; right; lia|]. intros _. eauto.
    + destruct j; cbn; (split; [intros (y & Hy); discriminate|intros [(y & Hy)|Hy]; [discriminate|lia]]).
Qed.

Lemma shift_edits_loop_ok eq i j ops i' j' : script eq i j ops i' j' ->
  forall o n, 0 <= i -> (forall r, has_keep o r <-> has_keep n r) ->
  exists o' n', shift_edits_loop ops o n = Ok (o', n') /\
    side o' = side o ++ zrange i (Z.to_nat (i' - i)) /\
    side n' = side n ++ shown_new ops /\
    (forall r, has_keep o' r <-> has_keep n' r).
Proof.
  induction 1 as [i j|i j ops i' j' E H IH|i j t ops i' j' H IH|i j s ops i' j' H IH|i j ops i' j' H IH];
    intros o n Hi A; cbn [shift_edits_loop ekind esrc etgt].
  - exists o, n. replace (Z.to_nat (i - i)) with 0%nat by lia. cbn. rewrite !app_nil_r. auto.
  - assert (L := script_le _ _ _ _ _ _ H).
    set (o1 := o ++ repeat (KNone, 0) (length n - length o)).
    set (n1 := n ++ repeat (KNone, 0) (length o - length n)).
    destruct (IH (o1 ++ [(Keep, i)]) (n1 ++ [(Keep, j)])) as (o' & n' & Ek & So & Sn & K); try lia.
    { intros r. rewrite !has_keep_snoc_keep. unfold o1, n1. rewrite !has_keep_pad, A.
      rewrite !app_length, !repeat_length. intuition lia. }
    exists o', n'. split; [exact Ek|]. split; [|split; [|exact K]].
    + rewrite So. unfold o1. rewrite !side_app, side_none, app_nil_r.
      replace (Z.to_nat (i' - i)) with (1 + Z.to_nat (i' - (i + 1)))%nat by lia.
      cbn [zrange Nat.add]. rewrite <- app_assoc. reflexivity.
    + rewrite Sn. unfold n1. rewrite !side_app, side_none, app_nil_r, <- app_assoc. reflexivity.
  - assert (L := script_le _ _ _ _ _ _ H).
    destruct (IH (o ++ [(Delete, i)]) n) as (o' & n' & Ek & So & Sn & K); try lia.
    { intros r. rewrite has_keep_snoc_other by discriminate. auto. }
    exists o', n'. split; [exact Ek|]. split; [|split; [exact Sn|exact K]].
    rewrite So, side_app. replace (Z.to_nat (i' - i)) with (1 + Z.to_nat (i' - (i + 1)))%nat by lia.
    cbn [zrange Nat.add]. rewrite <- app_assoc. reflexivity.
  - destruct (IH o (n ++ [(Insert, j)])) as (o' & n' & Ek & So & Sn & K); try lia.
    { intros r. rewrite has_keep_snoc_other by discriminate. auto. }
    exists o', n'. split; [exact Ek|]. split; [exact So|split; [|exact K]].
    rewrite Sn, side_app, <- app_assoc. reflexivity.
  - assert (L := script_le _ _ _ _ _ _ H).
    destruct (IH (o ++ [(Replace, i)]) n) as (o' & n' & Ek & So & Sn & K); try lia.
    { intros r. rewrite has_keep_snoc_other by discriminate. auto. }
    exists o', n'. split; [exact Ek|]. split; [|split; [exact Sn|exact K]].
    rewrite So, side_app. replace (Z.to_nat (i' - i)) with (1 + Z.to_nat (i' - (i + 1)))%nat by lia.
    cbn [zrange Nat.add]. rewrite <- app_assoc. reflexivity.
Qed.

Lemma shown_new_all eq i j ops i' j' : script eq i j ops i' j' -> no_replace ops ->
  shown_new ops = zrange j (Z.to_nat (j' - j)).
Proof.
  induction 1 as [i j|i j ops i' j' E H IH|i j t ops i' j' H IH|i j s ops i' j' H IH|i j ops i' j' H IH];
    intros NR.
  - replace (Z.to_nat (j - j)) with 0%nat by lia. reflexivity.
  - assert (L := script_le _ _ _ _ _ _ H).
    unfold shown_new in *. cbn [filter ekind map etgt]. rewrite IH by (intros e I; apply NR; now right).
    replace (Z.to_nat (j' - j)) with (S (Z.to_nat (j' - (j + 1)))) by lia. reflexivity.
  - unfold shown_new in *. cbn [filter ekind map etgt]. apply IH. intros e I; apply NR; now right.
  - assert (L := script_le _ _ _ _ _ _ H).
    unfold shown_new in *. cbn [filter ekind map etgt]. rewrite IH by (intros e I; apply NR; now right).
    replace (Z.to_nat (j' - j)) with (S (Z.to_nat (j' - (j + 1)))) by lia. reflexivity.
  - exfalso. apply (NR (mkE Replace i j)); [now left|reflexivity].
Qed.

Lemma shift_edits_general eq N M ops : rewrites eq N M ops ->
  exists o n, shift_edits ops = Ok (o, n) /\
    side o = upto N /\
    side n = map etgt (filter (fun e => match ekind e with Keep | Insert => true | _ => false end) ops) /\
    keeps_aligned o n.
Proof.
  intros H. destruct (shift_edits_loop_ok _ _ _ _ _ _ H [] []) as (o & n & E & So & Sn & K); try lia.
  { intros r. tauto. }
  exists o, n. split; [exact E|]. split; [|split; [exact Sn|exact K]].
  rewrite So. cbn [side filter map app]. rewrite Z.sub_0_r. apply zrange_upto.
Qed.

Lemma shift_edits_correct eq N M ops : rewrites eq N M ops -> no_replace ops ->
  exists o n, shift_edits ops = Ok (o, n) /\
    side o = upto N /\ side n = upto M /\ keeps_aligned o n.
Proof.
  intros H NR. destruct (shift_edits_general _ _ _ _ H) as (o & n & E & So & Sn & K).
  exists o, n. split; [exact E|]. split; [exact So|]. split; [|exact K].
  rewrite Sn. fold (shown_new ops). rewrite (shown_new_all _ _ _ _ _ _ H NR), Z.sub_0_r. apply zrange_upto.
Qed.
