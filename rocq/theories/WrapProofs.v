(** Proofs about wrapping text. *)
From Verif Require Import Base StrModel WrapModel WrapSpec.
Local Open Scope Z_scope.

Fixpoint total (g : list str) : Z := match g with [] => 0 | w :: g' => slen w + total g' end.
Fixpoint gap_sum (gaps : list nat) : Z := match gaps with [] => 0 | n :: gaps' => Z.of_nat n + gap_sum gaps' end.
Definition cw (g : list str) : Z := total g + Z.of_nat (length g).

Lemma total_app : forall a b, total (a ++ b) = total a + total b.
Proof. induction a as [|x a IH]; intros b; cbn [total gap_sum app]; [reflexivity|]. rewrite IH. lia. Qed.
Lemma total_nonneg : forall a, 0 <= total a.
Proof. induction a as [|x a IH]; cbn [total]; [lia|]. unfold slen. lia. Qed.
Lemma gap_sum_app : forall a b, gap_sum (a ++ b) = gap_sum a + gap_sum b.
Proof. induction a as [|x a IH]; intros b; cbn [total gap_sum app]; [reflexivity|]. rewrite IH. lia. Qed.
Lemma gap_sum_repeat : forall n k, gap_sum (repeat n k) = Z.of_nat n * Z.of_nat k.
Proof. induction k as [|k IH]; cbn [repeat gap_sum]; [lia|]. rewrite IH. lia. Qed.

Lemma woven_width : forall g gaps, length gaps = (length g - 1)%nat -> width (woven g gaps) = total g + gap_sum gaps.
Proof.
  induction g as [|w g IH]; intros gaps H.
  - destruct gaps; [reflexivity|discriminate].
  - destruct g as [|w2 g].
    + destruct gaps; [|discriminate]. cbn [woven total gap_sum]. unfold width, slen. lia.
    + destruct gaps as [|n gaps]; [discriminate|].
      change (woven (w :: w2 :: g) (n :: gaps)) with (w ++ repeat 32 n ++ woven (w2 :: g) gaps).
      unfold width in *. rewrite !app_length, repeat_length.
      assert (E : length gaps = (length (w2 :: g) - 1)%nat) by (cbn in *; lia).
      specialize (IH gaps E). cbn [total gap_sum] in *. unfold slen in *. lia.
Qed.

Lemma woven_surplus : forall g gaps more, length gaps = (length g - 1)%nat -> woven g (gaps ++ more) = woven g gaps.
Proof.
  induction g as [|w g IH]; intros gaps more H; [reflexivity|].
  destruct g as [|w2 g]; [reflexivity|].
  destruct gaps as [|n gaps]; [discriminate|].
  cbn [woven app hd tl]. f_equal. f_equal. apply (IH gaps more). cbn in *; lia.
Qed.

Lemma spaced_woven : forall g, g <> [] -> spaced g = woven g (repeat 1%nat (length g - 1)).
Proof.
  intros g H. unfold spaced. destruct g as [|w g]; [contradiction|].
  cbn [length]. replace (S (length g) - 1)%nat with (length g) by lia.
  replace (S (length g)) with (length g + 1)%nat by lia.
  rewrite repeat_app. apply woven_surplus. rewrite repeat_length. cbn; lia.
Qed.

Lemma spaced_width : forall g, g <> [] -> width (spaced g) = cw g - 1.
Proof.
  intros g H. rewrite spaced_woven by exact H. rewrite woven_width by (now rewrite repeat_length).
  rewrite gap_sum_repeat. unfold cw. destruct g; [contradiction|]. cbn [length]. lia.
Qed.

Lemma cw_snoc : forall g w, cw (g ++ [w]) = cw g + (slen w + 1).
Proof. intros g w. unfold cw. rewrite total_app, app_length. cbn. lia. Qed.
Lemma cw_pos : forall g, g <> [] -> 0 < cw g.
Proof. intros g H. unfold cw. pose proof (total_nonneg g). destruct g; [contradiction|]. cbn [length]. lia. Qed.

(** * The line of a group *)

Definition rep (n : nat) : str := repeat 32 n.

Lemma join_rest_woven : forall g gaps w, length gaps = length g ->
  w ++ join_rest g (map rep gaps) = woven (w :: g) gaps.
Proof.
  induction g as [|x g IH]; intros gaps w H.
  - cbn. apply app_nil_r.
  - destruct gaps as [|n gaps]; [discriminate|].
    cbn [join_rest map hd tl]. change (woven (w :: x :: g) (n :: gaps)) with (w ++ repeat 32 n ++ woven (x :: g) gaps).
    rewrite <- (IH gaps x) by (cbn in H; lia). reflexivity.
Qed.

Lemma join_line_woven : forall g gaps, length gaps = (length g - 1)%nat -> join_line g (map rep gaps) = woven g gaps.
Proof.
  intros g gaps H. destruct g as [|w g]; [reflexivity|].
  cbn [join_line]. apply join_rest_woven. cbn in H; lia.
Qed.

Lemma join_line_len : forall g gaps, length gaps = (length g - 1)%nat ->
  slen (join_line g (map rep gaps)) = total g + gap_sum gaps.
Proof. intros g gaps H. rewrite join_line_woven by exact H. apply woven_width; exact H. Qed.

Lemma widen_rep : forall a b n, widen (length a) (map rep (a ++ n :: b)) = map rep (a ++ S n :: b).
Proof.
  induction a as [|x a IH]; intros b n; cbn [length app map widen].
  - f_equal. unfold rep. replace (S n) with (n + 1)%nat by lia. now rewrite repeat_app.
  - f_equal. apply IH.
Qed.

Lemma pad_pass_ok : forall m g max a i r, (r <= m)%nat -> (i + m)%nat = (length g - 1)%nat ->
  total g + gap_sum (repeat (S a) i ++ repeat a m) + Z.of_nat r = max ->
  pad_pass m g max i (map rep (repeat (S a) i ++ repeat a m)) = map rep (repeat (S a) (i + r) ++ repeat a (m - r)).
Proof.
  induction m as [|m IH]; intros g max a i r H1 H2 H3.
  - replace r with O by lia. cbn [pad_pass]. now rewrite Nat.add_0_r.
  - cbn [pad_pass].
    rewrite map_length, app_length, !repeat_length.
    rewrite join_line_len by (rewrite app_length, !repeat_length; lia).
    destruct r as [|r].
    + replace (total g + gap_sum (repeat (S a) i ++ repeat a (S m)) <? max) with false by lia.
      rewrite andb_false_r. now rewrite Nat.add_0_r, Nat.sub_0_r.
    + replace (total g + gap_sum (repeat (S a) i ++ repeat a (S m)) <? max) with true by lia.
      replace (i <? i + S m)%nat with true by lia. cbn [andb].
      assert (E : widen i (map rep (repeat (S a) i ++ repeat a (S m)))
                  = map rep (repeat (S a) (S i) ++ repeat a m)).
      { cbn [repeat]. replace i with (length (repeat (S a) i)) at 1 by apply repeat_length.
        rewrite widen_rep. f_equal.
        change (S a :: repeat (S a) i ++ repeat a m) with ((S a :: repeat (S a) i) ++ repeat a m).
        rewrite (repeat_cons i (S a)). now rewrite <- app_assoc. }
      rewrite E. rewrite (IH g max a (S i) r); [f_equal; f_equal; f_equal; lia|lia|lia|].
      rewrite gap_sum_app, !gap_sum_repeat in *. lia.
Qed.

Lemma map_rep_repeat : forall a m, map rep (repeat a m) = repeat (rep a) m.
Proof. intros a. induction m as [|m IH]; [reflexivity|]. cbn [repeat map]. now rewrite IH. Qed.

Lemma pad_loop_ok : forall fuel g max a, (2 <= length g)%nat -> (2 <= fuel)%nat ->
  0 <= max - (total g + Z.of_nat a * (Z.of_nat (length g) - 1)) <= Z.of_nat (length g) - 1 ->
  exists gaps, pad_loop fuel g max (repeat (rep a) (length g - 1)) = Ok (map rep gaps)
    /\ length gaps = (length g - 1)%nat /\ even gaps /\ Forall (fun n => (a <= n)%nat) gaps /\ total g + gap_sum gaps = max.
Proof.
  intros fuel g max a H Hf Hr.
  set (m := (length g - 1)%nat) in *. set (r := Z.to_nat (max - (total g + Z.of_nat a * (Z.of_nat (length g) - 1)))).
  assert (Hs : total g + gap_sum (repeat a m) + Z.of_nat r = max).
  { rewrite gap_sum_repeat. subst m r. replace (Z.of_nat (length g - 1)) with (Z.of_nat (length g) - 1) by lia. lia. }
  assert (Hrm : (r <= m)%nat) by (subst m r; lia).
  assert (Em : repeat (rep a) m = map rep (repeat a m)) by (now rewrite map_rep_repeat).
  exists (repeat (S a) r ++ repeat a (m - r)).
  assert (Hsum : total g + gap_sum (repeat (S a) r ++ repeat a (m - r)) = max).
  { rewrite gap_sum_app, !gap_sum_repeat. rewrite gap_sum_repeat in Hs. rewrite Nat2Z.inj_sub, Nat2Z.inj_succ by lia. nia. }
  assert (Hlen : length (repeat (S a) r ++ repeat a (m - r)) = m).
  { rewrite app_length, !repeat_length. lia. }
  split; [|split; [exact Hlen|split; [|split; [|exact Hsum]]]].
  - destruct fuel as [|[|fuel]]; [lia|lia|]. rewrite Em.
    cbn [pad_loop]. rewrite map_length, repeat_length, join_line_len by (rewrite repeat_length; reflexivity).
    destruct (Nat.eq_dec r 0) as [E0|E0].
    + replace (total g + gap_sum (repeat a m) <? max) with false by lia.
      rewrite E0. cbn [repeat app]. now rewrite Nat.sub_0_r.
    + replace (total g + gap_sum (repeat a m) <? max) with true by lia.
      pose proof (pad_pass_ok m g max a 0 r Hrm eq_refl) as P. cbn [repeat app plus] in P. rewrite P by exact Hs.
      cbn [pad_loop].
      rewrite join_line_len by exact Hlen. rewrite Hsum.
      replace (max <? max) with false by lia. reflexivity.
  - exists a, r, (m - r)%nat. reflexivity.
  - apply Forall_app. split; apply Forall_forall; intros x Hx; apply repeat_spec in Hx; lia.
Qed.

Lemma fits_cw : forall max g, g <> [] -> (2 <= length g)%nat -> fits max g -> cw g <= max.
Proof. intros max g H0 H [_ [H1|H1]]; [lia|]. rewrite spaced_width in H1 by exact H0. lia. Qed.

Lemma fold_plain : forall rest b, fold_left (fun a x => a ++ [32] ++ x) rest b = spaced (b :: rest).
Proof.
  intros rest. induction rest as [|x rest IH] using rev_ind; intros b; [reflexivity|].
  rewrite fold_left_app. cbn [fold_left]. rewrite IH. clear IH.
  unfold spaced. cbn [length]. rewrite app_length. cbn [length].
  revert b. induction rest as [|y rest IH]; intros b.
  - cbn. reflexivity.
  - cbn [length plus repeat]. 
    change (woven (b :: (y :: rest) ++ [x]) (1%nat :: 1%nat :: repeat 1%nat (length rest + 1)))
      with (b ++ repeat 32 1 ++ woven (y :: rest ++ [x]) (repeat 1%nat (S (length rest + 1)))).
    rewrite <- IH.
    change (woven (b :: y :: rest) (1%nat :: 1%nat :: repeat 1%nat (length rest)))
      with (b ++ repeat 32 1 ++ woven (y :: rest) (repeat 1%nat (S (length rest)))).
    now rewrite <- !app_assoc.
Qed.

Lemma fold_buffer_plain : forall max g c, g <> [] -> fold_buffer false max g c = Ok (spaced g).
Proof.
  intros max g c H. unfold fold_buffer. cbn [andb]. destruct g as [|b rest]; [contradiction|].
  now rewrite fold_plain.
Qed.

Lemma even_nil : even [].
Proof. exists O, O, O. reflexivity. Qed.

Lemma fold_buffer_just : forall max g, fits max g ->
  exists l, fold_buffer true max g (cw g) = Ok l /\ justified_line max g l.
Proof.
  intros max g F. pose proof F as [Hne F']. unfold fold_buffer. cbn [andb].
  destruct (1 <? length g)%nat eqn:E.
  - apply Nat.ltb_lt in E.
    pose proof (fits_cw max g Hne E F) as Hc. pose proof (total_nonneg g) as Ht.
    assert (Hc' : cw g = total g + Z.of_nat (length g)) by reflexivity.
    set (slots := Z.of_nat (length g) - 1). set (toAdd := max - (cw g - slots)).
    assert (Hs : 1 <= slots) by (subst slots; lia).
    assert (Hta : slots <= toAdd) by (subst toAdd slots; lia).
    rewrite Z.quot_div_nonneg by lia.
    assert (Ha : 1 <= toAdd / slots) by (apply Z.div_le_lower_bound; lia).
    pose proof (Z.mod_pos_bound toAdd slots ltac:(lia)) as Hm.
    pose proof (Z.div_mod toAdd slots ltac:(lia)) as Hd.
    unfold str_of. replace (toAdd / slots <? 0) with false by lia. cbn [obind].
    fold (rep (Z.to_nat (toAdd / slots))).
    destruct (pad_loop_ok (S (Z.to_nat max)) g max (Z.to_nat (toAdd / slots))) as (gaps & G1 & G2 & G3 & G4 & G5).
    + exact E.
    + lia.
    + rewrite Z2Nat.id by lia. fold slots. subst toAdd. nia.
    + rewrite G1. cbn [obind]. rewrite join_line_woven by exact G2.
      exists (woven g gaps). split; [reflexivity|]. exists gaps. split; [reflexivity|].
      split; [exact G2|]. split; [exact G3|]. split.
      * eapply Forall_impl; [|exact G4]. cbv beta. intros x Hx. lia.
      * intros _. rewrite woven_width by exact G2. exact G5.
  - apply Nat.ltb_ge in E. destruct g as [|b [|b2 g]]; [contradiction| |cbn in E; lia].
    exists b. split; [reflexivity|]. exists []. split; [reflexivity|]. split; [reflexivity|].
    split; [exact even_nil|]. split; [constructor|]. cbn. lia.
Qed.

(** * The loop *)

Lemma full_snoc_grow : forall max gs w g g', full max (gs ++ [w :: g]) -> full max (gs ++ [w :: g']).
Proof.
  intros max gs w g g'. induction gs as [|h gs IH]; [intros _; exact I|].
  destruct gs as [|h2 gs].
  - cbn [app full]. intros [H _]. split; [exact H|exact I].
  - cbn [app]. cbn [full app] in *. destruct h2 as [|x h2]; [intros _; exact I|].
    intros [H1 H2]. split; [exact H1|]. apply IH. exact H2.
Qed.

Lemma full_snoc_new : forall max gs g w, Forall (fun g => g <> []) gs -> full max (gs ++ [g]) -> ~ fits max (g ++ [w]) ->
  full max ((gs ++ [g]) ++ [[w]]).
Proof.
  intros max gs g w. induction gs as [|h gs IH]; intros Hn H Hf.
  - cbn. split; [exact Hf|exact I].
  - inversion Hn as [|? ? _ Hn']; subst. destruct gs as [|h2 gs].
    + cbn [app full] in *. destruct g as [|x g]; [exact I|]. destruct H as [H _]. split; [exact H|]. split; [exact Hf|exact I].
    + cbn [app] in *. cbn [full] in *. destruct h2 as [|x h2]; [exact I|].
      destruct H as [H1 H2]. split; [exact H1|]. exact (IH Hn' H2 Hf).
Qed.

Lemma snoc_app : forall (A : Type) (a : list (list A)) (b c : list A), concat (a ++ [b]) ++ c = concat a ++ (b ++ c).
Proof. intros A a b c. rewrite concat_app. cbn. now rewrite app_nil_r, <- app_assoc. Qed.

Section Loop.
Variable j : bool.
Variable max : Z.
Variable L : list str -> str -> Prop.
Hypothesis HL : forall g, fits max g -> exists l, fold_buffer j max g (cw g) = Ok l /\ L g l.

Lemma fits_nonempty : forall gs, Forall (fits max) gs -> Forall (fun g => g <> []) gs.
Proof. intros gs H. eapply Forall_impl; [|exact H]. intros g [E _]. exact E. Qed.

Lemma wrap_loop_some : forall words lines gs g, Forall2 L gs lines -> Forall (fits max) gs -> fits max g ->
  full max (gs ++ [g]) ->
  exists gs' lines', wrap_loop j max words lines g (cw g) = Ok lines' /\ Forall2 L gs' lines'
    /\ Forall (fits max) gs' /\ full max gs' /\ concat gs' = concat gs ++ g ++ words.
Proof.
  induction words as [|w words IH]; intros lines gs g H2 Hf Hg Hfull.
  - destruct (HL g Hg) as (l & E1 & E2). exists (gs ++ [g]), (lines ++ [l]).
    destruct g as [|x g]; [destruct Hg; contradiction|].
    cbn [wrap_loop]. rewrite E1. split; [reflexivity|].
    split; [apply Forall2_app; [exact H2|constructor; [exact E2|constructor]]|].
    split; [apply Forall_app; split; [exact Hf|constructor; [exact Hg|constructor]]|].
    split; [exact Hfull|]. rewrite app_nil_r, concat_app. cbn. now rewrite app_nil_r.
  - assert (Hne : g <> []) by apply Hg.
    assert (Ef : max <? cw g + slen w + 1 = false -> fits max (g ++ [w])).
    { intros E. split; [now destruct g|]. right. rewrite spaced_width by (now destruct g). rewrite cw_snoc. lia. }
    assert (En : max <? cw g + slen w + 1 = true -> ~ fits max (g ++ [w])).
    { intros E F. apply (fits_cw max (g ++ [w])) in F; [|now destruct g|].
      - rewrite cw_snoc in F. lia.
      - rewrite app_length. destruct g; [contradiction|]. cbn; lia. }
    destruct g as [|x g]; [contradiction|].
    cbn [wrap_loop]. destruct (max <? cw (x :: g) + slen w + 1) eqn:E.
    + destruct (HL (x :: g) Hg) as (l & E1 & E2). rewrite E1. cbn [obind app].
      replace (0 + (slen w + 1)) with (cw [w]) by (unfold cw; cbn; lia).
      destruct (IH (lines ++ [l]) (gs ++ [x :: g]) [w]) as (gs' & lines' & R1 & R2 & R3 & R4 & R5).
      * apply Forall2_app; [exact H2|constructor; [exact E2|constructor]].
      * apply Forall_app; split; [exact Hf|constructor; [exact Hg|constructor]].
      * split; [discriminate|]. left. cbn; lia.
      * apply full_snoc_new; [apply fits_nonempty; exact Hf|exact Hfull|apply En; reflexivity].
      * exists gs', lines'. split; [exact R1|]. split; [exact R2|]. split; [exact R3|]. split; [exact R4|].
        rewrite R5. rewrite snoc_app. reflexivity.
    + specialize (Ef eq_refl). cbn [app]. rewrite <- (cw_snoc (x :: g) w).
      destruct (IH lines gs ((x :: g) ++ [w])) as (gs' & lines' & R1 & R2 & R3 & R4 & R5).
      * exact H2.
      * exact Hf.
      * exact Ef.
      * cbn [app]. eapply full_snoc_grow. exact Hfull.
      * exists gs', lines'. split; [exact R1|]. split; [exact R2|]. split; [exact R3|]. split; [exact R4|].
        rewrite R5. now rewrite <- app_assoc.
Qed.

Lemma wrap_loop_ok : forall words,
  exists gs lines, wrap_loop j max words [] [] 0 = Ok lines /\ Forall2 L gs lines
    /\ Forall (fits max) gs /\ full max gs /\ concat gs = words.
Proof.
  intros [|w words].
  - exists [], []. cbn. repeat split; constructor.
  - assert (Hl : wrap_loop j max (w :: words) [] [] 0 = wrap_loop j max words [] [w] (cw [w])).
    { replace (cw [w]) with (0 + (slen w + 1)) by (unfold cw; cbn [total length]; lia).
      cbn [wrap_loop app]. now destruct (max <? 0 + slen w + 0). }
    assert (F : fits max [w]) by (split; [discriminate|left; cbn; lia]).
    destruct (wrap_loop_some words [] [] [w]) as (gs & lines & R1 & R2 & R3 & R4 & R5);
      [constructor|constructor|exact F|exact I|].
    exists gs, lines. rewrite Hl.
    repeat split; assumption.
Qed.
End Loop.

Lemma fold_lines : forall rest b, fold_left (fun a x => a ++ [10] ++ x) rest b = on_lines (b :: rest).
Proof.
  induction rest as [|x rest IH] using rev_ind; intros b; [reflexivity|].
  rewrite fold_left_app. cbn [fold_left]. rewrite IH. clear IH.
  revert b. induction rest as [|y rest IH]; intros b; [reflexivity|].
  change (on_lines (b :: y :: rest)) with (b ++ [10] ++ on_lines (y :: rest)).
  change (on_lines (b :: (y :: rest) ++ [x])) with (b ++ [10] ++ on_lines (y :: rest ++ [x])).
  rewrite <- IH. now rewrite <- !app_assoc.
Qed.

Lemma wrap_text_lines : forall j max words lines, wrap_loop j max words [] [] 0 = Ok lines ->
  wrap_text words max j = Ok (on_lines lines).
Proof.
  intros j max words lines H. unfold wrap_text. rewrite H. cbn [obind].
  destruct lines as [|l rest]; [reflexivity|]. now rewrite fold_lines.
Qed.

Lemma wrap_plain : forall words max, exists gs, concat gs = words /\ Forall (fits max) gs /\ full max gs
  /\ wrap_text words max false = Ok (on_lines (map spaced gs)).
Proof.
  intros words max.
  destruct (wrap_loop_ok false max (fun g l => l = spaced g)) with (words := words) as (gs & lines & R1 & R2 & R3 & R4 & R5).
  - intros g [Hg _]. exists (spaced g). split; [apply fold_buffer_plain; exact Hg|reflexivity].
  - exists gs. split; [exact R5|]. split; [exact R3|]. split; [exact R4|].
    rewrite (wrap_text_lines _ _ _ _ R1). f_equal. f_equal.
    clear -R2. induction R2 as [|g l gs lines H _ IH]; [reflexivity|]. cbn. now rewrite H, IH.
Qed.

Lemma wrap_just : forall words max, exists gs lines, concat gs = words /\ Forall (fits max) gs /\ full max gs
  /\ Forall2 (justified_line max) gs lines /\ wrap_text words max true = Ok (on_lines lines).
Proof.
  intros words max.
  destruct (wrap_loop_ok true max (justified_line max)) with (words := words) as (gs & lines & R1 & R2 & R3 & R4 & R5).
  - apply fold_buffer_just.
  - exists gs, lines. split; [exact R5|]. split; [exact R3|]. split; [exact R4|]. split; [exact R2|].
    apply wrap_text_lines. exact R1.
Qed.

(** * Fewest lines *)

Lemma total_firstn_mono : forall max g h, g <> [] -> fits max (g ++ h) -> fits max g.
Proof.
  intros max g h Hg [_ [H|H]]; (split; [exact Hg|]).
  - left. rewrite app_length in H. lia.
  - right. rewrite spaced_width in * by (destruct g; [contradiction|discriminate]).
    unfold cw in *. rewrite total_app, app_length in H. pose proof (total_nonneg h). lia.
Qed.

Lemma total_suffix : forall max g h, h <> [] -> fits max (g ++ h) -> fits max h.
Proof.
  intros max g h Hg [_ [H|H]]; (split; [exact Hg|]).
  - left. rewrite app_length in H. lia.
  - right. assert (Hgh : g ++ h <> []) by (destruct g; [exact Hg|discriminate]).
    rewrite spaced_width in H by exact Hgh. rewrite spaced_width by exact Hg.
    unfold cw in *. rewrite total_app, app_length in H. pose proof (total_nonneg g). lia.
Qed.

Lemma app_split : forall (A : Type) (c a b d : list A), a ++ b = c ++ d -> (length c <= length a)%nat ->
  exists t, a = c ++ t /\ t ++ b = d.
Proof.
  intros A. induction c as [|x c IH]; intros a b d E H; [exists a; split; [reflexivity|exact E]|].
  destruct a as [|y a]; [cbn in H; lia|]. cbn in E. injection E as -> E.
  destruct (IH a b d E ltac:(cbn in H; lia)) as (t & -> & T). exists t. split; [reflexivity|exact T].
Qed.

(** Cutting words off the front of a fitting division does not need more lines. *)
Lemma fewest_suffix : forall max gs' gs pre, Forall (fits max) gs -> full max gs -> Forall (fits max) gs' ->
  concat gs' = pre ++ concat gs -> (length gs <= length gs')%nat.
Proof.
  intros max. induction gs' as [|g' gs' IH]; intros gs pre Hf Hfull Hf' E.
  - cbn in E. symmetry in E. apply app_eq_nil in E. destruct E as [_ E].
    destruct gs as [|g gs]; [cbn; lia|]. inversion Hf as [|? ? [Hg _] _]; subst.
    cbn in E. apply app_eq_nil in E. destruct E as [E _]. contradiction.
  - destruct gs as [|g gs]; [cbn; lia|]. cbn [length]. apply le_n_S.
    inversion Hf as [|? ? Hg Hf2]; subst. inversion Hf' as [|? ? Hg' Hf2']; subst.
    assert (Hfull2 : full max gs).
    { destruct gs as [|[|w h] gs]; [exact I| |]; cbn [full] in Hfull.
      - inversion Hf2 as [|? ? [A _] _]; subst. contradiction.
      - apply Hfull. }
    cbn [concat] in E.
    (* where does the first line of the other division end? *)
    assert (C : (length (pre ++ g) < length g')%nat \/ (length g' <= length (pre ++ g))%nat) by lia.
    destruct C as [C|C].
    + (* it takes a word of the next group: impossible *)
      exfalso. rewrite app_assoc in E.
      assert (X : exists t, g' = (pre ++ g) ++ t /\ t ++ concat gs' = concat gs).
      { apply app_split; [exact E|lia]. }
      destruct X as (t & X1 & X2).
      destruct gs as [|[|w h] gs].
      * cbn in X2. apply app_eq_nil in X2. destruct X2 as [X2 _]. subst t. subst g'. rewrite app_nil_r in C. lia.
      * inversion Hf2 as [|? ? [A _] _]; subst. contradiction.
      * cbn [full] in Hfull. destruct Hfull as [N _]. apply N.
        destruct t as [|w' t]; [rewrite X1, app_nil_r in C; lia|].
        cbn in X2. injection X2 as Ew _. subst w'.
        rewrite X1 in Hg'. rewrite <- !app_assoc in Hg'.
        apply total_suffix in Hg'; [|now destruct g].
        change (w :: t) with ([w] ++ t) in Hg'. rewrite app_assoc in Hg'.
        apply total_firstn_mono in Hg'; [exact Hg'|now destruct g].
    + rewrite app_assoc in E. symmetry in E. destruct (app_split _ _ _ _ _ E C) as (t & T1 & T2).
      apply (IH gs t); try assumption. now symmetry.
Qed.

(** * Reading the words back *)

Lemma words_word : forall w cur s, ~ In 32 w -> ~ In 10 w -> words_from cur (w ++ s) = words_from (cur ++ w) s.
Proof.
  induction w as [|c w IH]; intros cur s H1 H2; [now rewrite app_nil_r|].
  cbn [app words_from]. replace ((c =? 32) || (c =? 10))%bool with false.
  - rewrite IH; [|intro; apply H1; now right|intro; apply H2; now right]. now rewrite <- app_assoc.
  - symmetry. apply orb_false_iff. split; apply Z.eqb_neq; intros E; subst; [apply H1|apply H2]; now left.
Qed.

Lemma words_blank : forall c w s, (c = 32 \/ c = 10) -> w <> [] -> words_from w (c :: s) = w :: words_from [] s.
Proof. intros c w s [->| ->] H; cbn; destruct w; [contradiction|reflexivity|contradiction|reflexivity]. Qed.

Lemma words_spaces : forall n s, words_from [] (repeat 32 n ++ s) = words_from [] s.
Proof. induction n as [|n IH]; intros s; [reflexivity|]. cbn. apply IH. Qed.

Lemma words_woven : forall g gaps s, g <> [] -> Forall word_text g -> length gaps = (length g - 1)%nat ->
  Forall (fun n => (1 <= n)%nat) gaps -> (s = [] \/ exists s', s = 10 :: s') ->
  words_from [] (woven g gaps ++ s) = g ++ words_from [] s.
Proof.
  induction g as [|w g IH]; intros gaps s Hne Hw Hl Hg Hs; [contradiction|].
  inversion Hw as [|? ? (W1 & W2 & W3) Hw']; subst.
  destruct g as [|w2 g].
  - cbn [woven app]. rewrite words_word by assumption. cbn [app].
    destruct Hs as [->|(s' & ->)].
    + cbn. now destruct w.
    + rewrite words_blank by (auto). reflexivity.
  - destruct gaps as [|n gaps]; [discriminate|]. inversion Hg as [|? ? Hn Hg']; subst.
    change (woven (w :: w2 :: g) (n :: gaps)) with (w ++ repeat 32 n ++ woven (w2 :: g) gaps).
    rewrite <- !app_assoc. rewrite words_word by assumption. cbn [app].
    destruct n as [|n]; [lia|]. cbn [repeat app]. rewrite words_blank by auto. rewrite words_spaces.
    rewrite (IH gaps s); [reflexivity|discriminate|exact Hw'|cbn in *; lia|exact Hg'|exact Hs].
Qed.

Lemma words_lines : forall gs lines, Forall (fun g => g <> []) gs -> Forall word_text (concat gs) ->
  Forall2 (fun g l => exists gaps, l = woven g gaps /\ length gaps = (length g - 1)%nat /\ Forall (fun n => (1 <= n)%nat) gaps) gs lines ->
  words_of (on_lines lines) = concat gs.
Proof.
  intros gs lines Hn Hw H. unfold words_of. revert Hn Hw.
  induction H as [|g l gs lines (gaps & -> & G1 & G2) H IH]; intros Hn Hw; [reflexivity|].
  inversion Hn as [|? ? Hg Hn']; subst. cbn [concat] in Hw. apply Forall_app in Hw. destruct Hw as [W1 W2].
  destruct H as [|g2 l2 gs lines H0 H].
  - cbn [on_lines concat]. rewrite app_nil_r. rewrite <- (app_nil_r (woven g gaps)).
    rewrite words_woven; [cbn; now rewrite app_nil_r|exact Hg|exact W1|exact G1|exact G2|now left].
  - change (on_lines (woven g gaps :: l2 :: lines)) with (woven g gaps ++ [10] ++ on_lines (l2 :: lines)).
    rewrite words_woven; [|exact Hg|exact W1|exact G1|exact G2|right; now exists (on_lines (l2 :: lines))].
    change (concat (g :: g2 :: gs)) with (g ++ concat (g2 :: gs)). rewrite <- (IH Hn' W2). reflexivity.
Qed.

Lemma wrap_words : forall words max j, Forall word_text words ->
  exists t, wrap_text words max j = Ok t /\ words_of t = words.
Proof.
  intros words max [|] Hw.
  - destruct (wrap_just words max) as (gs & lines & R1 & R2 & R3 & R4 & R5).
    exists (on_lines lines). split; [exact R5|]. rewrite <- R1. apply words_lines.
    + apply (fits_nonempty max). exact R2.
    + now rewrite R1.
    + clear -R4. induction R4 as [|g l gs lines (gaps & H1 & H2 & _ & H3 & _) _ IH]; constructor; [|exact IH].
      exists gaps. auto.
  - destruct (wrap_plain words max) as (gs & R1 & R2 & R3 & R4).
    exists (on_lines (map spaced gs)). split; [exact R4|]. rewrite <- R1. apply words_lines.
    + apply (fits_nonempty max). exact R2.
    + now rewrite R1.
    + clear -R2. induction R2 as [|g gs [H _] _ IH]; constructor; [|exact IH].
      exists (repeat 1%nat (length g - 1)). split; [apply spaced_woven; exact H|]. split; [apply repeat_length|].
      apply Forall_forall. intros x Hx. apply repeat_spec in Hx. lia.
Qed.
