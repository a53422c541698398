(** Proofs for C126. *)
From Verif Require Import Base SpanModel SpanSpec.
Local Open Scope Z_scope.

Lemma clamp_ok size d max : d <= max -> clamp_size size (Some d) max = Ok (Z.max 0 (Z.min size (max - d + 1))).
Proof. intros H. unfold clamp_size. replace (max <? d) with false by lia. reflexivity. Qed.
Lemma start_moved d n k max fix_size : 0 <= k -> k < n -> d + n - 1 <= max ->
  move_start (View d n) k max fix_size = Ok (View (d + k) (if fix_size then Z.min n (max - (d + k) + 1) else n - k)).
Proof.
  intros K1 K2 M. unfold move_start, data_at_offset. replace (k <? n) with true by lia. cbn [ssize].
  rewrite clamp_ok by lia. cbn [obind].
  destruct fix_size.
  - replace (Z.max 0 (Z.min n (max - (d + k) + 1))) with (Z.min n (max - (d + k) + 1)) by lia.
    replace ((0 <=? Z.min n (max - (d + k) + 1)) && (Z.min n (max - (d + k) + 1) <=? n)) with true by lia. reflexivity.
  - replace (Z.max 0 (Z.min (n - k) (max - (d + k) + 1))) with (n - k) by lia.
    replace ((0 <=? n - k) && (n - k <=? n)) with true by lia. reflexivity.
Qed.
Lemma end_moved d n k max : d <= max ->
  move_end (View d n) k max false = Ok (View d (Z.max 0 (Z.min (n + k) (max - d + 1)))).
Proof. intros M. unfold move_end. cbn [ssize]. rewrite clamp_ok by lia. reflexivity. Qed.

Section Partition.
  Variables (A F : Type) (eqb : F -> F -> bool) (f : A -> F).
  Hypothesis eqb_iff : forall a b, eqb a b = true <-> a = b.

  Lemma loop_ok rest : forall p c v acc l, l = p ++ c ++ rest -> c <> [] -> valued f v c ->
    exists sps g gs,
      part_loop A F eqb f (last_index l) (Z.of_nat (length (p ++ c))) rest
        (View (Z.of_nat (length p)) (Z.of_nat (length c))) (Some v) acc = Ok (acc ++ sps) /\
      Forall2 (shows l) sps (g :: gs) /\ concat (g :: gs) = c ++ rest /\ valued f v g /\ groups f (g :: gs).
  Proof.
    induction rest as [|x r IH]; intros p c v acc l L N V.
    - exists [View (Z.of_nat (length p)) (Z.of_nat (length c))], c, []. cbn [part_loop].
      assert (E : sempty (View (Z.of_nat (length p)) (Z.of_nat (length c))) = false).
      { destruct c; [congruence|]. unfold sempty. cbn [ssize length]. lia. }
      rewrite E. split; [reflexivity|]. split; [constructor; [exists p, []; auto|constructor]|].
      split; [reflexivity|]. split; [exact V|]. now apply (groups_one f c v).
    - cbn [part_loop].
      assert (E : sempty (View (Z.of_nat (length p)) (Z.of_nat (length c))) = false).
      { destruct c; [congruence|]. unfold sempty. cbn [ssize length]. lia. }
      rewrite E. cbn [orb]. destruct (eqb v (f x)) eqn:Q; cbn [negb].
      + apply eqb_iff in Q.
        rewrite end_moved by (unfold last_index; subst l; rewrite !app_length; cbn [length]; lia). cbn [obind].
        destruct (IH p (c ++ [x]) v acc l) as (sps & g & gs & R & S & C & VG & G).
        { rewrite L, <- !app_assoc. reflexivity. }
        { destruct c; discriminate. }
        { apply Forall_app. split; [exact V|]. constructor; [auto|constructor]. }
        exists sps, g, gs. split; [|split; [exact S|split; [rewrite C, <- app_assoc; reflexivity|auto]]].
        rewrite <- R. f_equal.
        * rewrite !app_length. cbn [length]. lia.
        * f_equal. unfold last_index. subst l. rewrite !app_length. cbn [length]. lia.
      + destruct (IH (p ++ c) [x] (f x) (acc ++ [View (Z.of_nat (length p)) (Z.of_nat (length c))]) l)
          as (sps & g & gs & R & S & C & VG & G).
        { rewrite L, <- !app_assoc. reflexivity. }
        { discriminate. }
        { constructor; [reflexivity|constructor]. }
        exists (View (Z.of_nat (length p)) (Z.of_nat (length c)) :: sps), c, (g :: gs). split; [|split; [|split; [|split]]].
        * change (acc ++ View (Z.of_nat (length p)) (Z.of_nat (length c)) :: sps)
            with (acc ++ [View (Z.of_nat (length p)) (Z.of_nat (length c))] ++ sps).
          rewrite app_assoc, <- R, !app_length. cbn [length].
          replace (Z.of_nat (length p + length c) + 1) with (Z.of_nat (length p + length c + 1)) by lia. reflexivity.
        * constructor; [|exact S]. exists p, (x :: r). auto.
        * cbn [concat] in *. rewrite C. reflexivity.
        * exact V.
        * apply (groups_more f c v g (f x) gs); [exact N|exact V|exact VG| |exact G].
          intros X. apply eqb_iff in X. congruence.
  Qed.
End Partition.
