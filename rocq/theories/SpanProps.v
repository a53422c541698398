(** C126: windows into vectors, and partitions. *)
From Verif Require Import Base SpanModel SpanSpec SpanProofs.
Local Open Scope Z_scope.

(** Moving the start of a window forward drops that many elements from its front, and all of them leave nothing. With a
    fixed size the window slides, by less than its size, and gets smaller only at the end of the vector. *)
Theorem C126_start : forall (A : Type) (l a b c : list A) s, shows l s (a ++ b) -> b <> [] ->
  (exists r, move_start s (Z.of_nat (length a)) (last_index l) false = Ok r /\ shows l r b) /\
  (forall k fix_size, Z.of_nat (length (a ++ b)) <= k -> move_start s k (last_index l) fix_size = Ok Null) /\
  (forall p d, l = p ++ a ++ b ++ c ++ d -> s = View (Z.of_nat (length p)) (Z.of_nat (length (a ++ b))) ->
     length c = length a \/ (d = [] /\ (length c <= length a)%nat) ->
     exists r, move_start s (Z.of_nat (length a)) (last_index l) true = Ok r /\ shows l r (b ++ c)).
Proof.
  intros A l a b c s (p & q & L & ->) N.
  assert (B : (0 < length b)%nat) by (destruct b; [congruence|cbn; lia]).
  assert (LL : length l = (length p + length a + length b + length q)%nat) by (subst l; rewrite !app_length; lia).
  split; [|split].
  - rewrite start_moved; [|lia|rewrite app_length; lia|unfold last_index; rewrite app_length; lia].
    eexists. split; [reflexivity|]. exists (p ++ a), q. split; [rewrite L, <- !app_assoc; reflexivity|].
    rewrite !app_length. f_equal; lia.
  - intros k fix_size K. unfold move_start, data_at_offset.
    replace (k <? Z.of_nat (length (a ++ b))) with false by lia. reflexivity.
  - intros p' d L' E D. injection E as E. apply Nat2Z.inj in E.
    assert (LL' : length l = (length p' + length a + length b + length c + length d)%nat) by (rewrite L', !app_length; lia).
    rewrite start_moved; [|lia|rewrite app_length; lia|unfold last_index; rewrite app_length; lia].
    eexists. split; [reflexivity|]. exists (p' ++ a), d. split; [rewrite L', <- !app_assoc; reflexivity|].
    rewrite !app_length. unfold last_index. f_equal; [lia|]. destruct D as [D|[D1 D2]]; [lia|]. subst d. cbn in LL'. lia.
Qed.
Print Assumptions C126_start.

(** Moving the end forward shows that many elements more, up to the end of the vector, and moving it back as many less,
    down to none. *)
Theorem C126_end : forall (A : Type) (l p a b q : list A), l = p ++ a ++ b ++ q -> a ++ b ++ q <> [] ->
  let short := View (Z.of_nat (length p)) (Z.of_nat (length a)) in
  let long := View (Z.of_nat (length p)) (Z.of_nat (length (a ++ b))) in
  move_end short (Z.of_nat (length b)) (last_index l) false = Ok long /\
  move_end long (- Z.of_nat (length b)) (last_index l) false = Ok short /\
  (q = [] -> forall k, Z.of_nat (length b) <= k -> move_end short k (last_index l) false = Ok long) /\
  (forall k, Z.of_nat (length a) <= k -> move_end short (- k) (last_index l) false = Ok (View (Z.of_nat (length p)) 0)).
Proof.
  intros A l p a b q L N short long.
  assert (B : (0 < length a + length b + length q)%nat).
  { destruct (a ++ b ++ q) eqn:E; [congruence|]. apply (f_equal (@length A)) in E. rewrite !app_length in E. cbn in E. lia. }
  assert (LL : length l = (length p + length a + length b + length q)%nat) by (rewrite L, !app_length; lia).
  unfold short, long, last_index. repeat split.
  - rewrite end_moved by lia. do 2 f_equal. rewrite app_length. lia.
  - rewrite end_moved by lia. do 2 f_equal. rewrite app_length. lia.
  - intros -> k K. cbn in LL, B. rewrite end_moved by lia. do 2 f_equal. rewrite app_length. lia.
  - intros k K. rewrite end_moved by lia. do 2 f_equal. lia.
Qed.
Print Assumptions C126_end.

(** A partition shows the whole vector in its order, in groups of neighbours with the same value, as large as can be. *)
Theorem C126_partition : forall (A F : Type) (eqb : F -> F -> bool) (f : A -> F), (forall a b, eqb a b = true <-> a = b) ->
  forall l, exists sps gs, partition A F eqb f l = Ok sps /\ Forall2 (shows l) sps gs /\ concat gs = l /\ groups f gs.
Proof.
  intros A F eqb f E l. destruct l as [|x r].
  - exists [], []. repeat split; constructor.
  - destruct (loop_ok A F eqb f E r [] [x] (f x) [] (x :: r)) as (sps & g & gs & R & S & C & _ & G);
      [reflexivity|discriminate|constructor; [reflexivity|constructor]|].
    exists sps, (g :: gs). split; [exact R|]. auto.
Qed.
Print Assumptions C126_partition.

Example C126_shows : shows [1; 2; 3; 4; 5] (View 1 3) [2; 3; 4].
Proof. exists [1], [5]. split; reflexivity. Qed.
Example C126_moves : move_start (View 1 3) 1 4 false = Ok (View 2 2) /\ move_start (View 1 3) 2 4 true = Ok (View 3 2) /\
  move_end (View 1 2) 1 4 false = Ok (View 1 3) /\ move_end (View 1 2) 9 4 false = Ok (View 1 4).
Proof. repeat split. Qed.
Example C126_parts : partition Z bool Bool.eqb Z.even [2; 4; 1; 6; 8; 8] = Ok [View 0 2; View 2 1; View 3 3].
Proof. reflexivity. Qed.

(** *** What does not hold *)
(** Moving the end of a window of fixed size moves it as moving its start does: false, the window grows with each step,
    and throws in the last element. *)
Theorem C126_fixed_refuted :
  (forall d n k max, 0 < k -> k < n -> d + k + n + k - 1 <= max ->
     move_start (View d n) k max true = Ok (View (d + k) n) /\ move_end (View d n) k max true = Ok (View (d + k) (n + k))) /\
  (forall d max, move_start (View d 1) 1 max true = Ok Null /\ move_end (View d 1) 1 max true = Throw).
Proof.
  split; [|split; reflexivity]. intros d n k max K1 K2 M. split.
  - rewrite start_moved by lia. do 2 f_equal. lia.
  - unfold move_end, data_at_offset. replace (k <? n) with true by lia. cbn [ssize]. rewrite clamp_ok by lia.
    cbn [obind]. do 2 f_equal. lia.
Qed.
Print Assumptions C126_fixed_refuted.

(** A window can be moved back: false for its start, which fails an assertion unless the size is fixed. *)
Theorem C126_back_refuted : forall d n k max, 0 < k -> 0 <= n -> d + n - 1 <= max -> d - k <= max ->
  move_start (View d n) (- k) max false = Throw /\
  move_start (View d n) (- k) max true = Ok (View (d - k) n).
Proof.
  intros d n k max K N M D. unfold move_start, data_at_offset. replace (- k <? n) with true by lia. cbn [ssize].
  rewrite !clamp_ok by lia. cbn [obind]. split.
  - replace (Z.max 0 (Z.min (n - - k) (max - (d + - k) + 1))) with (n + k) by lia.
    replace ((0 <=? n + k) && (n + k <=? n)) with false by lia. reflexivity.
  - replace (Z.max 0 (Z.min n (max - (d + - k) + 1))) with n by lia. replace ((0 <=? n) && (n <=? n)) with true by lia.
    reflexivity.
Qed.
Print Assumptions C126_back_refuted.
