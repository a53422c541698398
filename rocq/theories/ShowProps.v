(** C117: what a printed comparison shows. *)
From Coq Require Import ZArith List Bool Lia.
From Verif Require Import Base DiffModel ShowModel ShowSpec ShowProofs.
Import ListNotations.
Local Open Scope Z_scope.

(** The lines come from the two columns, in order; exactly the lines deep in a
    run of unchanged lines are left out. *)
Theorem C117_lines c o n : group_line c = false -> side_by_side c = true -> 0 <= max_unchanged c ->
  exists lines marks,
    (forall i, nth_error lines i =
       match nth_error o i, nth_error n i with
       | Some x, Some y => Some (x, y) | Some x, None => Some (x, filler) | None, Some y => Some (filler, y) | None, None => None
       end) /\
    length marks = length lines /\
    (forall i b, nth_error marks i = Some b -> (b = false <-> deep (max_unchanged c) lines i)) /\
    formatted c o n = Ok (Unified (map fst (pick marks lines)) (map snd (pick marks lines))).
Proof.
  intros G S M. destruct (cut_correct (max_unchanged c) (zip_max o n) M) as (marks & M1 & M2 & M3).
  exists (zip_max o n), marks. split; [apply zip_max_nth|]. split; [exact M1|]. split; [exact M3|].
  unfold formatted, make. rewrite G, S, M2. reflexivity.
Qed.
Print Assumptions C117_lines.
Example C117_lines_ex :
  formatted (mkC None None None None false false false true 1)
    [(Keep, 0); (Keep, 1); (Keep, 2); (Delete, 3); (Keep, 4)] [(Keep, 0); (Keep, 1); (Keep, 2); (KNone, 0); (Keep, 3)] =
  Ok (Unified [(Keep, 0); (Delete, 3); (Keep, 4)] [(Keep, 0); (KNone, 0); (Keep, 3)]).
Proof. reflexivity. Qed.

(** Where every element stands on the line of its own number and no limit is
    set on the widths, the output is the header and one line with both
    elements for each line of a range that holds all changes. *)
Theorem C117_shown fl c o n : group_line c = false -> side_by_side c = true -> max_l c = None -> max_r c = None ->
  Z.of_nat (length (zip_max o n)) <= max_unchanged c -> zip_max o n <> [] -> placed (zip_max o n) ->
  exists a b, (a <= b < length (zip_max o n))%nat /\
    (forall i x, nth_error (zip_max o n) i = Some x -> ~ same x -> (a <= i <= b)%nat) /\
    (drop_lead c = false -> a = 0%nat) /\ (drop_trail c = false -> b = (length (zip_max o n) - 1)%nat) /\
    let lw := width fl true (min_l c) (map fst (zip_max o n)) in
    let rw := width fl false (min_r c) (map snd (zip_max o n)) in
    obind (formatted c o n) (format fl c) =
    Ok (good_header lw
        :: map (good_row fl lw rw) (firstn (b - a + 1) (skipn a (zip_max o n)))).
Proof.
  intros G S M1 M2 U N P. destruct (range_spec c _ N) as (a & b & R & AB & C & D1 & D2).
  exists a, b. split; [exact AB|]. split; [intros i x Hi Hx; apply (C i x Hi), changed_iff, Hx|]. split; [exact D1|]. split; [exact D2|]. cbn zeta.
  unfold formatted, make. rewrite G, S, cut_big by lia. cbn [obind].
  destruct (format_placed fl c (zip_max o n) N M1 M2 P) as (a' & b' & R' & F).
  rewrite R in R'. assert (E1 : a' = a) by (injection R'; lia). assert (E2 : b' = b) by (injection R'; lia). subst a' b'. exact F.
Qed.
Print Assumptions C117_shown.
(** Texts of the examples: element [i] of either side is the letter [97 + i]
    repeated. *)
Definition letters (side : bool) (k : kind) (i : Z) : list Z := match k with KNone => [] | _ => [97 + i; 97 + i] end.
Example C117_shown_ex : exists l,
  obind (formatted (mkC None None None None true true false true 100)
    [(Keep, 0); (Keep, 1); (Keep, 2); (Delete, 3)] [(Keep, 0); (Keep, 1); (Keep, 2); (KNone, 0)])
    (format letters (mkC None None None None true true false true 100)) = Ok l /\
  tl l = [[126; 32; 99; 99; 32; 126; 32; 99; 99]; [45; 32; 100; 100; 32; 63; 32; 32; 32]] /\
  placed (zip_max [(Keep, 0); (Keep, 1); (Keep, 2); (Delete, 3)] [(Keep, 0); (Keep, 1); (Keep, 2); (KNone, 0)]).
Proof.
  eexists. split; [vm_compute; reflexivity|]. split; [reflexivity|].
  intros [|[|[|[|i]]]] x y E; cbn in E; try (injection E as <- <-; cbn; auto); destruct i; discriminate.
Qed.

(** Without that the wrong element is shown: the first line of [a b c] is
    removed, and the kept [b] and [c] are shown as nothing and as [b]. *)
Theorem C117_shown_refuted : exists c l,
  shift_track [1; 2] [0; 1] 3 2 = Ok ([(Delete, 0); (Keep, 1); (Keep, 2)], [(KNone, 0); (Keep, 0); (Keep, 1)]) /\
  obind (formatted c [(Delete, 0); (Keep, 1); (Keep, 2)] [(KNone, 0); (Keep, 0); (Keep, 1)])
    (format (fun side k i => match k with KNone => [] | _ => if side then [97 + i] else [98 + i] end) c) = Ok l /\
  tl l = [[45; 32; 97; 32; 63; 32; 32]; [126; 32; 98; 32; 126; 32; 32]; [126; 32; 99; 32; 126; 32; 98]].
Proof. exists (mkC None None None None false false false true 100). eexists. split; [reflexivity|]. split; [vm_compute; reflexivity|reflexivity]. Qed.
Print Assumptions C117_shown_refuted.

(** After leaving out unchanged lines, printing can fail. *)
Theorem C117_cut_refuted : exists c fl,
  obind (formatted c [(Keep, 0); (Keep, 1); (Delete, 2)] [(Keep, 0); (Keep, 1); (KNone, 0)]) (format fl c) = Throw /\
  max_l c = None /\ max_r c = None /\ side_by_side c = true.
Proof. exists (mkC None None None None false false false true 1), letters. repeat split; reflexivity. Qed.
Print Assumptions C117_cut_refuted.

(** A limit on the width of a column makes printing fail on every text that
    fits, and lets one character too many of other texts through. *)
Theorem C117_limit_refuted fl c x y l r : forall mx, max_l c = Some mx -> length l = length r ->
  (Z.of_nat (length (fl true (fst x) (snd x))) <= mx -> format fl c (Unified (x :: l) (y :: r)) = Throw) /\
  (forall t, 0 <= mx < Z.of_nat (length t) -> exists t', limited (max_l c) t = Ok t' /\ Z.of_nat (length t') = mx + 1).
Proof.
  intros mx E L. split.
  - intros H. unfold format. cbn [length]. rewrite L, Nat.eqb_refl. cbn [negb combine texts]. unfold text_of.
    rewrite E, (limited_short _ _ H). reflexivity.
  - intros t H. rewrite E, (limited_long _ _ H). eexists. split; [reflexivity|]. rewrite firstn_length. lia.
Qed.
Print Assumptions C117_limit_refuted.
Example C117_limit_ex : exists c, max_l c = Some 80 /\
  format letters c (Unified [(Keep, 0)] [(Keep, 0)]) = Throw.
Proof. exists (mkC None None (Some 80) None false false false true 9). split; reflexivity. Qed.

(** Comparing nothing with nothing, and any comparison not side by side with a
    line that is not an insertion, are undefined. *)
Theorem C117_undefined_refuted fl c o n : group_line c = false -> max_unchanged c >= Z.of_nat (length (zip_max o n)) ->
  (o = [] /\ n = [] \/ side_by_side c = false /\ exists x, In x (zip_max o n) /\ fst (snd x) <> Insert) ->
  obind (formatted c o n) (format fl c) = UB.
Proof.
  intros G U [[-> ->]|(S & x & X1 & X2)].
  - unfold formatted, make. rewrite G. destruct (side_by_side c); reflexivity.
  - unfold formatted, make. rewrite G, S, cut_big by lia. cbn [obind format].
    assert (L : (length (filter (changed_r c) (map snd (zip_max o n))) < length (map fst (zip_max o n)))%nat).
    { rewrite map_length. revert X1. generalize (zip_max o n). clear U. induction l as [|z l IH]; [contradiction|].
      intros X1. assert (LE : forall q : list (item * item), (length (filter (changed_r c) (map snd q)) <= length q)%nat).
      { induction q as [|w q Q]; [reflexivity|]. cbn. destruct (changed_r c (snd w)); cbn; lia. }
      cbn [map filter length]. destruct X1 as [->|X1].
      - unfold changed_r at 1. rewrite S. replace (kind_eqb (fst (snd x)) Insert) with false.
        + cbn [negb andb]. specialize (LE l). lia.
        + destruct (fst (snd x)); try reflexivity. congruence.
      - specialize (IH X1). destruct (changed_r c (snd z)); cbn [length]; lia. }
    replace (Nat.eqb _ _) with false by (symmetry; apply Nat.eqb_neq; lia). reflexivity.
Qed.
Print Assumptions C117_undefined_refuted.
Example C117_undefined_ex : exists c, side_by_side c = false /\
  obind (formatted c [(Delete, 0); (Keep, 1)] [(KNone, 0); (Keep, 0)]) (format letters c) = UB.
Proof. exists (mkC None None None None false false false false 9). split; reflexivity. Qed.

(** Grouped: of all lines but the last, the left elements and the inserted
    ones, each in order; with fewer than two lines it is undefined. *)
Theorem C117_grouped c l : group_line c = true -> side_by_side c = false ->
  (length l < 2)%nat /\ make c l = UB \/
  exists s, make c l = Ok (Stacked s) /\
    map snd (filter fst s) = filter (fun x => negb (kind_eqb (fst x) KNone)) (map fst (removelast l)) /\
    map snd (filter (fun d => negb (fst d)) s) = filter (fun x => kind_eqb (fst x) Insert) (map snd (removelast l)).
Proof.
  intros G S. unfold make. rewrite G, S. destruct l as [|[x y] [|z l]]; [left; cbn; auto with arith..|right].
  eexists. split; [reflexivity|].
  destruct (stacked_sides c S (removelast (z :: l)) [x] [y] x y []) as [A B]. rewrite A, B.
  change (removelast ((x, y) :: z :: l)) with ((x, y) :: removelast (z :: l)). cbn [map fst snd app].
  split; [apply (filter_ext (changed_l c))|apply (filter_ext (changed_r c))]; intros q; unfold changed_l, changed_r; rewrite S; reflexivity.
Qed.
Print Assumptions C117_grouped.
Example C117_grouped_ex :
  make (mkC None None None None false false true false 9)
    [((Delete, 0), (Insert, 0)); ((Delete, 1), (Insert, 1)); ((Keep, 2), (Keep, 2)); ((Keep, 3), (Keep, 3))] =
  Ok (Stacked [(true, (Delete, 0)); (true, (Delete, 1)); (false, (Insert, 0)); (false, (Insert, 1)); (true, (Keep, 2))]).
Proof. reflexivity. Qed.
(** So a change on the last line is not shown. *)
Theorem C117_grouped_refuted : exists c l, In ((KNone, 0), (Insert, 1)) l /\ make c l = Ok (Stacked [(true, (Keep, 0))]).
Proof. exists (mkC None None None None false false true false 9), [((Keep, 0), (Keep, 0)); ((KNone, 0), (Insert, 1))]. cbn. auto. Qed.
Print Assumptions C117_grouped_refuted.
