(** C26 - C30: sequence comparison. *)
From Coq Require Import ZArith List Bool Lia.
From Verif Require Import Base DiffModel DiffSpec LevProofs MyersProofs LcsProofs FuzzyProofs.
Import ListNotations.
Local Open Scope Z_scope.

(** C26: the reported distance is attained by the reported operations and is
    the least cost of any script, for every comparison callback. *)
Theorem C26_levenshtein_optimal (N M : Z) (eq : Z -> Z -> bool) : 0 <= N -> 0 <= M ->
  exists fuel0, forall fuel, (fuel0 <= fuel)%nat ->
  exists score ops, levenshtein fuel N M eq = Ok (score, ops) /\
    rewrites eq N M ops /\ cost ops = score /\
    forall ops', rewrites eq N M ops' -> score <= cost ops'.
Proof. exact (levenshtein_correct N M eq). Qed.
Print Assumptions C26_levenshtein_optimal.

(** C26, on sequences: executing any valid script produces the second
    sequence; in particular the one returned above. *)
Theorem C26_script_produces_target {A} (eqA : A -> A -> bool) (a b : list A) ops :
  (forall x y, eqA x y = true -> x = y) ->
  rewrites (cmp_of eqA a b) (Z.of_nat (length a)) (Z.of_nat (length b)) ops ->
  execute a b ops = Some b.
Proof. exact (rewrites_execute eqA a b ops). Qed.
Print Assumptions C26_script_produces_target.

(** "kitten" / "sitting" *)
Definition kitten : list Z := [107; 105; 116; 116; 101; 110].
Definition sitting : list Z := [115; 105; 116; 116; 105; 110; 103].
Example C26_ex :
  levenshtein 40 6 7 (cmp_of Z.eqb kitten sitting) =
    Ok (3, [mkE Replace 0 0; mkE Keep 1 1; mkE Keep 2 2; mkE Keep 3 3; mkE Replace 4 4;
            mkE Keep 5 5; mkE Insert 5 6]) /\
  execute kitten sitting
    [mkE Replace 0 0; mkE Keep 1 1; mkE Keep 2 2; mkE Keep 3 3; mkE Replace 4 4;
     mkE Keep 5 5; mkE Insert 5 6] = Some sitting.
Proof. vm_compute. auto. Qed.

(** C27: Myers diff terminates normally with a shortest insert/delete script. *)
Theorem C27_myers_shortest (N M : Z) (eq : Z -> Z -> bool) : 0 <= N -> 0 <= M ->
  exists fuel0, forall fuel, (fuel0 <= fuel)%nat ->
  exists ops, myers fuel N M eq = Ok ops /\ rewrites eq N M ops /\ no_replace ops /\
    forall ops', rewrites eq N M ops' -> no_replace ops' -> cost ops <= cost ops'.
Proof. exact (myers_correct N M eq). Qed.
Print Assumptions C27_myers_shortest.

(** "ABCABBA" / "CBABAC", the example of Myers' paper: distance 5. *)
Definition abcabba : list Z := [1; 2; 3; 1; 2; 2; 1].
Definition cbabac : list Z := [3; 2; 1; 2; 1; 3].
Example C27_ex :
  exists ops, myers 20 7 6 (cmp_of Z.eqb abcabba cbabac) = Ok ops /\ cost ops = 5 /\
    execute abcabba cbabac ops = Some cbabac.
Proof. eexists. split; [vm_compute; reflexivity|]. vm_compute. auto. Qed.

(** C28, what holds: exactly one result, it is a common subsequence, and it is
    empty or of maximal length; it is of maximal length whenever the two first
    items are equal. *)
Theorem C28_lcs_partial (N M : Z) (eq : Z -> Z -> bool) : 0 <= N -> 0 <= M ->
  exists fuel0, forall fuel, (fuel0 <= fuel)%nat ->
  exists ls rs, longest_common fuel N M eq = Ok [(ls, rs)] /\ common eq N M ls rs /\
    (ls = [] \/ forall ls' rs', common eq N M ls' rs' -> (length ls' <= length ls)%nat) /\
    (eq 0 0 = true -> forall ls' rs', common eq N M ls' rs' -> (length ls' <= length ls)%nat).
Proof. exact (longest_common_correct N M eq). Qed.
Print Assumptions C28_lcs_partial.

Example C28_ex :
  exists ls rs, longest_common 60 8 7 (cmp_of Z.eqb (1 :: abcabba) (1 :: cbabac)) = Ok [(ls, rs)] /\
    length ls = 5%nat.
Proof. do 2 eexists. split; vm_compute; reflexivity. Qed.

(** C28 is false as stated: for "ab" and "cb" the code returns the empty
    subsequence although "b" is common. *)
Theorem C28_lcs_maximal_refuted :
  exists eq, longest_common 20 2 2 eq = Ok [([], [])] /\ common eq 2 2 [1] [1].
Proof.
  exists (cmp_of Z.eqb [97; 98] [99; 98]). split; [vm_compute; reflexivity|].
  split; [cbn; lia|]. split; [cbn; lia|]. constructor; [reflexivity|constructor].
Qed.
Print Assumptions C28_lcs_maximal_refuted.

(** C29: with a recursion limit above one, a non-empty pattern matches iff it
    is a subsequence of the text, and then the reported positions spell it. *)
Theorem C29_fuzzy_iff_subsequence limit (eq : Z -> Z -> bool) (score : Z * Z -> Z -> list Z -> Z) p pl s sl :
  1 < limit -> 0 <= p <= pl ->
  exists fuel0, forall fuel, (fuel0 <= fuel)%nat ->
  exists res, fuzzy_match fuel limit eq score (p, pl) (s, sl) = Ok res /\
    (res <> None <->
     exists l, Z.of_nat (length l) = pl - p + 1 /\ positions eq p s sl l) /\
    (forall sc ms, res = Some (sc, ms) ->
      let l := firstn (Z.to_nat (pl - p + 1)) ms in
      Z.of_nat (length l) = pl - p + 1 /\ positions eq p s sl l /\
      exists a, sc = score (a, sl) (pl - p + 1) ms).
Proof. exact (fuzzy_correct limit eq score p pl s sl). Qed.
Print Assumptions C29_fuzzy_iff_subsequence.

(** Pattern "bb" in "abcabba"; the score prefers late positions. *)
Example C29_ex :
  fuzzy_match 60 10 (fun i j => nth (Z.to_nat i) [2; 2] 0 =? nth (Z.to_nat j) abcabba (-1))
    (fun _ _ ms => fold_right Z.add 0 ms) (0, 1) (0, 6) = Ok (Some (9, [4; 5])).
Proof. vm_compute. reflexivity. Qed.

(** C29, the exception: the empty pattern (a subsequence of everything) is
    reported as not matching, whatever the text. *)
Theorem C29_empty_pattern_never_matches fuel limit eq score p pl str :
  pl < p -> -1 <= pl -> (0 < fuel)%nat ->
  fuzzy_match fuel limit eq score (p, pl) str = Ok None.
Proof. exact (fuzzy_empty fuel limit eq score p pl str). Qed.
Print Assumptions C29_empty_pattern_never_matches.
Example C29_empty_ex :
  fuzzy_match 5 10 (fun _ _ => true) (fun _ _ _ => 0) (0, -1) (0, 3) = Ok None /\
  positions (fun _ _ => true) 0 0 3 [].
Proof. split; [reflexivity|exact I]. Qed.

(** C30: from matched index lists the aligned form shows every old and new
    index once and in order, and each row is a match, a deletion or an
    insertion. *)
Theorem C30_shift_of_matches N M ls rs :
  0 <= N -> 0 <= M -> length ls = length rs -> increasing 0 N ls -> increasing 0 M rs ->
  exists o n, shift_track ls rs N M = Ok (o, n) /\
    side o = upto N /\ side n = upto M /\ length o = length n /\
    Forall (row_ok (combine ls rs)) (combine o n).
Proof. exact (shift_track_correct N M ls rs). Qed.
Print Assumptions C30_shift_of_matches.
Example C30_ex1 :
  shift_track [0; 2] [1; 2] 3 4 =
  Ok ([(KNone, 0); (Keep, 0); (Delete, 1); (Keep, 2); (KNone, 0)],
      [(Insert, 0); (Keep, 1); (KNone, 0); (Keep, 2); (Insert, 3)]).
Proof. vm_compute. reflexivity. Qed.

(** C30: the same from a script without replacements (such as a Myers diff). *)
Theorem C30_shift_of_script eq N M ops : rewrites eq N M ops -> no_replace ops ->
  exists o n, shift_edits ops = Ok (o, n) /\
    side o = upto N /\ side n = upto M /\ keeps_aligned o n.
Proof. exact (shift_edits_correct eq N M ops). Qed.
Print Assumptions C30_shift_of_script.
Example C30_ex2 :
  shift_edits [mkE Delete 0 (-1); mkE Insert (-1) 0; mkE Insert (-1) 1; mkE Keep 1 2] =
  Ok ([(Delete, 0); (KNone, 0); (Keep, 1)], [(Insert, 0); (Insert, 1); (Keep, 2)]).
Proof. vm_compute. reflexivity. Qed.

(** C30 for arbitrary scripts: the old side is complete; the new side shows
    exactly the kept and inserted items, so every replacing item is missing. *)
Theorem C30_shift_of_any_script_partial eq N M ops : rewrites eq N M ops ->
  exists o n, shift_edits ops = Ok (o, n) /\
    side o = upto N /\
    side n = map etgt (filter (fun e => match ekind e with Keep | Insert => true | _ => false end) ops) /\
    keeps_aligned o n.
Proof. exact (shift_edits_general eq N M ops). Qed.
Print Assumptions C30_shift_of_any_script_partial.
Theorem C30_shift_of_script_refuted :
  exists eq ops, rewrites eq 1 1 ops /\
    levenshtein 10 1 1 eq = Ok (1, ops) /\
    shift_edits ops = Ok ([(Replace, 0)], []).
Proof.
  exists (fun _ _ => false), [mkE Replace 0 0]. split.
  - apply sc_rep. constructor.
  - split; vm_compute; reflexivity.
Qed.
Print Assumptions C30_shift_of_script_refuted.
