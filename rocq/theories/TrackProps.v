(** C17: the path tracker restores the path. *)
From Verif Require Import Base TrackModel TrackSpec TrackProofs.

(** After any history of entering and leaving scopes all ways of reading the tracker agree with the list of
    keys entered and not left: conversion to a vector, size, indexing, the innermost key and iteration. *)
Theorem tracker_is_path : forall A (ops : list (scope_op A)) t l,
  t = fold_left track_step ops tr_empty -> l = fold_left path_step ops [] ->
  tr_vector t = l
  /\ tr_size t = Z.of_nat (length l)
  /\ (tr_is_empty t = true <-> l = [])
  /\ (forall i, tr_at t i = match (if (i <? 0)%Z then None else nth_error l (Z.to_nat i)) with
                            | Some x => Ok x | None => Throw end)
  /\ (forall p x, l = p ++ [x] -> tr_back t = Ok x)
  /\ tr_iterate (S (length l)) t = Ok l.
Proof.
  intros A ops t l -> ->. pose proof (rep_history ops tr_empty [] rep_empty) as H.
  set (t := fold_left track_step ops tr_empty) in *. set (l := fold_left path_step ops []) in *.
  split; [exact (rep_vector t l H)|]. split; [exact (proj2 H)|]. split.
  - unfold tr_is_empty. rewrite (proj2 H). rewrite Z.eqb_eq. destruct l; cbn; split; intros; try lia; congruence.
  - split; [intros i; exact (rep_at t l i H)|]. split.
    + intros p x E. rewrite E in H. exact (rep_back t p x H).
    + apply (rep_iter_from (S (length l)) t l 0 H); lia.
Qed.
Print Assumptions tracker_is_path.

Example tracker_ex :
  let ops := [Enter 1; Enter 2; Leave; Enter 3; Enter 4; Leave; Leave; Leave; Leave; Enter 7; Enter 8] in
  let t := fold_left track_step ops tr_empty in
  tr_vector t = [7; 8] /\ tr_at t 1 = Ok 8 /\ tr_at t 2 = Throw /\ tr_back t = Ok 8.
Proof. vm_compute. auto. Qed.

(** Entering and leaving a scope gives the previous path back, whatever happens in between. *)
Theorem tracker_scope_restores : forall A (ops : list (scope_op A)) x,
  let t := fold_left track_step ops tr_empty in
  tr_vector (tr_pop (tr_push t x)) = tr_vector t /\ tr_vector (tr_push t x) = tr_vector t ++ [x].
Proof.
  intros A ops x t. pose proof (rep_history ops tr_empty [] rep_empty) as H. fold t in H.
  pose proof (rep_push t _ x H) as Hp. pose proof (rep_pop _ _ Hp) as Hq. rewrite removelast_last in Hq.
  rewrite (rep_vector _ _ H), (rep_vector _ _ Hp), (rep_vector _ _ Hq). auto.
Qed.
Print Assumptions tracker_scope_restores.

(** A recursive traversal that passes push(key) down sees at every scope exactly the keys that enclose it. *)
Theorem tracker_traversal_paths : forall A (s : scopes A), visit_track tr_empty s = visit_paths [] s.
Proof. intros A s. exact (visit_ok s tr_empty [] rep_empty). Qed.
Print Assumptions tracker_traversal_paths.

Example tracker_traversal_ex :
  visit_track tr_empty (Scope 1 [Scope 2 [Scope 3 []]; Scope 4 []]) = [[1]; [1;2]; [1;2;3]; [1;4]].
Proof. reflexivity. Qed.
