(** C81: slices of a string. *)
From Coq Require Import String.
From Verif Require AttrModel.
From Verif Require Import Base StrModel SliceModel SliceSpec SliceProofs SliceStrModel.
Local Open Scope Z_scope.

Notation lit := AttrModel.lit.
(** The characters from one place to another, both included *)
Definition cut_out (s t : str) (p q : Z) : Prop :=
  exists a b, s = (a ++ t ++ b)%list /\ Z.of_nat (length a) = p /\ Z.of_nat (length t) = q - p + 1.

Lemma str_at_ok : forall s a b p q, means (Z.of_nat (length s)) a p -> means (Z.of_nat (length s)) b q ->
  0 <= p < Z.of_nat (length s) -> 0 <= q < Z.of_nat (length s) ->
  str_at s a b = if p + q <=? Z.of_nat (length s) then Ok (substr s (Z.to_nat p) (Z.to_nat q)) else UB.
Proof.
  intros s a b p q Ha Hb Hp Hq. apply end_pos_means in Ha. apply end_pos_means in Hb. subst p q. unfold str_at.
  rewrite get_span_ok by assumption. reflexivity.
Qed.
(** The slice is the characters from the first to the last place exactly when the first place is 1. *)
Theorem C81_slice_partial : forall s a b p q, means (Z.of_nat (length s)) a p -> means (Z.of_nat (length s)) b q ->
  0 <= p <= q -> q < Z.of_nat (length s) ->
  ((exists t, str_at s a b = Ok t /\ cut_out s t p q) <-> p = 1).
Proof.
  intros s a b p q Ha Hb Hp Hq. rewrite (str_at_ok s a b p q) by (assumption || lia). split.
  - intros (t & E & l & r & Es & Ll & Lt). destruct (p + q <=? Z.of_nat (length s)) eqn:X; [|discriminate]. apply Z.leb_le in X.
    injection E as <-. unfold substr in Lt. rewrite firstn_length, skipn_length in Lt. lia.
  - intros ->. rewrite (proj2 (Z.leb_le _ _)) by lia. eexists. split; [reflexivity|]. unfold substr.
    exists (firstn (Z.to_nat 1) s), (skipn (Z.to_nat q) (skipn (Z.to_nat 1) s)). rewrite !firstn_skipn, !firstn_length, skipn_length. repeat split; lia.
Qed.
Print Assumptions C81_slice_partial.
Example C81_slice_ex : str_at (lit "abcde") (EFwd 1) (EBack 2) = Ok (lit "bcd").
Proof. reflexivity. Qed.

(** The whole string without its zone, and the zone, of "2024-01-02 12:00:00+0200" (SemConvert.cpp:806-821) *)
Theorem C81_slice_refuted : exists s,
  (exists t, str_at s (EFwd 0) (EFwd (Z.of_nat (length s) - 6)) = Ok t /\ ~ cut_out s t 0 (Z.of_nat (length s) - 6)) /\
  str_at s (EBack 4) (EBack 1) = UB.
Proof.
  exists (lit "2024-01-02 12:00:00+0200"). split.
  - exists (lit "2024-01-02 12:00:0"). split; [reflexivity|]. intros (a & b & _ & _ & L). vm_compute in L. discriminate.
  - reflexivity.
Qed.
Print Assumptions C81_slice_refuted.
