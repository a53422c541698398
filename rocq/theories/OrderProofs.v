From Verif Require Import Base OrderModel OrderSpec.
Local Open Scope Z_scope.

Lemma some_less_spec : forall (a b : list Z),
  some_less Z.ltb a b = true <-> exists i x y, nth_error a i = Some x /\ nth_error b i = Some y /\ x < y.
Proof.
  induction a as [|x a IH]; intros [|y b]; cbn.
  - split; [discriminate|]. intros ([|i] & u & v & H & _); discriminate.
  - split; [discriminate|]. intros ([|i] & u & v & H & _); discriminate.
  - split; [discriminate|]. intros ([|i] & u & v & _ & H & _); discriminate.
  - destruct (Z.ltb_spec x y) as [H|H].
    + split; [|reflexivity]. intros _. now exists 0%nat, x, y.
    + rewrite IH. split.
      * intros (i & u & v & H1 & H2 & H3). now exists (S i), u, v.
      * intros ([|i] & u & v & H1 & H2 & H3); cbn in *; [assert (x = u /\ y = v) by (split; congruence); lia|].
        now exists i, u, v.
Qed.

Lemma vec_less_spec : forall a b, vec_less a b = true <->
  (exists i x y, nth_error a i = Some x /\ nth_error b i = Some y /\ x < y) \/ (length a < length b)%nat.
Proof.
  intros a b. unfold vec_less, itemwise_less. rewrite orb_true_iff, some_less_spec, Nat.ltb_lt. tauto.
Qed.

Lemma some_less_irrefl : forall {A} (cmp : A -> A -> bool) a, irreflexive cmp -> some_less cmp a a = false.
Proof. intros A cmp a H. induction a as [|x a IH]; cbn; [reflexivity|]. now rewrite H. Qed.

Lemma itemwise_irrefl : forall {A} (cmp : A -> A -> bool), irreflexive cmp -> irreflexive (itemwise_less cmp).
Proof. intros A cmp H a. unfold itemwise_less. rewrite some_less_irrefl by assumption. now rewrite Nat.ltb_irrefl. Qed.

Lemma lex_less : forall a b, lex a b -> vec_less a b = true.
Proof.
  intros a b H. unfold vec_less, itemwise_less. induction H as [y b|x y a b H|x a b H IH].
  - reflexivity.
  - cbn. now replace (x <? y) with true by lia.
  - cbn [some_less length]. rewrite Z.ltb_irrefl. exact IH.
Qed.

Lemma lex_total : forall a b, a = b \/ lex a b \/ lex b a.
Proof.
  induction a as [|x a IH]; intros [|y b]; auto.
  - right. left. constructor.
  - right. right. constructor.
  - destruct (Z.lt_total x y) as [H|[->|H]].
    + right. left. now constructor.
    + destruct (IH b) as [->|[H|H]]; [auto|right; left|right; right]; now constructor.
    + right. right. now constructor.
Qed.

Lemma vec_connected : forall a b, a <> b -> vec_less a b = true \/ vec_less b a = true.
Proof.
  intros a b H. destruct (lex_total a b) as [E|[E|E]]; [contradiction| |]; [left|right]; now apply lex_less.
Qed.

Lemma lex_one : forall a b, (length a <= 1)%nat -> (length b <= 1)%nat -> (vec_less a b = true <-> lex a b).
Proof.
  intros a b Ha Hb. split; [|apply lex_less]. unfold vec_less, itemwise_less.
  destruct a as [|x [|? ?]], b as [|y [|? ?]]; cbn in *; try lia; try discriminate.
  - intros _. constructor.
  - destruct (Z.ltb_spec x y); [intros _; now constructor|discriminate].
Qed.
