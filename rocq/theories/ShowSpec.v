(** What a printed comparison should show. *)
From Coq Require Import ZArith List Bool Lia.
From Verif Require Import Base DiffModel ShowModel.
Import ListNotations.
Local Open Scope Z_scope.

(** Picking the marked elements of a list. *)
Fixpoint pick {A} (marks : list bool) (l : list A) : list A :=
  match marks, l with
  | b :: marks', x :: l' => if b then x :: pick marks' l' else pick marks' l'
  | _, _ => []
  end.
(** A line that is the same on both sides. *)
Definition same (x : item * item) : Prop := fst (fst x) = Keep /\ fst (snd x) = Keep.
(** Line [i] and the [mx] lines before it are kept on both sides. *)
Definition deep (mx : Z) (l : list (item * item)) (i : nat) : Prop :=
  mx <= Z.of_nat i /\
  forall j, Z.of_nat i - mx <= Z.of_nat j <= Z.of_nat i -> exists x, nth_error l j = Some x /\ same x.

(** Every element stands on the line of its own number. *)
Definition placed (l : list (item * item)) : Prop := forall i x y, nth_error l i = Some (x, y) ->
  (fst x = KNone \/ snd x = Z.of_nat i) /\ (fst y = KNone \/ snd y = Z.of_nat i).

(** Text filled with spaces up to a width. *)
Definition fill (t : list Z) (n : Z) : list Z := t ++ repeat 32 (Z.to_nat n - length t).
(** The mark of an edit. *)
Definition mark (k : kind) : list Z :=
  match k with
  | KNone => [63] | Keep => [126] | Insert => [43] | Replace => [45; 43] | Delete => [45] | Transpose => [94; 118]
  end.
(** The largest length. *)
Definition longest (l : list (list Z)) : Z := fold_right Z.max 0 (map (fun t => Z.of_nat (length t)) l).

Section Spec.
  Variable fl : bool -> kind -> Z -> list Z.
  (** The text of an element; nothing if there is none. *)
  Definition shown (side : bool) (x : item) : list Z := match fst x with KNone => [] | k => fl side k (snd x) end.
  (** A line of the output: kind and element on the left, kind and element on
      the right, filled with spaces to the widths of the columns. *)
  Definition good_row (lw rw : Z) (l : item * item) : list Z :=
    fill (mark (fst (fst l))) 2 ++ fill (shown true (fst l)) lw ++ [32] ++
    fill (mark (fst (snd l))) 2 ++ fill (shown false (snd l)) rw.
  (** Width of a column: the widest text, or what was asked for. *)
  Definition width (side : bool) (mn : option Z) (l : list item) : Z :=
    Z.max (match mn with Some z => z | None => 0 end) (longest (map (fun x => fl side (fst x) (snd x)) l)).
  Definition good_header (lw : Z) : list Z :=
    [32; 32] ++ fill [71; 105; 118; 101; 110] lw ++ [32; 32; 32] ++ [69; 120; 112; 101; 99; 116; 101; 100].
End Spec.
