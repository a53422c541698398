(** C15: the range index answers like a linear scan. C16: segmentation of overlapping ranges. *)
From Verif Require Import Base SliceModel SliceSpec RangeModel RangeSpec RangeProofs.
Local Open Scope Z_scope.

(** Whatever order std::sort leaves the ranges in, building terminates and a query returns exactly the
    ranges that contain the point, each with its position in the input. *)
Theorem range_index_query_is_scan : forall order fuel l,
  permuting order -> Forall nonempty l -> NoDup l -> (length l < fuel)%nat ->
  exists t, build order fuel l = Ok t /\ forall p, Permutation (get_ranges t p) (scan l p).
Proof. exact build_ok. Qed.
Print Assumptions range_index_query_is_scan.

Definition ex_slices := [Slice 0 10; Slice 2 3; Slice 3 8; Slice 12 14; Slice 7 7].

Example range_index_ex :
  permuting (@rev rng) /\ Forall nonempty ex_slices /\ NoDup ex_slices
  /\ omap (fun t => map (fun p => map rix (get_ranges t p)) [3; 7; 11; 12]) (build (@rev rng) 6 ex_slices)
     = Ok [[2;0;1]; [4;2;0]; []; [3]]%nat.
Proof.
  split; [intros l; symmetry; apply Permutation_rev|].
  split; [repeat constructor; eexists; unfold covers; cbn; split; apply Z.le_refl || apply Z.leb_le; reflexivity|].
  split; [repeat constructor; cbn; intuition congruence|]. vm_compute. reflexivity.
Qed.

(** Two equal ranges: the comparator handed to std::sort puts each before the other, so sorting (and with it
    construction) is undefined behaviour. *)
Theorem range_index_duplicates_refuted :
  (forall order fuel l, ~ NoDup l -> build order fuel l = UB)
  /\ ~ (forall l, Forall nonempty l -> exists t, build (fun x => x) (S (length l)) l = Ok t).
Proof.
  split; [exact build_dup|]. intros H.
  destruct (H [Slice 1 2; Slice 1 2]) as [t E].
  - repeat constructor; exists 1; unfold covers; cbn; lia.
  - vm_compute in E. discriminate.
Qed.
Print Assumptions range_index_duplicates_refuted.

(** A reversed range makes the construction recurse forever. *)
Theorem range_index_reversed_refuted : forall fuel a b i, b < a -> build_rec fuel [Rng (Slice a b) i] = Fuel.
Proof. exact build_reversed. Qed.
Print Assumptions range_index_reversed_refuted.

(** Segments come out in order, do not overlap, carry exactly the tags of each of their points, are maximal,
    and cover every tagged point - except the last point of the sequence when its tags differ from those of
    the point before (or it is the only point). Missing from the full claim: that last point. *)
Theorem segmentation_partial : forall order gs a b, permuting order -> good_groups gs -> a <= b ->
  exists res, annotate order gs a b = Ok res
    /\ StronglySorted (fun x y => an_last x < an_first y) res
    /\ Forall (fun x =>
         a <= an_first x /\ an_first x <= an_last x /\ an_last x <= b /\ an_tags x <> [] /\ NoDup (an_tags x)
         /\ (forall p t, an_first x <= p <= an_last x -> (In t (an_tags x) <-> tag_at gs p t))
         /\ (an_first x = a \/ ~ same_tags gs (an_first x - 1) (an_first x))
         /\ (an_last x = b \/ ~ same_tags gs (an_last x) (an_last x + 1))) res
    /\ (forall p, a <= p <= b -> (exists t, tag_at gs p t) ->
          ((exists x, In x res /\ an_first x <= p <= an_last x)
             <-> ~ (p = b /\ (a = b \/ ~ same_tags gs (b - 1) b)))).
Proof. exact annotate_ok. Qed.
Print Assumptions segmentation_partial.

(** The example of RangeSegmentation.hpp:52-66. *)
Definition ex_groups := [Grp 0 [Seg 5 2 3]; Grp 1 [Seg 6 1 4; Seg 7 6 7]].
Example segmentation_ex :
  good_groups ex_groups /\
  annotate (fun l => l) ex_groups 0 7 =
    Ok [Annot 1 1 [(1,[6])]; Annot 2 3 [(0,[5]);(1,[6])]; Annot 4 4 [(1,[6])]; Annot 6 7 [(1,[7])]].
Proof.
  split; [|vm_compute; reflexivity].
  repeat constructor; cbn; try lia; intuition congruence.
Qed.

(** Asking a segment whether it is annotated with a group and a segment kind answers whether a segment of
    that kind in a group of that kind covers its points. *)
Theorem segmentation_query : forall order gs a b res x p, permuting order -> good_groups gs -> a <= b ->
  annotate order gs a b = Ok res -> In x res -> an_first x <= p <= an_last x -> forall gk sk,
  annotated_with x gk sk = true <->
    exists g s, In g gs /\ gr_kind g = gk /\ In s (gr_segs g) /\ sg_kind s = sk /\ seg_covers s p.
Proof. exact annotate_query. Qed.
Print Assumptions segmentation_query.

Example segmentation_query_ex :
  annotated_with (Annot 2 3 [(0,[5]);(1,[6])]) 1 6 = true /\ annotated_with (Annot 2 3 [(0,[5]);(1,[6])]) 0 6 = false.
Proof. split; reflexivity. Qed.

(** The full claim is false: a one-point segment at the end of the sequence is lost. *)
Theorem segmentation_covers_refuted :
  ~ (forall gs a b res p, good_groups gs -> annotate (fun l => l) gs a b = Ok res -> a <= p <= b ->
       (exists t, tag_at gs p t) -> exists x, In x res /\ an_first x <= p <= an_last x).
Proof.
  intros H.
  destruct (H [Grp 0 [Seg 5 3 3]] 0 3 [] 3) as (x & [] & _).
  - repeat constructor; cbn; try lia; intuition congruence.
  - vm_compute. reflexivity.
  - lia.
  - exists (0, [5]). exists (Grp 0 [Seg 5 3 3]). cbn. repeat split; auto; try discriminate. repeat constructor.
Qed.
Print Assumptions segmentation_covers_refuted.
