(** What the range index and the segmentation are compared with. *)
From Verif Require Import Base SliceModel SliceSpec RangeModel.
Local Open Scope Z_scope.

(** The linear scan: positions in the input list of the ranges that contain the point. *)
Definition scan (l : list slice) (p : Z) : list rng := filter (fun r => sl_contains (rg r) p) (enum 0 l).

Definition permuting (order : list rng -> list rng) : Prop := forall l, Permutation (order l) l.

(** A segment covers a point. *)
Definition seg_covers (s : segment) (p : Z) : Prop := sg_first s <= p <= sg_last s.

Definition seg_coversb (s : segment) (p : Z) : bool := (sg_first s <=? p) && (p <=? sg_last s).

(** The tag a point gets from one group: the group kind and the kinds of all segments of the group that cover
    the point, sorted. *)
Definition tag_at (gs : list group) (p : Z) (t : tag) : Prop :=
  exists g, In g gs /\ fst t = gr_kind g
    /\ Permutation (snd t) (map sg_kind (filter (fun s => seg_coversb s p) (gr_segs g)))
    /\ StronglySorted Z.le (snd t) /\ snd t <> [].

Definition same_tags (gs : list group) (p q : Z) : Prop := forall t, tag_at gs p t <-> tag_at gs q t.

(** Segments are well formed and no group contains the same range twice. *)
Definition good_groups (gs : list group) : Prop :=
  Forall (fun g => Forall (fun s => sg_first s <= sg_last s) (gr_segs g)
                   /\ NoDup (map (fun s => (sg_first s, sg_last s)) (gr_segs g))) gs.
