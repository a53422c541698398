(** Model of the range index src/hstd/stdlib/RangeTree.hpp and of the segmentation of a sequence
    src/hstd/stdlib/RangeSegmentation.cpp.

    Simplified: the element type is int without overflow; UnorderedSet is a duplicate free list in insertion
    order (the real iteration order is unspecified); std::sort of the points is insertion sort; the order
    std::sort leaves the ranges in is a parameter [order] of the model, any function that permutes. *)
From Verif Require Import Base SliceModel.
Local Open Scope Z_scope.

(** RangeTreeRange, RangeTree.hpp:17-26. *)
Record rng := Rng { rg : slice; rix : nat }.

(** RangeTree::Node, RangeTree.hpp:33-58; a null pointer is [RNil]. *)
Inductive rtree := RNil | RNode (center : Z) (over : list rng) (l r : rtree).

(** std::sort over numbers. *)
Fixpoint insert (x : Z) (l : list Z) : list Z :=
  match l with
  | [] => [x]
  | y :: l' => if x <=? y then x :: l else y :: insert x l'
  end.
Fixpoint isort (l : list Z) : list Z :=
  match l with [] => [] | x :: l' => insert x (isort l') end.

(** The points pushed at RangeTree.hpp:72-76. *)
Definition points (rs : list rng) : list Z := flat_map (fun r => [first (rg r); last (rg r)]) rs.

(** The center chosen at RangeTree.hpp:77-78 (the index is in range: the list is not empty). *)
Definition center_of (rs : list rng) : Z :=
  let ps := isort (points rs) in nth (length ps / 2) ps 0.

(** The three way split, RangeTree.hpp:85-93. *)
Definition goes_left (c : Z) (r : rng) : bool := last (rg r) <? c.
Definition goes_right (c : Z) (r : rng) : bool := negb (goes_left c r) && (c <? first (rg r)).
Definition stays (c : Z) (r : rng) : bool := negb (goes_left c r) && negb (c <? first (rg r)).

(** buildRec, RangeTree.hpp:69-99. *)
Fixpoint build_rec (fuel : nat) (rs : list rng) : outcome rtree :=
  match fuel with
  | O => Fuel
  | S fuel' =>
      match rs with
      | [] => Ok RNil
      | _ =>
          let c := center_of rs in
          obind (build_rec fuel' (filter (goes_left c) rs)) (fun l =>
            obind (build_rec fuel' (filter (goes_right c) rs)) (fun r =>
              Ok (RNode c (filter (stays c) rs) l r)))
      end
  end.

(** The comparator of RangeTree.hpp:113-122. *)
Definition range_before (a b : rng) : bool :=
  if negb (first (rg a) =? first (rg b)) then first (rg a) <? first (rg b)
  else if negb (last (rg a) =? last (rg b)) then last (rg b) <? last (rg a)
  else true.

(** std::sort is only defined when no two elements are each before the other. *)
Fixpoint sort_defined (rs : list rng) : bool :=
  match rs with
  | [] => true
  | r :: rs' => forallb (fun s => negb (range_before r s && range_before s r)) rs' && sort_defined rs'
  end.

(** The enumerated ranges of RangeTree.hpp:103-111. *)
Fixpoint enum (i : nat) (l : list slice) : list rng :=
  match l with [] => [] | s :: l' => Rng s i :: enum (S i) l' end.

(** The constructor and build, RangeTree.hpp:60-66, 102-125. *)
Definition build (order : list rng -> list rng) (fuel : nat) (l : list slice) : outcome rtree :=
  match l with
  | [] => Ok (RNode 0 [] RNil RNil)
  | _ =>
      let rs := enum 0 l in
      if sort_defined rs then build_rec fuel (order rs) else UB
  end.

(** getAllNodes, RangeTree.hpp:40-57: the overlapping ranges of the nodes found. *)
Fixpoint all_nodes (t : rtree) (p : Z) : list (list rng) :=
  match t with
  | RNil => []
  | RNode c over l r =>
      (if existsb (fun x => sl_contains (rg x) p) over then [over] else [])
        ++ (if p <? c then all_nodes l p else [])
        ++ (if c <? p then all_nodes r p else [])
  end.

(** getRanges, RangeTree.hpp:132-141. *)
Definition get_ranges (t : rtree) (p : Z) : list rng :=
  flat_map (fun over => filter (fun x => sl_contains (rg x) p) over) (all_nodes t p).

(** Input segments and groups, RangeSegmentation.hpp:15-41. *)
Record segment := Seg { sg_kind : Z; sg_first : Z; sg_last : Z }.
Record group := Grp { gr_kind : Z; gr_segs : list segment }.

(** SegmentKind, RangeSegmentation.cpp:30: group kind and sorted segment kinds. *)
Definition tag := (Z * list Z)%type.

Fixpoint zlist_eqb (a b : list Z) : bool :=
  match a, b with
  | [], [] => true
  | x :: a', y :: b' => (x =? y) && zlist_eqb a' b'
  | _, _ => false
  end.
Definition tag_eqb (a b : tag) : bool := (fst a =? fst b) && zlist_eqb (snd a) (snd b).

(** UnorderedSet::incl and operator== of std::unordered_set. *)
Definition tags_incl (t : tag) (s : list tag) : list tag := if existsb (tag_eqb t) s then s else s ++ [t].
Definition tags_eqb (a b : list tag) : bool :=
  (length a =? length b)%nat && forallb (fun t => existsb (tag_eqb t) b) a.

(** RangeSegmentation.cpp:17-28: one range index per group; slice() throws on a reversed segment. *)
Fixpoint slices_of (l : list segment) : outcome (list slice) :=
  match l with
  | [] => Ok []
  | s :: l' =>
      obind (mk_slice (sg_first s) (sg_last s)) (fun x => obind (slices_of l') (fun r => Ok (x :: r)))
  end.

Fixpoint build_trees (order : list rng -> list rng) (gs : list group) : outcome (list (rtree * group)) :=
  match gs with
  | [] => Ok []
  | g :: gs' =>
      obind (slices_of (gr_segs g)) (fun sl =>
        obind (build order (S (length sl)) sl) (fun t =>
          obind (build_trees order gs') (fun r => Ok ((t, g) :: r))))
  end.

(** getPointGroups, RangeSegmentation.cpp:33-47 (segments.at(index) cannot fail for indices of the tree). *)
Fixpoint point_groups_from (acc : list tag) (ts : list (rtree * group)) (p : Z) : list tag :=
  match ts with
  | [] => acc
  | (t, g) :: ts' =>
      let rs := get_ranges t p in
      let acc' :=
        match rs with
        | [] => acc
        | _ =>
            tags_incl (gr_kind g,
              isort (map (fun r => sg_kind (nth (rix r) (gr_segs g) (Seg 0 0 0))) rs)) acc
        end in
      point_groups_from acc' ts' p
  end.
Definition point_groups := point_groups_from [].

(** SequenceAnnotation, RangeSegmentation.hpp:72-88. *)
Record annot := Annot { an_first : Z; an_last : Z; an_tags : list tag }.

(** The loop of RangeSegmentation.cpp:66-81 over [n] points from [i]; state prevKind, lastStart, result. *)
Fixpoint ann_loop (ts : list (rtree * group)) (n : nat) (i : Z)
    (prev : list tag) (start : Z) (res : list annot) : list tag * Z * list annot :=
  match n with
  | O => (prev, start, res)
  | S n' =>
      let this := point_groups ts i in
      if negb (tags_eqb this prev)
      then ann_loop ts n' (i + 1) this i
             (match prev with [] => res | _ => res ++ [Annot start (i - 1) prev] end)
      else ann_loop ts n' (i + 1) prev start res
  end.

(** annotateSequence, RangeSegmentation.cpp:7-93. *)
Definition annotate (order : list rng -> list rng) (gs : list group) (a b : Z) : outcome (list annot) :=
  obind (build_trees order gs) (fun ts =>
    let '(prev, start, res) := ann_loop ts (Z.to_nat (b - a + 1)) a (point_groups ts a) a [] in
    Ok (if (start <? b) && negb (match prev with [] => true | _ => false end)
        then res ++ [Annot start b prev] else res)).

(** isAnnotatedWith, RangeSegmentation.cpp:95-103. *)
Definition annotated_with (x : annot) (gk sk : Z) : bool :=
  existsb (fun t => (fst t =? gk) && existsb (Z.eqb sk) (snd t)) (an_tags x).
