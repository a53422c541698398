(** Demoting headings: demoteSubtree of src/haxorg/imm/ImmOrgEdit.cpp:82-208, on the store of
    ImmModel.v.  The tracking maps of the edit context are left out, as there. *)
From Coq Require Import List Bool Arith ZArith.
From Verif Require Import Base ImmModel.
Import ListNotations.
Local Open Scope nat_scope.

(** OrgSemKind::Subtree; kinds 1 and 2 are documents, 3 is used for paragraphs in examples. *)
Definition heading : nat := 4.
(** `LOGIC_ASSERTION_CHECK` and what an exception does *)
Definition bind {A B} (r : store * outcome A) (f : store -> A -> store * outcome B) : store * outcome B :=
  match r with
  | (s, Ok a) => f s a
  | (s, Throw) => (s, Throw)
  | (s, UB) => (s, UB)
  | (s, Fuel) => (s, Fuel)
  end.
Definition lift {A} (s : store) (o : outcome A) : store * outcome A := (s, o).

(** ImmOrg.cpp:1095-1116 newSubnodes: the map from ids to ids has the last replacement of each id. *)
Definition new_id (g : group) (id : nat) : nat :=
  match find (fun x => Nat.eqb (uid (fst x)) id) (rev g) with Some x => uid (snd x) | None => id end.

Section Demote.
  (** The level of a heading is part of its data. *)
  Variable level : nat -> Z.
  (** The same data with the level one higher *)
  Variable deeper : nat -> nat.

  (** ImmOrgEdit.cpp:99-103, 157-162 with updateNode of ImmOrg.hpp:1117-1125: the value of a node
      that is no heading cannot be read as one (1073-1079).  [l] are the new subnodes, as many as before. *)
  Fixpoint with_ids (subs : list (step * nat)) (l : list nat) : list (step * nat) :=
    match subs with
    | [] => []
    | x :: subs' => if is_child x then match l with i :: l' => (fst x, i) :: with_ids subs' l' | [] => with_ids subs' [] end
                    else x :: with_ids subs' l
    end.
  Definition lower (s : store) (g : group) (u : uniq) (l : list nat) : store * outcome (group * (uniq * uniq)) :=
    match node_at s (uid u) with
    | None => (s, Throw)
    | Some n =>
        if Nat.eqb (kind n) heading then
          let '(s', id') := intern s (mkN (kind n) (deeper (data n)) (loc n) (with_ids (subs n) (map (new_id g) l))) in
          if Nat.eqb id' (uid u) then (s', Throw)
          else bind (lift s' (group_incl s' g u (moved u id'))) (fun s'' g' => (s'', Ok (g', (u, moved u id'))))
        else (s, Throw)
    end.
  (** 93-107: the subnodes first *)
  Fixpoint lower_all (rec : store -> group -> uniq -> store * outcome (group * (uniq * uniq))) (s : store) (g : group) (us : list uniq) :
      store * outcome group :=
    match us with
    | [] => (s, Ok g)
    | u :: us' => bind (rec s g u) (fun s' r => lower_all rec s' (fst r) us')
    end.
  Definition subnodes (s : store) (u : uniq) : list uniq :=
    match node_at s (uid u) with
    | Some n => map (fun x => mkU (snd x) (uroot u) (upath u ++ [fst x])) (filter is_child (subs n))
    | None => []
    end.
  Fixpoint lower_tree (fuel : nat) (s : store) (g : group) (u : uniq) : store * outcome (group * (uniq * uniq)) :=
    match fuel with
    | 0 => (s, Fuel)
    | S fuel' => bind (lower_all (lower_tree fuel') s g (subnodes s u)) (fun s' g' => lower s' g' u (map uid (subnodes s u)))
    end.
  Definition level_of (s : store) (id : nat) : Z := match node_at s id with Some n => level (data n) | None => 0%Z end.
  Definition is_heading (s : store) (id : nat) : bool := Nat.eqb (kind_of s id) heading.

  (** 82-150, for EnsureLevels and ForceLevels: they are treated alike. *)
  Definition demote_levels (fuel : nat) (s : store) (u : uniq) : store * outcome group :=
    if is_heading s (uid u) then
      bind (lower_tree fuel s [] u) (fun s1 r =>
      let '(g, (_, new)) := r in
      bind (lift s1 (parent_of s1 u)) (fun s1 p =>
      bind (lift s1 (adjacent s1 u (-1))) (fun s1 a =>
      match p, a with
      | Some p, Some a =>
          if is_heading s1 (uid a) && (level_of s1 (uid a) <? level_of s1 (uid new))%Z then
            bind (drop_subnode_id s1 p (uid u)) (fun s2 r1 =>
            bind (lift s2 (group_incl s2 g (fst r1) (snd r1))) (fun s2 g1 =>
            bind (append_subnode s2 a (uid new)) (fun s3 r2 =>
            lift s3 (group_incl s3 g1 (fst r2) (snd r2)))))
          else (s1, Ok g)
      | _, _ => (s1, Ok g)
      end)))
    else (s, Throw).

  (** 151-204, Physical *)
  Definition demote_alone (s : store) (u : uniq) : store * outcome group :=
    if is_heading s (uid u) then
      let subs := map uid (subnodes s u) in
      let gone i := is_heading s i && negb (level_of s i <? level_of s (uid u) + 1)%Z in
      let stay := filter (fun i => negb (gone i)) subs in
      let leave := filter gone subs in
      match node_at s (uid u) with
      | None => (s, Throw)
      | Some n =>
          let '(s1, id') := intern s (with_children (mkN (kind n) (deeper (data n)) (loc n) (ImmModel.subs n)) stay) in
          if Nat.eqb id' (uid u) then (s1, Throw)
          else bind (lift s1 (group_incl s1 [] u (moved u id'))) (fun s1 g =>
            match leave with
            | [] => (s1, Ok g)
            | _ =>
                bind (lift s1 (parent_of s1 u)) (fun s1 p =>
                match p with
                | None => (s1, Throw)
                | Some p =>
                    match node_at s1 (uid p) with
                    | None => (s1, Throw)
                    | Some m =>
                        bind (lift s1 (self_index s1 u)) (fun s1 i =>
                        let old := map (new_id g) (children m) in
                        bind (set_subnodes s1 p (firstn (Z.to_nat i) old ++ map (new_id g) leave ++ skipn (Z.to_nat i) old)) (fun s2 r =>
                        lift s2 (group_incl s2 g (fst r) (snd r))))
                    end
                end)
            end)
      end
    else (s, Throw).
End Demote.
