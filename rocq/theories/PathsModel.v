(** Which nodes refer to a node, and all paths to it: the parent part of
    ImmAstTrackingMap, src/haxorg/imm/ImmOrg.cpp, over the store of ImmModel.

    Simplified:
    - whether a node takes part (isTrackingParent, ImmOrg.hpp:299, a function
      the user may set; by default ImmOrg.cpp:1239-1249) depends on its kind
      only;
    - the parents map is a function from ids to the vector stored for it; an id
      without entry has the empty vector, which is what every reader makes of
      it (getParentIds, 1151-1157);
    - the edit context is applied at once to the tracking maps it will become;
    - the order in which the hash map ParentPathMap is walked ([walk]) and the
      order std::sort leaves ([order]; all elements compare equal, as they have
      the same id) are arbitrary. *)
From Coq Require Import List Bool Arith Lia.
From Verif Require Import Base ImmModel.
Import ListNotations.
Local Open Scope nat_scope.

Notation pmap := (nat -> list nat) (only parsing).
Definition upd (pm : pmap) (t : nat) (v : list nat) : pmap := fun x => if Nat.eqb x t then v else pm x.

Section Tracking.
  (** ImmOrg.cpp:1239-1249 isTrackingParentDefault, or another filter. *)
  Variable tracked_kind : nat -> bool.
  Definition tracked (s : store) (id : nat) : bool := tracked_kind (kind_of s id).

  (** ImmOrg.cpp:443-480 getAllSubnodes *)
  Definition refs (s : store) (id : nat) : list (step * nat) :=
    match node_at s id with Some n => subs n | None => [] end.

  (** ImmOrg.cpp:540-551 setAsParentOf *)
  Definition set_as_parent (pm : pmap) (parent target : nat) : pmap :=
    if existsb (Nat.eqb parent) (pm target) then pm else upd pm target (pm target ++ [parent]).

  (** ImmOrg.cpp:560-573 removeAllSubnodesOf: the first place of the parent is
      taken out of the vector of each subnode. *)
  Fixpoint take_out (x : nat) (l : list nat) : list nat :=
    match l with [] => [] | y :: l' => if Nat.eqb y x then l' else y :: take_out x l' end.
  Fixpoint remove_from (s : store) (pm : pmap) (parent : nat) (l : list (step * nat)) : pmap :=
    match l with
    | [] => pm
    | (_, t) :: l' =>
        remove_from s (if tracked s t && existsb (Nat.eqb parent) (pm t)
                       then upd pm t (take_out parent (pm t)) else pm) parent l'
    end.
  Definition remove_subs (s : store) (pm : pmap) (parent : nat) : pmap :=
    if tracked s parent then remove_from s pm parent (refs s parent) else pm.

  (** ImmOrg.cpp:575-580 insertAllSubnodesOf *)
  Fixpoint insert_into (s : store) (pm : pmap) (parent : nat) (l : list (step * nat)) : pmap :=
    match l with
    | [] => pm
    | (_, t) :: l' => insert_into s (if tracked s t then set_as_parent pm parent t else pm) parent l'
    end.
  Definition insert_subs (s : store) (pm : pmap) (parent : nat) : pmap :=
    if tracked s parent then insert_into s pm parent (refs s parent) else pm.

  (** ImmOrgStore.cpp:463-475: what `add` does for each node of an imported
      tree after interning it. *)
  Definition track_add (s : store) (pm : pmap) (n : node) : store * pmap * nat :=
    let '(s', id) := intern s n in (s', insert_subs s' (remove_subs s' pm id) id, id).

  (** ImmOrgStore.cpp:57-98 setNode: the value [n] in place of node [old]. *)
  Definition track_set (s : store) (pm : pmap) (old : nat) (n : node) : store * pmap * nat :=
    let '(s', id) := intern s n in (s', insert_subs s' (remove_subs s' pm old) id, id).

  (** ImmOrgStore.cpp:463-475 with 640-870, as add_tree of ImmModel: the whole
      tree, children first. *)
  Fixpoint track_tree (s : store) (pm : pmap) (t : tree) : store * pmap * nat :=
    match t with
    | Nil => (s, pm, 0)
    | Node k d l kids =>
        let '(s1, pm1, sub) := (fix go s pm kids := match kids with
                           | [] => (s, pm, [])
                           | (st, c) :: kids' =>
                               let '(s1, pm1, i) := track_tree s pm c in
                               let '(s2, pm2, r) := go s1 pm1 kids' in (s2, pm2, (st, i) :: r)
                           end) s pm kids in
        track_add s1 pm1 (mkN k d l sub)
    end.

  (** ImmOrg.cpp:500-508 getRelativeSubnodePaths *)
  Definition relative (s : store) (parent t : nat) : list step :=
    map fst (filter (fun x => Nat.eqb (snd x) t) (refs s parent)).

  (** ImmOrg.cpp:1159-1179 getParentsFor: a map from parents to the steps that
      lead to the node. *)
  Fixpoint note (m : list (nat * list step)) (parent : nat) (st : step) : list (nat * list step) :=
    match m with
    | [] => [(parent, [st])]
    | (q, l) :: m' => if Nat.eqb q parent then (q, l ++ [st]) :: m' else (q, l) :: note m' parent st
    end.
  Definition note_all (m : list (nat * list step)) (parent : nat) (l : list step) : list (nat * list step) :=
    fold_left (fun m st => note m parent st) l m.
  Definition parents_for (s : store) (pm : pmap) (t : nat) : list (nat * list step) :=
    fold_left (fun m p => note_all m p (relative s p t)) (pm t) [].

  Variable walk : list (nat * list step) -> list (nat * list step).
  Variable order : list (nat * path) -> list (nat * path).

  (** ImmOrg.cpp:1186-1207, the paths that end with one parent. *)
  Definition through (parent : nat) (steps : list step) (above : list (nat * path)) : list (nat * path) :=
    match above with
    | [] => map (fun st => (parent, [st])) steps
    | _ => flat_map (fun a => map (fun st => (fst a, snd a ++ [st])) steps) above
    end.
  Fixpoint every (rec : nat -> outcome (list (nat * path))) (m : list (nat * list step)) : outcome (list (nat * path)) :=
    match m with
    | [] => Ok []
    | (p, steps) :: m' => obind (rec p) (fun above => omap (app (through p steps above)) (every rec m'))
    end.
  Fixpoint paths_up (fuel : nat) (s : store) (pm : pmap) (t : nat) : outcome (list (nat * path)) :=
    match fuel with
    | 0 => Fuel
    | S f => every (paths_up f s pm) (walk (parents_for s pm t))
    end.
  (** ImmOrg.cpp:1182-1216 getPathsFor: root and path of each place. *)
  Definition paths_for (fuel : nat) (s : store) (pm : pmap) (t : nat) : outcome (list (nat * path)) :=
    omap order (paths_up fuel s pm t).
End Tracking.
