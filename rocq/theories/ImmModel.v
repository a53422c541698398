(** Immutable syntax tree store: src/haxorg/imm/ImmOrgStore.cpp, ImmOrgEdit.cpp
    and the navigation part of ImmOrg.{hpp,cpp}.

    Simplified:
    - one list of nodes stands for the per-kind stores (a packed id is kind and
      index, see C04-C06); id 0 is the nil id, id [S i] the i-th node;
    - everything in a node that is neither an id nor the source location is one
      number [data]; reference fields are flattened to the list of (step, id)
      that getAllSubnodes (ImmOrg.cpp:443-480) reports, a step being the field
      and the place in it;
    - the kind checks of typed vector and map fields (`as<FK>`,
      ImmOrgStore.cpp:263, 283) and the tracking maps (updateTracking,
      removeAllSubnodesOf, insertAllSubnodesOf) are left out;
    - the persistent vectors of the immer library are lists. *)
From Coq Require Import List Bool Arith ZArith Lia.
From Verif Require Import Base.
Import ListNotations.
Local Open Scope nat_scope.

(** A single id field, an optional one, an element of a vector, a map entry. *)
Inductive item := One | Deref | Idx (i : nat) | Key (k : nat).
Notation step := (nat * item)%type (only parsing).
Notation path := (list (nat * item)) (only parsing).

Definition item_eqb (a b : item) : bool :=
  match a, b with
  | One, One | Deref, Deref => true
  | Idx i, Idx j | Key i, Key j => Nat.eqb i j
  | _, _ => false
  end.
Definition step_eqb (a b : step) : bool := Nat.eqb (fst a) (fst b) && item_eqb (snd a) (snd b).

Fixpoint list_eqb {A} (eqb : A -> A -> bool) (a b : list A) : bool :=
  match a, b with
  | [], [] => true
  | x :: a', y :: b' => eqb x y && list_eqb eqb a' b'
  | _, _ => false
  end.

Record node := mkN { kind : nat; data : nat; loc : nat; subs : list (step * nat) }.
Notation store := (list node) (only parsing).

Definition node_at (s : store) (id : nat) : option node :=
  match id with 0 => None | S i => nth_error s i end.
Definition kind_of (s : store) (id : nat) : nat :=
  match node_at s id with Some n => kind n | None => 0 end.

(** ImmOrgHash.cpp:9-42: two values are the same when all fields but the
    source location agree. *)
Definition sub_eqb (a b : step * nat) : bool := step_eqb (fst a) (fst b) && Nat.eqb (snd a) (snd b).
Definition same_value (a b : node) : bool :=
  Nat.eqb (kind a) (kind b) && Nat.eqb (data a) (data b) && list_eqb sub_eqb (subs a) (subs b).

(** ImmOrgStore.cpp:899-920 with the interning store of C05: an equal value
    gives the id it already has. *)
Fixpoint find_value (s : store) (n : node) : option nat :=
  match s with
  | [] => None
  | m :: s' => if same_value m n then Some 0 else option_map S (find_value s' n)
  end.
Definition intern (s : store) (n : node) : store * nat :=
  match find_value s n with
  | Some i => (s, S i)
  | None => (s ++ [n], S (length s))
  end.

(** ImmOrgStore.cpp:513-546 at(node, step) and at(path). *)
Definition id_step (s : store) (id : nat) (st : step) : outcome nat :=
  match node_at s id with
  | None => Throw
  | Some n => match find (fun x => step_eqb (fst x) st) (subs n) with
              | Some (_, i) => Ok i
              | None => Throw
              end
  end.
Fixpoint id_at (s : store) (id : nat) (p : path) : outcome nat :=
  match p with
  | [] => Ok id
  | st :: p' => obind (id_step s id st) (fun i => id_at s i p')
  end.

(** ImmUniqId, ImmOrg.hpp:228-245: an id and where it is found. *)
Record uniq := mkU { uid : nat; uroot : nat; upath : path }.
Definition uniq_eqb (a b : uniq) : bool :=
  Nat.eqb (uid a) (uid b) && Nat.eqb (uroot a) (uroot b) && list_eqb step_eqb (upath a) (upath b).
Definition moved (u : uniq) (id : nat) : uniq := mkU id (uroot u) (upath u).

(** ImmAstReplaceGroup, ImmOrg.hpp:432-466 and ImmOrg.cpp:1057-1093.  The
    kinds 1 and 2 stand for Document and DocumentGroup. *)
Notation group := (list (uniq * uniq)) (only parsing).
Definition lookup (g : group) (u : uniq) : option uniq :=
  option_map snd (find (fun x => uniq_eqb (fst x) u) g).
Definition rooted (s : store) (u : uniq) : bool :=
  Nat.eqb (kind_of s (uid u)) 1 || Nat.eqb (kind_of s (uid u)) 2 ||
  match upath u with [] => false | _ => true end.
Definition group_set (s : store) (g : group) (o r : uniq) : outcome group :=
  if rooted s o && rooted s r && negb (uniq_eqb o r)
  then Ok (filter (fun x => negb (uniq_eqb (fst x) o)) g ++ [(o, r)]) else Throw.
Definition group_incl (s : store) (g : group) (o r : uniq) : outcome group :=
  match lookup g o with Some _ => Throw | None => group_set s g o r end.

(** ImmOrgStore.cpp:137-159: [srt] is std::sort by field name; then runs of
    equal field names. *)
Fixpoint group_by (l : list (step * nat)) : list (list (step * nat)) :=
  match l with
  | [] => []
  | x :: l' =>
      match group_by l' with
      | (y :: g) :: gs => if Nat.eqb (fst (fst x)) (fst (fst y)) then (x :: y :: g) :: gs else [x] :: (y :: g) :: gs
      | gs => [x] :: gs
      end
  end.

(** ImmOrgStore.cpp:243-286: assigning one group to its field.  A single or
    optional field takes exactly one value, a vector the values in the order
    of the group, a map one value per key. *)
Definition assigned (g : list (step * nat)) (f : nat) (x : step * nat) : list (step * nat) :=
  if negb (Nat.eqb (fst (fst x)) f) then [x]
  else match snd (fst x) with
       | One | Deref => match g with y :: _ => [(fst x, snd y)] | [] => [x] end
       | Idx j => match nth_error (map snd g) j with Some i => [(fst x, i)] | None => [] end
       | Key _ => match find (fun y => step_eqb (fst y) (fst x)) (rev g) with
                  | Some y => [(fst x, snd y)]
                  | None => [x]
                  end
       end.
Definition single (x : step * nat) : bool := match snd (fst x) with One | Deref => true | _ => false end.
Definition assign_group (sub : list (step * nat)) (g : list (step * nat)) : outcome (list (step * nat)) :=
  match g with
  | [] => Ok sub
  | y :: _ =>
      let f := fst (fst y) in
      if existsb (fun x => Nat.eqb (fst (fst x)) f && single x) sub && negb (Nat.eqb (length g) 1)
      then Throw
      else Ok (flat_map (assigned g f) sub)
  end.
Definition assign_all (sub : list (step * nat)) (gs : list (list (step * nat))) : outcome (list (step * nat)) :=
  fold_left (fun o g => obind o (fun sub => assign_group sub g)) gs (Ok sub).

(** ImmOrg.hpp:181-192 pathSpans and ImmOrg.cpp:510-521 getParentChain: the
    prefixes of the path, longest first, down to the empty one, and then the
    root once more. *)
Fixpoint spans (p : path) (n : nat) : list path :=
  match n with 0 => [] | S n' => firstn n' p :: spans p n' end.
Fixpoint adapt_all (s : store) (root : nat) (ps : list path) : outcome (list uniq) :=
  match ps with
  | [] => Ok []
  | p :: ps' => obind (id_at s root p) (fun i => omap (cons (mkU i root p)) (adapt_all s root ps'))
  end.
Definition parent_chain (s : store) (u : uniq) : outcome (list uniq) :=
  adapt_all s (uroot u) (spans (upath u) (length (upath u)) ++ [[]]).

(** ImmOrgStore.cpp:309-348 *)
Fixpoint edit_parents (s : store) (g : group) : outcome (list uniq) :=
  match g with
  | [] => Ok []
  | (o, _) :: g' => obind (parent_chain s o) (fun c => omap (app c) (edit_parents s g'))
  end.

Section Cascade.
  Variable srt : list (step * nat) -> list (step * nat).
  Variable edits : group.
  Variable parents : list uniq.

  (** ImmOrgStore.cpp:367-376: the subnodes in turn; the store and the
      recorded replacements are passed along. *)
  Fixpoint each (rec : store -> group -> uniq -> store * outcome (nat * group)) (s : store) (ep : group)
      (tgt : uniq) (l : list (step * nat)) : store * outcome (list nat * group) :=
    match l with
    | [] => (s, Ok ([], ep))
    | (st, id) :: l' =>
        match rec s ep (mkU id (uroot tgt) (upath tgt ++ [st])) with
        | (s1, Ok (id', ep1)) =>
            match each rec s1 ep1 tgt l' with
            | (s2, Ok (ids, ep2)) => (s2, Ok (id' :: ids, ep2))
            | r => r
            end
        | (s1, Throw) => (s1, Throw)
        | (s1, UB) => (s1, UB)
        | (s1, Fuel) => (s1, Fuel)
        end
    end.

  (** ImmOrgStore.cpp:381-444 recurseUpdateSubnodes with 173-293
      setNewSubnodes and 57-121 setNode. *)
  Fixpoint recurse (fuel : nat) (s : store) (ep : group) (u : uniq) : store * outcome (nat * group) :=
    match fuel with
    | 0 => (s, Fuel)
    | S fuel' =>
        if existsb (uniq_eqb u) parents then
          let tgt := match lookup edits u with Some r => r | None => u end in
          match node_at s (uid tgt) with
          | None => (s, Throw)
          | Some n =>
              match each (recurse fuel') s ep tgt (subs n) with
              | (s1, Ok (flat, ep1)) =>
                  if list_eqb Nat.eqb flat (map snd (subs n)) then
                    (s1, omap (fun ep2 => (uid tgt, ep2)) (group_set s1 ep1 u tgt))
                  else
                    match assign_all (subs n) (group_by (srt (combine (map fst (subs n)) flat))) with
                    | Ok sub' =>
                        let '(s2, id') := intern s1 (mkN (kind n) (data n) (loc n) sub') in
                        if Nat.eqb id' (uid tgt) then (s2, Throw)
                        else (s2, omap (fun ep2 => (id', ep2)) (group_set s2 ep1 tgt (moved tgt id')))
                    | Throw => (s1, Throw)
                    | UB => (s1, UB)
                    | Fuel => (s1, Fuel)
                    end
              | (s1, Throw) => (s1, Throw)
              | (s1, UB) => (s1, UB)
              | (s1, Fuel) => (s1, Fuel)
              end
          end
        else match lookup edits u with
             | Some r => (s, omap (fun ep' => (uid r, ep')) (group_incl s ep u r))
             | None => (s, Ok (uid u, ep))
             end
    end.
End Cascade.

(** ImmOrgStore.cpp:446-460 cascadeUpdate, for a root with an empty path: the
    new root and the recorded replacements. *)
Definition cascade (fuel : nat) (srt : list (step * nat) -> list (step * nat)) (s : store) (root : nat)
    (edits : group) : store * outcome (nat * group) :=
  match edit_parents s edits with
  | Ok parents => recurse srt edits parents fuel s [] (mkU root root [])
  | Throw => (s, Throw)
  | UB => (s, UB)
  | Fuel => (s, Fuel)
  end.

(** ** Edits of the child list, ImmOrgEdit.cpp:11-80, 210-269.  Field 0 is the
    vector `subnodes`. *)
Definition is_child (x : step * nat) : bool :=
  match fst x with (0, Idx _) => true | _ => false end.
Definition children (n : node) : list nat := map snd (filter is_child (subs n)).
Fixpoint index_from (i : nat) (l : list nat) : list (step * nat) :=
  match l with [] => [] | x :: l' => ((0, Idx i), x) :: index_from (S i) l' end.
Definition with_children (n : node) (l : list nat) : node :=
  mkN (kind n) (data n) (loc n) (index_from 0 l ++ filter (fun x => negb (is_child x)) (subs n)).

(** ImmOrgStore.cpp:41-53 setSubnodes: `value()` throws when the node value
    did not change. *)
Definition set_subnodes (s : store) (u : uniq) (l : list nat) : store * outcome (uniq * uniq) :=
  match node_at s (uid u) with
  | None => (s, Throw)
  | Some n =>
      let '(s', id') := intern s (with_children n l) in
      if Nat.eqb id' (uid u) then (s', Throw) else (s', Ok (u, moved u id'))
  end.

(** An int position becomes an unsigned 64-bit one. *)
Definition size_t (z : Z) : Z := (z mod 2 ^ 64)%Z.
(** immer's take and drop do not complain about a count above the size. *)
Definition take (z : Z) (l : list nat) : list nat := if (Z.of_nat (length l) <=? z)%Z then l else firstn (Z.to_nat z) l.
Definition drop (z : Z) (l : list nat) : list nat := if (Z.of_nat (length l) <=? z)%Z then [] else skipn (Z.to_nat z) l.
(** immer::flex_vector::insert, erase, set, at. *)
Definition v_insert (l : list nat) (pos : Z) (x : nat) : list nat := take (size_t pos) l ++ [x] ++ drop (size_t pos) l.
Definition v_erase (l : list nat) (pos : Z) : list nat := take (size_t pos) l ++ drop (size_t (pos + 1)) l.
Definition in_range (l : list nat) (pos : Z) : bool := (0 <=? pos)%Z && (pos <? Z.of_nat (length l))%Z.
Definition v_set (l : list nat) (pos : Z) (x : nat) : outcome (list nat) :=
  if in_range l pos then Ok (firstn (Z.to_nat pos) l ++ [x] ++ skipn (S (Z.to_nat pos)) l) else UB.
Definition v_at (l : list nat) (pos : Z) : outcome nat :=
  if in_range l pos then match nth_error l (Z.to_nat pos) with Some x => Ok x | None => Throw end else Throw.

Definition with_node {A} (s : store) (u : uniq) (f : node -> store * outcome A) : store * outcome A :=
  match node_at s (uid u) with None => (s, Throw) | Some n => f n end.
Definition then_set (s : store) (u : uniq) (o : outcome (list nat)) : store * outcome (uniq * uniq) :=
  match o with
  | Ok l => set_subnodes s u l
  | Throw => (s, Throw)
  | UB => (s, UB)
  | Fuel => (s, Fuel)
  end.

(** ImmOrgEdit.cpp:11-19 *)
Definition set_subnode (s : store) (u : uniq) (x : nat) (pos : Z) : store * outcome (uniq * uniq) :=
  with_node s u (fun n => then_set s u (v_set (children n) pos x)).
(** ImmOrgEdit.cpp:21-28, 47-52 *)
Definition insert_subnode (s : store) (u : uniq) (x : nat) (pos : Z) : store * outcome (uniq * uniq) :=
  with_node s u (fun n => set_subnodes s u (v_insert (children n) pos x)).
Definition append_subnode (s : store) (u : uniq) (x : nat) : store * outcome (uniq * uniq) :=
  with_node s u (fun n => insert_subnode s u x (Z.of_nat (length (children n)))).
(** ImmOrgEdit.cpp:30-45: positions before [pos] are read one by one. *)
Definition insert_subnodes (s : store) (u : uniq) (xs : list nat) (pos : Z) : store * outcome (uniq * uniq) :=
  with_node s u (fun n =>
    if (pos <? 0)%Z || (Z.of_nat (length (children n)) <? pos)%Z then (s, Throw)
    else set_subnodes s u (firstn (Z.to_nat pos) (children n) ++ xs ++ skipn (Z.to_nat pos) (children n))).
(** ImmOrgEdit.cpp:54-60 *)
Definition drop_subnode (s : store) (u : uniq) (pos : Z) : store * outcome (uniq * uniq) :=
  with_node s u (fun n => set_subnodes s u (v_erase (children n) pos)).
(** ImmOrgEdit.cpp:62-70: by id, the first one. *)
Fixpoint index_of (l : list nat) (x : nat) : option nat :=
  match l with [] => None | y :: l' => if Nat.eqb y x then Some 0 else option_map S (index_of l' x) end.
Definition drop_subnode_id (s : store) (u : uniq) (x : nat) : store * outcome (uniq * uniq) :=
  with_node s u (fun n => match index_of (children n) x with
                          | None => (s, Throw)
                          | Some i => drop_subnode s u (Z.of_nat i)
                          end).
(** ImmOrgEdit.cpp:72-80 *)
Definition pop_subnode (s : store) (u : uniq) (pos : Z) : store * outcome ((uniq * uniq) * nat) :=
  with_node s u (fun n =>
    match v_at (children n) pos with
    | Ok x => let '(s', o) := drop_subnode s u pos in (s', omap (fun r => (r, x)) o)
    | _ => (s, Throw)
    end).
(** ImmOrgEdit.cpp:210-256; int arithmetic is taken not to overflow. *)
Definition move_subnode (s : store) (u : uniq) (pos offset : Z) (bounded : bool) :
    store * outcome (option (uniq * uniq)) :=
  with_node s u (fun n =>
    let l := children n in
    let size := Z.of_nat (length l) in
    let target := (pos + offset)%Z in
    if negb (in_range l pos) then (s, Throw)
    else if bounded && negb (in_range l target) then (s, Throw)
    else
      let target := Z.min (Z.max target 0) (size - 1) in
      if (target =? pos)%Z then (s, Ok None)
      else match v_at l pos with
           | Ok x => let '(s', o) := set_subnodes s u (v_insert (v_erase l pos) target x) in (s', omap Some o)
           | _ => (s, Throw)
           end).
(** ImmOrgEdit.cpp:258-269: both new values are read from the original list;
    writing outside a transient vector is undefined, reading outside a vector
    throws. *)
Definition swap_subnode (s : store) (u : uniq) (from to : Z) : store * outcome (uniq * uniq) :=
  with_node s u (fun n =>
    let l := children n in
    if (from =? to)%Z then (s, Throw)
    else then_set s u (obind (v_at l to) (fun a => obind (v_set l from a) (fun l1 =>
                       obind (v_at l from) (fun b => v_set l1 to b))))).

(** ** Navigation *)
(** ImmOrg.hpp:976-983 getParent *)
Definition parent_of (s : store) (u : uniq) : outcome (option uniq) :=
  match upath u with
  | [] => Ok None
  | _ => omap (fun i => Some (mkU i (uroot u) (removelast (upath u)))) (id_at s (uroot u) (removelast (upath u)))
  end.
(** ImmOrg.cpp:395-409 *)
Definition direct_parent_of (s : store) (u other : uniq) : outcome bool :=
  omap (fun o => match o with Some p => Nat.eqb (uid p) (uid u) | None => false end) (parent_of s other).
Definition indirect_parent_of (s : store) (u other : uniq) : outcome bool :=
  omap (existsb (fun p => Nat.eqb (uid p) (uid u))) (parent_chain s other).
(** ImmOrg.hpp:985-992 getSelfIndex, by id; -1 without parent or when the node
    is not in the child list. *)
Definition self_index (s : store) (u : uniq) : outcome Z :=
  omap (fun o => match o with
                 | Some p => match node_at s (uid p) with
                             | Some n => match index_of (children n) (uid u) with
                                         | Some i => Z.of_nat i
                                         | None => -1
                                         end
                             | None => -1
                             end
                 | None => -1
                 end)%Z (parent_of s u).
(** ImmOrg.cpp:411-423 getAdjacentNode *)
Definition adjacent (s : store) (u : uniq) (offset : Z) : outcome (option uniq) :=
  obind (parent_of s u) (fun o =>
    match o with
    | None => Ok None
    | Some p =>
        obind (self_index s u) (fun i =>
          let pos := (i + offset)%Z in
          match node_at s (uid p) with
          | None => Throw
          | Some n =>
              if in_range (children n) pos
              then omap (fun x => Some (mkU x (uroot u) (upath p ++ [(0, Idx (Z.to_nat pos))]))) (v_at (children n) pos)
              else Ok None
          end)
    end).

(** ** Import and export.  ImmOrgStore.cpp:463-504, 640-870: the mutable tree
    is interned bottom up, and rebuilt from the ids.  A null reference inside a
    mutable tree is dereferenced by the code; it is given id 0 here, and the
    theorems exclude it. *)
Inductive tree :=
| Nil
| Node (k d l : nat) (kids : list (step * tree)).

Fixpoint add_tree (s : store) (t : tree) : store * nat :=
  match t with
  | Nil => (s, 0)
  | Node k d l kids =>
      let '(s1, sub) := (fix go s kids := match kids with
                         | [] => (s, [])
                         | (st, c) :: kids' =>
                             let '(s1, i) := add_tree s c in
                             let '(s2, r) := go s1 kids' in (s2, (st, i) :: r)
                         end) s kids in
      intern s1 (mkN k d l sub)
  end.
Fixpoint get_tree (fuel : nat) (s : store) (id : nat) : outcome tree :=
  match fuel with
  | 0 => Fuel
  | S fuel' =>
      match id with
      | 0 => Ok Nil
      | _ => match node_at s id with
             | None => Throw
             | Some n => omap (Node (kind n) (data n) (loc n))
                 ((fix go l := match l with
                   | [] => Ok []
                   | (st, i) :: l' => obind (get_tree fuel' s i) (fun c => omap (cons (st, c)) (go l'))
                   end) (subs n))
             end
      end
  end.
