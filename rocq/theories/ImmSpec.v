(** What ids mean and what edits should do to trees. *)
From Coq Require Import List Bool Arith ZArith Lia Permutation Sorted.
From Verif Require Import Base ImmModel.
Import ListNotations.
Local Open Scope nat_scope.

(** The tree an id stands for. *)
Inductive denotes (s : store) : nat -> tree -> Prop :=
| den_nil : denotes s 0 Nil
| den_node : forall id n kids, node_at s id = Some n -> denotes_kids s (subs n) kids ->
    denotes s id (Node (kind n) (data n) (loc n) kids)
with denotes_kids (s : store) : list (step * nat) -> list (step * tree) -> Prop :=
| den_none : denotes_kids s [] []
| den_kid : forall st id t l kids, denotes s id t -> denotes_kids s l kids ->
    denotes_kids s ((st, id) :: l) ((st, t) :: kids).

(** A tree without source locations. *)
Fixpoint noloc (t : tree) : tree :=
  match t with
  | Nil => Nil
  | Node k d _ kids => Node k d 0 (map (fun c => (fst c, noloc (snd c))) kids)
  end.

(** Replacing what is at one path, and at several paths at once. *)
Fixpoint replace_at (p : path) (new t : tree) : tree :=
  match p with
  | [] => new
  | st :: p' => match t with
                | Nil => Nil
                | Node k d l kids => Node k d l (map (fun c => if step_eqb (fst c) st
                                                               then (fst c, replace_at p' new (snd c)) else c) kids)
                end
  end.
Fixpoint here (E : list (path * tree)) : option tree :=
  match E with
  | [] => None
  | ([], t) :: _ => Some t
  | _ :: E' => here E'
  end.
Fixpoint below (st : step) (E : list (path * tree)) : list (path * tree) :=
  match E with
  | [] => []
  | (st' :: p, t) :: E' => if step_eqb st' st then (p, t) :: below st E' else below st E'
  | ([], _) :: E' => below st E'
  end.
Fixpoint replace_all (E : list (path * tree)) (t : tree) : tree :=
  match here E with
  | Some new => new
  | None => match t with
            | Nil => Nil
            | Node k d l kids => Node k d l (map (fun c => (fst c, replace_all (below (fst c) E) (snd c))) kids)
            end
  end.

(** The subtree at a path. *)
Fixpoint subtree (t : tree) (p : path) : option tree :=
  match p with
  | [] => Some t
  | st :: p' => match t with
                | Nil => None
                | Node _ _ _ kids => match find (fun c => step_eqb (fst c) st) kids with
                                     | Some c => subtree (snd c) p'
                                     | None => None
                                     end
                end
  end.
Definition is_prefix (a b : path) : Prop := exists r, b = a ++ r.

(** The places of one field are those of its type: nothing or one for a single
    or optional field, 0, 1, 2... for a vector, distinct keys for a map. *)
Definition field_shape (f : nat) (l : list step) : Prop :=
  l = [] \/ l = [(f, One)] \/ l = [(f, Deref)] \/ (exists n, l = map (fun i => (f, Idx i)) (seq 0 n)) \/
  (exists ks, NoDup ks /\ l = map (fun k => (f, Key k)) ks).
Definition well_shaped (steps : list step) : Prop := forall f, field_shape f (filter (fun st => Nat.eqb (fst st) f) steps).

(** References go to earlier nodes, and every node has the shape of its
    fields: what holds of every store built by adding values. *)
Definition wf_store (s : store) : Prop := forall i n, nth_error s i = Some n ->
  well_shaped (map fst (subs n)) /\ forall st id, In (st, id) (subs n) -> id <= i.
Definition extends (s s' : store) : Prop := exists l, s' = s ++ l.

(** What the C++ standard promises of std::sort by field name, and the
    stability it does not promise. *)
Definition field_le (a b : step * nat) : Prop := fst (fst a) <= fst (fst b).
Definition sorts_up_to (B : nat) (srt : list (step * nat) -> list (step * nat)) : Prop :=
  forall l, length l <= B -> Permutation l (srt l) /\ StronglySorted field_le (srt l).
Definition stable_up_to (B : nat) (srt : list (step * nat) -> list (step * nat)) : Prop :=
  forall l, length l <= B -> forall f,
    filter (fun x => Nat.eqb (fst (fst x)) f) (srt l) = filter (fun x => Nat.eqb (fst (fst x)) f) l.
Definition sorts (srt : list (step * nat) -> list (step * nat)) : Prop :=
  forall l, Permutation l (srt l) /\ StronglySorted field_le (srt l).
Definition stable (srt : list (step * nat) -> list (step * nat)) : Prop :=
  forall l f, filter (fun x => Nat.eqb (fst (fst x)) f) (srt l) = filter (fun x => Nat.eqb (fst (fst x)) f) l.

(** Histories of calls on a context; every call may fail. *)
Inductive call :=
| AddNode (n : node)
| AddTree (t : tree)
| SetSubnodes (u : uniq) (l : list nat)
| Cascade (fuel : nat) (srt : list (step * nat) -> list (step * nat)) (root : nat) (edits : group).
Definition perform (s : store) (c : call) : store :=
  match c with
  | AddNode n => fst (intern s n)
  | AddTree t => fst (add_tree s t)
  | SetSubnodes u l => fst (set_subnodes s u l)
  | Cascade fuel srt root edits => fst (cascade fuel srt s root edits)
  end.
Definition performs (s : store) (cs : list call) : store := fold_left perform cs s.

(** Trees that can be imported: no null reference, fields shaped as above. *)
Fixpoint importable (t : tree) : Prop :=
  match t with
  | Nil => False
  | Node _ _ _ kids => well_shaped (map fst kids) /\
      (fix all (l : list (step * tree)) : Prop := match l with [] => True | c :: l' => importable (snd c) /\ all l' end) kids
  end.

(** A stable sort by field. *)
Fixpoint insert_field (x : step * nat) (l : list (step * nat)) : list (step * nat) :=
  match l with
  | [] => [x]
  | y :: l' => if Nat.leb (fst (fst x)) (fst (fst y)) then x :: l else y :: insert_field x l'
  end.
Definition stable_sort (l : list (step * nat)) : list (step * nat) := fold_right insert_field [] l.

(** std::sort of GCC's libstdc++ (bits/stl_algo.h): up to 16 elements an
    insertion sort, above that introsort down to pieces of 16 and then the
    insertion sort.  The heap sort used when the recursion gets too deep is
    left out (depth 0 below). *)
Section StdSort.
  Notation elem := (step * nat)%type (only parsing).
  Definition dummy : elem := ((0, One), 0).
  Definition get (l : list elem) (i : nat) : elem := nth i l dummy.
  Definition put (l : list elem) (i : nat) (x : elem) : list elem := firstn i l ++ x :: skipn (S i) l.
  Definition swap (l : list elem) (i j : nat) : list elem := put (put l i (get l j)) j (get l i).
  Definition less (a b : elem) : bool := Nat.ltb (fst (fst a)) (fst (fst b)).
  Definition median_to_first (l : list elem) (r a b c : nat) : list elem :=
    if less (get l a) (get l b) then
      if less (get l b) (get l c) then swap l r b else if less (get l a) (get l c) then swap l r c else swap l r a
    else if less (get l a) (get l c) then swap l r a else if less (get l b) (get l c) then swap l r c else swap l r b.
  Fixpoint up (fuel : nat) (l : list elem) (pivot : elem) (i : nat) : nat :=
    match fuel with 0 => i | S f => if less (get l i) pivot then up f l pivot (S i) else i end.
  Fixpoint down (fuel : nat) (l : list elem) (pivot : elem) (i : nat) : nat :=
    match fuel with 0 => i | S f => if less pivot (get l i) then down f l pivot (pred i) else i end.
  Fixpoint partition (fuel : nat) (l : list elem) (first last pivot : nat) : list elem * nat :=
    match fuel with
    | 0 => (l, first)
    | S f =>
        let i := up fuel l (get l pivot) first in
        let j := down fuel l (get l pivot) (pred last) in
        if Nat.ltb i j then partition f (swap l i j) (S i) j pivot else (l, i)
    end.
  Fixpoint introsort (fuel depth : nat) (l : list elem) (first last : nat) : list elem :=
    match fuel, depth with
    | S f, S d =>
        if Nat.leb (last - first) 16 then l
        else
          let l1 := median_to_first l first (S first) (first + Nat.div2 (last - first)) (pred last) in
          let '(l2, cut) := partition (last - first) l1 (S first) last first in
          introsort f d (introsort f d l2 cut last) first cut
    | _, _ => l
    end.
  Definition std_sort (l : list elem) : list elem :=
    stable_sort (introsort (length l) (2 * Nat.log2 (length l)) l 0 (length l)).
End StdSort.

(** No value is stored twice. *)
Definition distinct_values (s : store) : Prop := forall i j a b,
  nth_error s i = Some a -> nth_error s j = Some b -> same_value a b = true -> i = j.

(** A successful edit of the child list of the node of [u]: the new node
    differs from the old one in the list of children only. *)
Definition new_children (s : store) (u : uniq) (l : list nat) (res : store * outcome (uniq * uniq)) : Prop :=
  exists n s' id' m, node_at s (uid u) = Some n /\ res = (s', Ok (u, moved u id')) /\ extends s s' /\
    node_at s' id' = Some m /\ id' <> uid u /\ children m = l /\ kind m = kind n /\ data m = data n /\
    filter (fun x => negb (is_child x)) (subs m) = filter (fun x => negb (is_child x)) (subs n).

(** Replacements at places of the document [root]: path, id there, new id. *)
Definition replacements (root : nat) (E : list (path * nat * nat)) : group :=
  map (fun e => (mkU (snd (fst e)) root (fst (fst e)), mkU (snd e) root (fst (fst e)))) E.
