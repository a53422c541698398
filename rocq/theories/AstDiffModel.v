(** Model of the comparison of two trees by matching subtrees: src/hstd/ext/astdiff/astdiff.{hpp,cpp}. Lines are those of
    astdiff.cpp unless astdiff.hpp is named.

    A NodeStore is the tree that it gives access to; nodes hold the value of the store instead of the id. NodeIdx is a
    number, an invalid one is None. The callbacks isMatchingAllowed, areValuesEqual and getUpdateCost are [allowed],
    [equal] and [ucost]. Costs are integers and similarities are fractions instead of double; printing is left out. *)
From Coq Require Import List Bool Arith ZArith Lia.
From Verif Require Import EagerModel.
Import ListNotations.

(** ChangeKind, astdiff.hpp:67-76 *)
Inductive change := Unchanged | Deleted | Updated | Inserted | Moved | UpdateMoved.
Definition is_change (c d : change) : bool :=
  match c, d with
  | Unchanged, Unchanged | Deleted, Deleted | Updated, Updated | Inserted, Inserted | Moved, Moved
  | UpdateMoved, UpdateMoved => true
  | _, _ => false
  end.
(** ComparisonOptions, astdiff.hpp:83-115, without the callbacks; MinSimilarity is the fraction [sim_num / sim_den]. *)
Record options := Options {
  min_height : nat; sim_num : nat; sim_den : nat; max_size : nat; stop_after_top_down : bool; greedy : bool;
  del_cost : Z; ins_cost : Z }.
Definition default_options : options := Options 2 1 2 100 false false 1 1.

(** A map with one place changed *)
Definition set_at {B} (f : nat -> B) (i : nat) (x : B) : nat -> B := fun j => if j =? i then x else f j.
Definition set_at2 {B} (f : nat -> nat -> B) (i j : nat) (x : B) : nat -> nat -> B :=
  fun a b => if (a =? i) && (b =? j) then x else f a b.
(** Mapping, astdiff.hpp:41-65. The vectors have places for all nodes of both trees. *)
Record mapping := Mapping { get_dst : nat -> option nat; get_src : nat -> option nat }.
Definition no_mapping : mapping := Mapping (fun _ => None) (fun _ => None).
Definition link (m : mapping) (s d : nat) : mapping :=
  Mapping (set_at (get_dst m) s (Some d)) (set_at (get_src m) d (Some s)).
Definition has_src (m : mapping) (s : nat) : bool := match get_dst m s with Some _ => true | None => false end.
Definition has_dst (m : mapping) (d : nat) : bool := match get_src m d with Some _ => true | None => false end.

(** Insertion into a sorted list, for the sort of PriorityList::pop *)
Fixpoint insert_sorted (x : nat) (l : list nat) : list nat :=
  match l with [] => [x] | y :: r => if x <=? y then x :: l else y :: insert_sorted x r end.
Definition sorted (l : list nat) : list nat := fold_right insert_sorted [] l.

Section AstDiff.
Context {A : Type}.
Variable allowed : A -> A -> bool.
Variable equal : A -> A -> bool.
Variable ucost : A -> A -> Z.

(** Node, astdiff.hpp:121-144, as built by the visitor. The leftmost descendant, Shift and Change are kept apart. *)
Record node := Node { parent : option nat; rightmost : nat; depth_of : nat; height : nat; kids : list nat; value : A }.
(** PreorderVisitor::Traverse, PreTraverse, PostTraverse, 18-61: the nodes of the subtree in preorder. [id] is the
    counter of the visitor. *)
Fixpoint traverse (t : tree A) (up : option nat) (depth id : nat) : list node :=
  match t with
  | T v l =>
      let '(below, ids, next, h) :=
        (fix go (l : list (tree A)) (next : nat) : list node * list nat * nat * nat :=
           match l with
           | [] => ([], [], next, 1)
           | c :: r =>
               let ns := traverse c (Some id) (S depth) next in
               let '(below, ids, last, h) := go r (next + length ns) in
               (ns ++ below, next :: ids, last, Nat.max (match ns with n :: _ => 1 + height n | [] => 1 end) h)
           end) l (S id) in
      Node up (next - 1) depth h ids v :: below
  end.
(** SyntaxTree::FromNode, 404-408 *)
Definition from_node (t : tree A) : list node := traverse t None 0 0.

Section Syntax.
Variable ns : list node.
Definition size_of : nat := length ns.
(** getNode, astdiff.hpp:225, for a place that exists *)
Definition node_kids (i : nat) : list nat := match nth_error ns i with Some n => kids n | None => [] end.
Definition node_parent (i : nat) : option nat := match nth_error ns i with Some n => parent n | None => None end.
Definition node_height (i : nat) : nat := match nth_error ns i with Some n => height n | None => 0 end.
Definition node_right (i : nat) : nat := match nth_error ns i with Some n => rightmost n | None => i end.
(** getNumberOfDescendants, astdiff.hpp:255-257 *)
Definition descendants (i : nat) : nat := node_right i + 1 - i.
(** isInSubtree, astdiff.hpp:260-262 *)
Definition in_subtree (i root : nat) : bool := (root <=? i) && (i <=? node_right root).
(** getSubtreePostorder, 77-86 *)
Fixpoint postorder (fuel i : nat) : list nat :=
  match fuel with 0 => [] | S n => flat_map (postorder n) (node_kids i) ++ [i] end.
(** getSubtreeBfs, 65-75 *)
Fixpoint bfs_loop (fuel : nat) (queue : list nat) : list nat :=
  match fuel, queue with
  | S n, x :: r => x :: bfs_loop n (r ++ node_kids x)
  | _, _ => []
  end.
Definition bfs : list nat := bfs_loop size_of [0].
(** setLeftMostDescendants, astdiff.hpp:344-354: from each leaf upwards while the node is a first child *)
Fixpoint climb (fuel : nat) (leaf cur : nat) (lmd : nat -> nat) : nat -> nat :=
  match fuel with
  | 0 => lmd
  | S n =>
      match node_parent cur with
      | Some p =>
          match node_kids p with
          | first :: _ => if first =? cur then climb n leaf p (set_at lmd p leaf) else lmd
          | [] => lmd
          end
      | None => lmd
      end
  end.
Definition leaves : list nat := filter (fun i => match node_kids i with [] => true | _ => false end) (seq 0 size_of).
Definition leftmost : nat -> nat :=
  fold_left (fun lmd leaf => climb size_of leaf leaf (set_at lmd leaf leaf)) leaves (fun i => i).
(** initTree, astdiff.hpp:331-342: PostorderIds, the place of a node in the postorder of the tree *)
Fixpoint place_in (i : nat) (l : list nat) : nat := match l with [] => 0 | x :: r => if x =? i then 0 else S (place_in i r) end.
Definition postorder_id (i : nat) : nat := place_in i (postorder size_of 0).
(** findPositionInParent, astdiff.hpp:312-327, with the sum of Shift of the siblings up to the node *)
Fixpoint position_in (shift : nat -> Z) (i : nat) (l : list nat) (k : Z) : Z :=
  match l with
  | [] => -1
  | x :: r => let k' := (k + shift x)%Z in if x =? i then k' else position_in shift i r (k' + 1)
  end.
Definition position (shift : nat -> Z) (i : nat) : Z :=
  match node_parent i with None => 0 | Some p => position_in shift i (node_kids p) 0 end.

(** PriorityList, astdiff.hpp:747-779: the heap is the list of its elements *)
Definition peek_max (l : list nat) : nat := fold_right (fun i m => Nat.max (node_height i) m) 0 l.
Definition pop (l : list nat) : list nat * list nat :=
  let m := peek_max l in
  (sorted (filter (fun i => node_height i =? m) l), filter (fun i => negb (node_height i =? m)) l).
Definition open_all (ids l : list nat) : list nat := l ++ flat_map node_kids ids.

(** Subtree, astdiff.hpp:606-676. Nodes of the subtree are numbered from 1 in postorder; the leftmost descendant of a
    node is given by the number before it. *)
Record subtree := Subtree { root_ids : list nat; lmds : list nat }.
Definition subtree_of (root : nat) : subtree :=
  let ids := postorder size_of root in
  let offset := postorder_id (hd 0 ids) in
  Subtree ids (map (fun i => postorder_id (leftmost i) - offset) ids).
End Syntax.
Definition sub_size (s : subtree) : nat := length (root_ids s).
Definition id_in_root (s : subtree) (i : nat) : option nat := match i with 0 => None | S k => nth_error (root_ids s) k end.
Definition lmd_of (s : subtree) (i : nat) : option nat := match i with 0 => None | S k => nth_error (lmds s) k end.
(** computeKeyRoots, astdiff.hpp:663-675 *)
Fixpoint key_loop (s : subtree) (i : nat) (visited acc : list nat) : list nat :=
  match i with
  | 0 => acc
  | S k =>
      match nth_error (lmds s) k with
      | Some l => if mem l visited then key_loop s k visited acc else key_loop s k (l :: visited) (i :: acc)
      | None => acc
      end
  end.
Definition key_roots (s : subtree) : list nat := key_loop s (sub_size s) [] [].

Section Two.
Variable opts : options.
Variables src dst : list node.
Definition value_at (ns : list node) (i : nat) : option A := option_map value (nth_error ns i).
(** isMatchingPossible, astdiff.hpp:559-561 *)
Definition possible (i j : nat) : bool :=
  match value_at src i, value_at dst j with Some x, Some y => allowed x y | _, _ => false end.
Definition values_equal (i j : nat) : bool :=
  match value_at src i, value_at dst j with Some x, Some y => equal x y | _, _ => false end.
(** identical, 286-297 *)
Fixpoint identical (fuel i j : nat) : bool :=
  match fuel with
  | 0 => false
  | S n =>
      if negb (length (node_kids src i) =? length (node_kids dst j)) || negb (possible i j) || negb (values_equal i j) then false
      else forallb (fun p => identical n (fst p) (snd p)) (combine (node_kids src i) (node_kids dst j))
  end.
(** The links of two identical subtrees, 176-178 *)
Definition link_range (m : mapping) (i j n : nat) : mapping := fold_left (fun m k => link m (i + k) (j + k)) (seq 0 n) m.
Definition try_pair (m : mapping) (i j : nat) : mapping :=
  if identical (size_of src) i j && negb (has_src m i) && negb (has_dst m j) then link_range m i j (descendants src i) else m.
Definition try_pairs (m : mapping) (h1 h2 : list nat) : mapping :=
  fold_left (fun m i => fold_left (fun m j => try_pair m i j) h2 m) h1 m.
(** matchTopDown, 151-201 *)
Fixpoint top_down (fuel : nat) (l1 l2 : list nat) (m : mapping) : option mapping :=
  let max1 := peek_max src l1 in
  let max2 := peek_max dst l2 in
  if negb (min_height opts <? Nat.min max1 max2) then Some m
  else
    match fuel with
    | 0 => None
    | S n =>
        if max2 <? max1 then let '(h, r) := pop src l1 in top_down n (open_all src h r) l2 m
        else if max1 <? max2 then let '(h, r) := pop dst l2 in top_down n l1 (open_all dst h r) m
        else
          let '(h1, r1) := pop src l1 in
          let '(h2, r2) := pop dst l2 in
          let m' := try_pairs m h1 h2 in
          top_down n (open_all src (filter (fun i => negb (has_src m' i)) h1) r1)
            (open_all dst (filter (fun j => negb (has_dst m' j)) h2) r2) m'
    end.
Definition match_top_down : option mapping := top_down (node_height src 0 + node_height dst 0) [0] [0] no_mapping.

(** getJaccardSimilarity, 253-269, as a fraction *)
Definition similarity (m : mapping) (i j : nat) : nat * nat :=
  let common :=
    length (filter (fun k => match get_dst m k with Some d => in_subtree dst d j | None => false end)
              (seq (i + 1) (node_right src i - i))) in
  let den := (descendants src i - 1) + (descendants dst j - 1) - common in
  if den =? 0 then (0, 1) else (common, den).
(** findCandidate, 238-251 *)
Definition candidate_step (m : mapping) (i : nat) (st : option nat * (nat * nat)) (j : nat) : option nat * (nat * nat) :=
  if negb (possible i j) then st
  else if has_dst m j then st
  else
    let '(n, d) := similarity m i j in
    let '(hn, hd) := snd st in
    if (sim_num opts * d <=? n * sim_den opts) && (hn * d <? n * hd) then (Some j, (n, d)) else st.
Definition find_candidate (m : mapping) (i : nat) : option nat :=
  fst (fold_left (candidate_step m i) (seq 0 (size_of dst)) (None, (0, 1))).

(** * The matcher of Zhang and Shasha, astdiff.hpp:682-735 *)
(** getUpdateCost, astdiff.hpp:716-726; None is the largest double, which is never the smallest of three *)
Definition update_cost (s1 s2 : subtree) (i j : nat) : option Z :=
  match id_in_root s1 i, id_in_root s2 j with
  | Some a, Some b =>
      if negb (possible a b) then None
      else if values_equal a b then Some 0%Z
      else match value_at src a, value_at dst b with Some x, Some y => Some (ucost x y) | _, _ => None end
  | _, _ => None
  end.
Definition table := nat -> nat -> Z.
Definition lmd0 (s : subtree) (i : nat) : nat := match lmd_of s i with Some l => l | None => 0 end.
(** One place of the table of forests, 381-395 *)
Definition forest_cell (s1 s2 : subtree) (l1 l2 : nat) (t : table * table) (d1 d2 : nat) : table * table :=
  let '(fd, td) := t in
  let drop := Z.min (fd (Nat.pred d1) d2 + del_cost opts) (fd d1 (Nat.pred d2) + ins_cost opts) in
  if (lmd0 s1 d1 =? l1) && (lmd0 s2 d2 =? l2) then
    let c := match update_cost s1 s2 d1 d2 with Some u => Z.min drop (fd (Nat.pred d1) (Nat.pred d2) + u) | None => drop end in
    (set_at2 fd d1 d2 c, set_at2 td d1 d2 c)
  else (set_at2 fd d1 d2 (Z.min drop (fd (lmd0 s1 d1) (lmd0 s2 d2) + td d1 d2)), td).
(** computeForestDist, 372-402 *)
Definition forest_dist (s1 s2 : subtree) (t : table * table) (i j : nat) : table * table :=
  let l1 := lmd0 s1 i in
  let l2 := lmd0 s2 j in
  let t0 := (set_at2 (fst t) l1 l2 0%Z, snd t) in
  fold_left
    (fun (t : table * table) (d1 : nat) =>
       let t1 := (set_at2 (fst t) d1 l2 (fst t (Nat.pred d1) l2 + del_cost opts)%Z, snd t) in
       fold_left
         (fun (t : table * table) (d2 : nat) =>
            let t2 := (set_at2 (fst t) l1 d2 (fst t l1 (Nat.pred d2) + ins_cost opts)%Z, snd t) in
            forest_cell s1 s2 l1 l2 t2 d1 d2)
         (seq (l2 + 1) (j - l2)) t1)
    (seq (l1 + 1) (i - l1)) t0.
(** computeTreeDist, astdiff.hpp:728-732 *)
Definition tree_dist (s1 s2 : subtree) : table * table :=
  fold_left (fun t i => fold_left (fun t j => forest_dist s1 s2 t i j) (key_roots s2) t) (key_roots s1)
    (fun _ _ => 0%Z, fun _ _ => 0%Z).
(** The inner loop of getMatchingNodes, 320-367: the matches and the pairs of subtrees that are found, the last found
    first. None is an access outside of the tables. *)
Fixpoint trace (fuel : nat) (s1 s2 : subtree) (fd : table) (last1 last2 first1 first2 row col : nat)
  (acc : list (nat * nat) * list (nat * nat)) : option (list (nat * nat) * list (nat * nat)) :=
  if negb ((first1 <? row) || (first2 <? col)) then Some acc
  else
    match fuel with
    | 0 => None
    | S n =>
        if (first1 <? row) && Z.eqb (fd (Nat.pred row) col + 1) (fd row col) then trace n s1 s2 fd last1 last2 first1 first2 (Nat.pred row) col acc
        else if (first2 <? col) && Z.eqb (fd row (Nat.pred col) + 1) (fd row col) then trace n s1 s2 fd last1 last2 first1 first2 row (Nat.pred col) acc
        else
          match lmd_of s1 row, lmd_of s2 col with
          | Some m1, Some m2 =>
              if (m1 =? first1) && (m2 =? first2) then
                match id_in_root s1 row, id_in_root s2 col with
                | Some a, Some b => trace n s1 s2 fd last1 last2 first1 first2 (Nat.pred row) (Nat.pred col) ((a, b) :: fst acc, snd acc)
                | _, _ => None
                end
              else trace n s1 s2 fd last1 last2 first1 first2 m1 m2 (fst acc, (row, col) :: snd acc)
          | _, _ => None
          end
    end.
(** getMatchingNodes, 299-370. [pairs] is the stack, the top first; the table of the first pair is not computed again. *)
Fixpoint pairs_loop (fuel : nat) (s1 s2 : subtree) (t : table * table) (again : bool) (pairs matches : list (nat * nat)) :
  option (list (nat * nat)) :=
  match pairs with
  | [] => Some (rev matches)
  | (r, c) :: rest =>
      match fuel with
      | 0 => None
      | S n =>
          let t' := if again then forest_dist s1 s2 t r c else t in
          match lmd_of s1 r, lmd_of s2 c with
          | Some f1, Some f2 =>
              match trace (r + c) s1 s2 (fst t') r c f1 f2 r c (matches, rest) with
              | Some (ms, ps) => pairs_loop n s1 s2 t' true ps ms
              | None => None
              end
          | _, _ => None
          end
      end
  end.
Definition matching_nodes (s1 s2 : subtree) : option (list (nat * nat)) :=
  let n := sub_size s1 + sub_size s2 in
  pairs_loop (n * n) s1 s2 (tree_dist s1 s2) false [(sub_size s1, sub_size s2)] [].
(** addOptimalMapping, 271-284 *)
Definition add_optimal (m : mapping) (i j : nat) : option mapping :=
  if max_size opts <? Nat.max (descendants src i) (descendants dst j) then Some m
  else
    match matching_nodes (subtree_of src i) (subtree_of dst j) with
    | None => None
    | Some r =>
        Some (fold_left (fun m p => if negb (has_src m (fst p)) && negb (has_dst m (snd p)) then link m (fst p) (snd p) else m) r m)
    end.
(** matchBottomUp, 203-236 *)
Fixpoint bottom_up (order : list nat) (m : mapping) : option mapping :=
  match order with
  | [] => Some m
  | i :: r =>
      if (i =? 0) && negb (has_src m 0) && negb (has_dst m 0) then
        if possible 0 0 then add_optimal (link m 0 0) 0 0 else Some m
      else if has_src m i || negb (existsb (has_src m) (node_kids src i)) then bottom_up r m
      else
        match find_candidate m i with
        | None => bottom_up r m
        | Some j => match add_optimal (link m i j) i j with Some m' => bottom_up r m' | None => None end
        end
  end.
(** computeMapping, astdiff.hpp:528-540. The greedy pass, 131-149, defines a function and does not call it. *)
Definition compute_mapping : option mapping :=
  match (if greedy opts then Some no_mapping else match_top_down) with
  | None => None
  | Some m => if stop_after_top_down opts then Some m else bottom_up (postorder src (size_of src) 0) m
  end.

(** * Changes *)
(** haveSameParents, astdiff.hpp:564-569 *)
Definition same_parents (m : mapping) (i j : nat) : bool :=
  match node_parent src i, node_parent dst j with
  | None, None => true
  | Some p, Some q => match get_dst m p with Some d => d =? q | None => false end
  | _, _ => false
  end.
Record marks := Marks { src_change : nat -> change; dst_change : nat -> change; src_shift : nat -> Z; dst_shift : nat -> Z }.
Definition no_marks : marks := Marks (fun _ => Unchanged) (fun _ => Unchanged) (fun _ => 0%Z) (fun _ => 0%Z).
Definition less {B} (f : B -> nat -> Z) (b : B) (i : nat) : nat -> Z := set_at (f b) i (f b i - 1)%Z.
Definition moved (m : mapping) (k : marks) (i j : nat) : bool :=
  negb (same_parents m i j) || negb (Z.eqb (position src (src_shift k) i) (position dst (dst_shift k) j)).
(** The four loops of computeChangeKinds, 90-128 *)
Definition mark_deleted (m : mapping) (k : marks) (i : nat) : marks :=
  if has_src m i then k else Marks (set_at (src_change k) i Deleted) (dst_change k) (less src_shift k i) (dst_shift k).
Definition mark_inserted (m : mapping) (k : marks) (j : nat) : marks :=
  if has_dst m j then k else Marks (src_change k) (set_at (dst_change k) j Inserted) (src_shift k) (less dst_shift k j).
Definition mark_shift (m : mapping) (k : marks) (i : nat) : marks :=
  match get_dst m i with
  | None => k
  | Some j => if moved m k i j then Marks (src_change k) (dst_change k) (less src_shift k i) (less dst_shift k j) else k
  end.
Definition mark_change (m : mapping) (k : marks) (j : nat) : marks :=
  match get_src m j with
  | None => k
  | Some i =>
      let both c k := Marks (set_at (src_change k) i c) (set_at (dst_change k) j c) (src_shift k) (dst_shift k) in
      let k1 := if moved m k i j then both Moved k else k in
      if values_equal i j then k1
      else both (if is_change (src_change k1 i) Moved then UpdateMoved else Updated) k1
  end.
Definition change_kinds (m : mapping) : marks :=
  let k1 := fold_left (mark_deleted m) (seq 0 (size_of src)) no_marks in
  let k2 := fold_left (mark_inserted m) (seq 0 (size_of dst)) k1 in
  let k3 := fold_left (mark_shift m) (bfs src) k2 in
  fold_left (mark_change m) (bfs dst) k3.
(** Change, astdiff.hpp:363-408: a move point is a parent and a position. *)
Inductive change_data :=
| CInsert (to : option nat * Z)
| CMove (from to : option nat * Z) (update : bool)
| CUpdate
| CNone
| CDelete.
(** getChangeFromDst and getChange, astdiff.hpp:444-500: the node of the first tree, the node of the second and the
    change. A move of a node that is not matched does not occur. *)
Definition change_from_dst (m : mapping) (k : marks) (j : nat) : option nat * option nat * change_data :=
  let data :=
    match dst_change k j with
    | Deleted => CDelete
    | Unchanged => CNone
    | Updated => CUpdate
    | UpdateMoved | Moved =>
        match get_src m j with
        | Some i =>
            CMove (node_parent src i, position src (src_shift k) i) (node_parent dst j, position dst (dst_shift k) j)
              (is_change (dst_change k j) Updated)
        | None => CNone
        end
    | Inserted => CInsert (node_parent dst j, position dst (fun _ => 0%Z) j)
    end in
  (get_src m j, Some j, data).
(** getAllChanges, astdiff.hpp:507-525, without the unchanged nodes *)
Definition all_changes (m : mapping) (k : marks) : list (option nat * option nat * change_data) :=
  map (change_from_dst m k) (filter (fun j => negb (is_change (dst_change k j) Unchanged)) (seq 0 (size_of dst))) ++
  map (fun i => (Some i, get_dst m i, CDelete)) (filter (fun i => is_change (src_change k i) Deleted) (seq 0 (size_of src))).
End Two.
(** The constructor of ASTDiff, astdiff.hpp:438-442: the mapping and the marks *)
Definition ast_diff (opts : options) (s d : tree A) : option (mapping * marks) :=
  let src := from_node s in
  let dst := from_node d in
  match compute_mapping opts src dst with
  | None => None
  | Some m => Some (m, change_kinds src dst m)
  end.
Definition changes (opts : options) (s d : tree A) : option (list (option nat * option nat * change_data)) :=
  match ast_diff opts s d with
  | None => None
  | Some (m, k) => Some (all_changes (from_node s) (from_node d) m k)
  end.
End AstDiff.
