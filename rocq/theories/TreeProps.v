(** Property theorems C07-C10: the flat parse tree. *)
From Verif Require Import Base TreeModel TreeSpec TreeProofs.

(** A tree used by the examples: doc(par("a", "b"), mono, list(item(), "c")). *)
Definition ex_tree : tree nat nat nat :=
  Branch 0 [Branch 1 [Leaf 2 10; Leaf 2 11]; MonoLeaf 3 7; Branch 4 [Branch 5 []; Leaf 2 12]].

(** *** C07 *)

Theorem tree_calls_build_the_tree : forall (K T M : Type) (t : tree K T M) (after : list (tree K T M)) (g : group K T M),
  exists g', run (calls t ++ flat_map calls after) g = Ok g' /\
    length (nodes g') = length (nodes g) + tsize t + fsize after /\
    firstn (length (nodes g)) (nodes g') = nodes g /\
    pending g' = pending g /\
    forall p o s, locate t p = Some (o, s) ->
      let base := length (nodes g) in
      nth_error (nodes g') (base + o) = Some (node_of s) /\
      children (nodes g') (base + o) =
        Ok (match s with Leaf _ _ => None | _ => Some (map (Nat.add base) (child_positions t p)) end).
Proof. exact @build_and_iterate. Qed.
Print Assumptions tree_calls_build_the_tree.

Example tree_calls_case :
  locate ex_tree [2; 0] = Some (6, Branch 5 []) /\
  child_positions ex_tree [] = [1; 4; 5] /\
  obind (run (calls ex_tree) empty_group) (fun g => children (nodes g) 5) = Ok (Some [6; 7]).
Proof. vm_compute. repeat split. Qed.

Theorem tree_extents_are_descendants : forall (K T M : Type) (t : tree K T M) after (g g' : group K T M),
  run (calls t ++ flat_map calls after) g = Ok g' ->
  forall p o s, locate t p = Some (o, s) ->
  let base := length (nodes g) in
  match all_subnodes_of (nodes g') (base + o) with
  | Ok (Some (first, last)) =>
      forall i, first <= i <= last <-> exists q o' s', q <> [] /\ locate t (p ++ q) = Some (o', s') /\ i = base + o'
  | Ok None => sub_of s = []
  | _ => False
  end.
Proof. exact @extents_are_descendants. Qed.
Print Assumptions tree_extents_are_descendants.

Example tree_extents_case :
  obind (run (calls ex_tree) empty_group) (fun g => all_subnodes_of (nodes g) 5) = Ok (Some (6, 7)).
Proof. vm_compute. reflexivity. Qed.

(** Positions and paths correspond one to one, so the two theorems above speak about every node. *)
Theorem tree_positions_are_paths : forall (K T M : Type) (t : tree K T M),
  (forall n, n < tsize t -> exists p s, locate t p = Some (n, s)) /\
  (forall p q o s s', locate t p = Some (o, s) -> locate t q = Some (o, s') -> p = q).
Proof. exact (fun K T M t => conj (locate_surj t) (fun p q => locate_inj p t q)). Qed.
Print Assumptions tree_positions_are_paths.

Example tree_positions_case : tsize ex_tree = 8 /\ locate ex_tree [2; 1] = Some (7, Leaf 2 12).
Proof. vm_compute. split; reflexivity. Qed.

(** Any history of token / open / close / fail calls behaves like the abstract stack of open branches:
    same failures, and a fully closed history stores exactly the trees the abstract builder holds. *)
Theorem tree_history_refines_builder : forall (K T M : Type) (ops : list (aop K T M)) ts,
  arun ops ([], []) = Some ([], ts) ->
  exists g, run (map concrete ops) empty_group = Ok g /\
    run (flat_map calls ts) empty_group = Ok g /\ pending g = [].
Proof. exact @closed_history_is_forest. Qed.
Print Assumptions tree_history_refines_builder.

Theorem tree_unbalanced_history_throws : forall (K T M : Type) (ops : list (aop K T M)),
  arun ops ([], []) = None -> run (map concrete ops) empty_group = Throw.
Proof. exact @unbalanced_history_throws. Qed.
Print Assumptions tree_unbalanced_history_throws.

Example tree_history_case :
  arun [AOpen 0; ALeaf (LTok 1 5); AOpen 2; ALeaf (LMono 3 0); AFail (LTok 4 6); AClose] ([], [])
    = Some ([], [Branch 0 [Leaf 1 5; Leaf 4 6; MonoLeaf 3 0]]) /\
  arun [AOpen 0; AClose; AClose (K := nat) (T := nat) (M := nat)] ([], []) = None.
Proof. vm_compute. split; reflexivity. Qed.

(** Dropping everything from a subtree's start undoes having written it. *)
Theorem tree_rollback : forall (K T M : Type) (t : tree K T M) (g : group K T M),
  exists g', run (calls t) g = Ok g' /\ remove_tail g' (length (nodes g)) = Ok g.
Proof. exact @rollback. Qed.
Print Assumptions tree_rollback.

Example tree_rollback_case :
  let g := mkGroup [mkNode 9 (Ext 0)] [0] in
  obind (run (calls ex_tree) g) (fun g' => remove_tail g' 1) = Ok g.
Proof. vm_compute. reflexivity. Qed.

(** *** C08 *)

Theorem child_count_and_index_agree : forall (K T M : Type) (ns : list (node K T M)) id l,
  children ns id = Ok (Some l) ->
  node_size ns id = Ok (length l) /\
  (forall i, subnode ns id i = match nth_error l i with Some x => Ok x | None => Throw end).
Proof. exact @count_and_index_agree. Qed.
Print Assumptions child_count_and_index_agree.

Theorem child_count_of_terminal : forall (K T M : Type) (ns : list (node K T M)) id,
  children ns id = Ok None -> node_size ns id = Ok 0 /\ forall i, subnode ns id i = Throw.
Proof. exact @terminal_has_no_children. Qed.
Print Assumptions child_count_of_terminal.

(** Iterating never runs forever, on any node sequence. *)
Theorem child_iteration_terminates : forall (K T M : Type) (ns : list (node K T M)) id, children ns id <> Fuel.
Proof. exact @children_never_fuel. Qed.
Print Assumptions child_iteration_terminates.

Example child_count_case :
  obind (run (calls ex_tree) empty_group) (fun g => children (nodes g) 0) = Ok (Some [1; 4; 5]) /\
  obind (run (calls ex_tree) empty_group) (fun g => children (nodes g) 2) = Ok None /\
  obind (run (calls ex_tree) empty_group) (fun g => subnode (nodes g) 0 2) = Ok 5.
Proof. vm_compute. repeat split. Qed.

(** *** C09.  The full claim (the parent of every node is found) is false; the exact behaviour is: the
    query answers, correctly, for first children and for the very first root, and never returns for any
    other child. *)

Theorem parent_lookup_partial : forall (K T M : Type) (t : tree K T M) after (g g' : group K T M),
  run (calls t ++ flat_map calls after) g = Ok g' ->
  forall p o s, locate t p = Some (o, s) ->
  let base := length (nodes g) in
  (forall q, p = q ++ [0] -> exists oq sq, locate t q = Some (oq, sq) /\
      forall fuel, parent (S fuel) (nodes g') (base + o) = Ok (Some (base + oq))) /\
  (forall q i, p = q ++ [S i] -> forall fuel, parent fuel (nodes g') (base + o) = Fuel) /\
  (p = [] -> nodes g = [] -> forall fuel, parent (S fuel) (nodes g') (base + o) = Ok None).
Proof. exact @parent_of_built. Qed.
Print Assumptions parent_lookup_partial.

Theorem parent_lookup_terminates_refuted : exists (g : group nat nat nat) id,
  run (calls ex_tree) empty_group = Ok g /\ id < length (nodes g) /\
  forall fuel, parent fuel (nodes g) id = Fuel.
Proof.
  eexists. exists 3. split; [vm_compute; reflexivity|]. split; [vm_compute; repeat constructor|].
  intros fuel. refine (proj1 (proj2 (parent_lookup_partial _ _ _ ex_tree [] empty_group _ eq_refl [0; 1] 3 _ eq_refl)) [0] 0 eq_refl fuel).
Qed.
Print Assumptions parent_lookup_terminates_refuted.

Example parent_lookup_case :
  locate ex_tree [2; 0] = Some (6, Branch 5 []) /\ locate ex_tree [2] = Some (5, Branch 4 [Branch 5 []; Leaf 2 12]) /\
  obind (run (calls ex_tree) empty_group) (fun g => parent 10 (nodes g) 6) = Ok (Some 5).
Proof. vm_compute. repeat split. Qed.

(** *** C10 *)

Theorem node_equality_partial : forall (K T M : Type) keqb teqb meqb,
  (forall a b : K, reflect (a = b) (keqb a b)) -> (forall a b : T, reflect (a = b) (teqb a b)) ->
  (forall a b : M, reflect (a = b) (meqb a b)) ->
  forall a b : node K T M, is_terminal a = is_terminal b ->
  (node_eqb keqb teqb meqb a b = true <-> a = b).
Proof. exact @node_eqb_same_class. Qed.
Print Assumptions node_equality_partial.

(** Exactly when the comparison says "equal": also for a token node against a non-terminal of the same
    kind. *)
Theorem node_equality_exact : forall (K T M : Type) keqb teqb meqb,
  (forall a b : K, reflect (a = b) (keqb a b)) -> (forall a b : T, reflect (a = b) (teqb a b)) ->
  (forall a b : M, reflect (a = b) (meqb a b)) ->
  forall a b : node K T M,
  node_eqb keqb teqb meqb a b = true <->
  (a = b \/ (is_terminal a <> is_terminal b /\ is_mono a = is_mono b /\ kind a = kind b)).
Proof. exact @node_eqb_exact. Qed.
Print Assumptions node_equality_exact.

Theorem node_equality_refuted : exists a b c : node nat nat nat,
  node_eqb Nat.eqb Nat.eqb Nat.eqb a b = true /\ node_eqb Nat.eqb Nat.eqb Nat.eqb b c = true /\
  node_eqb Nat.eqb Nat.eqb Nat.eqb a c = false /\ a <> b.
Proof.
  exists (mkNode 1 (Ext 2)), (mkNode 1 (Tok 0)), (mkNode 1 (Ext 3)).
  vm_compute. repeat split; discriminate.
Qed.
Print Assumptions node_equality_refuted.

Example node_equality_case :
  let a : node nat nat nat := mkNode 1 (Tok 5) in
  is_terminal a = is_terminal a /\ (node_eqb Nat.eqb Nat.eqb Nat.eqb a (mkNode 1 (Tok 6)) = true <-> a = mkNode 1 (Tok 6)).
Proof.
  split; [reflexivity|].
  exact (node_equality_partial _ _ _ _ _ _ Nat.eqb_spec Nat.eqb_spec Nat.eqb_spec (mkNode 1 (Tok 5)) (mkNode 1 (Tok 6)) eq_refl).
Qed.
