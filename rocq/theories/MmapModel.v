(** The mind map: src/haxorg/imm/ImmOrgGraph.cpp, ImmOrgGraph.hpp.

    Simplified: what the document says is given by three functions — the links
    of a node (getInitialNodeProp, 291-345), the radio targets its text mentions
    (collect_radio_targets, 514-536), and the places a link refers to
    (getResolveTarget, 389-467, which may throw); link descriptions, tracing and
    edge identities are left out; after an exception nothing is said about the
    state. *)
From Coq Require Import List Bool Arith.
From Verif Require Import Base.
Import ListNotations.
Local Open Scope nat_scope.

(** ImmOrg.hpp:228-245 ImmUniqId with its path (140-207); the path steps are
    numbers, as children by index are *)
Record uniq := Uniq { root : nat; steps : list nat; id : nat }.
Definition uniq_dec : forall a b : uniq, {a = b} + {a <> b}.
Proof. decide equality; [apply Nat.eq_dec|apply (list_eq_dec Nat.eq_dec)|apply Nat.eq_dec]. Defined.
Definition ueqb (a b : uniq) : bool := if uniq_dec a b then true else false.

(** Vec.hpp:25-38 itemwise_less_than *)
Fixpoint some_less (a b : list nat) : bool :=
  match a, b with
  | x :: a', y :: b' => (x <? y) || some_less a' b'
  | _, _ => false
  end.
Definition itemwise_less (a b : list nat) : bool := some_less a b || (length a <? length b).
(** ImmOrg.hpp:203-206 and 244 *)
Definition path_less (a b : uniq) : bool := (root a <? root b) && itemwise_less (steps a) (steps b).
Definition uniq_less (a b : uniq) : bool := (id a <? id b) && path_less a b.
(** std::pair's comparison from [<] of the parts *)
Definition pair_less (a b : uniq * uniq) : bool :=
  if uniq_less (fst a) (fst b) then true else if uniq_less (fst b) (fst a) then false
  else uniq_less (snd a) (snd b).

(** ImmOrgGraph.hpp:24-46 MapLink *)
Inductive maplink := Link (link : uniq) | Radio (target : uniq).
(** 464-473 MapLinkResolveResult; [None] is the default link of radio results
    (497-501), which equals no link of a node *)
Record result := Res { res_link : option maplink; res_target : uniq; res_source : uniq }.

Record vertex := Vertex { node : uniq; pending : list maplink }.
(** 244-250 MapGraph, 421-426 MapGraphState: a vertex is its number; [edges]
    oldest first *)
Record state := State { vertices : list vertex; id_map : list (uniq * nat); edges : list (nat * nat); unresolved : list nat }.
Definition empty : state := State [] [] [] [].

Section Mmap.
  Variable links_of : uniq -> list uniq.
  Variable radios_of : uniq -> list uniq.
  Variable targets : uniq -> outcome (list uniq).
  (** std::set::find among the keys inserted so far *)
  Variable found : list (uniq * uniq) -> uniq * uniq -> bool.
  (** iteration over the unresolved set *)
  Variable order : list nat -> list nat.

  Definition vertex_of (m : list (uniq * nat)) (u : uniq) : option nat :=
    match find (fun p => ueqb (fst p) u) m with Some p => Some (snd p) | None => None end.
  (** hpp 301-307 *)
  Definition registered (m : list (uniq * nat)) (u : uniq) : bool := match vertex_of m u with Some _ => true | None => false end.

  (** 347-471 getResolveTarget *)
  Definition resolve_target (source : uniq) (l : maplink) : outcome (list result) :=
    match l with
    | Radio t => Ok [Res (Some l) t source]
    | Link k => obind (targets k) (fun ts => Ok (map (fun t => Res (Some l) t source) ts))
    end.

  (** 484-538 collect_radio_targets: results, and links added to the node *)
  Definition collect_radio (m : list (uniq * nat)) (source : uniq) : list result * list maplink :=
    (map (fun t => Res None t source) (filter (registered m) (radios_of source)),
     map Radio (filter (fun t => negb (registered m t)) (radios_of source))).
  (** 540-564 attempt_attribute_resolve: results, and links left at the node *)
  Fixpoint attempt (m : list (uniq * nat)) (source : uniq) (ls : list maplink) : outcome (list result * list maplink) :=
    match ls with
    | [] => Ok ([], [])
    | l :: ls' => obind (resolve_target source l) (fun rs => obind (attempt m source ls') (fun r =>
        match rs with
        | [] => Ok (fst r, l :: snd r)
        | _ => Ok (filter (fun x => registered m (res_target x)) rs ++ fst r,
                   map (fun _ => l) (filter (fun x => negb (registered m (res_target x))) rs) ++ snd r)
        end))
    end.
  (** 566-600 process_global_pending_unresolved *)
  Fixpoint pending_links (m : list (uniq * nat)) (source : uniq) (ls : list maplink) : outcome (list result) :=
    match ls with
    | [] => Ok []
    | l :: ls' => obind (resolve_target source l) (fun rs => obind (pending_links m source ls') (fun r =>
        Ok (filter (fun x => registered m (res_target x)) rs ++ r)))
    end.
  Fixpoint process_pending (m : list (uniq * nat)) (vs : list vertex) (us : list nat) : outcome (list result) :=
    match us with
    | [] => Ok []
    | v :: us' => match nth_error vs v with
        | Some x => obind (pending_links m (node x) (pending x)) (fun r => obind (process_pending m vs us') (fun r' => Ok (r ++ r')))
        | None => Throw
        end
    end.
  (** 617-627 fill_resolved_nodes *)
  Fixpoint dedup (seen : list (uniq * uniq)) (rs : list result) : list result :=
    match rs with
    | [] => []
    | r :: rs' => let k := (res_target r, res_source r) in
        if found seen k then dedup seen rs' else r :: dedup (k :: seen) rs'
    end.

  (** 74-87 the test of removeUnresolvedNodeProps *)
  Definition same_link (a b : maplink) : bool :=
    match a, b with Link x, Link y => ueqb x y | Radio x, Radio y => ueqb x y | _, _ => false end.
  Definition removes (rs : list result) (l : maplink) : bool :=
    existsb (fun r => match res_link r with Some k => same_link l k | None => false end) rs.
  Definition memb (n : nat) (l : list nat) : bool := existsb (Nat.eqb n) l.
  (** 63-94 removeUnresolvedNodeProps, for the vertex with number [n] and those after it *)
  Fixpoint remove_from (rs : list result) (touched : list nat) (n : nat) (vs : list vertex) : list vertex :=
    match vs with
    | [] => []
    | v :: vs' => (if memb n touched then Vertex (node v) (filter (fun l => negb (removes rs l)) (pending v)) else v) :: remove_from rs touched (S n) vs'
    end.
  Definition has_pending (vs : list vertex) (n : nat) : bool :=
    match nth_error vs n with Some v => match pending v with [] => false | _ => true end | None => false end.

  (** 141-156 updateResolvedEdges; getVertexID is id_map.at *)
  Fixpoint add_edges (m : list (uniq * nat)) (rs : list result) : outcome (list (nat * nat)) :=
    match rs with
    | [] => Ok []
    | r :: rs' => match vertex_of m (res_source r), vertex_of m (res_target r) with
        | Some s, Some t => obind (add_edges m rs') (fun es => Ok ((s, t) :: es))
        | _, _ => Throw
        end
    end.

  (** 192-224 MapGraphState::addNode, with 635-682 getResolvedNodeInsert and
      96-139 updateUnresolvedNodeTracking *)
  Definition add_node (s : state) (x : uniq) : outcome state :=
    let n := length (vertices s) in
    let m := (x, n) :: id_map s in
    if memb n (unresolved s) then Throw else
    let radio := collect_radio m x in
    obind (attempt m x (map Link (links_of x) ++ snd radio)) (fun own =>
    obind (process_pending m (vertices s) (order (unresolved s))) (fun others =>
    let rs := dedup [] (fst radio ++ fst own ++ others) in
    let vs := remove_from rs (n :: unresolved s) 0 (vertices s ++ [Vertex x (snd own)]) in
    let us := if has_pending vs n then unresolved s ++ [n] else unresolved s in
    let us := match rs with [] => us | _ => filter (has_pending vs) us end in
    obind (add_edges m rs) (fun es => Ok (State vs m (edges s ++ es) us)))).

  Fixpoint add_nodes (s : state) (xs : list uniq) : outcome state :=
    match xs with
    | [] => Ok s
    | x :: xs' => obind (add_node s x) (fun s' => add_nodes s' xs')
    end.
End Mmap.
