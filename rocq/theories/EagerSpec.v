(** What it means to carry out the edits of a comparison. *)
From Coq Require Import List Bool Arith ZArith Lia.
From Verif Require Import EagerModel.
Import ListNotations.

Section Patch.
Context {A : Type}.
(** The node at a path *)
Fixpoint node_at (t : tree A) (p : path) : option (tree A) :=
  match p with [] => Some t | i :: r => match nth_error (sub t) i with Some x => node_at x r | None => None end end.
Definition path_eqb (p q : path) : bool := if list_eq_dec Nat.eq_dec p q then true else false.
(** The edit that says what comes to a place of the new tree *)
Definition target (e : edit) : option path :=
  match e with Insert d _ => Some d | Move _ d _ _ => Some d | Update _ d _ _ => Some d | Delete _ _ => None end.
Definition about (p : path) (e : edit) : bool := match target e with Some d => path_eqb d p | None => false end.
Definition child_of (p q : path) : bool := match rev q with _ :: r => path_eqb p (rev r) | [] => false end.
Definition removed (edits : list edit) (p : path) : nat := length (filter (fun e => match e with Delete s _ => child_of p s | _ => false end) edits).
Definition added (edits : list edit) (p : path) : nat := length (filter (fun e => match e with Insert d _ => child_of p d | _ => false end) edits).
(** All answers, when there is one for each *)
Fixpoint all {B} (l : list (option B)) : option (list B) :=
  match l with
  | [] => Some []
  | Some x :: r => match all r with Some q => Some (x :: q) | None => None end
  | None :: _ => None
  end.
Definition updated (edits : list edit) (p : path) : bool :=
  existsb (fun e => match e with Update _ q _ _ => path_eqb q p | _ => false end) edits.
(** [patch n edits s d sp dp] is the tree that the node at [sp] of [s] becomes, at the place [dp], when the edits are
    carried out, going down at most [n] levels. New values and new subtrees are looked up in [d] at the places that the
    edits name. A child without an edit stays at its place. *)
Fixpoint patch (n : nat) (edits : list edit) (s d : tree A) (sp dp : path) : option (tree A) :=
  match n with
  | 0 => None
  | S k =>
      match node_at s sp with
      | None => None
      | Some x =>
          let v := if updated edits dp then option_map val (node_at d dp) else Some (val x) in
          let children :=
            map (fun i =>
                   match find (about (dp ++ [i])) edits with
                   | None => patch k edits s d (sp ++ [i]) (dp ++ [i])
                   | Some (Insert q _) => node_at d q
                   | Some (Move q _ _ _) | Some (Update q _ _ _) => patch k edits s d q (dp ++ [i])
                   | Some (Delete _ _) => None
                   end)
              (seq 0 (length (sub x) + added edits dp - removed edits sp)) in
          match v, all children with Some w, Some l => Some (T w l) | _, _ => None end
      end
  end.
Fixpoint depth (t : tree A) : nat := let 'T _ l := t in S (fold_right (fun c m => Nat.max (depth c) m) 0 l).
(** The numbers in an edit are the places of its nodes among their siblings. *)
Definition placed (e : edit) : Prop :=
  match e with
  | Insert d di => exists q, d = q ++ [di]
  | Delete s si => exists p, s = p ++ [si]
  | Move s d si di => exists p q, s = p ++ [si] /\ d = q ++ [di]
  | Update s d si di => (exists p q, s = p ++ [si] /\ d = q ++ [di]) \/ (s = [] /\ d = [] /\ si = 0 /\ di = 0)
  end.
(** The same tree up to values that count as equal *)
Inductive alike (equal : A -> A -> bool) : tree A -> tree A -> Prop :=
| alike_node v w l m : equal v w = true -> Forall2 (alike equal) l m -> alike equal (T v l) (T w m).
(** [counterpart edits d sp dp]: by the edits, the node at [dp] of the new tree is what the node at [sp] of the old tree has become. *)
Inductive counterpart (edits : list edit) (d : tree A) : path -> path -> Prop :=
| counterpart_root : counterpart edits d [] []
| counterpart_kept sp dp i :
    counterpart edits d sp dp -> node_at d (dp ++ [i]) <> None -> find (about (dp ++ [i])) edits = None ->
    counterpart edits d (sp ++ [i]) (dp ++ [i])
| counterpart_moved sp dp i q si di :
    counterpart edits d sp dp ->
    find (about (dp ++ [i])) edits = Some (Move q (dp ++ [i]) si di) \/
    find (about (dp ++ [i])) edits = Some (Update q (dp ++ [i]) si di) ->
    counterpart edits d q (dp ++ [i]).
(** No two children of one node have equal values. *)
Inductive distinct (equal : A -> A -> bool) : tree A -> Prop :=
| distinct_node v l :
    (forall i j x y, nth_error l i = Some x -> nth_error l j = Some y -> equal (val x) (val y) = true -> i = j) ->
    Forall (distinct equal) l -> distinct equal (T v l).
End Patch.
