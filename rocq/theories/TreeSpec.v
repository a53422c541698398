(** Specification for the flat parse tree: ordinary trees, written independently of the flat
    representation. *)
From Verif Require Import Base TreeModel.

Section Spec.
Context {K T M : Type}.

(** The tree a parser has in mind. *)
Inductive tree :=
| Branch (k : K) (sub : list tree)
| Leaf (k : K) (t : T)
| MonoLeaf (k : K) (x : M).

Definition sub_of (t : tree) : list tree := match t with Branch _ s => s | _ => [] end.
Definition kind_of (t : tree) : K := match t with Branch k _ | Leaf k _ | MonoLeaf k _ => k end.

(** Number of nodes. *)
Fixpoint tsize (t : tree) : nat :=
  match t with
  | Branch _ sub => S (list_sum (map tsize sub))
  | _ => 1
  end.

Definition fsize (ts : list tree) : nat := list_sum (map tsize ts).

(** The subtree at a path, with its position in document (pre-) order. *)
Fixpoint locate (t : tree) (path : list nat) : option (nat * tree) :=
  match path with
  | [] => Some (0, t)
  | i :: rest =>
    match nth_error (sub_of t) i with
    | None => None
    | Some c =>
      match locate c rest with
      | None => None
      | Some (o, s) => Some (1 + fsize (firstn i (sub_of t)) + o, s)
      end
    end
  end.

(** The calls that write a tree: open, write the children, close. *)
Fixpoint calls (t : tree) : list (op K T M) :=
  match t with
  | Branch k sub => OpStart (mkNode k (Ext 0)) :: flat_map calls sub ++ [OpEnd 0]
  | Leaf k x => [OpToken (mkNode k (Tok x))]
  | MonoLeaf k x => [OpToken (mkNode k (Mono x))]
  end.

(** What the stored node at a subtree's position must be. *)
Definition node_of (t : tree) : node K T M :=
  match t with
  | Branch k sub => mkNode k (Ext (fsize sub))
  | Leaf k x => mkNode k (Tok x)
  | MonoLeaf k x => mkNode k (Mono x)
  end.

(** Positions of the children of the subtree at [path]. *)
Definition child_positions (t : tree) (path : list nat) : list nat :=
  match locate t path with
  | None => []
  | Some (_, s) =>
    flat_map (fun i => match locate t (path ++ [i]) with Some (o, _) => [o] | None => [] end)
             (seq 0 (length (sub_of s)))
  end.

(** The abstract builder: a stack of open branches, each with the trees written so far.  [None] is
    closing (or failing) with nothing open. *)
Inductive leafop := LTok (k : K) (t : T) | LMono (k : K) (x : M).
Inductive aop := ALeaf (l : leafop) | AOpen (k : K) | AClose | AFail (l : leafop).

Definition leaf_tree (l : leafop) : tree :=
  match l with LTok k t => Leaf k t | LMono k x => MonoLeaf k x end.

Definition astate := (list (K * list tree) * list tree)%type.   (* enclosing open branches, current list *)

Definition astep (s : astate) (o : aop) : option astate :=
  let '(st, cur) := s in
  match o with
  | ALeaf l => Some (st, cur ++ [leaf_tree l])
  | AOpen k => Some ((k, cur) :: st, [])
  | AClose => match st with [] => None | (k, before) :: st => Some (st, before ++ [Branch k cur]) end
  | AFail l => match st with [] => None | (k, before) :: st => Some (st, before ++ leaf_tree l :: cur) end
  end.

Fixpoint arun (ops : list aop) (s : astate) : option astate :=
  match ops with
  | [] => Some s
  | o :: r => match astep s o with None => None | Some s' => arun r s' end
  end.

Definition leaf_node (l : leafop) : node K T M := node_of (leaf_tree l).

Definition concrete (o : aop) : op K T M :=
  match o with
  | ALeaf l => OpToken (leaf_node l)
  | AOpen k => OpStart (mkNode k (Ext 0))
  | AClose => OpEnd 0
  | AFail l => OpFail (leaf_node l)
  end.

End Spec.
Arguments tree : clear implicits.
Arguments leafop : clear implicits.
Arguments aop : clear implicits.
