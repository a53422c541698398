(** Model of the flat parse tree: src/haxorg/lexbase/Node.hpp, NodeStore.hpp, Node.cpp.

    Simplifications: node ids are their 0-based index (the packing into 64-bit values is the subject of
    DodModel.v; stepping an id moves exactly its index while fewer than 2^48-1 nodes exist, theorem
    [id_step_moves_index]); the [int] extent is unbounded (fewer than 2^31 nodes); node kinds, token
    ids and the mono payload are arbitrary types with decidable equality. *)
From Verif Require Import Base.

Section Tree.
Context {K T M : Type}.

(** [Node::value], Node.hpp:52: extent of a non-terminal, token id, or mono payload. *)
Inductive payload := Ext (n : nat) | Tok (t : T) | Mono (x : M).

(** [Node], Node.hpp:50-56. *)
Record node := mkNode { kind : K; value : payload }.

(** [isTerminal], [isMono], [isNonTerminal], Node.hpp:60-64. *)
Definition is_terminal (n : node) : bool := match value n with Tok _ => true | _ => false end.
Definition is_mono (n : node) : bool := match value n with Mono _ => true | _ => false end.
Definition is_nonterminal (n : node) : bool := match value n with Ext _ => true | _ => false end.

(** [getExtent], Node.hpp:84-90. *)
Definition get_extent (n : node) : nat := match value n with Ext e => e | _ => 0 end.

(** [extend], Node.hpp:66-70: assertion failure for a node that is not a non-terminal or a negative
    extent. *)
Definition extend (n : node) (e : Z) : outcome node :=
  if is_nonterminal n then
    if (0 <=? e)%Z then Ok {| kind := kind n; value := Ext (Z.to_nat e) |} else Throw
  else Throw.

(** [NodeGroup::nodes] and [pendingTrees] (last pushed first), NodeStore.hpp:17,35. *)
Record group := mkGroup { nodes : list node; pending : list nat }.

Definition empty_group : group := {| nodes := []; pending := [] |}.

(** Write access through [nodes.at(id)]; the id is known to exist or the access throws. *)
Fixpoint set_nth {A} (l : list A) (i : nat) (x : A) : option (list A) :=
  match l, i with
  | [], _ => None
  | _ :: r, O => Some (x :: r)
  | y :: r, S i => option_map (cons y) (set_nth r i x)
  end.

(** [token(node)], NodeStore.hpp:40-42. *)
Definition token (g : group) (n : node) : group * nat :=
  ({| nodes := nodes g ++ [n]; pending := pending g |}, length (nodes g)).

(** [startTree], NodeStore.hpp:59-63. *)
Definition start_tree (g : group) (n : node) : group * nat :=
  ({| nodes := nodes g ++ [n]; pending := length (nodes g) :: pending g |}, length (nodes g)).

(** [endTree(offset)], Node.cpp:9-14; [distance(start, nodes.back())] is the index difference. *)
Definition end_tree (g : group) (offset : Z) : outcome (group * nat) :=
  match pending g with
  | [] => Throw
  | start :: rest =>
    match nth_error (nodes g) start with
    | None => Throw
    | Some n =>
      obind (extend n (Z.of_nat (length (nodes g) - 1 - start) + offset)) (fun n' =>
      match set_nth (nodes g) start n' with
      | None => Throw
      | Some ns => Ok ({| nodes := ns; pending := rest |}, start)
      end)
    end
  end.

(** [failTree(replacement)], Node.cpp:17-23. *)
Definition fail_tree (g : group) (replacement : node) : outcome (group * nat) :=
  match pending g with
  | [] => Throw
  | start :: rest =>
    match set_nth (nodes g) start replacement with
    | None => Throw
    | Some ns => Ok ({| nodes := ns; pending := rest |}, start)
    end
  end.

(** [removeTail(id)], Node.cpp:26-28.  Erasing from past the end is undefined behaviour. *)
Definition remove_tail (g : group) (id : nat) : outcome group :=
  if id <=? length (nodes g)
  then Ok {| nodes := firstn id (nodes g); pending := pending g |}
  else UB.

(** The calls a parser makes. *)
Inductive op :=
| OpToken (n : node)
| OpStart (n : node)
| OpEnd (offset : Z)
| OpFail (n : node).

Definition step (g : group) (o : op) : outcome group :=
  match o with
  | OpToken n => Ok (fst (token g n))
  | OpStart n => Ok (fst (start_tree g n))
  | OpEnd offset => omap fst (end_tree g offset)
  | OpFail n => omap fst (fail_tree g n)
  end.

Fixpoint run (ops : list op) (g : group) : outcome group :=
  match ops with
  | [] => Ok g
  | o :: r => obind (step g o) (run r)
  end.

(** [begin(start)], Node.cpp:31-40: index of the first visited node. [end(nodes.back())] is the index
    one past the last node. *)
Definition iter_begin (ns : list node) (start : nat) : nat :=
  if start <? length ns then start else length ns.

(** [end(last)], Node.cpp:43-47. *)
Definition iter_end (last : nat) : nat := S last.

(** [subnodesOf], Node.cpp:51-65: the begin and end positions; [None] for a terminal node. *)
Definition subnodes_of (ns : list node) (id : nat) : outcome (option (nat * nat)) :=
  match nth_error ns id with
  | None => Throw
  | Some n =>
    if is_terminal n then Ok None
    else Ok (Some (iter_begin ns (id + 1), iter_end (id + get_extent n)))
  end.

(** [iterator::operator++], NodeStore.hpp:123-129. *)
Definition iter_next (ns : list node) (id : nat) : outcome nat :=
  match nth_error ns id with
  | None => Throw
  | Some n => Ok (id + get_extent n + 1)
  end.

(** The loop [for (; begin != end; ++begin) visit( *begin )] over the iterators (NodeStore.hpp:141-146);
    the dereference checks the position (NodeStore.hpp:110-121).  The position grows at every step and
    positions past the last node throw, so [length ns] steps are enough; see [children_never_fuel]. *)
Fixpoint iter_loop (fuel : nat) (ns : list node) (b e : nat) : outcome (list nat) :=
  match fuel with
  | O => Fuel
  | S fuel =>
    if b =? e then Ok []
    else if b <? length ns
      then obind (iter_next ns b) (fun b' => omap (cons b) (iter_loop fuel ns b' e))
      else Throw
  end.

(** All children visited by the loop; [None] when there is no range to visit. *)
Definition children (ns : list node) (id : nat) : outcome (option (list nat)) :=
  obind (subnodes_of ns id) (fun r =>
  match r with
  | None => Ok None
  | Some (b, e) => omap Some (iter_loop (S (S (length ns))) ns b e)
  end).

(** [allSubnodesOf], Node.cpp:68-75: inclusive index slice; [slice] throws if first > last, which the
    guard excludes. *)
Definition all_subnodes_of (ns : list node) (id : nat) : outcome (option (nat * nat)) :=
  match nth_error ns id with
  | None => Throw
  | Some n => if 0 <? get_extent n then Ok (Some (id + 1, id + get_extent n)) else Ok None
  end.

(** [parent], Node.cpp:78-94.  The loop variable only moves when the candidate has a range, so the loop
    runs on fuel.  [p] is the candidate as a 1-based value, 0 is nil (decrement of a nil id is not
    reached). *)
Fixpoint parent_loop (fuel : nat) (ns : list node) (id p : nat) : outcome (option nat) :=
  match fuel with
  | O => Fuel
  | S fuel =>
    match p with
    | O => Ok None
    | S cand =>
      obind (all_subnodes_of ns cand) (fun ext =>
      match ext with
      | Some (first, last) =>
        if (first <=? id) && (id <=? last) then Ok (Some cand)
        else parent_loop fuel ns id cand
      | None => parent_loop fuel ns id p
      end)
    end
  end.

Definition parent (fuel : nat) (ns : list node) (id : nat) : outcome (option nat) :=
  parent_loop fuel ns id id.

(** [size(node)], Node.cpp:97-107: counts iterations without dereferencing (the increment itself checks
    that the node exists). *)
Fixpoint count_loop (fuel : nat) (ns : list node) (b e : nat) (result : nat) : outcome nat :=
  match fuel with
  | O => Fuel
  | S fuel =>
    if b =? e then Ok result
    else obind (iter_next ns b) (fun b' => count_loop fuel ns b' e (S result))
  end.

Definition node_size (ns : list node) (id : nat) : outcome nat :=
  obind (subnodes_of ns id) (fun r =>
  match r with
  | None => Ok 0
  | Some (b, e) => count_loop (S (S (length ns))) ns b e 0
  end).

(** [subnode(node, index)], Node.cpp:110-131. [index] is a signed int in C++; a negative one never
    matches and throws like one that is too large (here: naturals). *)
Fixpoint subnode_loop (fuel : nat) (ns : list node) (b e i index : nat) : outcome nat :=
  match fuel with
  | O => Fuel
  | S fuel =>
    if b =? e then Throw
    else if i =? index then (if b <? length ns then Ok b else Throw)
    else obind (iter_next ns b) (fun b' => subnode_loop fuel ns b' e (S i) index)
  end.

Definition subnode (ns : list node) (id index : nat) : outcome nat :=
  obind (subnodes_of ns id) (fun r =>
  match r with
  | None => Throw
  | Some (b, e) => subnode_loop (S (S (length ns))) ns b e 0 index
  end).

(** [Node::operator==], Node.hpp:119-127; [value] comparison is [std::variant] equality. *)
Variable keqb : K -> K -> bool.
Variable teqb : T -> T -> bool.
Variable meqb : M -> M -> bool.

Definition payload_eqb (a b : payload) : bool :=
  match a, b with
  | Ext x, Ext y => x =? y
  | Tok x, Tok y => teqb x y
  | Mono x, Mono y => meqb x y
  | _, _ => false
  end.

Definition node_eqb (a b : node) : bool :=
  if Bool.eqb (is_terminal a) (is_terminal b) then keqb (kind a) (kind b) && payload_eqb (value a) (value b)
  else if Bool.eqb (is_mono a) (is_mono b) then keqb (kind a) (kind b)
  else false.

End Tree.

Arguments payload : clear implicits.
Arguments node : clear implicits.
Arguments group : clear implicits.
Arguments op : clear implicits.
