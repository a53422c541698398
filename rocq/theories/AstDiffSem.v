(** Comparison of documents: src/haxorg/sem/SemAstDiff.{hpp,cpp}. *)
From Coq Require Import List Bool Arith ZArith Lia.
From Verif Require Import Base StrModel AttrModel ConvModel EagerModel AstDiffModel.
Import ListNotations.

(** ** Mutable documents *)
(** getNodeValue, SemAstDiff.hpp:17-24: the text of a leaf *)
Definition leaf_value (s : sem) : option str :=
  match skind s with
  | oSpace | oWord | oNewline | oRawText | oPunctuation | oBigIdent | oPlaceholder | oEscaped => Some (nth 0 (dtext (sdata s)) [])
  | _ => None
  end.
(** SemNodeStore, SemAstDiff.cpp:9-38: the subnodes of a node, which are the rows of a table, the cells of a row and the
    subnodes of the others. A node keeps its kind and its value. *)
Fixpoint store (s : sem) : tree (osk * option str) :=
  T (skind s, leaf_value s)
    match s with
    | Sem oTable _ fields _ _ => flat_map (fun x => match x with (FRow, r) => [store r] | _ => [] end) fields
    | Sem oRow _ fields _ _ => flat_map (fun x => match x with (FCell, r) => [store r] | _ => [] end) fields
    | Sem _ _ _ subs _ => map store subs
    end.
(** LeafKinds, 75-82 *)
Definition leaf_kind (k : osk) : bool :=
  match k with oWord | oBigIdent | oPunctuation | oEscaped | oNewline | oEmpty => true | _ => false end.
(** getOptions, 85-116 *)
Definition sem_allowed (x y : osk * option str) : bool :=
  osk_eqb (fst x) (fst y) || leaf_kind (fst x) && leaf_kind (fst y).
Definition value_eqb (x y : option str) : bool :=
  match x, y with Some a, Some b => str_eqb a b | None, None => true | _, _ => false end.
Definition sem_equal (x y : osk * option str) : bool :=
  if leaf_kind (fst x) && leaf_kind (fst y) then value_eqb (snd x) (snd y) else true.
Definition sem_changes (a b : sem) : option (list (option nat * option nat * change_data)) :=
  changes sem_allowed sem_equal (fun _ _ => 1%Z) default_options (store a) (store b).

(** ** Immutable documents *)
(** ImmNodeDiff::AstEdit, SemAstDiff.hpp:136-160, with the numbers of nodes *)
Inductive edit := EDelete (i : nat) | EKeep (j : nat) | EInsert (j : nat) | EReplace (i j : nat).
Section Edits.
Context {A : Type}.
Variable same : A -> A -> bool.
(** getMapped, astdiff.hpp:545-551: from the tree that is given to the other *)
Definition get_mapped (m : mapping) (in_src : bool) (i : nat) : option nat := if in_src then get_dst m i else get_src m i.
(** getEdits, SemAstDiff.cpp:118-164. The first loop is over the nodes of the second tree and asks for what they are
    mapped to as nodes of the first, the second the other way round. Nodes.at throws for a number that is not one of a
    node. *)
Definition edit_of (s d : tree A) (m : mapping) (keeps : bool) (j : nat) : outcome (list edit) :=
  match get_mapped m true j with
  | Some i =>
      match value_at (from_node s) i, value_at (from_node d) j with
      | Some v, Some w => Ok (if same v w then if keeps then [EKeep j] else [] else [EReplace i j])
      | _, _ => Throw
      end
  | None => Ok [EInsert j]
  end.
Fixpoint edits_of (s d : tree A) (m : mapping) (keeps : bool) (l : list nat) : outcome (list edit) :=
  match l with
  | [] => Ok []
  | j :: r => obind (edit_of s d m keeps j) (fun x => obind (edits_of s d m keeps r) (fun y => Ok (x ++ y)))
  end.
Definition get_edits (s d : tree A) (m : mapping) (keeps : bool) : outcome (list edit) :=
  obind (edits_of s d m keeps (seq 0 (size_of (from_node d)))) (fun l =>
  Ok (l ++ map EDelete (filter (fun i => match get_mapped m false i with None => true | _ => false end) (seq 0 (size_of (from_node s)))))).
(** setDiffTrees and getOptions, 166-179 and 225-240: any two nodes can be matched, and they are equal if their ids are. *)
Definition imm_edits (s d : tree A) (keeps : bool) : outcome (list edit) :=
  match ast_diff (fun _ _ => true) same (fun _ _ => 1%Z) default_options s d with
  | Some (m, _) => get_edits s d m keeps
  | None => Throw
  end.
End Edits.
