(** Creation times and editing of lists: src/haxorg/api/SemBaseApi.cpp:213-230, 355-417, on the converted trees of
    ConvModel.v; for times, on the paragraphs and headings of ParaModel.v. Line numbers are those of this file.

    Simplified: nodes are values, so that a list that is edited is returned; in C++ it is changed in place, and so is
    every other holder of the same pointer. Indices are integers without a limit. The clean text of a node is a
    parameter. Nodes are not nil. *)
From Verif Require Import Base StrModel ConvModel.
From Verif Require AttachModel ParaModel.
Local Open Scope Z_scope.

(** asOneNode, 355-366: a list of statements or document must have one child; [Throw] is the failed assertion. *)
Fixpoint as_one_node (s : sem) : outcome sem :=
  match s with
  | Sem oStmtList _ _ [x] _ | Sem oDocument _ _ [x] _ => as_one_node x
  | Sem oStmtList _ _ _ _ | Sem oDocument _ _ _ _ => Throw
  | _ => Ok s
  end.

Definition set_subs (s : sem) (l : list sem) : sem := let 'Sem k d f _ a := s in Sem k d f l a.

Section Lists.
  (** getCleanText, of the header *)
  Variable clean : sem -> str.

  (** ListItem::getCleanHeader, SemOrgSharedApi.cpp:919 *)
  Definition clean_header (x : sem) : option str := option_map clean (AttachModel.field_of FHeader (sfields x)).
  Definition is_named (t : str) (x : sem) : bool :=
    is_a oListItem x && AttachModel.is_description_item x
    && match clean_header x with Some h => AttachModel.eqs h t | None => false end.
  (** getListHeaderIndex, 368-377; [i] is the index of the loop *)
  Fixpoint header_index_from (i : Z) (t : str) (l : list sem) : Z :=
    match l with [] => -1 | x :: r => if is_named t x then i else header_index_from (i + 1) t r end.
  Definition header_index (s : sem) (t : str) : Z := header_index_from 0 t (ssubs s).
End Lists.

(** setListItemBody, 379-384: std::vector::at throws out of its range, a negative index being a large one; SemId::as
    throws for another kind (SemOrgBase.hpp:137-147). *)
Fixpoint set_nth_body (n : nat) (v : list sem) (l : list sem) : outcome (list sem) :=
  match l, n with
  | [], _ => Throw
  | x :: r, O => if is_a oListItem x then Ok (set_subs x v :: r) else Throw
  | x :: r, S n => omap (cons x) (set_nth_body n v r)
  end.
Definition set_item_body (s : sem) (i : Z) (v : list sem) : outcome sem :=
  if i <? 0 then Throw else omap (set_subs s) (set_nth_body (Z.to_nat i) v (ssubs s)).

(** std::vector::insert at begin() + index: undefined outside of the vector. *)
Definition insert_at (i : Z) (x : sem) (l : list sem) : outcome (list sem) :=
  if (i <? 0) || (Z.of_nat (length l) <? i) then UB else Ok (firstn (Z.to_nat i) l ++ x :: skipn (Z.to_nat i) l).
(** insertDescriptionListItem, 387-396 *)
Definition insert_description (s : sem) (i : Z) (h : sem) (v : list sem) : outcome sem :=
  omap (set_subs s) (insert_at i (Sem oListItem nothing [(FHeader, h)] v []) (ssubs s)).
(** insertListItemBody, 399-403 *)
Definition insert_body (s : sem) (i : Z) (v : list sem) : outcome sem :=
  omap (set_subs s) (insert_at i (Sem oListItem nothing [] v []) (ssubs s)).

(** getCreationTime, 213-230. Of a paragraph: the first time of its lead; [time] gives the time of a node. *)
Definition paragraph_created (time : ParaModel.node -> nat) (l : list ParaModel.node) : option nat :=
  match ParaModel.timestamp_nodes l with x :: _ => Some (time x) | [] => None end.
Definition only_kind (k : ParaModel.pkind) (j : ParaModel.pkind) : bool :=
  match k, j with ParaModel.Created, ParaModel.Created | ParaModel.Titled, ParaModel.Titled => true | _, _ => false end.
(** Of a heading: 217-227 *)
Definition heading_created (h : ParaModel.subtree) : option nat :=
  match ParaModel.periods (only_kind ParaModel.Created) h with
  | p :: _ => Some (ParaModel.from p)
  | [] => match ParaModel.periods (only_kind ParaModel.Titled) h with p :: _ => Some (ParaModel.from p) | [] => None end
  end.

(** eachSubnodeRecSimplePath, 405-417, on trees of what getAllSubnodes gives; a visit is a node with its path. *)
Inductive tree := Tree (x : nat) (subs : list tree).
Fixpoint walk (path : list tree) (t : tree) : list (tree * list tree) :=
  match t with Tree _ l => (t, path) :: flat_map (walk (path ++ [t])) l end.
