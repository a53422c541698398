(** What is attached to a statement, and the kinds of lists: src/haxorg/sem/SemOrgSharedApi.cpp:589-663, 719-751, on the
    converted trees of ConvModel.v. Line numbers are those of this file.

    Simplified: the attributes of a line are the list of them, in their order, and those of a name are found by going
    through it; that the map of C++ gives the same is C46. The text of a caption may be missing, as a nil node. *)
From Coq Require Import String.
From Verif Require Import Base StrModel ConvModel.
Local Open Scope nat_scope.

Definition eqs (a b : str) : bool := AttrModel.str_eqb a b.
(** CmdAttr::target, the first text of the node, see cmd_attr in ConvModel.v *)
Definition target_of (x : sem) : str := match dtext (sdata x) with t :: _ => t | [] => [] end.
(** The condition of the loop of Stmt_getAttached, 600-614 *)
Definition chosen (kind : str) (x : sem) : bool :=
  let k := normalize kind in
  if is_a oCmdAttr x then
    (eqs (firstn 4 k) (lit "attr") && eqs (normalize (target_of x)) k) || eqs (normalize (lit "attr_" ++ target_of x)) k
  else if is_a oCmdCaption x && eqs (normalize k) (lit "caption") then true
  else is_a oCmdName x && eqs (normalize k) (lit "name").
(** Stmt_getAttached, 589-621 *)
Definition get_attached (s : sem) (kind : option str) : list sem :=
  match kind with Some k => filter (chosen k) (sattached s) | None => sattached s end.
(** Stmt_getCaption, 623-637 *)
Fixpoint field_of (f : fld) (l : list (fld * sem)) : option sem :=
  match l with [] => None | (g, x) :: r => match f, g with FText, FText | FHeader, FHeader => Some x | _, _ => field_of f r end end.
Definition get_caption (s : sem) : list (option sem) := map (fun c => field_of FText (sfields c)) (get_attached s (Some (lit "caption"))).
(** Stmt_getName, 639-652 *)
Definition get_name (s : sem) : list str := map target_of (get_attached s (Some (lit "name"))).
(** List_getListAttrs, 654-663, with AttrGroup::getAttrs, SemOrgApi.cpp:42-53 *)
Definition line_attrs (x : sem) : list attrv := match dattr (sdata x) with l :: _ => l | [] => [] end.
Definition has_key (kind : str) (a : attrv) : bool := match an a with Some n => eqs (normalize n) (normalize kind) | None => false end.
Definition list_attrs (s : sem) (kind : str) : list attrv :=
  flat_map (fun x => filter (has_key kind) (line_attrs x)) (get_attached s (Some (lit "attr_list"))).
(** ListItem_isDescriptionItem, 719-722 *)
Definition is_description_item (x : sem) : bool := match field_of FHeader (sfields x) with Some _ => true | None => false end.
(** List_isDescriptionList, 724-733 *)
Definition is_description_list (s : sem) : bool := existsb (fun x => is_a oListItem x && is_description_item x) (ssubs s).
(** List_isNumberedList, 735-751; the bullet is the first text of the item, see list_item in ConvModel.v *)
Definition is_numbered_list (s : sem) : bool :=
  existsb (fun x => is_a oListItem x && match dtext (sdata x) with _ :: _ => true | [] => false end) (ssubs s).
