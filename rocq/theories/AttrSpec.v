(** What C46 and C61-C63 speak about. *)
From Coq Require Import String.
From Verif Require Import Base StrModel AttrModel.
Local Open Scope nat_scope.

(** Two spellings of one name: equal up to case and punctuation. *)
Definition same_name (a b : str) : Prop := normalize a = normalize b.

(** Attributes called [k], and those without a name. *)
Definition called (k : str) (a : attr) : bool :=
  match aname a with Some n => if str_dec (normalize n) k then true else false | None => false end.
Definition unnamed (a : attr) : bool := match aname a with Some _ => false | None => true end.

(** Dictionary order. *)
Inductive str_lt : str -> str -> Prop :=
| sl_nil y b : str_lt [] (y :: b)
| sl_head x y a b : (x < y)%Z -> str_lt (x :: a) (y :: b)
| sl_tail x a b : str_lt a b -> str_lt (x :: a) (x :: b).

(** A group as it comes out of the text: keys normalised and distinct. *)
Definition proper (g : group) : Prop :=
  NoDup (map fst (named g)) /\ forall k v, In (k, v) (named g) -> normalize k = k.

(** The last value along a stack, outermost first. *)
Definition last_def {A B} (f : A -> option B) (l : list A) (r : option B) : Prop :=
  match r with
  | Some v => exists l1 x l2, l = l1 ++ x :: l2 /\ f x = Some v /\ forall y, In y l2 -> f y = None
  | None => forall y, In y l -> f y = None
  end.
Definition positional_def (g : group) : option (list attr) := match positional g with [] => None | l => Some l end.
Definition named_def (k : str) (g : group) : option (list attr) := lookup (named g) k.

(** Definitions of one property: of the same kind, custom arguments with the
    same name in the same spelling. *)
Definition compatible (p q : prop) : Prop :=
  match p, q with
  | PArgs n _ _, PArgs n' _ _ => n = n'
  | PRaw _ _, PRaw _ _ | PJson _ _, PJson _ _ | PFlags _ _, PFlags _ _ | PExport _ _, PExport _ _ => True
  | PSimple k _, PSimple k' _ => k = k'
  | _, _ => False
  end.

(** A property answers a query: text properties and custom arguments by their
    name; JSON and flag properties as "propjson" and "propargs" with, if asked
    for, their name as subkind; export options also by their backend alone;
    otherwise by the name of the kind. *)
Inductive answers : prop -> str -> option str -> Prop :=
| an_raw n v kind sub : same_name n kind -> answers (PRaw n v) kind sub
| an_args n s g kind sub : same_name n kind -> answers (PArgs n s g) kind sub
| an_simple k v kind sub : same_name k kind -> answers (PSimple k v) kind sub
| an_json n v kind : same_name kind (lit "propjson") -> answers (PJson n v) kind None
| an_json_sub n v kind s : same_name kind (lit "propjson") -> same_name n s -> answers (PJson n v) kind (Some s)
| an_json_kind n v kind sub : same_name kind (lit "CustomSubtreeJson") -> answers (PJson n v) kind sub
| an_flags n v kind : same_name kind (lit "propargs") -> answers (PFlags n v) kind None
| an_flags_sub n v kind s : same_name kind (lit "propargs") -> same_name n s -> answers (PFlags n v) kind (Some s)
| an_flags_kind n v kind sub : same_name kind (lit "CustomSubtreeFlags") -> answers (PFlags n v) kind sub
| an_export b v kind sub : same_name kind (lit "ExportOptions") -> answers (PExport b v) kind sub
| an_export_sub b v kind s : same_name b s -> answers (PExport b v) kind (Some s).

(** ** Hashtags *)
(** [p] leads from the root to a node. *)
Inductive tag_path : hashtag -> list nat -> Prop :=
| tp_here h subs : tag_path (HashTag h subs) [h]
| tp_sub h subs s p : In s subs -> tag_path s p -> tag_path (HashTag h subs) (h :: p).
(** [p] leads to a node with subtags. *)
Inductive inner_path : hashtag -> list nat -> Prop :=
| ip_here h s subs : inner_path (HashTag h (s :: subs)) [h]
| ip_sub h subs s p : In s subs -> inner_path s p -> inner_path (HashTag h subs) (h :: p).
(** The paths to the leaves, from left to right. *)
Inductive leaves : hashtag -> list (list nat) -> Prop :=
| lv_leaf h : leaves (HashTag h []) [[h]]
| lv_node h subs ls : subs <> [] -> Forall2 leaves subs ls -> leaves (HashTag h subs) (map (cons h) (concat ls)).
