(** Attributes, properties and hashtags: src/haxorg/sem/SemOrgApi.cpp,
    src/haxorg/sem/SemOrgSharedApi.cpp, src/haxorg/sem/SemConvert.cpp.

    Simplified: the values of attributes and properties are numbers; an
    unordered map is an association list whose order stands for the iteration
    order; the 22 property kinds without a name are their kind and a value. *)
From Coq Require Import String Ascii.
From Verif Require Import Base StrModel.
Local Open Scope nat_scope.

(** A literal as the list of its bytes. *)
Fixpoint lit (s : string) : str :=
  match s with EmptyString => [] | String a s' => Z.of_N (N_of_ascii a) :: lit s' end.

Definition str_dec (a b : str) : {a = b} + {a <> b} := list_eq_dec Z.eq_dec a b.
Definition str_eqb (a b : str) : bool := if str_dec a b then true else false.
Definition opt_eqb (a b : option str) : bool :=
  match a, b with Some x, Some y => str_eqb x y | None, None => true | _, _ => false end.

(** ** Attributes *)
Record attr := Attr { aname : option str; aval : nat }.
(** SemOrgSharedTypes.hpp:656-682 AttrGroup *)
Record group := Group { positional : list attr; named : list (str * list attr) }.
Definition no_attrs : group := Group [] [].

Fixpoint lookup {A} (m : list (str * A)) (k : str) : option A :=
  match m with [] => None | (k', v) :: m' => if str_eqb k' k then Some v else lookup m' k end.
(** insert_or_assign *)
Fixpoint assign {A} (m : list (str * A)) (k : str) (v : A) : list (str * A) :=
  match m with
  | [] => [(k, v)]
  | (k', v') :: m' => if str_eqb k' k then (k', v) :: m' else (k', v') :: assign m' k v
  end.

(** SemConvert.cpp:1147-1160 addArgument *)
Definition add_argument (g : group) (a : attr) : group :=
  match aname a with
  | Some n =>
      let key := normalize n in
      match lookup (named g) key with
      | Some items => Group (positional g) (assign (named g) key (items ++ [a]))
      | None => Group (positional g) (named g ++ [(key, [a])])
      end
  | None => Group (positional g ++ [a]) (named g)
  end.
(** convertAttrs: one argument after the other *)
Definition attrs_of (l : list attr) : group := fold_left add_argument l no_attrs.

(** std::string::operator< *)
Fixpoint str_ltb (a b : str) : bool :=
  match a, b with
  | _, [] => false
  | [], _ :: _ => true
  | x :: a', y :: b' => if (x <? y)%Z then true else if (x =? y)%Z then str_ltb a' b' else false
  end.
(** sorted(named.keys()); keys are distinct, so every correct sort agrees. *)
Fixpoint key_insert {A} (x : str * A) (l : list (str * A)) : list (str * A) :=
  match l with [] => [x] | y :: l' => if str_ltb (fst x) (fst y) then x :: l else y :: key_insert x l' end.
Definition by_key {A} (l : list (str * A)) : list (str * A) := fold_right key_insert [] l.

(** SemOrgApi.cpp:36-40 getFlatArgs; getAll (95-104) is the same list *)
Definition flat_args (g : group) : list attr := positional g ++ concat (map snd (by_key (named g))).
(** SemOrgApi.cpp:42-53 AttrGroup::getAttrs *)
Definition get_attrs (g : group) (param : option str) : list attr :=
  match param with
  | Some p => match lookup (named g) (normalize p) with Some items => items | None => [] end
  | None => flat_args g
  end.
(** SemOrgApi.cpp:140-144 *)
Definition set_named (g : group) (k : str) (l : list attr) : group := Group (positional g) (assign (named g) (normalize k) l).
Definition set_positional (g : group) (l : list attr) : group := Group l (named g).

(** What is attached to a statement: an attribute line or something else. *)
Inductive attached := AttrLine (g : group) | Caption.
(** SemOrgSharedApi.cpp:420-436 Stmt_getAttrs *)
Definition stmt_attrs (att : list attached) (param : option str) : list attr :=
  flat_map (fun x => match x with AttrLine g => get_attrs g param | Caption => [] end) att.
(** SemOrgSharedApi.cpp:553-560 Cmd_getAttrs; isBoolFalse of an AttrGroup is the
    default value_metadata::isEmpty, constantly false (basic_templates.hpp:92-95). *)
Definition cmd_attrs (own : group) (att : list attached) (param : option str) : list attr :=
  get_attrs own param ++ stmt_attrs att param.
(** SemOrgSharedApi.cpp:562-572 Stmt_getFirstAttr *)
Definition stmt_first (att : list attached) (k : str) : option attr := hd_error (stmt_attrs att (Some k)).
(** SemOrgSharedApi.cpp:574-587 Cmd_getFirstAttr *)
Definition cmd_first (own : group) (att : list attached) (k : str) : option attr := hd_error (get_attrs own (Some k)).

(** ** Properties *)
Inductive prop :=
| PArgs (name : str) (sub : option str) (attrs : group)
| PRaw (name : str) (value : nat)
| PJson (name : str) (value : nat)
| PFlags (name : str) (value : nat)
| PExport (backend : str) (value : nat)
| PSimple (kindname : str) (value : nat).

(** getKind() == getKind() *)
Definition same_kind (p q : prop) : bool :=
  match p, q with
  | PArgs _ _ _, PArgs _ _ _ | PRaw _ _, PRaw _ _ | PJson _ _, PJson _ _ | PFlags _ _, PFlags _ _ | PExport _ _, PExport _ _ => true
  | PSimple k _, PSimple k' _ => str_eqb k k'
  | _, _ => false
  end.
(** fmt1(getKind()) *)
Definition kind_name (p : prop) : str :=
  match p with
  | PArgs _ _ _ => lit "CustomArgs" | PRaw _ _ => lit "CustomRaw" | PJson _ _ => lit "CustomSubtreeJson"
  | PFlags _ _ => lit "CustomSubtreeFlags" | PExport _ _ => lit "ExportOptions" | PSimple k _ => k
  end.
(** SemOrgApi.cpp:216-230 *)
Definition prop_name (p : prop) : str := match p with PRaw n _ => n | _ => kind_name p end.
Definition prop_sub (p : prop) : option str := match p with PExport b _ => Some b | _ => None end.

(** SemOrgApi.cpp:232-257 isMatching *)
Definition matching (p : prop) (kind : str) (sub : option str) : bool :=
  let generic := str_eqb (normalize (kind_name p)) (normalize kind) in
  match p with
  | PRaw n _ => str_eqb (normalize n) (normalize kind)
  | PArgs n _ _ => str_eqb (normalize n) (normalize kind)
  | PJson n _ =>
      if str_eqb (normalize kind) (normalize (lit "propjson")) then
        match sub with None => true | Some s => str_eqb (normalize n) (normalize s) end
      else generic
  | PFlags n _ =>
      if str_eqb (normalize kind) (normalize (lit "propargs")) then
        match sub with None => true | Some s => str_eqb (normalize n) (normalize s) end
      else generic
  | PExport b _ =>
      generic || match sub with Some s => str_eqb (normalize b) (normalize s) | None => false end
  | PSimple _ _ => generic
  end.

(** SemOrgSharedApi.cpp:74-97, 666-717: the properties of a heading or of the
    options of a document. *)
Definition get_properties (ps : list prop) (kind : str) (sub : option str) : list prop :=
  filter (fun p => matching p kind sub) ps.
Definition get_property (ps : list prop) (kind : str) (sub : option str) : option prop :=
  hd_error (get_properties ps kind sub).

(** SemOrgApi.cpp:207-214 removeProperty: from the back, erasing in place. *)
Definition remove_property (ps : list prop) (kind : str) (sub : option str) : list prop :=
  filter (fun p => negb (str_eqb (prop_name p) kind && opt_eqb (prop_sub p) sub)) ps.
Record heading := Heading { tree_id : option nat; hprops : list prop }.
(** SemOrgApi.cpp:186-199 setPropertyStrValue *)
Definition set_str (h : heading) (v : nat) (kind : str) (sub : option str) : heading :=
  if str_eqb (normalize kind) (lit "id") then Heading (Some v) (hprops h)
  else Heading (tree_id h) (remove_property (hprops h) kind sub ++ [PRaw kind v]).
(** SemOrgApi.cpp:201-204 setProperty *)
Definition set_property (h : heading) (p : prop) : heading :=
  Heading (tree_id h) (remove_property (hprops h) (prop_name p) (prop_sub p) ++ [p]).

(** SemOrgSharedApi.cpp:1006-1041: one inner definition on top of the outer ones. *)
Definition combine_step (res p : prop) : outcome prop :=
  if same_kind res p then
    match res, p with
    | PArgs n s g, PArgs n' _ g' =>
        if str_eqb n n' then
          let g1 := match positional g' with [] => g | l => set_positional g l end in
          Ok (PArgs n s (fold_left (fun acc (kv : str * list attr) => set_named acc (fst kv) (snd kv)) (named g') g1))
        else Throw
    | _, _ => Ok p
    end
  else Throw.
Fixpoint combine_loop (res : prop) (l : list prop) : outcome prop :=
  match l with [] => Ok res | p :: l' => obind (combine_step res p) (fun r => combine_loop r l') end.
(** SemOrgSharedApi.cpp:993-1045 Org_combinePropertyStack *)
Definition combine_stack (l : list prop) : outcome (option prop) :=
  match l with [] => Ok None | p :: l' => omap Some (combine_loop p l') end.
(** SemOrgSharedApi.cpp:1073-1086 Org_getFinalProperty; a node is its properties
    (none unless it is a heading or a document, 1047-1071). *)
Definition final_property (nodes : list (list prop)) (kind : str) (sub : option str) : outcome (option prop) :=
  combine_stack (flat_map (fun ps => match get_property ps kind sub with Some p => [p] | None => [] end) nodes).

(** ** Hashtags *)
(** SemOrgSharedTypes.hpp HashTagText *)
Inductive hashtag := HashTag (head : nat) (subtags : list hashtag).
(** SemOrgApi.cpp:146-160 prefixMatch *)
Fixpoint prefix_match (t : hashtag) (p : list nat) {struct t} : bool :=
  match t with
  | HashTag h subs =>
      match p with
      | [] => true
      | x :: p' =>
          if Nat.eqb x h then match p' with [] => true | _ => existsb (fun s => prefix_match s p') subs end
          else false
      end
  end.
Definition path_eqb (a b : list nat) : bool := if list_eq_dec Nat.eq_dec a b then true else false.
(** SemOrgApi.cpp:162-184 getFlatHashes; the state is [visited]. *)
Fixpoint flat_aux (inter : bool) (t : hashtag) (parents : list nat) (visited : list (list nat)) {struct t}
  : list (list nat) * list (list nat) :=
  match t with
  | HashTag h subs =>
      let fresh := inter && negb (match parents with [] => true | _ => false end) && negb (existsb (path_eqb parents) visited) in
      let pre := if fresh then [parents] else [] in
      let vis := if fresh then parents :: visited else visited in
      match subs with
      | [] => (pre ++ [parents ++ [h]], vis)
      | _ =>
          (fix go (l : list hashtag) (acc vis : list (list nat)) {struct l} : list (list nat) * list (list nat) :=
             match l with
             | [] => (acc, vis)
             | s :: l' => let r := flat_aux inter s (parents ++ [h]) vis in go l' (acc ++ fst r) (snd r)
             end) subs pre vis
      end
  end.
Definition flat_hashes (t : hashtag) (inter : bool) : list (list nat) := fst (flat_aux inter t [] []).
