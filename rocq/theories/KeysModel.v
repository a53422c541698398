(** Looking nodes up by name, id, footnote and radio target: the other maps of
    ImmAstTrackingMap, src/haxorg/imm/ImmOrg.{hpp,cpp}.

    Simplified:
    - keys are numbers; the persistent maps are functions;
    - what a stored node is called (getName, getSubtreeProperties,
      getFootnoteName, subAs<ImmRadioTarget>, getFlatHashes) is a function of
      its id, since stored nodes never change (C36);
    - the edit context is applied at once to the maps it will become; an
      exception leaves no context. *)
From Coq Require Import List Bool Arith Lia.
From Verif Require Import Base PathsModel.
Import ListNotations.
Local Open Scope nat_scope.

(** What updateTracking reads of a node: the names of a statement; of a
    subtree its id, its custom ids, the words of its radio ids and the hash
    tags it defines; of a paragraph its footnote name and the radio targets
    right below it, with their words. *)
Inductive part :=
| Subtree (tree_id : option nat) (custom : list nat) (radio : list (list nat)) (tags : list nat)
| Paragraph (foot : option nat) (targets : list (nat * list nat))
| Other.
Record facts := mkF { names_of : list nat; part_of : part }.

(** ImmOrg.hpp:274-286 *)
Record maps := mkM {
  names : nat -> option nat; subtrees : nat -> option nat; customs : nat -> option nat; foots : nat -> option nat;
  tagdefs : nat -> option nat; radios : nat -> list nat }.
Definition no_maps : maps :=
  mkM (fun _ => None) (fun _ => None) (fun _ => None) (fun _ => None) (fun _ => None) (fun _ => []).

Definition put (m : nat -> option nat) (k : nat) (v : option nat) : nat -> option nat :=
  fun x => if Nat.eqb x k then v else m x.
(** set(key, node) or erase(key), for each key. *)
Fixpoint put_all (m : nat -> option nat) (ks : list nat) (v : option nat) : nat -> option nat :=
  match ks with [] => m | k :: ks' => put_all (put m k v) ks' v end.
Definition keys_of (o : option nat) : list nat := match o with Some k => [k] | None => [] end.

(** ImmOrg.cpp:611-648 edit_radio_targets.  No entry is an empty vector here;
    an entry is erased when its vector gets empty. *)
Definition edit_radio (rt : nat -> list nat) (words : list nat) (target : nat) (add : bool) : outcome (nat -> list nat) :=
  match words with
  | [] => Throw
  | word :: _ =>
      if add then
        Ok (if existsb (Nat.eqb target) (rt word) then rt else upd rt word (rt word ++ [target]))
      else if existsb (Nat.eqb target) (rt word) then Ok (upd rt word (take_out target (rt word))) else Throw
  end.
Fixpoint edit_radios (rt : nat -> list nat) (l : list (nat * list nat)) (add : bool) : outcome (nat -> list nat) :=
  match l with
  | [] => Ok rt
  | (target, words) :: l' => obind (edit_radio rt words target add) (fun rt' => edit_radios rt' l' add)
  end.

(** ImmOrg.cpp:609-754 updateTracking.  Hash tags are set in both cases
    (lines 722-730). *)
Definition update_tracking (fc : nat -> facts) (m : maps) (node : nat) (add : bool) : outcome maps :=
  let v := if add then Some node else None in
  let nm := put_all (names m) (names_of (fc node)) v in
  match part_of (fc node) with
  | Subtree tid cs rs tags =>
      omap (mkM nm (put_all (subtrees m) (keys_of tid) v) (put_all (customs m) cs v) (foots m)
                (put_all (tagdefs m) tags (Some node)))
           (edit_radios (radios m) (map (fun words => (node, words)) rs) add)
  | Paragraph foot ts =>
      omap (mkM nm (subtrees m) (customs m) (put_all (foots m) (keys_of foot) v) (tagdefs m)) (edit_radios (radios m) ts add)
  | Other => Ok (mkM nm (subtrees m) (customs m) (foots m) (tagdefs m) (radios m))
  end.

(** ImmOrgStore.cpp:474 (add) and 81-82 (setNode) *)
Definition added (fc : nat -> facts) (m : maps) (id : nat) : outcome maps := update_tracking fc m id true.
Definition replaced (fc : nat -> facts) (m : maps) (old new : nat) : outcome maps :=
  obind (update_tracking fc m old false) (fun m' => update_tracking fc m' new true).
