(** What C41 speaks about. *)
From Coq Require Import List Bool Arith.
From Verif Require Import Base MmapModel.
Import ListNotations.

(** What any search tree gives for a search: nothing in the empty set; a key
    equivalent to the one searched if something is found; and something if all
    keys are equivalent to it. *)
Definition search_ok (found : list (uniq * uniq) -> uniq * uniq -> bool) : Prop :=
  (forall k, found [] k = false) /\
  (forall l k, found l k = true -> exists x, In x l /\ pair_less x k = false /\ pair_less k x = false) /\
  (forall l k, l <> [] -> (forall x, In x l -> pair_less x k = false /\ pair_less k x = false) -> found l k = true).

Section Spec.
  Variable links_of : uniq -> list uniq.
  Variable radios_of : uniq -> list uniq.
  Variable targets : uniq -> outcome (list uniq).

  (** [l] is a link or a radio mention of the node [u]. *)
  Definition item (u : uniq) (l : maplink) : Prop :=
    match l with Link k => In k (links_of u) | Radio t => In t (radios_of u) end.
  (** [l] refers to [t]. *)
  Definition refers (l : maplink) (t : uniq) : Prop :=
    match l with Link k => exists ts, targets k = Ok ts /\ In t ts | Radio t' => t' = t end.

  (** The references that adding [x] to the nodes [before] completes. *)
  Definition refs (u : uniq) : list uniq :=
    flat_map (fun k => match targets k with Ok ts => ts | _ => [] end) (links_of u) ++ radios_of u.
  Definition completed (before : list uniq) (x : uniq) : nat :=
    length (filter (fun t => if in_dec uniq_dec t (before ++ [x]) then true else false) (refs x)) +
    list_sum (map (fun u => count_occ uniq_dec (refs u) x) before).
End Spec.
