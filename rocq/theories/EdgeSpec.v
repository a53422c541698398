(** Vocabulary for the edge collection theorems, in terms of its queries. *)
From Coq Require Import List Bool Arith Permutation.
From Verif Require Import Base HierModel HierSpec EdgeModel.
Import ListNotations.

(** [e] is a tracked edge running from [s] to [t]. *)
Definition runs (c : ecoll) (e s t : nat) : Prop :=
  In e (e_edges c) /\ e_source c e = Some s /\ e_target c e = Some t.

(** Every single-edge removal request of the history concerns an edge without
    parallel edges at that time. *)
Definition removal_ok (c : ecoll) (o : eop) : Prop :=
  match o with
  | EUntrack id => forall e s t, runs c e s t -> e_source c id = Some s -> e_target c id = Some t -> e = id
  | _ => True
  end.
Fixpoint no_parallel_removal (ord : list nat -> list nat) (c : ecoll) (os : list eop) : Prop :=
  match os with
  | [] => True
  | o :: os' => removal_ok c o /\ no_parallel_removal ord (fst (estep ord c o)) os'
  end.
