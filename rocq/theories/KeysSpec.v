(** Which node a key should lead to. *)
From Coq Require Import List Bool Arith Lia.
From Verif Require Import Base PathsSpec KeysModel.
Import ListNotations.
Local Open Scope nat_scope.

(** The maps after a history, latest event first. *)
Fixpoint after (fc : nat -> facts) (log : list event) : outcome maps :=
  match log with
  | [] => Ok no_maps
  | Added i :: log' => obind (after fc log') (fun m => added fc m i)
  | Replaced o i :: log' => obind (after fc log') (fun m => replaced fc m o i)
  end.

Section Spec.
  Variable fc : nat -> facts.
  (** The keys of a node. *)
  Definition named (q k : nat) : Prop := In k (names_of (fc q)).
  Definition has_id (q k : nat) : Prop :=
    match part_of (fc q) with Subtree (Some i) _ _ _ => i = k | _ => False end.
  Definition has_custom (q k : nat) : Prop :=
    match part_of (fc q) with Subtree _ cs _ _ => In k cs | _ => False end.
  Definition has_foot (q k : nat) : Prop :=
    match part_of (fc q) with Paragraph (Some f) _ => f = k | _ => False end.
  Definition defines (q k : nat) : Prop :=
    match part_of (fc q) with Subtree _ _ _ tags => In k tags | _ => False end.
  (** First word and target of the radio targets of a node. *)
  Definition first_of (x : nat * list nat) : nat * nat := (hd 0 (snd x), fst x).
  Definition radio_of (q : nat) : list (nat * nat) :=
    match part_of (fc q) with
    | Subtree _ _ rs _ => map (fun ws => (hd 0 ws, q)) rs
    | Paragraph _ ts => map first_of ts
    | Other => []
    end.
  (** Radio targets of a node have words, and are different from each other in
      target or first word. *)
  Definition radio_fine (q : nat) : Prop := NoDup (radio_of q) /\
    match part_of (fc q) with
    | Subtree _ _ rs _ => forall ws, In ws rs -> ws <> []
    | Paragraph _ ts => forall t ws, In (t, ws) ts -> ws <> []
    | Other => True
    end.

  (** No two current nodes have a key in common. *)
  Definition apart (log : list event) : Prop := forall q q', current log q -> current log q' ->
    (exists k, (named q k /\ named q' k) \/ (has_id q k /\ has_id q' k) \/ (has_custom q k /\ has_custom q' k) \/
               (has_foot q k /\ has_foot q' k) \/ (defines q k /\ defines q' k)) \/
    (exists x, In x (radio_of q) /\ In x (radio_of q')) -> q = q'.
  (** At all times so; what is replaced was there. *)
  Fixpoint orderly (log : list event) : Prop :=
    match log with
    | [] => True
    | Added i :: log' => orderly log' /\ apart log /\ radio_fine i
    | Replaced o i :: log' => orderly log' /\ apart log /\ radio_fine i /\ current log' o
    end.
End Spec.
