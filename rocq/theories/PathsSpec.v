(** The places of a node. *)
From Coq Require Import List Bool Arith Lia Permutation.
From Verif Require Import Base ImmModel ImmSpec PathsModel.
Import ListNotations.
Local Open Scope nat_scope.

(** What happened to a context, latest first: a node was added, or a node was
    put in place of another. *)
Inductive event := Added (id : nat) | Replaced (old new : nat).
(** Nodes that were added, or put in place of another node, and not replaced
    since. *)
Fixpoint current (log : list event) (q : nat) : Prop :=
  match log with
  | [] => False
  | Added i :: log' => q = i \/ current log' q
  | Replaced o i :: log' => q = i \/ (q <> o /\ current log' q)
  end.

(** Node values that may be stored: fields shaped as their types say,
    references to stored nodes. *)
Definition fits (s : store) (n : node) : Prop :=
  well_shaped (map fst (subs n)) /\ forall st i, In (st, i) (subs n) -> i <= length s.

Section Spec.
  Variable tracked_kind : nat -> bool.

  (** All contexts that can be reached, with what happened. *)
  Inductive history : list node -> (nat -> list nat) -> list event -> Prop :=
  | h_empty : history [] (fun _ => []) []
  | h_add : forall s pm log n s' pm' id, history s pm log -> fits s n ->
      track_add tracked_kind s pm n = (s', pm', id) -> history s' pm' (Added id :: log)
  | h_set : forall s pm log old n s' pm' id, history s pm log -> fits s n ->
      track_set tracked_kind s pm old n = (s', pm', id) -> history s' pm' (Replaced old id :: log).

  (** [q] has [t] as the subnode at step [st], and both kinds take part in
      tracking. *)
  Definition holds (s : store) (q : nat) (st : step) (t : nat) : Prop :=
    exists n, node_at s q = Some n /\ In (st, t) (subs n) /\ tracked tracked_kind s q = true /\ tracked tracked_kind s t = true.

  (** From [r] over current nodes along the path to [t]. *)
  Inductive leads (s : store) (log : list event) (r : nat) : path -> nat -> Prop :=
  | leads_here : leads s log r [] r
  | leads_down : forall p q st t, leads s log r p q -> current log q -> holds s q st t -> leads s log r (p ++ [st]) t.
  Definition top (s : store) (log : list event) (r : nat) : Prop :=
    forall q st, current log q -> holds s q st r -> False.
End Spec.

(** Trees in which nodes of kinds that take no part have no children. *)
Fixpoint leafy (tracked_kind : nat -> bool) (t : tree) : Prop :=
  match t with
  | Nil => False
  | Node k _ _ kids => (tracked_kind k = false -> kids = []) /\
      (fix all (l : list (step * tree)) : Prop :=
         match l with [] => True | c :: l' => leafy tracked_kind (snd c) /\ all l' end) kids
  end.

(** Both hash-map order and the order left by the sort are any at all. *)
Definition any_order {A} (f : list A -> list A) : Prop := forall l, Permutation l (f l).

(** No stored node of a kind that takes no part has children. *)
Definition leaves (tracked_kind : nat -> bool) (s : store) : Prop :=
  forall id n, node_at s id = Some n -> tracked_kind (kind n) = false -> subs n = [].
(** No stored node refers to [r]. *)
Definition unreferred (s : store) (r : nat) : Prop :=
  forall q n st, node_at s q = Some n -> ~ In (st, r) (subs n).

(** Importing several documents into a fresh context. *)
Fixpoint imports (tracked_kind : nat -> bool) (s : store) (pm : nat -> list nat) (ts : list tree) :
    list node * (nat -> list nat) :=
  match ts with
  | [] => (s, pm)
  | t :: ts' => let '(s1, pm1, _) := track_tree tracked_kind s pm t in imports tracked_kind s1 pm1 ts'
  end.
