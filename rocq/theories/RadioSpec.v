(** What a radio hit is, what a grouping is. *)
From Coq Require Import List Bool Arith Lia.
From Verif Require Import Base RadioModel.
Import ListNotations.
Local Open Scope nat_scope.

(** The nodes spell the words in order; spaces between the words do not
    count. *)
Inductive matches : list nat -> list child -> Prop :=
| m_last : forall sp w, matches [w] [Leaf sp w]
| m_word : forall sp w ws l, matches ws l -> matches (w :: ws) (Leaf sp w :: l)
| m_space : forall t w ws l, t <> w -> matches (w :: ws) l -> matches (w :: ws) (Leaf true t :: l).
Definition starts_with (ws : list nat) (sub : list child) : Prop := exists l rest, sub = l ++ rest /\ matches ws l.

(** The text ends before all words were seen. *)
Inductive cut_short : list nat -> list child -> Prop :=
| u_end : forall w ws, cut_short (w :: ws) []
| u_word : forall sp w ws l, cut_short ws l -> cut_short (w :: ws) (Leaf sp w :: l)
| u_space : forall t w ws l, t <> w -> cut_short (w :: ws) l -> cut_short (w :: ws) (Leaf true t :: l).

(** The word lists behind tracked ids, in order. *)
Definition candidates (info : nat -> target) (ids : list nat) : list (nat * list nat) :=
  flat_map (fun id => match info id with
                      | Radio ws => [(id, ws)]
                      | Heading wss => map (pair id) wss
                      | Stray => []
                      end) ids.
Definition candidates_at (info : nat -> target) (radio : mapping (list nat)) (sub : list child) : list (nat * list nat) :=
  match sub with
  | Leaf false t :: _ => match get radio t with Some ids => candidates info ids | None => [] end
  | _ => []
  end.

Definition members (g : group) : list child :=
  match g with Single c => [c] | RadioHit _ l => l | TrackedTag c _ => [c] end.

(** A correct grouping: from the left, the first candidate that the text
    starts with makes a hit; hashtags with definitions are hits of their own;
    every other node stands alone. *)
Inductive grouped (info : nat -> target) (radio : mapping (list nat)) (tags : mapping nat) : list child -> list group -> Prop :=
| gr_nil : grouped info radio tags [] []
| gr_hit : forall sub pre id ws post l rest gs,
    candidates_at info radio sub = pre ++ (id, ws) :: post -> (forall x, In x pre -> ~ starts_with (snd x) sub) ->
    sub = l ++ rest -> matches ws l -> grouped info radio tags rest gs ->
    grouped info radio tags sub (RadioHit id l :: gs)
| gr_tag : forall flat hits sub gs, (exists f, In f flat /\ get tags f <> None) ->
    (forall f t, get hits f = Some t <-> In f flat /\ get tags f = Some t) ->
    grouped info radio tags sub gs -> grouped info radio tags (Tag flat :: sub) (TrackedTag (Tag flat) hits :: gs)
| gr_single : forall c sub gs,
    (forall x, In x (candidates_at info radio (c :: sub)) -> ~ starts_with (snd x) (c :: sub)) ->
    (forall flat f, c = Tag flat -> In f flat -> get tags f = None) ->
    grouped info radio tags sub gs -> grouped info radio tags (c :: sub) (Single c :: gs).

(** ** Tracking *)
(** Every entry points to a node that has the key. *)
Definition entries_true (facts_of : nat -> facts) (t : track) : Prop :=
  (forall k id, get (t_names t) k = Some id -> In k (f_names (facts_of id))) /\
  (forall k id, get (t_subtrees t) k = Some id -> f_subtree (facts_of id) = Some k) /\
  (forall k id, get (t_custom t) k = Some id -> In k (f_custom (facts_of id))) /\
  (forall k id, get (t_foot t) k = Some id -> f_foot (facts_of id) = Some k) /\
  (forall k id, get (t_tags t) k = Some id -> In k (f_tags (facts_of id))) /\
  (forall w l rid, get (t_radio t) w = Some l -> In rid l -> exists id ws, In (w :: ws, rid) (f_radio (facts_of id))).
(** The node is found under all its keys. *)
Definition found (facts_of : nat -> facts) (t : track) (id : nat) : Prop :=
  (forall k, In k (f_names (facts_of id)) -> get (t_names t) k = Some id) /\
  (forall k, f_subtree (facts_of id) = Some k -> get (t_subtrees t) k = Some id) /\
  (forall k, In k (f_custom (facts_of id)) -> get (t_custom t) k = Some id) /\
  (forall k, f_foot (facts_of id) = Some k -> get (t_foot t) k = Some id) /\
  (forall k, In k (f_tags (facts_of id)) -> get (t_tags t) k = Some id) /\
  (forall w ws rid, In (w :: ws, rid) (f_radio (facts_of id)) -> exists l, get (t_radio t) w = Some l /\ In rid l).
(** Two nodes share a key. *)
Definition share_key (f g : facts) : Prop :=
  (exists k, In k (f_names f) /\ In k (f_names g)) \/
  (exists k, f_subtree f = Some k /\ f_subtree g = Some k) \/
  (exists k, In k (f_custom f) /\ In k (f_custom g)) \/
  (exists k, f_foot f = Some k /\ f_foot g = Some k) \/
  (exists k, In k (f_tags f) /\ In k (f_tags g)) \/
  (exists ws ws' rid, In (ws, rid) (f_radio f) /\ In (ws', rid) (f_radio g)).
(** Nodes in the document that the events leave: added and not replaced. *)
Fixpoint remaining (es : list event) (live : list nat) : list nat :=
  match es with
  | [] => live
  | Added id :: es' => remaining es' (id :: live)
  | Replaced old new :: es' => remaining es' (new :: filter (fun x => negb (Nat.eqb x old)) live)
  end.
(** At each event the node is new to the document, or the same as one there, and
    otherwise shares no key with what is there. *)
Fixpoint no_clash (facts_of : nat -> facts) (es : list event) (live : list nat) : Prop :=
  match es with
  | [] => True
  | Added id :: es' =>
      (forall j, In j live -> j = id \/ ~ share_key (facts_of j) (facts_of id)) /\ no_clash facts_of es' (id :: live)
  | Replaced old new :: es' =>
      let live' := filter (fun x => negb (Nat.eqb x old)) live in
      (forall j, In j live' -> ~ share_key (facts_of j) (facts_of old)) /\
      (forall j, In j live' -> j = new \/ ~ share_key (facts_of j) (facts_of new)) /\
      no_clash facts_of es' (new :: live')
  end.

(** Every entry, but those for hashtags, is for a node of the document. *)
Definition entries_current (facts_of : nat -> facts) (t : track) (live : list nat) : Prop :=
  (forall k id, get (t_names t) k = Some id -> In id live) /\
  (forall k id, get (t_subtrees t) k = Some id -> In id live) /\
  (forall k id, get (t_custom t) k = Some id -> In id live) /\
  (forall k id, get (t_foot t) k = Some id -> In id live) /\
  (forall w l rid, get (t_radio t) w = Some l -> In rid l -> exists id ws, In id live /\ In (w :: ws, rid) (f_radio (facts_of id))).
