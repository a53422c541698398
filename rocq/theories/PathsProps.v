(** C115: all places of a node are found (ImmAstContext::getPathsFor). *)
From Coq Require Import List Bool Arith Lia Permutation.
From Verif Require Import Base ImmModel ImmSpec ImmProofs ImmAssign ImmCascade ImmList PathsModel PathsSpec PathsProofs PathsTree.
Import ListNotations.
Local Open Scope nat_scope.

(** Whatever was imported and edited before, the call ends, and it answers
    with each way once that leads to the node from a node nothing refers to,
    over nodes that were not replaced since they were made. *)
Theorem C115_history : forall tk walk order s pm log fuel t, any_order walk -> any_order order ->
  history tk s pm log -> length s < fuel ->
  exists l, paths_for walk order fuel s pm t = Ok l /\ NoDup l /\
    (forall r p, In (r, p) l <-> p <> [] /\ leads tk s log r p t /\ top tk s log r) /\
    (forall r p, In (r, p) l -> id_at s r p = Ok t).
Proof.
  intros tk walk order s pm log fuel t Wk Or H F. apply history_inv in H.
  destruct (paths_for_ok tk walk order Wk Or s pm log H fuel t F) as (l & A & B & C). exists l. split; [exact A|]. split; [exact B|].
  split; [exact C|]. intros r p K. apply C in K. apply (leads_at tk s log); [apply H|tauto].
Qed.
Print Assumptions C115_history.

(** A document is imported into a fresh context: the answer for any node of a
    kind that takes part is exactly the list of its places in the document. *)
Theorem C115_document : forall tk walk order doc s pm root fuel t, any_order walk -> any_order order ->
  importable doc -> leafy tk doc -> track_tree tk [] (fun _ => []) doc = (s, pm, root) -> length s < fuel ->
  add_tree [] doc = (s, root) /\
  exists l, paths_for walk order fuel s pm t = Ok l /\ NoDup l /\
    (tracked tk s t = true -> forall r p, In (r, p) l <-> r = root /\ p <> [] /\ id_at s root p = Ok t) /\
    (tracked tk s t = false -> l = []).
Proof.
  intros tk walk order doc s pm root fuel t Wk Or Im Le E F.
  pose proof (track_tree_good tk doc [] (fun _ => []) []) as G. rewrite E in G.
  destruct G as (log & H & Wh & Lv & A & _ & R); [constructor|intros [|[|i]] n; discriminate|intros [|[|i]] n; discriminate|exact Im|exact Le|].
  split; [exact A|]. pose proof (history_inv _ _ _ _ H) as I.
  destruct (paths_for_ok tk walk order Wk Or s pm log I fuel t F) as (l & L1 & L2 & L3). exists l. split; [exact L1|]. split; [exact L2|].
  assert (TR : forall r, tracked tk s r = true -> top tk s log r -> 1 <= r <= length s -> r = root).
  { intros r Tr T B. pose proof (add_tree_referred tk doc [] r) as Q. rewrite A in Q. cbn [fst snd length] in Q.
    destruct Q as [Q|(q & n & st & Q1 & Q2)]; [lia|exact Q|]. exfalso. apply (T q st); [eauto|]. exists n. split; [exact Q1|]. split; [exact Q2|].
    split; [|exact Tr]. unfold tracked, kind_of. rewrite Q1. destruct (tk (kind n)) eqn:K; [reflexivity|]. rewrite (Lv _ _ Q1 K) in Q2. destruct Q2. }
  assert (NR : forall r, 1 <= r <= length s -> r <> root -> referred s r).
  { intros r B D. pose proof (add_tree_referred tk doc [] r) as Q. rewrite A in Q. cbn [fst snd length] in Q. destruct Q as [Q|Q]; [lia|congruence|exact Q]. }
  destruct I as (W & _ & _ & CL).
  assert (TOP : top tk s log root).
  { assert (M : forall k r, length s - r <= k -> 1 <= r <= length s -> r <= root).
    { induction k as [|k IH]; intros r K B.
      - destruct (Nat.eq_dec r root) as [->|D]; [lia|]. destruct (NR r B D) as (q & n & st & Q1 & Q2).
        pose proof (wf_sub _ _ _ _ _ W Q1 Q2). apply node_at_len in Q1. lia.
      - destruct (Nat.eq_dec r root) as [->|D]; [lia|]. destruct (NR r B D) as (q & n & st & Q1 & Q2).
        pose proof (wf_sub _ _ _ _ _ W Q1 Q2). apply node_at_len in Q1. specialize (IH q). lia. }
    intros q st C (n & Q1 & Q2 & _). pose proof (wf_sub _ _ _ _ _ W Q1 Q2). apply node_at_len in Q1.
    specialize (M (length s) q). lia. }
  split.
  - intros Tt r p. rewrite L3. split.
    + intros (P & Q & T). assert (r = root) as ->; [|split; [reflexivity|split; [exact P|now apply (leads_at tk s log)]]].
      pose proof (leads_tracked _ _ _ _ _ _ Q P) as [_ Tr]. apply TR; auto.
      destruct p as [|st p]; [congruence|]. apply leads_at in Q; [|exact W]. cbn in Q. unfold id_step in Q.
      destruct (node_at s r) as [n|] eqn:N; [now apply node_at_len in N|discriminate].
    + intros (-> & P & Q). split; [exact P|]. split; [|exact TOP]. apply at_leads; auto. intros p' q n _ N. eauto.
  - intros Tt. destruct l as [|[r p] l]; [reflexivity|]. exfalso. destruct (proj1 (L3 r p) (or_introl eq_refl)) as (P & Q & _).
    apply leads_tracked in Q; [|exact P]. destruct Q. congruence.
Qed.
Print Assumptions C115_document.

(** Any number of documents are imported one after another: the answer lists
    the places below every node nothing refers to. *)
Theorem C115_imports : forall tk walk order docs s pm fuel t, any_order walk -> any_order order ->
  Forall importable docs -> Forall (leafy tk) docs -> imports tk [] (fun _ => []) docs = (s, pm) -> length s < fuel ->
  tracked tk s t = true ->
  exists l, paths_for walk order fuel s pm t = Ok l /\ NoDup l /\
    forall r p, In (r, p) l <-> unreferred s r /\ p <> [] /\ id_at s r p = Ok t.
Proof.
  intros tk walk order docs s pm fuel t Wk Or Im Le E F Tt.
  pose proof (imports_good tk docs [] (fun _ => []) []) as G. rewrite E in G.
  destruct G as (log & H & Wh & Lv); [constructor|intros [|[|i]] n; discriminate|intros [|[|i]] n; discriminate|exact Im|exact Le|].
  pose proof (history_inv _ _ _ _ H) as I.
  destruct (paths_for_ok tk walk order Wk Or s pm log I fuel t F) as (l & L1 & L2 & L3). exists l. split; [exact L1|]. split; [exact L2|].
  intros r p. rewrite L3. split.
  - intros (P & Q & T). split; [|split; [exact P|apply (leads_at tk s log); [apply I|exact Q]]].
    intros q n st N K. apply (T q st); [eauto|]. exists n. split; [exact N|]. split; [exact K|]. split; [|now apply leads_tracked in Q].
    unfold tracked, kind_of. rewrite N. destruct (tk (kind n)) eqn:Kn; [reflexivity|]. rewrite (Lv _ _ N Kn) in K. destruct K.
  - intros (U & P & Q). split; [exact P|]. split; [apply at_leads; auto; intros p' q n _ N; eauto|].
    intros q st _ (n & N & K & _). exact (U q n st N K).
Qed.
Print Assumptions C115_imports.

(** After edits: in a document none of whose nodes was replaced, every place
    is found, each once. *)
Theorem C115_edited : forall tk walk order s pm log fuel t r, any_order walk -> any_order order ->
  history tk s pm log -> length s < fuel -> leaves tk s -> tracked tk s t = true ->
  top tk s log r -> (forall p q n, id_at s r p = Ok q -> node_at s q = Some n -> current log q) ->
  exists l, paths_for walk order fuel s pm t = Ok l /\ NoDup l /\
    forall p, In (r, p) l <-> p <> [] /\ id_at s r p = Ok t.
Proof.
  intros tk walk order s pm log fuel t r Wk Or H F Lv Tt T C.
  destruct (C115_history tk walk order s pm log fuel t Wk Or H F) as (l & A & B & D & E). exists l. split; [exact A|]. split; [exact B|].
  intros p. split.
  - intros K. split; [apply D in K; tauto|now apply E].
  - intros [P Q]. apply D. split; [exact P|]. split; [|exact T]. now apply at_leads.
Qed.
Print Assumptions C115_edited.

(** ** Examples.  Document (1), paragraph (3), bold (5), word (4); words take
    no part. *)
Definition no_words (k : nat) : bool := negb (Nat.eqb k 4).
Definition w (x : nat) : tree := Node 4 x 0 [].
Definition bold (x : nat) : tree := Node 5 0 0 [((0, Idx 0), w x)].
Definition para (l : list tree) : tree := Node 3 0 0 (combine (map (fun i => (0, Idx i)) (seq 0 (length l))) l).
Definition docu (l : list tree) : tree := Node 1 0 0 (combine (map (fun i => (0, Idx i)) (seq 0 (length l))) l).

(** The same bold word three times, in two paragraphs. *)
Definition pdoc : tree := docu [para [bold 7; w 8; bold 7]; para [w 9; bold 7]].
Lemma shape_idx n : well_shaped (map (fun i => (0, Idx i)) (seq 0 n)).
Proof.
  intros f. destruct f as [|f].
  - right. right. right. left. exists n. rewrite filter_id; [reflexivity|]. intros x H. apply in_map_iff in H. now destruct H as (i & <- & _).
  - left. apply filter_nil. intros x H. apply in_map_iff in H. now destruct H as (i & <- & _).
Qed.
Example C115_document_demo : exists s pm root,
  importable pdoc /\ leafy no_words pdoc /\ track_tree no_words [] (fun _ => []) pdoc = (s, pm, root) /\
  length s = 7 /\ root = 7 /\ tracked no_words s 2 = true /\
  paths_for (@rev _) (@rev _) 8 s pm 2 =
    Ok [(7, [(0, Idx 0); (0, Idx 2)]); (7, [(0, Idx 0); (0, Idx 0)]); (7, [(0, Idx 1); (0, Idx 1)])] /\
  paths_for (@rev _) (@rev _) 8 s pm 1 = Ok [] /\ paths_for (@rev _) (@rev _) 8 s pm 7 = Ok [] /\
  paths_for (@rev _) (@rev _) 8 s pm 6 = Ok [(7, [(0, Idx 1)])].
Proof.
  eexists. eexists. eexists. split; [|split; [|split; [reflexivity|vm_compute; repeat split]]].
  - pose proof (shape_idx 0). pose proof (shape_idx 1). pose proof (shape_idx 2). pose proof (shape_idx 3). cbn in *. tauto.
  - vm_compute. intuition discriminate.
Qed.

(** One paragraph of two is given other children: the changed paragraph is put
    in place of the old one, and then the document around it.  The places in
    the new document are found; the old version is no longer listed. *)
Definition pnew : node := mkN 3 0 0 [((0, Idx 0), 2); ((0, Idx 1), 3)].
Definition dnew : node := mkN 1 0 0 [((0, Idx 0), 8); ((0, Idx 1), 6)].
Example C115_edited_demo : exists s pm root s1 pm1 s2 pm2,
  track_tree no_words [] (fun _ => []) pdoc = (s, pm, root) /\
  track_set no_words s pm 4 pnew = (s1, pm1, 8) /\ track_set no_words s1 pm1 7 dnew = (s2, pm2, 9) /\
  set_subnodes s (mkU 4 7 [(0, Idx 0)]) [2; 3] = (s1, Ok (mkU 4 7 [(0, Idx 0)], mkU 8 7 [(0, Idx 0)])) /\
  (exists ep, cascade 9 stable_sort s1 7 (replacements 7 [([(0, Idx 0)], 4, 8)]) = (s2, Ok (9, ep))) /\
  paths_for (fun l => l) (fun l => l) 12 s2 pm2 2 =
    Ok [(9, [(0, Idx 1); (0, Idx 1)]); (9, [(0, Idx 0); (0, Idx 0)])].
Proof.
  do 7 eexists. split; [reflexivity|]. split; [reflexivity|]. split; [reflexivity|]. split; [reflexivity|].
  split; [eexists; vm_compute; reflexivity|vm_compute; reflexivity].
Qed.

(** Findings.  Two equal paragraphs are one stored node.  One of them is
    changed: the node is taken for replaced everywhere, and its contents, still
    shown at the other place of the new document, have no path at all. *)
Definition twins : tree := docu [para [bold 7]; para [bold 7]].
Theorem C115_twin_refuted : exists s pm s1 pm1 s2 pm2,
  track_tree no_words [] (fun _ => []) twins = (s, pm, 4) /\ importable twins /\ leafy no_words twins /\
  set_subnodes s (mkU 3 4 [(0, Idx 0)]) [1] = (s1, Ok (mkU 3 4 [(0, Idx 0)], mkU 5 4 [(0, Idx 0)])) /\
  (exists ep, cascade 9 stable_sort s1 4 (replacements 4 [([(0, Idx 0)], 3, 5)]) = (s2, Ok (6, ep))) /\
  track_set no_words s pm 3 (mkN 3 0 0 [((0, Idx 0), 1)]) = (s1, pm1, 5) /\
  track_set no_words s1 pm1 4 (mkN 1 0 0 [((0, Idx 0), 5); ((0, Idx 1), 3)]) = (s2, pm2, 6) /\
  tracked no_words s2 2 = true /\ id_at s2 6 [(0, Idx 1); (0, Idx 0)] = Ok 2 /\
  (forall walk order, any_order walk -> any_order order -> paths_for walk order 7 s2 pm2 2 = Ok []).
Proof.
  do 6 eexists. split; [reflexivity|]. split.
  { pose proof (shape_idx 0). pose proof (shape_idx 1). pose proof (shape_idx 2). cbn in *. tauto. }
  split; [vm_compute; intuition discriminate|]. split; [reflexivity|].
  split; [eexists; vm_compute; reflexivity|]. split; [reflexivity|]. split; [reflexivity|]. split; [reflexivity|]. split; [reflexivity|].
  intros walk order Wk Or. unfold paths_for. cbn [paths_up].
  match goal with |- context [walk ?x] => change x with (@nil (nat * list (nat * item))) end.
  rewrite (Permutation_nil (Wk [])). cbn. now rewrite (Permutation_nil (Or [])).
Qed.
Print Assumptions C115_twin_refuted.
(** A paragraph is dropped from the document: its contents are in no document,
    yet a path is given, from the dropped paragraph as the root. *)
Theorem C115_dropped_refuted : exists s pm s1 pm1,
  let doc := docu [para [bold 7]; para [w 9]] in
  track_tree no_words [] (fun _ => []) doc = (s, pm, 6) /\ importable doc /\ leafy no_words doc /\
  drop_subnode s (mkU 6 6 []) 0 = (s1, Ok (mkU 6 6 [], mkU 7 6 [])) /\
  track_set no_words s pm 6 (mkN 1 0 0 [((0, Idx 0), 5)]) = (s1, pm1, 7) /\
  get_tree 9 s1 7 = Ok (docu [para [w 9]]) /\
  (forall walk order, any_order walk -> any_order order -> paths_for walk order 8 s1 pm1 2 = Ok [(3, [(0, Idx 0)])]).
Proof.
  do 4 eexists. cbv zeta. split; [reflexivity|]. split.
  { pose proof (shape_idx 0). pose proof (shape_idx 1). pose proof (shape_idx 2). cbn in *. tauto. }
  split; [vm_compute; intuition discriminate|]. split; [reflexivity|]. split; [reflexivity|]. split; [reflexivity|].
  intros walk order Wk Or. unfold paths_for. cbn [paths_up].
  match goal with |- context [walk ?x] => change x with [(3, [(0, Idx 0)])] end.
  rewrite (Permutation_length_1_inv (Wk [(3, [(0, Idx 0)])])). cbn [every].
  match goal with |- context [walk ?x] => change x with (@nil (nat * list (nat * item))) end.
  rewrite (Permutation_nil (Wk [])). cbn. now rewrite (Permutation_length_1_inv (Or [(3, [(0, Idx 0)])])).
Qed.
Print Assumptions C115_dropped_refuted.
