(** C111: demoting a heading. *)
From Coq Require Import List Bool Arith ZArith Lia.
From Verif Require Import Base ImmModel ImmSpec ImmProofs ImmAssign ImmCascade ImmList DemoteModel DemoteSpec DemoteProofs DemoteTree DemoteMain DemoteDone.
Import ListNotations.
Local Open Scope nat_scope.

(** A heading [T] with headings only below it, which no earlier heading of its parent [tp] equals, and which the
    heading before it cannot take: it and all headings below it get one level deeper, and that is all. *)
Theorem C111_levels : forall level deeper s root t pp tp c1 T c2 id, (forall d, level (deeper d) = (level d + 1)%Z) ->
  wf_store s -> denotes s root t -> (kind_of s root = 1 \/ kind_of s root = 2) ->
  subtree t pp = Some tp -> subtrees tp = c1 ++ T :: c2 -> ~ In T c1 -> headings heading T ->
  let p := pp ++ [(0, Idx (length c1))] in
  id_at s root p = Ok id -> (forall i m, node_at s i = Some m -> length (subs m) <= 15) ->
  ~ (exists c A, c1 = c ++ [A] /\ above heading level A T) ->
  exists N, forall fuel, N <= fuel -> exists s1 g, demote_levels level deeper fuel s (mkU id root p) = (s1, Ok g) /\
  exists F, forall fuel, F <= fuel -> exists s' root' ep t', cascade fuel std_sort s1 root g = (s', Ok (root', ep)) /\
    extends s s' /\ denotes s' root' t' /\ noloc t' = noloc (replace_at p (lowered deeper T) t).
Proof.
  intros level deeper s root t pp tp c1 T c2 id U W D K Sub Ch Fi HT p A Sm NA. exists (S (height T)). intros fuel Hf.
  destruct (levels_only level deeper U s root t tp T pp c1 c2 id W D K Sub Ch Fi HT A Sm fuel) as (s1 & g & R & _ & H); [lia|exact NA|].
  exists s1, g. split; [exact R|exact H].
Qed.
Print Assumptions C111_levels.

(** When the heading [A] before it is of no deeper level than [T] had, [T], one level deeper with all below it,
    becomes the last subtree of [A]; the rest of the document is unchanged. *)
Theorem C111_moves : forall level deeper s root t pp tp c A T c2 id, (forall d, level (deeper d) = (level d + 1)%Z) ->
  wf_store s -> denotes s root t -> (kind_of s root = 1 \/ kind_of s root = 2) ->
  subtree t pp = Some tp -> subtrees tp = (c ++ [A]) ++ T :: c2 -> ~ In T (c ++ [A]) -> ~ In T c2 -> headings heading T ->
  let p := pp ++ [(0, Idx (length (c ++ [A])))] in
  id_at s root p = Ok id -> (forall i m, node_at s i = Some m -> length (subs m) <= 15) ->
  above heading level A T -> listed A ->
  exists N, forall fuel, N <= fuel -> exists s1 g, demote_levels level deeper fuel s (mkU id root p) = (s1, Ok g) /\
  exists F, forall fuel, F <= fuel -> exists s' root' ep t', cascade fuel std_sort s1 root g = (s', Ok (root', ep)) /\
    extends s s' /\ denotes s' root' t' /\
    noloc t' = noloc (replace_at pp (with_subtrees tp (c ++ with_subtrees A (subtrees A ++ [lowered deeper T]) :: c2)) t).
Proof.
  intros level deeper s root t pp tp c A T c2 id U W D K Sub Ch Fi Fi2 HT p At Sm Ab Li. exists (S (height T)). intros fuel Hf.
  destruct (moves level deeper U s root t tp T pp (c ++ [A]) c2 id W D K Sub Ch Fi HT At Sm fuel c A) as (s1 & g & R & _ & H); [lia|reflexivity|auto..|].
  exists s1, g. split; [exact R|exact H].
Qed.
Print Assumptions C111_moves.

(** ** Documents: a heading has its level as data and its title in another field. *)
Definition indexed (l : list tree) : list (step * tree) := combine (map (fun i => (0, Idx i)) (seq 0 (length l))) l.
Definition text (w : nat) : tree := Node 3 w 0 [].
Definition head (level title : nat) (l : list tree) : tree := Node heading level 0 (((1, One), text title) :: indexed l).
Definition doc (l : list tree) : tree := Node 1 0 0 (indexed l).
Definition at_index (p : list nat) : path := map (fun i => (0, Idx i)) p.
(** Import, demote what is at the path, commit, export. *)
Definition demoted (alone : bool) (t : tree) (p : list nat) : outcome tree :=
  let '(s, root) := add_tree [] t in
  obind (id_at s root (at_index p)) (fun i =>
    let '(s1, o) := if alone then demote_alone Z.of_nat S s (mkU i root (at_index p)) else demote_levels Z.of_nat S 20 s (mkU i root (at_index p)) in
    obind o (fun g => let '(s2, o2) := cascade 30 std_sort s1 root g in obind o2 (fun r => get_tree 20 s2 (fst r)))).

Ltac shaped := let f := fresh in intros f; destruct f as [|[|f]]; cbn;
  [first [now left | right; right; right; left; first [exists 1; reflexivity | exists 2; reflexivity | exists 3; reflexivity]]
  |first [now left | right; now left]|now left].
Definition outline : tree := doc [head 1 10 [head 2 11 []]; head 1 12 [head 2 13 [head 3 14 []]]; head 1 15 []].
Definition outline_s : store := fst (add_tree [] outline).
Definition outline_root : nat := snd (add_tree [] outline).
Lemma outline_wf : wf_store outline_s.
Proof.
  destruct (add_tree_good outline []) as (t' & W & _); [intros i n H; destruct i; discriminate| |exact W].
  cbn [outline importable doc head indexed text combine map seq length]. repeat (split; [shaped|]).
  repeat first [exact I | split]; try shaped.
Qed.
Lemma den_at s id n k d l kids : node_at s id = Some n -> kind n = k -> data n = d -> loc n = l -> denotes_kids s (subs n) kids ->
  denotes s id (Node k d l kids).
Proof. intros M <- <- <- K. now constructor. Qed.
Lemma outline_means : denotes outline_s outline_root outline.
Proof.
  vm_compute. repeat first [eapply den_at; [reflexivity|reflexivity|reflexivity|reflexivity|cbn [subs]] | apply den_none | apply den_kid].
Qed.
Lemma outline_small : forall i m, node_at outline_s i = Some m -> length (subs m) <= 15.
Proof.
  intros i m H. destruct i as [|i]; [discriminate|]. cbn [node_at] in H. assert (L : i < length outline_s) by (apply nth_error_Some; congruence).
  vm_compute in L. do 13 (destruct i as [|i]; [vm_compute in H; injection H as <-; cbn; lia|]). lia.
Qed.
(** Heading 13 is the only one of its parent: only the levels change. *)
Example C111_levels_demo : (forall d, Z.of_nat (S d) = (Z.of_nat d + 1)%Z) /\ wf_store outline_s /\ denotes outline_s outline_root outline /\
  subtree outline (at_index [1]) = Some (head 1 12 [head 2 13 [head 3 14 []]]) /\
  subtrees (head 1 12 [head 2 13 [head 3 14 []]]) = [] ++ head 2 13 [head 3 14 []] :: [] /\ headings heading (head 2 13 [head 3 14 []]) /\
  (exists id, id_at outline_s outline_root (at_index [1; 0]) = Ok id) /\
  demoted false outline [1; 0] = Ok (doc [head 1 10 [head 2 11 []]; head 1 12 [head 3 13 [head 4 14 []]]; head 1 15 []]).
Proof.
  split; [intros; lia|]. split; [exact outline_wf|]. split; [exact outline_means|]. split; [reflexivity|]. split; [reflexivity|]. split.
  - constructor. cbn. intros st c [E|[E|[]]] Q; injection E as <- <-; [discriminate|]. constructor. cbn. intros st c [E|[]] Q'.
    injection E as <- <-. discriminate.
  - split; [eexists; vm_compute; reflexivity|vm_compute; reflexivity].
Qed.
(** Heading 12 goes under heading 10. *)
Example C111_moves_demo : wf_store outline_s /\ denotes outline_s outline_root outline /\ (forall i m, node_at outline_s i = Some m -> length (subs m) <= 15) /\
  subtrees outline = ([] ++ [head 1 10 [head 2 11 []]]) ++ head 1 12 [head 2 13 [head 3 14 []]] :: [head 1 15 []] /\
  above heading Z.of_nat (head 1 10 [head 2 11 []]) (head 1 12 [head 2 13 [head 3 14 []]]) /\ listed (head 1 10 [head 2 11 []]) /\
  demoted false outline [1] = Ok (doc [Node heading 1 0 (indexed [head 2 11 []; head 2 12 [head 3 13 [head 4 14 []]]] ++ [((1, One), text 10)]); head 1 15 []]).
Proof.
  split; [exact outline_wf|]. split; [exact outline_means|]. split; [exact outline_small|]. split; [reflexivity|]. split; [split; [reflexivity|cbn; lia]|].
  split; [|vm_compute; reflexivity]. cbn. intros st c [E|[E|[]]] Q; injection E as <- <-; [discriminate|reflexivity].
Qed.

(** Findings.  A heading with a paragraph below it, as nearly all have, cannot be demoted: the node of the
    paragraph is read as a heading. *)
Definition texts : tree := doc [head 1 10 []; head 1 11 [text 20]].
Theorem C111_text_refuted : forall fuel, let s := fst (add_tree [] texts) in let root := snd (add_tree [] texts) in
  exists id, id_at s root (at_index [1]) = Ok id /\ get_tree 9 s root = Ok texts /\
  snd (demote_levels Z.of_nat S (S (S fuel)) s (mkU id root (at_index [1]))) = Throw.
Proof.
  intros fuel s root. exists 5. split; [vm_compute; reflexivity|]. split; [vm_compute; reflexivity|].
  assert (E1 : s = [mkN 3 10 0 []; mkN 4 1 0 [(1, One, 1)]; mkN 3 11 0 []; mkN 3 20 0 []; mkN 4 1 0 [(1, One, 3); (0, Idx 0, 4)];
    mkN 1 0 0 [(0, Idx 0, 2); (0, Idx 1, 5)]]) by (vm_compute; reflexivity).
  assert (E2 : root = 6) by (vm_compute; reflexivity). rewrite E1, E2. clear. reflexivity.
Qed.
Print Assumptions C111_text_refuted.
(** With equal headings in one parent another one may be moved, the second may be changed too, or none moves. *)
Theorem C111_twin_refuted :
  demoted false (doc [head 1 9 []; head 1 10 []; head 1 8 []; head 1 10 []]) [3] =
    Ok (doc [Node heading 1 0 [((0, Idx 0), head 2 10 []); ((1, One), text 9)]; head 1 8 []; head 1 10 []]) /\
  demoted false (doc [head 1 9 []; head 1 10 []; head 1 10 []]) [1] =
    Ok (doc [Node heading 1 0 [((0, Idx 0), head 2 10 []); ((1, One), text 9)]; head 2 10 []]) /\
  demoted false (doc [head 1 10 []; head 1 10 []]) [1] = Ok (doc [head 1 10 []; head 2 10 []]).
Proof. vm_compute. repeat split. Qed.
Print Assumptions C111_twin_refuted.
(** Demoting a heading alone puts the headings that were below it in front of it: 11 and 12 stood after 10. *)
Theorem C111_physical_refuted :
  demoted true (doc [head 1 9 [head 2 10 [head 3 11 []; head 3 12 []]; head 2 13 []]]) [0; 0] =
    Ok (doc [Node heading 1 0 (indexed [head 3 11 []; head 3 12 []; head 3 10 []; head 2 13 []] ++ [((1, One), text 9)])]).
Proof. vm_compute. repeat split. Qed.
Print Assumptions C111_physical_refuted.
