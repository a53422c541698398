(** C40, C59: radio-target grouping and the tracking of names. *)
From Coq Require Import List Bool Arith Lia.
From Verif Require Import Base RadioModel RadioSpec RadioProofs.
Import ListNotations.
Local Open Scope nat_scope.

(** ** C40 *)
(** The groups put together are the children, in order. *)
Theorem C40_partition : forall info radio tags sub gs, groups info radio tags sub = Ok gs -> concat (map members gs) = sub.
Proof. intros info radio tags sub gs H. eapply grouped_members, groups_grouped, H. Qed.
Print Assumptions C40_partition.
(** They are the correct grouping, and there is only one (up to the order in
    which the definitions of one hashtag are listed). *)
Theorem C40_groups : forall info radio tags sub gs, groups info radio tags sub = Ok gs ->
  grouped info radio tags sub gs /\
  forall gs', grouped info radio tags sub gs' -> Forall2 (fun g g' =>
    match g, g' with TrackedTag c h, TrackedTag c' h' => c = c' /\ forall f, get h f = get h' f | _, _ => g = g' end) gs gs'.
Proof.
  intros info radio tags sub gs H. pose proof (groups_grouped _ _ _ _ _ H) as G. split; [exact G|]. now apply grouped_fun.
Qed.
Print Assumptions C40_groups.
(** It succeeds unless the text ends in the middle of a target. *)
Theorem C40_total_partial : forall info radio tags sub,
  (forall w ids id, get radio w = Some ids -> In id ids -> info id <> Stray) ->
  (forall a b, sub = a ++ b -> forall x, In x (candidates_at info radio b) -> ~ cut_short (snd x) b) ->
  exists gs, groups info radio tags sub = Ok gs.
Proof.
  intros info radio tags sub NS Sf. destruct (loop_total info radio tags NS (S (length sub)) sub (Nat.lt_succ_diag_r _) Sf) as [gs G].
  exists gs. now apply groups_loop.
Qed.
Print Assumptions C40_total_partial.

(** "the big  cat #tag x" with the targets "big cat" (5), heading 6 "big dog"
    and "big", and a definition of the tag. *)
Definition ex_info (id : nat) : target :=
  match id with 5 => Radio [11; 12] | 6 => Heading [[11; 13]; [11]] | _ => Stray end.
Definition ex_sub : list child :=
  [Leaf false 10; Leaf true 0; Leaf false 11; Leaf true 1; Leaf false 12; Leaf true 0; Tag [20; 21]; Leaf true 0; Leaf false 11; Leaf true 0; Other 3].
Example C40_demo : groups ex_info [(11, [5; 6])] [(21, 40)] ex_sub =
  Ok [Single (Leaf false 10); Single (Leaf true 0); RadioHit 5 [Leaf false 11; Leaf true 1; Leaf false 12]; Single (Leaf true 0);
      TrackedTag (Tag [20; 21]) [(21, 40)]; Single (Leaf true 0); RadioHit 6 [Leaf false 11]; Single (Leaf true 0); Single (Other 3)] /\
  (forall a b, ex_sub = a ++ b -> forall x, In x (candidates_at ex_info [(11, [5; 6])] b) -> ~ cut_short (snd x) b).
Proof.
  split; [reflexivity|]. intros a b E x.
  assert (B : b = skipn (length a) ex_sub) by (rewrite E, skipn_app, skipn_all, Nat.sub_diag; reflexivity). clear E. subst b.
  assert (N : forall (x : nat * list nat) b, (match search b (snd x) 0 with Ok _ => true | _ => false end) = true -> ~ cut_short (snd x) b).
  { intros y b H C. pose proof (search_spec b (snd y) 0) as S0. destruct (search b (snd y) 0) as [[k|]| | |]; try discriminate.
    - destruct S0 as (l & rest & Eb & M & _). subst b. clear H. revert C. generalize (snd y) M. clear M y. intros ws M. induction M; intros C; inversion C; subst; try congruence; auto.
      match goal with H : cut_short [] _ |- _ => inversion H end.
    - tauto. }
  do 12 (destruct a as [|? a]; [cbn; intros H; decompose [or] H; subst; try contradiction; apply N; reflexivity|]).
  cbn [length skipn]. destruct (length a); intros [].
Qed.

(** Finding: a paragraph that ends with the beginning of a radio target cannot
    be grouped at all. *)
Theorem C40_end_refuted : groups ex_info [(11, [5])] [] [Leaf false 10; Leaf true 0; Leaf false 11] = Throw.
Proof. reflexivity. Qed.
Print Assumptions C40_end_refuted.

(** ** C59 *)
(** Whatever nodes are added and replaced, a name leads to a node that has
    it. *)
Theorem C59_sound : forall facts_of es t, track_events facts_of no_track es = Ok t -> entries_true facts_of t.
Proof. intros facts_of es t H. apply (events_true facts_of es no_track t H). repeat split; intros; discriminate. Qed.
Print Assumptions C59_sound.
(** and that is still in the document.  Partial: not so for hashtags, see
    below. *)
Theorem C59_current_partial : forall facts_of es t, track_events facts_of no_track es = Ok t ->
  entries_current facts_of t (remaining es []).
Proof.
  intros facts_of es t H. apply (events_current facts_of es [] no_track t H).
  split; [|split; [intros w l E; discriminate E|]]; repeat split; intros; discriminate.
Qed.
Print Assumptions C59_current_partial.
(** As long as no two nodes of the document at one time share a name, every
    node is found under all its names. *)
Theorem C59_complete_partial : forall facts_of es t, track_events facts_of no_track es = Ok t -> no_clash facts_of es [] ->
  forall id, In id (remaining es []) -> found facts_of t id.
Proof. intros facts_of es t H N. apply (events_found facts_of es [] no_track t H N). intros j []. Qed.
Print Assumptions C59_complete_partial.

(** A heading with id 1 and custom id 2 is edited, keeping them; a paragraph
    with a radio target and a footnote stay. *)
Definition fx (id : nat) : facts :=
  match id with
  | 1 => mkF [] (Some 1) [2] None [] [30]
  | 2 => mkF [8] None [] None [([11; 12], 90)] []
  | 3 => mkF [] None [] (Some 4) [] []
  | 4 => mkF [] (Some 1) [2; 3] None [([11], 4)] [30]
  | _ => mkF [] None [] None [] []
  end.
Example C59_demo : exists t, track_events fx no_track [Added 1; Added 2; Added 3; Replaced 1 4] = Ok t /\
  no_clash fx [Added 1; Added 2; Added 3; Replaced 1 4] [] /\ remaining [Added 1; Added 2; Added 3; Replaced 1 4] [] = [4; 3; 2] /\
  get (t_custom t) 2 = Some 4 /\ get (t_radio t) 11 = Some [90; 4].
Proof.
  eexists. split; [reflexivity|]. split; [|repeat split].
  assert (N : forall a b, a <> b -> In a [1; 2; 3; 4] -> In b [1; 2; 3; 4] -> (a, b) <> (1, 4) -> (a, b) <> (4, 1) -> ~ share_key (fx a) (fx b)).
  { intros a b D A B N1 N2. cbn in A, B. destruct A as [<-|[<-|[<-|[<-|[]]]]]; destruct B as [<-|[<-|[<-|[<-|[]]]]]; try congruence;
    (intros [(k & X & Y)|[(k & X & Y)|[(k & X & Y)|[(k & X & Y)|[(k & X & Y)|(ws & ws' & r & X & Y)]]]]]; cbn in X, Y; intuition congruence). }
  cbn [no_clash filter Nat.eqb negb]. split; [intros j []|]. split; [|split; [|split; [|split; [|exact I]]]];
    intros j Hj; cbn in Hj; decompose [or] Hj; subst; try contradiction;
    first [apply N; cbn; auto; discriminate|right; apply N; cbn; auto; discriminate].
Qed.

(** Findings.  Two nodes with one custom id: when one of them is edited and
    loses the id, the other is not found any more. *)
Definition fy (id : nat) : facts :=
  match id with
  | 1 | 2 => mkF [] None [7] None [] []
  | 4 => mkF [] None [] None [([11; 12], 4); ([11; 13], 4)] []
  | 5 | 6 => mkF [] None [] None [([11], 90)] []
  | 7 => mkF [] None [] None [] [30]
  | _ => mkF [] None [] None [] []
  end.
Theorem C59_duplicate_refuted : exists t, track_events fy no_track [Added 1; Added 2; Replaced 2 3] = Ok t /\
  In 1 (remaining [Added 1; Added 2; Replaced 2 3] []) /\ In 7 (f_custom (fy 1)) /\ get (t_custom t) 7 = None.
Proof. eexists. split; [reflexivity|]. cbn. auto. Qed.
Print Assumptions C59_duplicate_refuted.
(** A hashtag definition that was edited away stays. *)
Theorem C59_stale_tag_refuted : exists t, track_events fy no_track [Added 7; Replaced 7 8] = Ok t /\
  remaining [Added 7; Replaced 7 8] [] = [8] /\ get (t_tags t) 30 = Some 7.
Proof. eexists. split; [reflexivity|]. cbn. auto. Qed.
Print Assumptions C59_stale_tag_refuted.
(** A heading with two radio ids that begin with the same word cannot be
    edited, nor can both of two paragraphs that contain the same radio target. *)
Theorem C59_edit_fails_refuted :
  track_events fy no_track [Added 4; Replaced 4 8] = Throw /\
  track_events fy no_track [Added 5; Added 6; Replaced 5 8; Replaced 6 9] = Throw.
Proof. split; reflexivity. Qed.
Print Assumptions C59_edit_fails_refuted.
