(** Demoting one heading of a document and committing the change. *)
From Coq Require Import List Bool Arith ZArith Lia Permutation Sorted.
From Verif Require Import Base ImmModel ImmSpec ImmProofs ImmAssign ImmCascade ImmList ImmProps DemoteModel DemoteSpec DemoteProofs DemoteTree.
Import ListNotations.
Local Open Scope nat_scope.

(** ** Trees and ids *)
Lemma find_kids s st l kids c : denotes_kids s l kids -> find (fun c => step_eqb (fst c) st) kids = Some c ->
  exists i, find (fun c => step_eqb (fst c) st) l = Some (fst c, i) /\ denotes s i (snd c).
Proof.
  induction 1 as [|st' id t l kids D K IH]; cbn [find fst]; [discriminate|]. destruct (step_eqb st' st); [|exact IH].
  intros H. injection H as <-. exists id. auto.
Qed.
Lemma path_tree s p : forall i t T, denotes s i t -> subtree t p = Some T -> exists id, id_at s i p = Ok id /\ denotes s id T.
Proof.
  induction p as [|st p IH]; intros i t T D H.
  - cbn in H. injection H as <-. exists i. auto.
  - cbn [subtree] in H. destruct D as [|id n kids M K]; [discriminate|]. destruct (find _ kids) as [c|] eqn:F; [|discriminate].
    destruct (find_kids _ _ _ _ _ K F) as (j & F1 & F2). destruct (IH j (snd c) T F2 H) as (id' & A & B). exists id'. split; [|exact B].
    cbn [id_at]. unfold id_step. rewrite M, F1. exact A.
Qed.
Lemma sub_ids s l kids : denotes_kids s l kids ->
  Forall2 (denotes s) (map snd (filter is_child l)) (map snd (filter (fun c => is_sub (fst c)) kids)).
Proof.
  induction 1 as [|st id t l kids D K IH]; [constructor|]. cbn [filter fst]. rewrite is_child_sub. cbn [fst].
  destruct (is_sub st); [|exact IH]. cbn [map snd]. now constructor.
Qed.
Lemma other_ids s l kids : denotes_kids s l kids ->
  denotes_kids s (filter (fun x => negb (is_child x)) l) (filter (fun c => negb (is_sub (fst c))) kids).
Proof.
  induction 1 as [|st id t l kids D K IH]; [constructor|]. cbn [filter fst]. rewrite is_child_sub. cbn [fst].
  destruct (is_sub st); [exact IH|]. now constructor.
Qed.
Lemma kids_app s a b ka kb : denotes_kids s a ka -> denotes_kids s b kb -> denotes_kids s (a ++ b) (ka ++ kb).
Proof. induction 1; intros H'; [exact H'|]. cbn. constructor; auto. Qed.
Lemma index_kids s ids cs : Forall2 (denotes s) ids cs -> forall i,
  denotes_kids s (index_from i ids) (combine (map (fun i => (0, Idx i)) (seq i (length cs))) cs).
Proof. induction 1; intros i; [constructor|]. cbn. constructor; auto. Qed.
Lemma with_kids s n kids ids cs : denotes_kids s (subs n) kids -> Forall2 (denotes s) ids cs ->
  denotes_kids s (subs (with_children n ids)) (combine (map (fun i => (0, Idx i)) (seq 0 (length cs))) cs ++
                                   filter (fun c => negb (is_sub (fst c))) kids).
Proof. intros K F. unfold with_children. cbn [subs]. apply kids_app; [now apply index_kids|now apply other_ids]. Qed.

Lemma sub_steps l : well_shaped (map fst l) -> exists n, map fst (filter is_child l) = map (fun i => (0, Idx i)) (seq 0 n).
Proof.
  intros W. assert (E : map fst (filter is_child l) = filter is_sub (filter (fun st => Nat.eqb (fst st) 0) (map fst l))).
  { clear W. induction l as [|x l IH]; [reflexivity|]. cbn [filter map]. rewrite is_child_sub.
    destruct x as [[[|f] [| |i|k]] j]; cbn; try rewrite IH; reflexivity. }
  rewrite E. destruct (W 0) as [->|[->|[->|[(n & ->)|(ks & _ & ->)]]]].
  - exists 0. reflexivity.
  - exists 0. reflexivity.
  - exists 0. reflexivity.
  - exists n. apply filter_all. intros x H. apply in_map_iff in H. destruct H as (i & <- & _). reflexivity.
  - exists 0. cbn. induction ks; [reflexivity|]. cbn. auto.
Qed.
Lemma steps_index l : forall n i, map fst l = map (fun i => (0, Idx i)) (seq i n) -> l = index_from i (map snd l).
Proof.
  induction l as [|[st c] l IH]; intros n i H; [reflexivity|]. destruct n as [|n]; [discriminate|]. cbn in H. injection H as -> H.
  cbn. f_equal. now apply (IH n).
Qed.
Lemma filter_index l : well_shaped (map fst l) -> filter is_child l = index_from 0 (map snd (filter is_child l)).
Proof. intros W. destruct (sub_steps l W) as [n E]. now apply (steps_index _ n). Qed.
Lemma index_from_app a b : forall i, index_from i (a ++ b) = index_from i a ++ index_from (i + length a) b.
Proof.
  induction a as [|x a IH]; intros i; cbn; [now rewrite Nat.add_0_r|]. rewrite IH. do 3 f_equal. lia.
Qed.
Lemma index_from_in l : forall i st c, In (st, c) (index_from i l) -> exists j, st = (0, Idx j) /\ i <= j < i + length l /\ In c l.
Proof.
  induction l as [|x l IH]; intros i st c; [intros []|]. intros [H|H].
  - injection H as <- <-. exists i. cbn. split; [reflexivity|]. split; [lia|auto].
  - destruct (IH _ _ _ H) as (j & E & L & I). exists j. cbn. split; [exact E|]. split; [lia|auto].
Qed.
Lemma index_from_steps l : forall i, map fst (index_from i l) = map (fun i => (0, Idx i)) (seq i (length l)).
Proof. induction l as [|x l IH]; intros i; [reflexivity|]. cbn. now rewrite IH. Qed.
Lemma index_from_length l : forall i, length (index_from i l) = length l.
Proof. induction l as [|x l IH]; intros i; [reflexivity|]. cbn. now rewrite IH. Qed.
Lemma filter_map_fst {A B} (f : A -> bool) (l : list (A * B)) : map fst (filter (fun x => f (fst x)) l) = filter f (map fst l).
Proof. induction l as [|x l IH]; [reflexivity|]. cbn. destruct (f (fst x)); cbn; now rewrite IH. Qed.
Lemma with_shape n l : well_shaped (map fst (subs n)) -> (forall st c, In (st, c) (subs n) -> fst st = 0 -> is_sub st = true) ->
  well_shaped (map fst (subs (with_children n l))).
Proof.
  intros W H f. unfold with_children. cbn [subs]. rewrite map_app, filter_app, index_from_steps.
  assert (E : filter (fun st : step => Nat.eqb (fst st) f) (map fst (filter (fun x => negb (is_child x)) (subs n))) =
    if Nat.eqb f 0 then [] else filter (fun st : step => Nat.eqb (fst st) f) (map fst (subs n))).
  { clear W. induction (subs n) as [|[st c] ss IH]; [now destruct (Nat.eqb f 0)|]. cbn [filter map].
    assert (IH' := IH (fun st c I => H st c (or_intror I))). clear IH. rewrite is_child_sub. cbn [fst].
    destruct (is_sub st) eqn:Q; cbn [negb].
    - rewrite IH'. destruct (Nat.eqb f 0) eqn:F; [reflexivity|]. destruct st as [[|g] i]; [|discriminate]. cbn. destruct f; [discriminate|reflexivity].
    - cbn [map filter fst]. rewrite IH'. destruct (Nat.eqb_spec (fst st) f) as [F|F]; [|now destruct (Nat.eqb f 0)].
      destruct (Nat.eqb_spec f 0) as [Z|Z]; [|reflexivity]. rewrite Z in F. rewrite (H st c (or_introl eq_refl) F) in Q. discriminate. }
  rewrite E. destruct (Nat.eqb_spec f 0) as [Z|N].
  - subst f. rewrite app_nil_r, filter_all; [right; right; right; left; eauto|]. intros x I. apply in_map_iff in I. now destruct I as (i & <- & _).
  - rewrite filter_nil; [apply W|]. intros x I. apply in_map_iff in I. destruct I as (i & <- & _). cbn. destruct f; [congruence|reflexivity].
Qed.

(** ** Equal up to locations *)
Notation same_kids a b := (map (fun c : step * tree => (fst c, noloc (snd c))) a = map (fun c : step * tree => (fst c, noloc (snd c))) b).
Lemma noloc_with t cs cs' : map noloc cs = map noloc cs' -> noloc (with_subtrees t cs) = noloc (with_subtrees t cs').
Proof.
  intros H. destruct t as [|k d l kids]; [reflexivity|]. cbn [with_subtrees noloc]. f_equal. rewrite !map_app. f_equal.
  assert (L : length cs = length cs') by (rewrite <- (map_length noloc cs), H, map_length; reflexivity). rewrite L. clear L.
  generalize (map (fun i => (0, Idx i)) (seq 0 (length cs'))). revert cs' H. induction cs as [|c cs IH]; intros [|c' cs'] H sts; try discriminate.
  - destruct sts; reflexivity.
  - destruct sts as [|st sts]; [reflexivity|]. cbn in H. injection H as H1 H2. cbn. rewrite H1. f_equal. now apply IH.
Qed.
Lemma noloc_replace p a b : noloc a = noloc b -> forall t, noloc (replace_at p a t) = noloc (replace_at p b t).
Proof.
  intros H. induction p as [|st p IH]; intros t; [exact H|]. destruct t as [|k d l kids]; [reflexivity|]. cbn [replace_at noloc]. f_equal.
  rewrite !map_map. apply map_ext. intros c. destruct (step_eqb (fst c) st); cbn; [now rewrite IH|reflexivity].
Qed.

(** ** Setting the children of a node *)
Lemma set_sub B s u n l : node_at s (uid u) = Some n -> l <> children n -> wf_store s -> small B s ->
  well_shaped (map fst (subs (with_children n l))) -> length (subs (with_children n l)) <= B -> (forall i, In i l -> i <= length s) ->
  exists s' id' m, set_subnodes s u l = (s', Ok (u, moved u id')) /\ extends s s' /\ wf_store s' /\ small B s' /\ id' <> uid u /\
    node_at s' id' = Some m /\ kind m = kind n /\ data m = data n /\ subs m = subs (with_children n l).
Proof.
  intros M D W S Sh Len Le. unfold set_subnodes. rewrite M.
  destruct (intern_spec s (with_children n l)) as (m & I1 & I2 & I3 & I4 & I5).
  pose proof (wf_intern s (with_children n l) W Sh) as Wi.
  pose proof (small_intern B s (with_children n l) S Len) as Si.
  assert (Ids : forall st i, In (st, i) (subs (with_children n l)) -> i <= length s).
  { intros st i I. unfold with_children in I. cbn [subs] in I. apply in_app_or in I. destruct I as [I|I].
    - apply index_from_in in I. destruct I as (_ & _ & _ & I). auto.
    - apply filter_In in I. destruct I as [I _]. destruct (wf_node _ _ _ W M) as [_ X]. specialize (X _ _ I). apply node_at_le in M. lia. }
  specialize (Wi Ids). destruct (intern s (with_children n l)) as [s' id']. cbn [fst snd] in *.
  assert (Ne : id' <> uid u).
  { intros ->. rewrite (node_at_ext _ _ _ _ I1 M) in I2. injection I2 as <-. apply D. unfold children. rewrite I5.
    rewrite <- (children_with n l) at 1. reflexivity. }
  rewrite (proj2 (Nat.eqb_neq _ _) Ne). exists s', id', m. split; [reflexivity|]. split; [exact I1|]. split; [exact Wi|]. split; [exact Si|].
  split; [exact Ne|]. split; [exact I2|]. auto.
Qed.
Lemma length_with n l : length (subs (with_children n l)) + length (children n) = length (subs n) + length l.
Proof.
  unfold with_children, children. cbn [subs]. rewrite app_length, index_from_length, map_length.
  assert (length (filter is_child (subs n)) + length (filter (fun x => negb (is_child x)) (subs n)) = length (subs n)); [|lia].
  induction (subs n) as [|x ss IH]; [reflexivity|]. cbn. destruct (is_child x); cbn; lia.
Qed.

(** ** Committing *)
Lemma finish sa sb root t p o n new g : wf_store sa -> wf_store sb -> extends sa sb -> small 16 sb ->
  denotes sa root t -> kind_of sa root = 1 \/ kind_of sa root = 2 ->
  valid sa root g -> p <> [] -> id_at sa root p = Ok o -> o <> n -> denotes sb n new ->
  (forall u r, In (u, r) g -> is_prefix p (upath u)) -> (exists u r, In (u, r) g /\ upath u = p) ->
  (forall psa, edit_parents sa g = Ok psa -> forall f, exists ep, recurse std_sort g psa (S (S f)) sa [] (mkU o root p) = (sb, Ok (n, ep))) ->
  exists F, forall fuel, F <= fuel -> exists s' root' ep t', cascade fuel std_sort sa root g = (s', Ok (root', ep)) /\
    extends sb s' /\ denotes s' root' t' /\ noloc t' = noloc (replace_at p new t).
Proof.
  intros Wa Wb X Sm D K V Pn A On Dn Below Ex There.
  assert (Kb : kind_of sb root = 1 \/ kind_of sb root = 2).
  { unfold kind_of in *. destruct (node_at sa root) as [m|] eqn:M; [|destruct K; discriminate]. now rewrite (node_at_ext _ _ _ _ X M). }
  destruct (C37_replace_one_partial sb root t p o n new Wb (denotes_ext _ _ _ _ X D) Kb Pn (id_at_ext _ _ X _ _ _ A) On Dn Sm) as [F H].
  exists (S F). intros fuel Hf. destruct fuel as [|fuel]; [lia|]. destruct (H fuel) as (s' & r' & ep & t' & R & X' & D' & E'); [lia|].
  destruct (parents_in sa root g V) as (psa & Pa & _). unfold cascade in *. rewrite Pa.
  destruct (edit_parents sb (replacements root [(p, o, n)])) as [psb| | |] eqn:Pb; try discriminate.
  destruct (sim std_sort sa sb root p o n g psa psb Wa X V Pa Pn A On Below Ex Pb (There psa Pa) fuel [] root p eq_refl eq_refl s' r' ep R) as [ep' R'].
  exists s', r', ep', t'. rewrite R'. auto.
Qed.
