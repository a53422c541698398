(** C44: recursive loading visits each path once, misses nothing and ends;
    C64: includes and links are resolved against the file that holds them. *)
From Coq Require Import List Bool Arith Lia Relations Permutation.
From Verif Require Import Base LoadModel LoadSpec LoadProofs.
Import ListNotations.
Local Open Scope nat_scope.

Section Statements.
  (** The file system, the callbacks and the parser. *)
  Variable is_symlink : path -> bool.
  Variable read_link : path -> path.
  Variable is_dir : path -> bool.
  Variable is_file : path -> bool.
  Variable entries : path -> list path.
  Variable wanted : path -> bool.
  Variable exists_ : path -> bool.
  Variable is_org : path -> bool.
  Variable contents : path -> tree.
  Variable find_include : path -> option path.
  Notation load_directory := (load_directory is_symlink read_link is_dir is_file entries wanted exists_ is_org contents find_include).
  Notation load_file := (load_file is_symlink read_link is_dir is_file entries wanted exists_ is_org contents find_include).
  Notation needs := (needs is_symlink read_link is_dir is_file entries wanted exists_ is_org contents find_include).
  Notation loadable := (loadable is_symlink is_dir is_file wanted is_org).
  Notation done := (done is_symlink read_link is_dir is_file entries exists_ find_include).
  Notation loaded_from := (loaded_from is_symlink read_link is_dir is_file).

  (** Loading ends whenever the paths that can be spelled from the root through
      directories, links and includes are finitely many; directory cycles,
      symbolic link cycles and include cycles are all allowed.  Partial: with
      "." or ".." in include targets the spellings need not be finitely many. *)
Theorem C44_terminates_partial : forall U root, closed is_symlink read_link is_dir entries exists_ contents find_include U -> In root U ->
    (exists fuel, load_directory fuel root <> Fuel) /\ (exists fuel, load_file fuel root <> Fuel).
Proof.
    intros U root C H. split.
    - destruct (terminates is_symlink read_link is_dir is_file entries wanted exists_ is_org contents find_include U C
        (unvisited U (State [] []))) as [A _]. exact (A root _ H (le_n _)).
    - destruct (terminates is_symlink read_link is_dir is_file entries wanted exists_ is_org contents find_include U C
        (unvisited U (note_parsed (State [] []) root))) as [_ W].
      destruct (W root (contents root) (note_parsed (State [] []) root) H (good_contents contents U root H) (le_n _)) as [f E].
      exists (S f). unfold LoadModel.load_file. rewrite file_eq. unfold file_step. destruct (is_file root); [|discriminate].
      apply bind_not_fuel; [exact E|discriminate].
Qed.

  (** Whatever it ends with, it ends with the same thing however long it may
      run. *)
Theorem C44_result_unique : forall fuel fuel' root,
    load_directory fuel root <> Fuel -> load_directory fuel' root <> Fuel -> load_directory fuel root = load_directory fuel' root.
Proof.
    intros fuel fuel' root H H'. unfold LoadModel.load_directory in *. destruct (Nat.le_ge_cases fuel fuel') as [L|L].
    - symmetry. exact (path_mono _ _ _ _ _ _ _ _ _ _ _ _ root (State [] []) L H).
    - exact (path_mono _ _ _ _ _ _ _ _ _ _ _ _ root (State [] []) L H').
Qed.

  (** No path is parsed twice, or looked at twice. *)
Theorem C44_once : forall fuel root t s, load_directory fuel root = Ok (t, s) -> NoDup (parsed s) /\ NoDup (visited s) /\ incl (parsed s) (visited s).
Proof.
    intros fuel root t s E. destruct (load_grow is_symlink read_link is_dir is_file entries wanted exists_ is_org contents find_include fuel) as (G & _).
    destruct (G _ _ _ E) as ((v & n & Ev & En & Nn & I & _ & Nv) & _). cbn in Ev, En. rewrite app_nil_r in Ev. rewrite Ev, En. auto.
Qed.
  (** Loading one file with its includes: the same, but the file itself is not
      recorded as visited. *)
Theorem C44_once_file : forall fuel root t s, load_file fuel root = Ok (t, s) -> exists rest, parsed s = root :: rest /\ NoDup rest.
Proof.
    intros fuel root t s E. destruct (load_grow is_symlink read_link is_dir is_file entries wanted exists_ is_org contents find_include fuel) as (_ & G & _).
    destruct (G _ _ _ E) as (v & n & Ev & En & Nn & _). cbn in En. exists n. auto.
Qed.

  (** Every path that is needed, directly or not, is looked at; and if it is an
      org file it is parsed. *)
Theorem C44_complete : forall fuel root t s q, load_directory fuel root = Ok (t, s) -> clos_refl_trans _ needs root q ->
    In q (visited s) /\ (loadable q -> In q (parsed s)).
Proof.
    intros fuel root t s q E R. destruct (load_reach is_symlink read_link is_dir is_file entries wanted exists_ is_org contents find_include fuel) as (G & _).
    destruct (G _ _ _ E) as ((_ & _ & H) & V). cbn [snd] in *.
    assert (K : forall x, In x (visited s) -> (forall y, needs x y -> In y (visited s)) /\ (loadable x -> In x (parsed s))).
    { intros x Hx. apply (H x Hx). cbn. tauto. }
    assert (Q : In q (visited s)).
    { apply clos_rt_rtn1 in R. induction R as [|y z Hy R IH]; [exact V|]. exact (proj1 (K y IH) z Hy). }
    split; [exact Q|]. now apply K.
Qed.
Theorem C44_complete_file : forall fuel root t s q q', load_file fuel root = Ok (t, s) -> loadable root -> needs root q -> clos_refl_trans _ needs q q' ->
    In q' (visited s) /\ (loadable q' -> In q' (parsed s)).
Proof.
    intros fuel root t s q q' E L N R. destruct (load_reach is_symlink read_link is_dir is_file entries wanted exists_ is_org contents find_include fuel) as (_ & G & _).
    destruct (G _ _ _ E) as ((_ & _ & H) & V & P). cbn [snd] in *.
    assert (K : forall x, In x (visited s) -> (forall y, needs x y -> In y (visited s)) /\ (loadable x -> In x (parsed s))).
    { intros x Hx. apply (H x Hx). cbn. tauto. }
    assert (Q0 : In q (visited s)).
    { destruct L as (_ & L1 & L2 & _). destruct N as (_ & [(C & _)|[(_ & C & _)|(_ & abs & target & O & Rs)]]); [congruence|congruence|]. apply resolve_some in Rs. eapply V; eauto. }
    assert (Q : In q' (visited s)).
    { apply clos_rt_rtn1 in R. induction R as [|y z Hy R IH]; [exact Q0|]. exact (proj1 (K y IH) z Hy). }
    split; [exact Q|]. now apply K.
Qed.

  (** The tree holds the files that were parsed, each as often as it was. *)
Theorem C44_tree : (forall p, raw (contents p)) ->
    (forall fuel root t s, load_directory fuel root = Ok (t, s) -> Permutation (match t with Some t => files_in t | None => [] end) (parsed s)) /\
    (forall fuel root t s, load_file fuel root = Ok (t, s) -> Permutation (files_in t) (parsed s)).
Proof.
    intros R. split; intros fuel root t s E;
      destruct (load_adds is_symlink read_link is_dir is_file entries wanted exists_ is_org contents find_include R fuel) as (P & F & _).
    - destruct (P _ _ _ E) as (n & En & Q). cbn [fst snd app parsed] in *. rewrite En. destruct t as [t|]; cbn [opt_list flat_map] in Q; [rewrite app_nil_r in Q|]; exact Q.
    - destruct (F _ _ _ E) as (n & En & Q). cbn [fst snd app parsed] in *. now rewrite En.
Qed.

  (** The loaded tree: every include is tried against each file it is nested
      in, its own first; every link gets one reference per file it is nested in
      that it resolves against. *)
Theorem C64_shape_partial : (forall p, raw (contents p)) ->
    (forall fuel root t s, load_directory fuel root = Ok (Some t, s) -> loaded_from root t /\ done [] t) /\
    (forall fuel root t s, load_file fuel root = Ok (t, s) -> label_of t = LFile root /\ done [] t).
Proof.
    intros R. split; intros fuel root t s E;
      destruct (load_done is_symlink read_link is_dir is_file entries wanted exists_ is_org contents find_include R fuel) as (P & F & _).
    - exact (P _ _ _ t E eq_refl).
    - exact (F _ _ _ E).
Qed.
End Statements.

(** ** Examples *)
(** Components: 0 ".", 1 "..", 10 "proj", 11 "a", 12 "b", 21 "x.org", 22
    "y.org", 23 "z.org", 31 "notes.txt". *)
Definition step (acc : list nat) (c : nat) : list nat := match c with 0 => acc | 1 => tl acc | _ => c :: acc end.
Definition norm (p : path) : list nat := fold_left step p [].
Definition pin (l : list (list nat)) (p : path) : bool := existsb (fun q => if path_dec q (norm p) then true else false) l.
Definition dirs := [[10]; [11; 10]; [12; 10]].
Definition d_is_dir := pin dirs.
Definition no_link (_ : path) := false.
Definition same (p : path) := p.
Definition always (_ : path) := true.
Definition none (_ : path) : option path := None.
Definition inc (abs : bool) (target : path) := T (LInclude abs target) [].
Definition lnk (abs : bool) (target : path) := T (LLink abs target) [].
Definition doc (l : list tree) := T (LPlain 0) l.

(** A directory proj/a with x.org, y.org including one another (and x.org a
    link to y.org), y.org including the directory it lies in, and a text
    file; all by plain names. *)
Definition e1_files := [[21; 11; 10]; [22; 11; 10]; [31; 11; 10]].
Definition e1_is_file := pin e1_files.
Definition e1_exists p := d_is_dir p || e1_is_file p.
Definition e1_entries (p : path) := if path_dec p [10] then [[10; 11]] else if path_dec p [10; 11] then [[10; 11; 31]; [10; 11; 22]; [10; 11; 21]] else [].
Definition e1_org (p : path) := negb (Nat.eqb (last p 0) 31).
Definition e1_contents (p : path) := match last p 0 with
  | 21 => doc [inc false [22]; lnk false [22]]
  | 22 => doc [inc false [21]; inc true [10; 11]]
  | _ => doc [] end.
Definition e1_load root := load_directory no_link same d_is_dir e1_is_file e1_entries always e1_exists e1_org e1_contents none 20 root.
Definition e1_U := [[10]; [10; 11]; [10; 11; 21]; [10; 11; 22]; [10; 11; 31]].
Example C44_ex_closed : closed no_link same d_is_dir e1_entries e1_exists e1_contents none e1_U /\ In [10] e1_U.
Proof.
  assert (V : forall p abs target, In p e1_U -> occurs (LInclude abs target) (e1_contents p) -> (abs, target) = (false, [22]) \/ (abs, target) = (false, [21]) \/ (abs, target) = (true, [10; 11])).
  { intros p abs target [<-|[<-|[<-|[<-|[<-|[]]]]]] O; cbn in O;
      repeat match goal with
             | H : occurs _ (T _ _) |- _ => inversion H; clear H; subst
             | H : In _ (_ :: _) |- _ => destruct H as [H|H]; try subst
             | H : In _ [] |- _ => destruct H
             | H : occurs _ (inc _ _) |- _ => unfold inc in H
             | H : occurs _ (lnk _ _) |- _ => unfold lnk in H
             | H : occurs _ (doc _) |- _ => unfold doc in H
             end; auto. }
  split; [|now left]. split; [discriminate|]. split.
  - intros p q [<-|[<-|[<-|[<-|[<-|[]]]]]] _ Hq; vm_compute in Hq; unfold e1_U; repeat (destruct Hq as [<-|Hq]; [cbn; tauto|]); destruct Hq.
  - intros p f abs target q Hp Hf O R. apply resolve_some in R. destruct (V f abs target Hf O) as [E|[E|E]]; injection E as -> ->; clear V O Hf;
      (destruct Hp as [<-|[<-|[<-|[<-|[<-|[]]]]]]; vm_compute in R; try discriminate R; injection R as <-; cbn; tauto).
Qed.
Example C44_ex_loads : exists t, e1_load [10] = Ok (Some t, State [[10; 11; 21]; [10; 11; 22]; [10; 11; 31]; [10; 11]; [10]] [[10; 11; 22]; [10; 11; 21]]).
Proof. eexists. vm_compute. reflexivity. Qed.
Example C44_ex_complete : clos_refl_trans _ (needs no_link same d_is_dir e1_is_file e1_entries always e1_exists e1_org e1_contents none) [10] [10; 11; 21] /\
  loadable no_link d_is_dir e1_is_file always e1_org [10; 11; 21].
Proof.
  split; [|repeat split]. eapply rt_trans; [apply rt_step with (y := [10; 11])|eapply rt_trans; [apply rt_step with (y := [10; 11; 22])|apply rt_step]].
  - split; [reflexivity|]. right. left. repeat split. now left.
  - split; [reflexivity|]. right. left. repeat split. cbn. tauto.
  - split; [reflexivity|]. right. right. split; [repeat split|]. exists false, [21]. split; [|apply resolve_some; reflexivity]. eapply oc_sub; [left; reflexivity|constructor].
Qed.
Example C44_ex_file : exists t s, load_file no_link same d_is_dir e1_is_file e1_entries always e1_exists e1_org e1_contents none 20 [10; 11; 21] = Ok (t, s) /\
  parsed s = [[10; 11; 21]; [10; 11; 22]; [10; 11; 21]].
Proof. eexists. eexists. split; vm_compute; reflexivity. Qed.
Example C64_ex_raw : forall p, raw (e1_contents p).
Proof.
  intros p x O. assert (C : e1_contents p = doc [inc false [22]; lnk false [22]] \/ e1_contents p = doc [inc false [21]; inc true [10; 11]] \/ e1_contents p = doc []).
  { unfold e1_contents. generalize (last p 0). intros n. do 23 (destruct n as [|n]; [auto|]). auto. }
  destruct C as [C|[C|C]]; rewrite C in O; unfold doc, inc, lnk in O; clear C;
    repeat match goal with
           | H : occurs _ (T _ _) |- _ => inversion H; clear H; subst
           | H : In _ (_ :: _) |- _ => destruct H as [H|H]; try subst
           | H : In _ [] |- _ => destruct H
           end; exact I.
Qed.

(** Two files in sibling directories that include one another by "../": the
    spellings grow without end, and so does the loading. *)
Definition e2_files := [[21; 11; 10]; [22; 12; 10]].
Definition e2_is_file := pin e2_files.
Definition e2_exists p := d_is_dir p || e2_is_file p.
Definition e2_entries (p : path) := if path_dec p [10] then [[10; 11]; [10; 12]] else if path_dec p [10; 11] then [[10; 11; 21]] else if path_dec p [10; 12] then [[10; 12; 22]] else [].
Definition e2_contents (p : path) := match last p 0 with
  | 21 => doc [inc false [1; 12; 22]]
  | 22 => doc [inc false [1; 11; 21]]
  | _ => doc [] end.
Notation e2_path := (parse_path no_link same d_is_dir e2_is_file e2_entries always e2_exists always e2_contents none).
Lemma norm_app : forall a b, norm (a ++ b) = fold_left step b (norm a).
Proof. intros a b. unfold norm. apply fold_left_app. Qed.
Lemma e2_step : forall fuel d c s target q, In (c, target) [(21, [1; 12; 22]); (22, [1; 11; 21])] ->
  is_visited s (d ++ [c]) = false -> d_is_dir (d ++ [c]) = false -> e2_is_file (d ++ [c]) = true -> d_is_dir d = true -> e2_exists (d ++ target) = true ->
  q = d ++ target -> (forall s', visited s' = (d ++ [c]) :: visited s -> e2_path fuel q s' = Fuel) ->
  e2_path (S (S (S (S fuel)))) (d ++ [c]) s = Fuel.
Proof.
  intros fuel d c s target q Hc V D F DD X Eq H. rewrite path_eq. unfold path_step. rewrite V. cbn [always negb no_link]. rewrite D, F.
  rewrite file_eq. unfold file_step. rewrite F. rewrite walk_eq. unfold walk_step.
  assert (Ec : e2_contents (d ++ [c]) = doc [inc false target]).
  { unfold e2_contents. rewrite last_last. destruct Hc as [E|[E|[]]]; injection E as <- <-; reflexivity. }
  rewrite Ec. unfold doc, node_step at 1. cbn [label_of children obind fst snd each]. rewrite walk_eq. unfold walk_step at 1, node_step at 1, inc. cbn [label_of children].
  unfold resolve, parent. rewrite removelast_last, DD. unfold full_path. rewrite X. cbn [obind]. rewrite X. rewrite <- Eq, H by reflexivity. reflexivity.
Qed.
Lemma e2_loops4 : forall k d s, (norm d = [11; 10] -> (forall q, In q (visited s) -> length q < length (d ++ [21])) -> e2_path (k * 4) (d ++ [21]) s = Fuel) /\
  (norm d = [12; 10] -> (forall q, In q (visited s) -> length q < length (d ++ [22])) -> e2_path (k * 4) (d ++ [22]) s = Fuel).
Proof.
  assert (NV : forall s p, (forall q, In q (visited s) -> length q < length p) -> is_visited s p = false).
  { intros s p H. destruct (is_visited s p) eqn:E; [|reflexivity]. apply is_visited_In in E. specialize (H p E). lia. }
  induction k as [|k IH]; intros d s; [split; reflexivity|]. change (S k * 4) with (S (S (S (S (k * 4))))). split; intros N V.
  - apply (e2_step (k * 4) d 21 s [1; 12; 22] ((d ++ [1; 12]) ++ [22])); [now left|now apply NV| | | | | |].
    + unfold d_is_dir, pin. rewrite norm_app, N. reflexivity.
    + unfold e2_is_file, pin. rewrite norm_app, N. reflexivity.
    + unfold d_is_dir, pin. rewrite N. reflexivity.
    + unfold e2_exists, e2_is_file, pin. rewrite norm_app, N. apply orb_true_iff. right. reflexivity.
    + now rewrite <- app_assoc.
    + intros s' Es. apply (IH (d ++ [1; 12]) s'); [rewrite norm_app, N; reflexivity|]. rewrite Es.
      intros q [<-|Hq]; [rewrite !app_length; cbn; lia|]. specialize (V q Hq). rewrite !app_length in *. cbn in *. lia.
  - apply (e2_step (k * 4) d 22 s [1; 11; 21] ((d ++ [1; 11]) ++ [21])); [now right; left|now apply NV| | | | | |].
    + unfold d_is_dir, pin. rewrite norm_app, N. reflexivity.
    + unfold e2_is_file, pin. rewrite norm_app, N. reflexivity.
    + unfold d_is_dir, pin. rewrite N. reflexivity.
    + unfold e2_exists, e2_is_file, pin. rewrite norm_app, N. apply orb_true_iff. right. reflexivity.
    + now rewrite <- app_assoc.
    + intros s' Es. apply (IH (d ++ [1; 11]) s'); [rewrite norm_app, N; reflexivity|]. rewrite Es.
      intros q [<-|Hq]; [rewrite !app_length; cbn; lia|]. specialize (V q Hq). rewrite !app_length in *. cbn in *. lia.
Qed.
Lemma e2_loops : forall fuel d s, norm d = [11; 10] -> (forall q, In q (visited s) -> length q < length (d ++ [21])) -> e2_path fuel (d ++ [21]) s = Fuel.
Proof.
  intros fuel d s N V. pose proof (proj1 (e2_loops4 fuel d s) N V) as E. destruct (e2_path fuel (d ++ [21]) s) eqn:F; [exfalso| exfalso|exfalso|reflexivity];
    assert (C : e2_path (fuel * 4) (d ++ [21]) s = e2_path fuel (d ++ [21]) s) by (apply path_mono; [lia|rewrite F; discriminate]); rewrite F in C; congruence.
Qed.
(** FINDING: it never ends, though there are two files and three directories. *)
Theorem C44_refuted : forall fuel, load_directory no_link same d_is_dir e2_is_file e2_entries always e2_exists always e2_contents none fuel [10] = Fuel.
Proof.
  intros [|[|fuel]]; [reflexivity|reflexivity|]. unfold load_directory. rewrite path_eq. unfold path_step. cbn [is_visited visited existsb always negb no_link].
  change (d_is_dir [10]) with true. change (e2_entries [10]) with [[10; 11]; [10; 12]]. cbn [collect]. rewrite path_eq. unfold path_step.
  change (is_visited (visit (State [] []) [10]) [10; 11]) with false. cbn [always negb no_link].
  change (d_is_dir [10; 11]) with true. change (e2_entries [10; 11]) with [[10; 11; 21]]. cbn [collect].
  change [10; 11; 21] with ([10; 11] ++ [21]). rewrite (e2_loops fuel [10; 11]); [reflexivity|reflexivity|].
  intros q [<-|[<-|[]]]; cbn; lia.
Qed.

(** FINDING: one file under two spellings is parsed twice: proj/a/x.org
    includes "../a/y.org" and "y.org". *)
Definition e3_is_file := pin [[21; 11; 10]; [22; 11; 10]].
Definition e3_exists p := d_is_dir p || e3_is_file p.
Definition e3_contents (p : path) := match last p 0 with 21 => doc [inc false [1; 11; 22]; inc false [22]] | _ => doc [lnk false [21]] end.
Theorem C44_spelling_refuted : exists t s, load_file no_link same d_is_dir e3_is_file (fun _ => []) always e3_exists always e3_contents none 20 [10; 11; 21] = Ok (t, s) /\
  map norm (parsed s) = [[21; 11; 10]; [22; 11; 10]; [22; 11; 10]].
Proof. eexists. eexists. split; vm_compute; reflexivity. Qed.

(** FINDING: a bare file name has no parent directory, and the first include
    in it throws. *)
Example C44_bare_name : load_file no_link same d_is_dir (fun p => if path_dec p [21] then true else false) (fun _ => []) always always always
  (fun _ => doc [inc false [22]]) none 20 [21] = Throw.
Proof. vm_compute. reflexivity. Qed.

(** FINDING: proj/x.org includes "a/y.org", which includes "z.org" and links
    to it.  With a z.org only in proj/a the include also gets an error; with a
    z.org in proj too that one is loaded as well; and the link is referred to
    once per file it is nested in. *)
Definition e4_is_file (both : bool) := pin (if both then [[21; 10]; [22; 11; 10]; [23; 11; 10]; [23; 10]] else [[21; 10]; [22; 11; 10]; [23; 11; 10]]).
Definition e4_exists both p := d_is_dir p || e4_is_file both p.
Definition e4_contents (p : path) := match last p 0 with 21 => doc [inc false [11; 22]] | 22 => doc [inc false [23]; lnk false [23]] | _ => doc [] end.
Definition e4_load both := load_file no_link same d_is_dir (e4_is_file both) (fun _ => []) always (e4_exists both) always e4_contents none 20 [10; 21].
Definition e4_tree (subs refs : list tree) := T (LFile [10; 21]) [doc [T (LInclude false [11; 22]) [T (LFile [10; 11; 22]) [doc
  [T (LInclude false [23]) (T (LFile [10; 11; 23]) [doc []] :: subs); T (LLink false [23]) (T (LFileRef [10; 11; 23]) [] :: refs)]]]]].
Theorem C64_refuted : exists s s',
  e4_load false = Ok (e4_tree [T LError []] [], s) /\
  e4_load true = Ok (e4_tree [T (LFile [10; 23]) [doc []]] [T (LFileRef [10; 23]) []], s').
Proof. eexists. eexists. split; vm_compute; reflexivity. Qed.

Print Assumptions C44_terminates_partial.
Print Assumptions C44_result_unique.
Print Assumptions C44_once.
Print Assumptions C44_once_file.
Print Assumptions C44_complete.
Print Assumptions C44_tree.
Print Assumptions C44_complete_file.
Print Assumptions C44_refuted.
Print Assumptions C44_spelling_refuted.
Print Assumptions C64_shape_partial.
Print Assumptions C64_refuted.
