(** C122: the settings of a document, from its lines [#+options:] and [#+startup:]. *)
From Coq Require Import String Lia.
From Verif Require Import Base StrModel NodeKind ConvModel OptModel OptSpec OptProofs.
From Verif Require RegroupModel ParseModel TreeSpec.
From Verif Require Import ParseProps ParseHeadProps.
Local Open Scope nat_scope.

(** A line of items of the manual with names made of letters sets each setting to what the last item about it asks
    for, and no other setting, and complains about nothing. *)
Theorem C122_read : forall l c, Forall sound l -> exists c', read_options (text_of l) c = Done c' /\ answered l c c'.
Proof. exact read_line. Qed.
Print Assumptions C122_read.

(** The settings no item asks for: tags are exported but not in the table of contents, of archived trees the headlines,
    all tasks, no table of contents; nothing is said about broken links and the others. *)
Theorem C122_default : forall l c', Forall sound l -> read_options (text_of l) fresh = Done c' ->
  (forall f, (forall i b, In i l -> wants i <> Switch f b) -> switch_of c' f = None) /\
  ((forall i x, In i l -> wants i <> Levels x) -> levels c' = None) /\
  ((forall i x, In i l -> wants i <> Broken x) -> brokenLinks c' = BNone) /\
  ((forall i x, In i l -> wants i <> Tags x) -> tagExport c' = TgNotInToc) /\
  ((forall i x, In i l -> wants i <> Tasks x) -> taskFiltering c' = TkAll) /\
  ((forall i x, In i l -> wants i <> Archived x) -> archivedTrees c' = ArHeadline) /\
  ((forall i x, In i l -> wants i <> Toc x) -> tocExport c' = TocIs false).
Proof.
  intros l c' F H. destruct (read_line l fresh F) as (d & E & A). rewrite E in H. injection H as <-.
  destruct A as (A1 & A2 & A3 & A4 & A5 & A6 & A7 & _).
  split; [intros f N; rewrite A1; apply last_none|].
  { intros i I. destruct (wants i) as [g b|z|x|x|x|x|x] eqn:W; try reflexivity. cbn. destruct (switch_dec g f) as [->|]; [|reflexivity].
    exfalso. exact (N i b I W). }
  repeat split; intros N; rewrite ?A2, ?A3, ?A4, ?A5, ?A6, ?A7; apply last_none; intros i I;
    (destruct (wants i) as [g b|z|x|x|x|x|x] eqn:W; try reflexivity); exfalso; eapply N; eauto.
Qed.
Print Assumptions C122_default.

(** An item with an unknown name, and a word that is no item, changes nothing and is reported. *)
Theorem C122_unknown : forall c,
  (forall n v, unknown n -> ~ In 58%Z n -> ~ In 32%Z n -> plain v ->
     exists c', read_options (32%Z :: n ++ 58%Z :: v) c = Done c' /\ only_complains (n ++ 58%Z :: v) c c') /\
  (forall v, letters v <> [] -> ~ In 58%Z v -> ~ In 32%Z v ->
     exists c', read_options (32%Z :: v) c = Done c' /\ only_complains v c c').
Proof. intros c. split; intros; [now apply unknown_item|now apply unknown_word]. Qed.
Print Assumptions C122_unknown.

(** What is seen of the headings at first: each word is read, with or without [indent], and what is written is read
    back; all but five levels. *)
Theorem C122_startup : forall v, v <> V5 ->
  (forall j k (i : bool),
     read_startup (repeat 32%Z j ++ (lit (startup_word v) ++ if i then 32%Z :: lit "indent" else []) ++ repeat 32%Z k) = Done (v, i)) /\
  (v <> VEverything -> exists rest, write_startup v = Some (lit "#+startup:" ++ rest) /\ read_startup rest = Done (v, false)).
Proof.
  intros v V. split; [intros; now apply startup_read|]. intros E. exists (repeat 32%Z 1 ++ (lit (startup_word v) ++ []) ++ repeat 32%Z 0).
  split; [destruct v; try congruence; reflexivity|]. exact (startup_read 1 0 v false V).
Qed.
Print Assumptions C122_startup.

(** A second word turns indentation on if its letters are those of [indent], whatever case they have, and only then. *)
Theorem C122_indent : forall j k v w, v <> V5 -> w <> [] -> ~ In 32%Z w ->
  exists b, read_startup (repeat 32%Z j ++ (lit (startup_word v) ++ 32%Z :: w) ++ repeat 32%Z k) = Done (v, b) /\
    (b = true <-> letters w = letters (lit "indent")).
Proof. exact startup_second. Qed.
Print Assumptions C122_indent.
Example C122_indent_example : read_startup (lit " content InDent") = Done (VContent, true) /\
  read_startup (lit " content noindent") = Done (VContent, false).
Proof. split; vm_compute; reflexivity. Qed.

(** A document whose line asks to mark broken links is written with a line that asks for the same. *)
Theorem C122_marked : forall c d, brokenLinks c = BMark -> exists rest c', write_options c = Some (lit "#+options:" ++ rest) /\
  read_options rest d = Done c' /\ brokenLinks c' = BMark.
Proof.
  intros c d B. exists (lit " broken-links:mark"). eexists. split; [unfold write_options; rewrite B; reflexivity|].
  split; [vm_compute; reflexivity|reflexivity].
Qed.
Print Assumptions C122_marked.

(** *** From the text *)
(** The settings of a document: lexer, parser, and the reading above for each line [#+options:]. *)
Fixpoint option_lines (t : ptree) : list ptree :=
  match t with
  | TreeSpec.Branch k sub => if nk_eqb k nCmdOptions then firstn 1 sub else flat_map option_lines sub
  | _ => []
  end.
Definition settings (doc : str) : res config :=
  match tokens_of doc with
  | Ok toks =>
      fold_left (fun r t => c <- r ;; s <- get_text toks t ;; read_options s c) (flat_map option_lines (full_trees doc)) (Done fresh)
  | _ => Thrown
  end.
Example C122_read_text :
  settings (ln "#+options: toc:2 num:t H:4  author:nil" ++ ln "#+options: broken-links:mark tags:nil author:t" ++ ln "text") =
  Done (Config [(Author, true); (Author, false); (SectionNumbers, true)] (Some 4%Z) BMark TgNone TkAll ArHeadline (TocLevels 2)
               (Some true) []).
Proof. vm_compute. reflexivity. Qed.
Definition asked : list item :=
  [Item 0 (lit "toc") (lit "2") (Toc (TocLevels 2)); Item 1 (lit "H") (lit "12") (Levels 12);
   Item 0 (lit "num") (lit "nil") (Switch SectionNumbers false); Item 0 (lit "num") (lit "t") (Switch SectionNumbers true)].
Example C122_read_example : Forall sound asked /\ text_of asked = lit " toc:2  H:12 num:nil num:t" /\
  last_of (of_switch SectionNumbers) None asked = Some true /\ last_of of_levels None asked = Some 12%Z /\
  last_of (of_switch Author) (Some true) asked = Some true /\ Forall (fun i => forall x, wants i <> Tags x) asked.
Proof.
  split; [|repeat split; unfold asked; repeat apply Forall_cons; try apply Forall_nil; discriminate].
  unfold asked. repeat apply Forall_cons; try apply Forall_nil; unfold sound; cbn [name_of value_of wants].
  - apply ask_toc_levels. exists [2%Z]. repeat split; try discriminate; try reflexivity. repeat constructor; lia.
  - apply ask_levels. exists [1; 2]%Z. repeat split; try discriminate; try reflexivity. repeat constructor; lia.
  - apply ask_no; [vm_compute; tauto|now apply plain_lit|intros X; vm_compute in X; discriminate X|intros X; vm_compute in X; discriminate X].
  - apply ask_yes; [vm_compute; tauto|now left].
Qed.
Example C122_unknown_example : unknown (lit "colour") /\ letters (lit "word") <> [] /\
  settings (ln "#+options: colour:t word" ++ ln "text") =
  Done (Config [] None BNone TgNotInToc TkAll ArHeadline (TocIs false) (Some true) [lit "colour:t"; lit "word"]).
Proof.
  split; [|split; [intros X; vm_compute in X; discriminate X|vm_compute; reflexivity]].
  split; [intros X; vm_compute in X; discriminate X|]. intros k I X. unfold known, names in I. cbn [map fst app] in I.
  repeat (destruct I as [<-|I]; [vm_compute in X; discriminate X|]). destruct I.
Qed.
Example C122_startup_example : read_startup (lit " show3levels indent") = Done (V3, true) /\ write_startup V3 = Some (lit "#+startup: show3levels").
Proof. split; vm_compute; reflexivity. Qed.
Example C122_marked_example : exists c, settings (ln "#+options: broken-links:mark" ++ ln "text") = Done c /\ brokenLinks c = BMark /\
  write_options c = Some (lit "#+options: broken-links:mark").
Proof. eexists. split; [vm_compute; reflexivity|]. split; reflexivity. Qed.

(** *** What does not hold *)
(** Every item sets its setting: false for the names made of signs. No line sets one of the six after the first, and
    each of them sets that of the first, emphasis. *)
Theorem C122_signs_refuted :
  (forall s c c' n f, In (n, f) signs -> n <> "*"%string -> read_options s c = Done c' -> switch_of c' f = switch_of c f) /\
  (forall n v c, letters n = [] -> ~ In 58%Z n -> ~ In 32%Z n -> plain v ->
     exists c' b, read_options (32%Z :: n ++ 58%Z :: v) c = Done c' /\ switch_of c' Emphasis = Some b /\
       (b = true <-> v = lit "t" \/ v = lit "T")) /\
  (exists c', settings (ln "#+options: *:t ^:nil" ++ ln "text") = Done c' /\ switch_of c' Emphasis = Some false /\ switch_of c' SubSuper = None).
Proof.
  split; [|split].
  - intros s c c' n f I N H. apply (never_switched s c c' f); [|exact H].
    destruct I as [I|I]; [injection I as <- <-; congruence|]. apply (in_map snd) in I. exact I.
  - exact sign_emphasis.
  - eexists. split; [vm_compute; reflexivity|]. split; reflexivity.
Qed.
Print Assumptions C122_signs_refuted.

(** Only an item for it sets the setting of sections of fixed width: false, every line with a space after the colon
    does. *)
Theorem C122_fixed_refuted :
  (forall s c c', read_options (32%Z :: s) c = Done c' -> fixedSections c' = Some true) /\
  (exists c', settings (ln "#+options: toc:t" ++ ln "text") = Done c' /\ fixedSections c' = Some true /\ fixedSections fresh = None).
Proof. split; [exact always_fixed|]. eexists. split; [vm_compute; reflexivity|]. split; reflexivity. Qed.
Print Assumptions C122_fixed_refuted.

(** Every document is read: false, a name with a colon and no value ends the reading of the document, wherever it is in
    the line, and so does a number of levels that is none. *)
Theorem C122_no_value_refuted :
  (forall l k n rest c, Forall sound l -> ~ In 58%Z n -> ~ In 32%Z n -> (forall x r, rest = x :: r -> x = 32%Z) ->
     read_options (text_of l ++ repeat 32%Z (S k) ++ n ++ 58%Z :: rest) c = Thrown) /\
  settings (ln "#+options: toc:t author: num:t" ++ ln "text") = Thrown /\
  settings (ln "#+options: :" ++ ln "text") = Thrown /\ settings (ln "#+options: H:all" ++ ln "text") = Thrown.
Proof. split; [exact no_value|]. split; [vm_compute; reflexivity|]. split; vm_compute; reflexivity. Qed.
Print Assumptions C122_no_value_refuted.

(** The tasks to export are the ones asked for: false, asking for those to do gives those done, asking for those done
    changes nothing, and no line gives a list of keywords. *)
Theorem C122_tasks_refuted :
  (forall s c c', read_options s c = Done c' -> taskFiltering c' = TkWhitelist -> taskFiltering c = TkWhitelist) /\
  (forall c, exists c', read_options (lit " tasks:todo") c = Done c' /\ taskFiltering c' = TkDone) /\
  (forall c, exists c', read_options (lit " tasks:done") c = Done c' /\ taskFiltering c' = taskFiltering c /\ complaints c' = complaints c).
Proof.
  split; [exact never_listed|]. split; intros c; eexists; (split; [vm_compute; reflexivity|]); [reflexivity|split; reflexivity].
Qed.
Print Assumptions C122_tasks_refuted.

(** A value that is none of the setting is reported: false, for the settings with values of their own it is dropped. *)
Theorem C122_dropped_refuted : forall c n, In n [lit "toc"; lit "broken-links"; lit "arch"; lit "tags"; lit "tasks"] ->
  exists c', read_options (32%Z :: n ++ lit ":wrong") c = Done c' /\ c' = set_fixed c.
Proof.
  intros c n I. repeat (destruct I as [<-|I]; [eexists; split; [vm_compute; reflexivity|reflexivity]|]). destruct I.
Qed.
Print Assumptions C122_dropped_refuted.
Example C122_dropped_example : In (lit "toc") [lit "toc"; lit "broken-links"; lit "arch"; lit "tags"; lit "tasks"] /\ set_fixed fresh <> fresh.
Proof. split; [now left|discriminate]. Qed.

(** A written document has the settings of the document: false, none is written but that of broken links; of its four
    values only one is read back, one is written and not read, and one no line can give. *)
Theorem C122_lost_refuted :
  (forall l c', Forall sound l -> (forall i x, In i l -> wants i <> Broken x) -> read_options (text_of l) fresh = Done c' ->
     write_options c' = None) /\
  (forall s c c', read_options s c = Done c' -> brokenLinks c' = BRaise -> brokenLinks c = BRaise) /\
  (exists c' d, settings (ln "#+options: broken-links:t" ++ ln "text") = Done c' /\
     write_options c' = Some (lit "#+options: broken-links:ignore") /\
     settings (ln "#+options: broken-links:ignore" ++ ln "text") = Done d /\ brokenLinks c' = BIgnore /\ brokenLinks d = BNone).
Proof.
  split; [|split].
  - intros l c' F N H. destruct (read_line l fresh F) as (d & E & A). rewrite E in H. injection H as <-.
    destruct A as (_ & _ & A & _). unfold write_options. rewrite A.
    enough (X : last_of of_broken (brokenLinks fresh) l = BNone) by now rewrite X.
    change (brokenLinks fresh) with BNone. clear - N. induction l as [|i l IH]; [reflexivity|]. cbn [last_of].
    assert (M : forall j x, In j l -> wants j <> Broken x) by (intros j x I; apply N; now right).
    destruct (wants i) as [f b|z|x|x|x|x|x] eqn:W; cbn [of_broken]; try exact (IH M). exfalso. apply (N i x); [now left|exact W].
  - exact never_raise.
  - do 2 eexists. split; [vm_compute; reflexivity|]. split; [reflexivity|]. split; [vm_compute; reflexivity|]. split; reflexivity.
Qed.
Print Assumptions C122_lost_refuted.

(** Every written [#+startup:] is read: false for five levels. *)
Theorem C122_five_refuted : exists rest, write_startup V5 = Some (lit "#+startup:" ++ rest) /\ read_startup rest = Thrown.
Proof. exists (lit " show5levels"). split; vm_compute; reflexivity. Qed.
Print Assumptions C122_five_refuted.

(** The keywords of the states are written, those of the states of done tasks too: false, the latter never are, and
    the name of the line lacks its colon. *)
Theorem C122_keywords_refuted :
  (forall todo done done', done <> [] -> done' <> [] -> write_keywords todo done = write_keywords todo done') /\
  (forall todo done s, write_keywords todo done = Some s -> exists rest, s = lit "#+keywords" ++ rest) /\
  write_keywords [lit "TODO"; lit "WIP"] [lit "DONE"] = Some (lit "#+keywordsTODO WIP").
Proof.
  split; [|split; [|reflexivity]].
  - intros todo a b A B. destruct a; [congruence|]. destruct b; [congruence|]. destruct todo; reflexivity.
  - intros todo a s E. unfold write_keywords in E. destruct todo; [destruct a; [discriminate|]|]; injection E as <-; eexists; reflexivity.
Qed.
Print Assumptions C122_keywords_refuted.
