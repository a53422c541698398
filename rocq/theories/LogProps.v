(** C121: the entries of the logbook of a heading. *)
From Coq Require Import String Lia.
From Verif Require Import Base StrModel NodeKind ConvModel LogModel LogSpec LogProofs.
From Verif Require RegroupModel ParseModel TreeSpec.
From Verif Require Import ParseProps ParseHeadProps.
Local Open Scope nat_scope.

(** An item that has the sentence of an entry is read as this entry, with all of its description, whatever the spaces
    and the capitals. *)
Theorem C121_read : forall item par more h ps l tail d,
  ssubs item = par :: more -> ssubs par = l ++ tail ->
  sentence h = Some ps -> Forall2 fits ps l -> ending tail d -> undisturbed h d ->
  read_entry item = Done (Logged (Entry h (description d more))).
Proof. exact item_read. Qed.
Print Assumptions C121_read.

(** An entry that has a sentence is written as this sentence, with the description below. *)
Theorem C121_written : forall show_target show_nodes span epoch e ps, sentence (ehead e) = Some ps ->
  write_entry show_target show_nodes span epoch e =
  Done (match edesc e with
        | Some d => Wrote (spelled show_target span (ehead e) ps ++ lit " \\") d
        | None => Wrote (spelled show_target span (ehead e) ps) []
        end).
Proof. exact item_written. Qed.
Print Assumptions C121_written.

(** Any other item is kept whole. *)
Theorem C121_unknown : forall item par more ws,
  ssubs item = par :: more -> first_words (ssubs par) ws -> unknown_words ws ->
  read_entry item = Done (Logged (Entry HUnknown (Some (ssubs item)))).
Proof. intros item par more ws I FW U. rewrite I. eapply item_unknown; eauto. Qed.
Print Assumptions C121_unknown.

(** Which items end the reading of the whole document with an exception, when all times are dates. *)
Theorem C121_stops : forall item par more ws,
  ssubs item = par :: more -> Forall dated (ssubs par) -> first_words (ssubs par) ws ->
  (read_entry item = Thrown <-> stops (ssubs par) ws) /\ (read_entry item = Thrown \/ exists e, read_entry item = Done e).
Proof. exact item_stops. Qed.
Print Assumptions C121_stops.

(** *** From the text *)
(** The entries of the logbook of a heading, from the text of a document: lexer, parser, conversion of the items, and
    the reading above. *)
Fixpoint log_items (t : ptree) : list ptree :=
  match t with
  | TreeSpec.Branch k sub =>
      if nk_eqb k nDrawerLogbook then flat_map TreeSpec.sub_of sub else flat_map log_items sub
  | _ => []
  end.
Definition entries (doc : str) : list (res logged) :=
  match tokens_of doc with
  | Ok toks =>
      map (fun t => item <- convert toks (fun _ _ => true) (fun _ => true) (fun _ => true) (fun _ => true)
                              (fun _ => Thrown) (fun _ => Thrown) 60 t ;; read_entry item)
          (flat_map log_items (full_trees doc))
  | _ => []
  end.
Definition lf (k : osk) (s : string) : sem := Sem k (text [lit s]) [] [] [].
Definition at_noon (d : string) : str := lit d ++ lit " 12:00".

Example C121_read_text :
  entries (ln "* Head" ++ ln "  :LOGBOOK:" ++ ln "  CLOCK: [2023-11-08 Wed 12:00]--[2023-11-09 Thu 12:00] => 24:00" ++
           ln "  - Tag ""#work##home"" Added on [2023-11-08 Wed 12:00]" ++
           ln "  - State ""DONE""     from ""TODO""     [2023-11-08 Wed 12:00] \\" ++ ln "    all well" ++
           ln "  - Refiled on [2023-11-08 Wed 12:00] from [[id:x]]" ++
           ln "  - Priority A changed from B on [2023-11-08 Wed 12:00]" ++
           ln "  - Note taken on [2023-11-08 Wed 12:00]" ++ ln "  :END:")
  = map (fun e => Done (Logged e))
    [Entry (HClock (at_noon "2023-11-08") (Some (at_noon "2023-11-09"))) None;
     Entry (HTag (HT (lit "work") [HT (lit "home") []]) true (Some (at_noon "2023-11-08"))) None;
     Entry (HState (lit "TODO") (lit "DONE") (Some (at_noon "2023-11-08")))
           (Some [node oParagraph [lf oWord "all"; lf oSpace " "; lf oWord "well"]]);
     Entry (HRefile (Some (at_noon "2023-11-08")) (Some (TId (lit "x")))) None;
     Entry (HPriority Changed (Some (lit "B")) (Some (lit "A")) (Some (at_noon "2023-11-08"))) None;
     Entry (HNote (Some (at_noon "2023-11-08"))) None].
Proof. vm_compute. reflexivity. Qed.

(** The hypotheses of C121_read are met by a change of state with a description. *)
Definition noon (d : string) : sem := Sem oTime (D [at_noon d] [0; 1]%Z [] []) [] [] [].
Definition sp : sem := lf oSpace " ".
Definition qt : sem := lf oPunctuation """".
Definition nl : sem := Sem oNewline (text [[10%Z]]) [] [] [].
Definition brk : sem := lf oPunctuation "\\".
Definition state_line : list sem :=
  [lf oWord "State"; sp; qt; lf oBigIdent "DONE"; qt; sp; lf oWord "from"; sp; qt; lf oBigIdent "TODO"; qt; sp; noon "2023-11-08"].
Definition item_of (l more : list sem) : sem := node oListItem (node oParagraph l :: more).
Example C121_read_example :
  exists ps, sentence (HState (lit "TODO") (lit "DONE") (Some (at_noon "2023-11-08"))) = Some ps /\ Forall2 fits ps state_line /\
    ending [sp; brk; nl; lf oWord "well"] [lf oWord "well"] /\
    undisturbed (HState (lit "TODO") (lit "DONE") (Some (at_noon "2023-11-08"))) [lf oWord "well"] /\
    read_entry (item_of (state_line ++ [sp; brk; nl; lf oWord "well"]) [node oBlockQuote []]) =
    Done (Logged (Entry (HState (lit "TODO") (lit "DONE") (Some (at_noon "2023-11-08")))
                        (Some [node oParagraph [lf oWord "well"]; node oBlockQuote []]))).
Proof.
  eexists. split; [reflexivity|]. split; [|split; [|split; [|reflexivity]]].
  - repeat (constructor; [first [reflexivity | (eexists; split; reflexivity) | (exists 1; reflexivity) | (do 2 eexists; reflexivity)]|]). constructor.
  - apply end_more; [exists 1; reflexivity|reflexivity|exists 1; reflexivity|split; discriminate].
  - split; [|discriminate]. constructor; [|constructor]. intros [_ X]. vm_compute in X. discriminate X.
Qed.
Example C121_written_example : forall sn sp ep,
  write_entry (fun t => match t with TId s => lit "id:" ++ s | _ => [] end) sn sp ep
    (Entry (HRefile (Some (at_noon "2023-11-08")) (Some (TId (lit "x")))) None) =
  Done (Wrote (lit "- Refiled on [2023-11-08 12:00] from [[id:x]]") []).
Proof. reflexivity. Qed.
Example C121_written_tag : forall st sn sp ep,
  write_entry st sn sp ep (Entry (HTag (HT (lit "a") [HT (lit "b") []; HT (lit "c") []]) false (Some (at_noon "2023-11-08"))) (Some [])) =
  Done (Wrote (lit "- Tag ""#a##[b,c]"" Removed on [2023-11-08 12:00] \\") []).
Proof. reflexivity. Qed.
Example C121_unknown_example :
  entries (ln "* Head" ++ ln "  :LOGBOOK:" ++ ln "  - Something else" ++ ln "  :END:") =
  [Done (Logged (Entry HUnknown (Some [node oParagraph [lf oWord "Something"; sp; lf oWord "else"]])))]
  /\ first_words [lf oWord "Something"; sp; lf oWord "else"] [lit "something"; lit "else"]
  /\ unknown_words [lit "something"; lit "else"].
Proof.
  split; [vm_compute; reflexivity|]. split.
  - apply (fw_word (lf oWord "Something")); auto. apply fw_other; try discriminate. apply (fw_word (lf oWord "else")); auto. constructor.
  - split; [|discriminate]. intros X. vm_compute in X. repeat destruct X as [X|X]; try discriminate X. destruct X.
Qed.

(** *** What is not so *)
(** The time of a change of state is taken from the description when this has a time after the word "on", and the
    state before it from a name in capitals there. *)
Theorem C121_state_time_refuted :
  (exists h ps l tail d item par, sentence h = Some ps /\ Forall2 fits ps l /\ ending tail d /\
     ssubs item = [par] /\ ssubs par = l ++ tail /\
     read_entry item <> Done (Logged (Entry h (description d [])))) /\
  entries (ln "* Head" ++ ln "  :LOGBOOK:" ++ ln "  - State ""DONE"" from ""TODO"" [2023-11-08 Wed 12:00] \\" ++
           ln "    started on [1999-01-01 Fri 12:00]" ++
           ln "  - State ""DONE"" from """" [2023-11-08 Wed 12:00] \\" ++ ln "    NASA asked" ++ ln "  :END:") =
  map (fun e => Done (Logged e))
  [Entry (HState (lit "TODO") (lit "DONE") (Some (at_noon "1999-01-01")))
         (Some [node oParagraph [lf oWord "started"; sp; lf oWord "on"; sp; noon "1999-01-01"]]);
   Entry (HState (lit "NASA") (lit "DONE") (Some (at_noon "2023-11-08")))
         (Some [node oParagraph [lf oBigIdent "NASA"; sp; lf oWord "asked"]])].
Proof.
  split; [|vm_compute; reflexivity].
  exists (HState (lit "TODO") (lit "DONE") (Some (at_noon "2023-11-08"))).
  destruct C121_read_example as (ps & S & F & _). exists ps, state_line.
  exists [sp; brk; nl; lf oWord "on"; sp; noon "1999-01-01"], [lf oWord "on"; sp; noon "1999-01-01"].
  eexists (item_of (state_line ++ [sp; brk; nl; lf oWord "on"; sp; noon "1999-01-01"]) []), _.
  split; [exact S|]. split; [exact F|]. split.
  { apply end_more; [exists 1; reflexivity|reflexivity|exists 1; reflexivity|split; discriminate]. }
  split; [reflexivity|]. split; [reflexivity|]. intros X. vm_compute in X. discriminate X.
Qed.
Print Assumptions C121_state_time_refuted.

(** The removal of a priority is read without the priority that it names, and the entry that is read cannot be
    written: the program that writes the document ends with an exception. *)
Definition removal (p on : str) : list piece :=
  spaced [w "priority"; [PName p]; w "removed"; w "on"; [PTime on]].
Theorem C121_removed_refuted : forall item par more l p on,
  ssubs item = par :: more -> ssubs par = l -> Forall2 fits (removal p on) l ->
  read_entry item = Done (Logged (Entry (HPriority Removed None None (Some on)) (description [] more))) /\
  (forall st sn sp ep d, write_entry st sn sp ep (Entry (HPriority Removed None None (Some on)) d) = Thrown) /\
  (forall st sn sp ep, write_entry st sn sp ep (Entry (HPriority Removed (Some p) None (Some on)) None) =
     Done (Wrote (spelled st sp (HNote None) (removal p on)) [])).
Proof. exact removed_wrong. Qed.
Print Assumptions C121_removed_refuted.
Example C121_removed_text :
  entries (ln "* Head" ++ ln "  :LOGBOOK:" ++ ln "  - Priority A removed on [2023-11-08 Wed 12:00]" ++ ln "  :END:") =
  [Done (Logged (Entry (HPriority Removed None None (Some (at_noon "2023-11-08"))) None))].
Proof. vm_compute. reflexivity. Qed.

(** A priority that is a number is not read at all, and the entry cannot be written either. *)
Theorem C121_number_refuted :
  entries (ln "* Head" ++ ln "  :LOGBOOK:" ++ ln "  - Priority 1 added on [2023-11-08 Wed 12:00]" ++ ln "  :END:") =
  [Done (Logged (Entry (HPriority Added None None (Some (at_noon "2023-11-08"))) None))] /\
  (forall st sn sp ep on d, write_entry st sn sp ep (Entry (HPriority Added None None on) d) = Thrown).
Proof. split; [vm_compute; reflexivity|reflexivity]. Qed.
Print Assumptions C121_number_refuted.

(** A change of the deadline is read without any of its times; without a description it cannot be written, with one
    the words "New deadline" are gone. *)
Theorem C121_deadline_refuted : forall item par more u r,
  ssubs item = par :: more -> first_words (ssubs par) (u :: lit "deadline" :: r) ->
  ~ In u (map lit ["tag"; "state"; "refiled"]%string) ->
  exists d, read_entry item = Done (Logged (Entry (HDeadline None None None) d)) /\
  forall st sn sp ep, write_entry st sn sp ep (Entry (HDeadline None None None) d) =
    match d with None => Thrown | Some d => Done (Wrote (lit "- " ++ sn d ++ lit " \\") d) end.
Proof.
  intros item par more u r I FW N. eexists. split; [eapply item_deadline; eauto|].
  intros. unfold write_entry, write_head. cbn [ehead edesc].
  now destruct (described _ _).
Qed.
Print Assumptions C121_deadline_refuted.
Example C121_deadline_text :
  entries (ln "* Head" ++ ln "  :LOGBOOK:" ++ ln "  - New deadline from ""[2023-11-08 Wed 12:00]"" on [2023-11-09 Thu 12:00]" ++ ln "  :END:") =
  [Done (Logged (Entry (HDeadline None None None) None))].
Proof. vm_compute. reflexivity. Qed.

(** An entry of an unknown kind is written twice: in the line, and again below it as its description. *)
Theorem C121_unknown_twice_refuted : forall item par more ws,
  ssubs item = par :: more -> first_words (ssubs par) ws -> unknown_words ws ->
  exists e, read_entry item = Done (Logged e) /\
  forall st sn sp ep, write_entry st sn sp ep e = Done (Wrote (lit "- " ++ sn (ssubs item) ++ lit " \\") (ssubs item)).
Proof. intros item par more ws I FW U. eexists. split; [eapply C121_unknown; eauto|reflexivity]. Qed.
Print Assumptions C121_unknown_twice_refuted.

(** Items of a logbook that end the reading of the document with an exception *)
Theorem C121_throws_refuted :
  entries (ln "* Head" ++ ln "  :LOGBOOK:" ++ ln "  - =code=" ++ ln "  - Tag #x [2023-11-08 Wed 12:00]" ++
           ln "  - Refiled by hand" ++ ln "  - Priority is high" ++ ln "  :END:") = [Thrown; Thrown; Thrown; Thrown].
Proof. vm_compute. reflexivity. Qed.
Print Assumptions C121_throws_refuted.
Example C121_stops_example :
  first_words [lf oWord "Priority"; sp; lf oWord "is"; sp; lf oWord "high"] [lit "priority"; lit "is"; lit "high"] /\
  Forall dated [lf oWord "Priority"; sp; lf oWord "is"; sp; lf oWord "high"] /\
  stops [lf oWord "Priority"; sp; lf oWord "is"; sp; lf oWord "high"] [lit "priority"; lit "is"; lit "high"].
Proof.
  split; [|split].
  - apply (fw_word (lf oWord "Priority")); auto. apply fw_other; try discriminate. apply (fw_word (lf oWord "is")); auto.
    apply fw_other; try discriminate. apply (fw_word (lf oWord "high")); auto. constructor.
  - repeat (constructor; [split; discriminate|]). constructor.
  - right. right. split; [reflexivity|]. split; [discriminate|].
    repeat split; intros X; vm_compute in X; repeat destruct X as [X|X]; try discriminate X; destruct X.
Qed.
