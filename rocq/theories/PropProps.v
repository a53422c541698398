(** C120: the lines of property drawers, read and written. *)
From Coq Require Import String Lia.
From Verif Require Import Base StrModel AttrModel TimeModel PropModel PropSpec PropProofs PropRead PropWrite PropAgain PropWrong PropLex.
From Verif Require TokKind TokModel.
From Verif Require JsonModel ConvModel.
Local Open Scope Z_scope.

Section Lines.
Variable paragraph : str -> list item.
Variable arguments : str -> group.
Variable json_of : str -> outcome JsonModel.json.
Variable attrs_text : group -> str.
Notation read_line := (read_line paragraph arguments json_of).
Notation write := (write attrs_text).
Notation writable := (writable paragraph arguments json_of attrs_text).

(** A property that a line can hold is written as one line, which is read as the same property. *)
Theorem C120_kept : forall p, writable p -> exists t, write p = Ok t /\ one_line t /\ read_line t = Some (Ok (RProp p)).
Proof. apply kept. Qed.

(** Whatever line a property of these kinds came from, it is such a property: written and read again it is the same. *)
Theorem C120_again : forall l p, one_line l -> read_line l = Some (Ok (RProp p)) -> settled p ->
  writable p /\ exists t, write p = Ok t /\ one_line t /\ read_line t = Some (Ok (RProp p)).
Proof. intros l p O H S. pose proof (again paragraph arguments json_of attrs_text l p O H S) as W. split; [exact W|]. now apply kept. Qed.

(** The id of the heading *)
Theorem C120_id : forall v, clean v -> one_line (write_id v) /\ read_line (write_id v) = Some (Ok (RId v)).
Proof.
  intros v [T O]. split.
  - apply safe_line. apply safe_app; [repeat constructor; discriminate|now apply safe_line].
  - change (Some (Ok (RId (ConvModel.strip_space (32 :: v)))) = Some (Ok (RId v))). now rewrite strip_lead.
Qed.

(** Properties that are written under a name they are not recognised by come back as a plain name and text, and, but
    for cookies, are not read from any line. *)
Theorem C120_unread_refuted : forall p n v, unread p n v ->
  (clean v -> exists t, write p = Ok t /\ read_line t = Some (Ok (RProp (PRaw n v)))) /\
  ((forall r s, p <> PCookie r s) -> forall l, read_line l <> Some (Ok (RProp p))).
Proof.
  intros p n v U. split; [now apply unread_line|]. intros N l H. destruct (never _ _ _ _ _ _ _ H U) as (r & s & E). exact (N r s E).
Qed.

(** The time of archival is written in brackets, and nothing in brackets is read. *)
Theorem C120_archive_time_refuted : forall t, exists s, write (PArchiveTime t) = Ok s /\ read_line s = Some Throw.
Proof.
  intros t. eexists. split; [reflexivity|].
  change (Some (obind (Ok (ConvModel.strip_space (32 :: lit "[" ++ format_org t ++ lit "]"))) archive_time) = Some Throw). cbn [obind]. f_equal.
  rewrite strip_lead; [apply bracket_time|]. split; [discriminate|]. intros m E. change (lit "]") with [93] in E. rewrite app_assoc in E. apply app_inj_tail in E. destruct E as [_ E]. discriminate.
Qed.

(** Options for export and descriptions: every such line throws. *)
Theorem C120_throws_refuted : forall v, read_line (lit ":export_options: " ++ v) = Some Throw /\
  read_line (lit ":description: " ++ v) = Some Throw /\ read_line (lit ":hashtag: " ++ v) = Some Throw.
Proof. intros v. repeat split; reflexivity. Qed.

(** Lists and objects in JSON are written on more than one line. *)
Theorem C120_json_refuted : forall n j t, compound j -> write (PJson n j) = Ok t ->
  ~ one_line t /\ exists c r, (c = 91 \/ c = 123) /\ t = lit ":prop_json:" ++ n ++ lit ": " ++ c :: 10 :: r.
Proof.
  intros n j t C E. cbn [PropModel.write] in E. destruct (dump0 j) as [x| | |] eqn:D; try discriminate. cbn [omap obind] in E. injection E as <-.
  destruct (dump0_compound j x C D) as (c & r & Hc & ->). split; [|exists c, r; now split]. intros O. apply O. apply (in_or_app (lit ":prop_json:")); right. apply in_or_app; right. apply (in_or_app (lit ": ")); right. right. now left.
Qed.

(** The definition of a tag is written without its sign; where that is not read as a tag, a node that does not exist is
    asked for its kind. *)
Theorem C120_hashtag_refuted : forall t k r, paragraph (32 :: tag_text t) = repeat IBlank k ++ IOther :: r ->
  exists s, write (PHashtagDef (Some t)) = Ok s /\ read_line s = Some UB.
Proof.
  intros t k r H. eexists. split; [reflexivity|]. change (Some (hashtag (paragraph (32 :: tag_text t)) None) = Some UB). rewrite H. f_equal. clear H. induction k as [|k IH]; [reflexivity|exact IH].
Qed.

(** What is read of a cookie never says that it is not recursive; one that does not say that it is cannot be written. *)
Theorem C120_cookie_refuted : forall l r s, read_line l = Some (Ok (RProp (PCookie r s))) -> r <> Some false /\ (r <> Some true -> write (PCookie r s) = UB).
Proof.
  intros l r s H. assert (N : r <> Some false).
  { unfold PropModel.read_line in H. destruct (property_line l) as [[[k tok] w]|]; [|discriminate]. injection H as H. eapply read_cookie. exact H. }
  split; [exact N|]. intros M. destruct r as [[]|]; [now contradiction M|now contradiction N|reflexivity].
Qed.
End Lines.

(** The lexer gives such a line, wherever it is in a text, as the name and the rest of the line. *)
Theorem C120_lexed : forall txt before l rest name v rec n c o,
  txt = before ++ l ++ rest -> one_line l -> (rest = [] \/ exists r, rest = 10 :: r) ->
  property_line l = Some (KLiteral, name, v) -> TokModel.pos c = length before ->
  exists s t u, TokModel.line_start txt rec n (TokModel.St c o) = Some (Ok s) /\ TokModel.out s = o ++ [t; u] /\
    TokModel.pos (TokModel.cur s) = length (before ++ l) /\
    TokModel.kind t = TokKind.kColonLiteralProperty /\ TokModel.text t = name /\ TokModel.kind u = TokKind.kRawText /\ TokModel.text u = v.
Proof. intros. eapply lexed; eassumption. Qed.

Print Assumptions C120_kept.
Print Assumptions C120_again.
Print Assumptions C120_id.
Print Assumptions C120_lexed.
Print Assumptions C120_unread_refuted.
Print Assumptions C120_archive_time_refuted.
Print Assumptions C120_throws_refuted.
Print Assumptions C120_json_refuted.
Print Assumptions C120_hashtag_refuted.
Print Assumptions C120_cookie_refuted.

(** ** Examples *)
Definition no_paragraph (s : str) : list item := [IOther].
Definition no_arguments (s : str) : group := Group [] [].
Definition a_json (s : str) : outcome JsonModel.json := if str_eqb s (lit "12") then Ok (JsonModel.JInt 12) else Throw.
Definition no_text (g : group) : str := [].
Notation read0 := (read_line no_paragraph no_arguments a_json).
Notation write0 := (write no_text).

(* C120_kept, C120_again *)
Example ex_raw : writable no_paragraph no_arguments a_json no_text (PRaw (lit "Reviewed:by") (lit "the editor: twice")) /\
  write0 (PRaw (lit "Reviewed:by") (lit "the editor: twice")) = Ok (lit ":Reviewed:by: the editor: twice") /\
  read0 (lit "  :Reviewed:by:    the editor: twice ") = Some (Ok (RProp (PRaw (lit "Reviewed:by") (lit "the editor: twice")))).
Proof.
  split; [|split; reflexivity]. split.
  - apply (plain_two (lit "Reviewed") (lit "by")); [apply ident_wordy; split; [discriminate|]; apply Forall_forall, forallb_forall; reflexivity| | |].
    + apply ident_wordy; split; [discriminate|]; apply Forall_forall, forallb_forall; reflexivity.
    + cbn; intuition discriminate.
    + intros [H|[(? & H)|(? & H)]]; [vm_compute in H; intuition discriminate|vm_compute in H; discriminate H|vm_compute in H; discriminate H].
  - split; [split|vm_compute; intuition discriminate]; [discriminate|]. intros m H. change (lit "the editor: twice") with (lit "the editor: twic" ++ [101]) in H. apply app_inj_tail in H. destruct H as [_ H]. discriminate.
Qed.
Example ex_target : write0 (PArchiveTarget [lit "Done"; lit "this year"] (lit "old.org")) = Ok (lit ":archive: old.org::* Done/this year") /\
  read0 (lit ":archive: old.org::* Done/this year") = Some (Ok (RProp (PArchiveTarget [lit "Done"; lit "this year"] (lit "old.org")))).
Proof. split; reflexivity. Qed.
Example ex_effort : read0 (lit ":Effort: 1:30") = Some (Ok (RProp (PEffort 1 30))) /\ write0 (PEffort 1 30) = Ok (lit ":EFFORT: 1:30") /\
  read0 (lit ":Effort: 1:30:00") = Some (Ok (RProp (PEffort 0 0))) /\ read0 (lit ":Effort: soon") = Some Throw.
Proof. repeat split; reflexivity. Qed.
Example ex_words : read0 (lit ":RADIO_ID: human  chimp") = Some (Ok (RProp (PRadioId [lit "human"; []; lit "chimp"]))) /\
  write0 (PRadioId [lit "human"; []; lit "chimp"]) = Ok (lit ":radio_id: human  chimp").
Proof. split; reflexivity. Qed.
Example ex_json : writable no_paragraph no_arguments a_json no_text (PJson (lit "count") (JsonModel.JInt 12)) /\
  read0 (lit ":prop_json:count: 12") = Some (Ok (RProp (PJson (lit "count") (JsonModel.JInt 12)))).
Proof.
  split; [|reflexivity]. split; [split; [discriminate|]; apply Forall_forall; intros c H; vm_compute in H; intuition (subst; lia)|]. split; [exact I|].
  exists (lit "12"). split; [reflexivity|]. split; [vm_compute; intuition discriminate|reflexivity].
Qed.
(* C120_id *)
Example ex_id : read0 (lit "  :ID:  4f-2a") = Some (Ok (RId (lit "4f-2a"))).
Proof. reflexivity. Qed.
(* C120_lexed *)
Example ex_lexed : property_line (lit ":Owner: me") = Some (KLiteral, lit ":Owner:", lit " me") /\ property_line (lit "  :END:") = None.
Proof. split; reflexivity. Qed.
(* C120_unread_refuted *)
Example ex_ordered : unread (POrdered true) (lit "ordered") (lit "t") /\ write0 (POrdered true) = Ok (lit ":ordered: t") /\
  read0 (lit ":ordered: t") = Some (Ok (RProp (PRaw (lit "ordered") (lit "t")))).
Proof. split; [exact (un_ordered true)|split; reflexivity]. Qed.
(* C120_archive_time_refuted; a zone behind Greenwich is read as one before it, and the form that Emacs writes throws *)
Example ex_archive_time : write0 (PArchiveTime (Utime (Civil 2024 6 9 23 17 0) None AMinute)) = Ok (lit ":archive_time: [2024-06-09 23:17]") /\
  read0 (lit ":ARCHIVE_TIME: [2024-06-09 23:17]") = Some Throw /\ read0 (lit ":ARCHIVE_TIME: 2024-06-09 Sun 23:17") = Some Throw /\
  read0 (lit ":ARCHIVE_TIME: 2024-06-09 23:17") = Some (Ok (RProp (PArchiveTime (Utime (Civil 2024 6 9 23 17 0) None AMinute)))) /\
  read0 (lit ":ARCHIVE_TIME: 2024-06-09 23:17 -05") = Some (Ok (RProp (PArchiveTime (Utime (Civil 2024 6 9 23 17 0) (Some 18000) AMinute)))).
Proof. repeat split; vm_compute; reflexivity. Qed.
(* C120_json_refuted *)
Example ex_json_lines : write0 (PJson (lit "l") (JsonModel.JArr [JsonModel.JInt 1; JsonModel.JInt 2])) =
  Ok (lit ":prop_json:l: [" ++ 10 :: lit "1," ++ 10 :: lit "2" ++ 10 :: lit "]").
Proof. reflexivity. Qed.
(* C120_hashtag_refuted *)
Example ex_hashtag : no_paragraph (32 :: tag_text (Tag (lit "t") [])) = repeat IBlank 0 ++ IOther :: [] /\ write0 (PHashtagDef (Some (Tag (lit "t") []))) = Ok (lit ":hashtag_def: t").
Proof. split; reflexivity. Qed.
(* C120_cookie_refuted *)
Example ex_cookie : read0 (lit ":COOKIE_DATA: todo") = Some (Ok (RProp (PCookie None (Some Todo)))) /\ write0 (PCookie None (Some Todo)) = UB.
Proof. split; reflexivity. Qed.
(* others *)
Example ex_others : read0 (lit ":visibility: nowhere") = Some Throw /\ read0 (lit ":archive: file.org") = Some Throw /\ read0 (lit ":prop_jsonish: text") = Some Throw.
Proof. repeat split; reflexivity. Qed.
