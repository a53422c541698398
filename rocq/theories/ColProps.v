(** C125: column views. *)
From Coq Require Import String Lia.
From Verif Require Import Base StrModel ConvModel ColModel ColSpec ColProofs.
From Verif Require TimeSpec.
Local Open Scope Z_scope.

(** Columns with one space between them are read, each with its width, property, title and summary, for all widths that
    fit, all names, all titles and the summaries of the table, whatever spaces are around. *)
Theorem C125_read : forall l s a b, view_text known l s -> Forall (eq 32) a -> Forall (eq 32) b ->
  read_view (a ++ s ++ b) = Some l.
Proof. exact read_ok. Qed.
Print Assumptions C125_read.

(** The line of columns without summaries that is written for a document is read as the same columns. *)
Theorem C125_written : forall l, l <> [] -> Forall plain_column l -> Forall (fun c => csum c = None) l ->
  read_view (write_view l) = Some l.
Proof.
  intros l N F S. destruct (write_view_text l N F S) as (s & -> & V).
  replace (32 :: s) with ([32] ++ s ++ []) by (rewrite app_nil_r; reflexivity).
  apply read_ok; [exact V|repeat constructor|constructor].
Qed.
Print Assumptions C125_written.

Definition item : column := Column (Some 20) (Some (lit "ITEM")) None None.
Definition approved : column := Column (Some 9) (Some (lit "Approved")) (Some (lit "Approved?")) (Some (Check IfAllNested)).
Definition owner : column := Column None (Some (lit "Owner")) None None.
Lemma item_text : column_text known item (lit "%20ITEM").
Proof.
  apply (a_column known (Some 20) (lit "20") (Some (lit "ITEM")) None (lit "ITEM") None []).
  - constructor; [|lia]. split; [discriminate|]. split; [|reflexivity].
    change (lit "20") with [50; 48]. repeat (apply Forall_cons; [lia|]). apply Forall_nil.
  - constructor. exists 73, [84; 69; 77]. split; [reflexivity|]. split; [left; lia|]. repeat (apply Forall_cons; [left; left; lia|]). apply Forall_nil.
  - constructor.
Qed.
Example C125_view : view_text known [item; item] (lit "%20ITEM" ++ 32 :: lit "%20ITEM").
Proof. apply more_columns; [exact item_text|now right|]. constructor. exact item_text. Qed.
Example C125_line : read_view (lit " %20ITEM %9Approved(Approved?){X} %Owner") = Some [item; approved; owner].
Proof. vm_compute. reflexivity. Qed.
Example C125_plain : Forall plain_column [item; owner] /\ write_view [item; owner] = lit " %20ITEM %Owner".
Proof.
  split; [|vm_compute; reflexivity].
  assert (O : forall s c r, s = c :: r -> letter c -> Forall letter r -> name s).
  { intros s c r -> C F. exists c, r. split; [reflexivity|]. split; [exact C|]. eapply Forall_impl; [|exact F]. intros d D. now left. }
  constructor; [|constructor; [|constructor]]; (split; [|split]); cbn [cwidth cprop ctitle item owner]; intros n E; try discriminate E.
  - injection E as <-. lia.
  - injection E as <-. apply (O _ 73 [84; 69; 77]); [reflexivity|left; lia|]. repeat (apply Forall_cons; [left; lia|]). apply Forall_nil.
  - injection E as <-. apply (O _ 79 [119; 110; 101; 114]); [reflexivity|left; lia|]. repeat (apply Forall_cons; [right; lia|]). apply Forall_nil.
Qed.

(** *** What does not hold *)
(** Each summary of the manual is read as what it is: false for sums and means, and every name that is not known, which
    are read like the X of checkboxes. *)
Theorem C125_sum_refuted :
  (forall w, ~ In w (map (fun x => lit (fst x)) known) -> summary_of w = Check IfAllNested) /\
  forall w a, In (w, a) missed -> a <> Check IfAllNested /\
    column_text missed (Column None (Some (lit "A")) None (Some a)) (lit "%A{" ++ lit w ++ lit "}") /\
    read_view (lit "%A{" ++ lit w ++ lit "}") = Some [Column None (Some (lit "A")) None (Some (Check IfAllNested))].
Proof.
  split.
  - intros w N. unfold summary_of.
    assert (E : forall v, In (lit v) (map (fun x => lit (fst x)) known) -> eqs w v = false).
    { intros v V. destruct (eqs w v) eqn:E; [|reflexivity]. apply AttrProofs.str_eqb_eq in E. subst w. contradiction. }
    rewrite !E by (cbn; tauto). reflexivity.
  - intros w a I.
    assert (T : column_text missed (Column None (Some (lit "A")) None (Some a)) (lit "%A{" ++ lit w ++ lit "}")).
    { apply (a_column missed None [] (Some (lit "A")) None (lit "A") (Some a) (lit "{" ++ lit w ++ lit "}")).
      - constructor.
      - constructor. exists 65, []. split; [reflexivity|]. split; [left; lia|constructor].
      - now constructor. }
    unfold missed in I.
    repeat (destruct I as [I|I]; [injection I as <- <-; split; [discriminate|]; split; [exact T|vm_compute; reflexivity]|]).
    destruct I.
Qed.
Print Assumptions C125_sum_refuted.

(** A line that is no list of columns is reported: false, what follows a column is dropped without a word; here a name
    with a dash, and the columns after it. With two spaces, which Emacs accepts, nothing is read. *)
Theorem C125_rest_refuted :
  read_view (lit "%A-B %C") = Some [Column None (Some (lit "A")) None None] /\
  read_view (lit "%A  %C") = None /\
  read_view (lit "%A %C") = Some [Column None (Some (lit "A")) None None; Column None (Some (lit "C")) None None].
Proof. repeat split; vm_compute; reflexivity. Qed.
Print Assumptions C125_rest_refuted.

(** Columns are written so that they are read again: false with summaries, which are written in brackets that are not
    read, together with the columns after them; the largest is written as the smallest; and a line that is a node of the
    document is written without any of its columns, which cannot be read. *)
Theorem C125_written_refuted :
  (exists c, plain_column c /\ column_text known c (lit "%A{max}") /\
     read_view (write_view [c; owner]) = Some [Column None (Some (lit "A")) None None]) /\
  write_summary (Math Max) = write_summary (Math Min) /\
  forall l, read_view (write_command l) = None.
Proof.
  split; [|split; [reflexivity|intros l; vm_compute; reflexivity]].
  assert (N : name (lit "A")) by (exists 65, []; split; [reflexivity|split; [left; lia|constructor]]).
  exists (Column None (Some (lit "A")) None (Some (Math Max))). split; [|split; [|vm_compute; reflexivity]].
  - split; [|split]; cbn [cwidth cprop ctitle]; intros n E; try discriminate E. injection E as <-. exact N.
  - apply (a_column known None [] (Some (lit "A")) None (lit "A") (Some (Math Max)) (lit "{max}")).
    + constructor.
    + now constructor.
    + apply (a_summary known "max" (Math Max)). cbn. tauto.
Qed.
Print Assumptions C125_written_refuted.
