(** C123: what is attached to a statement, and the kinds of lists. *)
From Coq Require Import String Lia.
From Verif Require Import Base StrModel NodeKind ConvModel AttachModel AttachSpec AttachProofs.
From Verif Require Import ParseProps ParseHeadProps.
From Verif Require ConvProps.
Local Open Scope nat_scope.

(** Without a kind all that is attached is given. Asked for captions, however this is spelt, exactly the captions are
    given, in their order, and asked for names the names; the texts of the captions and the names are theirs. *)
Theorem C123_captions : forall s,
  get_attached s None = sattached s /\
  (forall k, alike k (lit "caption") -> picks caption (sattached s) (get_attached s (Some k))) /\
  (forall k, alike k (lit "name") -> picks naming (sattached s) (get_attached s (Some k))) /\
  (Forall well_made (sattached s) ->
     (exists ps, caption_texts (sattached s) ps /\ get_caption s = map Some ps) /\ names_given (sattached s) (get_name s)).
Proof.
  intros s. split; [reflexivity|]. split; [|split].
  - intros k K. apply picks_filter. intros x _. now apply chosen_caption.
  - intros k K. apply picks_filter. intros x _. now apply chosen_name.
  - intros W. split; [now apply captions_read|now apply names_read].
Qed.
Print Assumptions C123_captions.

(** Asked for the attributes of an exporter or of a kind of statement, exactly the lines for it are given; the
    attributes of a list are those of the lines for lists, in their order. *)
Theorem C123_attributes : forall s, Forall well_made (sattached s) -> Forall usual (sattached s) ->
  (forall k t, alike k (lit "attr_" ++ t) -> picks (attrs_for t) (sattached s) (get_attached s (Some k))) /\
  (forall k, attrs_given (lit "list") k (sattached s) (list_attrs s k)).
Proof.
  intros s W U. rewrite Forall_forall in W, U. split.
  - intros k t K. apply picks_filter. intros x I. apply chosen_attr; auto.
  - intros k. apply attrs_read; apply Forall_forall; assumption.
Qed.
Print Assumptions C123_attributes.

(** A list is one of descriptions if an item has a header. *)
Theorem C123_description : forall s,
  is_description_list s = true <-> exists x h, In x (ssubs s) /\ skind x = oListItem /\ In (FHeader, h) (sfields x).
Proof.
  intros s. unfold is_description_list. rewrite existsb_exists. split.
  - intros (x & I & H). apply Bool.andb_true_iff in H as [K H]. apply kind_is in K. unfold is_description_item in H.
    assert (X : field_of FHeader (sfields x) <> None) by (destruct (field_of FHeader (sfields x)); [discriminate|discriminate H]).
    apply field_some in X as (h & J); [|now right]. exists x, h. auto.
  - intros (x & h & I & K & J). exists x. split; [exact I|]. apply Bool.andb_true_iff. split; [now apply kind_is|].
    unfold is_description_item. assert (X : field_of FHeader (sfields x) <> None) by (apply field_some; eauto).
    destruct (field_of FHeader (sfields x)); congruence.
Qed.
Print Assumptions C123_description.

(** The converter makes lines of attributes, captions and names well. *)
Theorem C123_made : forall toks ok n conv a s,
  cmd_attr toks ok n a = Done s \/ cmd_caption conv a = Done s \/ cmd_name toks ok n a = Done s -> well_made s.
Proof. exact made_well. Qed.
Print Assumptions C123_made.

(** *** From the text *)
Definition parts (s : str) : list sem := ConvProps.result (fun _ _ => true) s.
Definition wd (s : string) : sem := Sem oWord (text [lit s]) [] [] [].
Definition kv (k v : string) : attrv := Attrv (Some (lit k)) None false (AText (lit v)) [].
Definition quote : str :=
  ln "#+attr_html: :width 3" ++ ln "#+caption: Text" ++ ln "#+name: foo" ++ ln "#+attr_latex: :width 4" ++ ln "#+caption: More" ++
  ln "#+begin_quote" ++ ln "x" ++ ln "#+end_quote".
Example C123_text : exists s r, parts quote = s :: r /\ Forall well_made (sattached s) /\ Forall usual (sattached s) /\
  get_caption s = [Some (node oParagraph [wd "Text"]); Some (node oParagraph [wd "More"])] /\ get_name s = [lit "foo"] /\
  get_attached s (Some (lit "ATTR_HTML")) = [Sem oCmdAttr (D [lit "html"] [] [[kv "width" "3"]] []) [] [] []] /\
  length (get_attached s None) = 5.
Proof.
  do 2 eexists. split; [vm_compute; reflexivity|].
  split; [repeat (apply Forall_cons; [constructor; discriminate|]); apply Forall_nil|].
  split; [|repeat split].
  cbn [sattached]. repeat (apply Forall_cons; [intros t l E u; inversion E; vm_compute; discriminate|]). apply Forall_nil.
Qed.
Example C123_list_text : exists s r, parts (ln "#+attr_list: :k v :l w" ++ ln "- a :: b" ++ ln "- c") = s :: r /\
  list_attrs s (lit "K") = [kv "k" "v"] /\ is_description_list s = true.
Proof. do 2 eexists. split; [vm_compute; reflexivity|]. split; reflexivity. Qed.

(** *** What does not hold *)
(** Everything attached can be asked for by its kind: false, only captions, names and attributes; a call is attached
    and never given. *)
Theorem C123_kinds_refuted :
  (forall s k x, In x (get_attached s (Some k)) -> skind x = oCmdAttr \/ skind x = oCmdCaption \/ skind x = oCmdName) /\
  (exists s r x, parts (ln "#+call: foo()" ++ ln "#+begin_quote" ++ ln "x" ++ ln "#+end_quote") = s :: r /\
     get_attached s None = [x] /\ skind x = oCmdCall /\ forall k, get_attached s (Some k) = []).
Proof.
  assert (A : forall s k x, In x (get_attached s (Some k)) -> skind x = oCmdAttr \/ skind x = oCmdCaption \/ skind x = oCmdName).
  { intros s k x I. apply filter_In in I as [_ I]. now apply chosen_kinds in I. }
  split; [exact A|]. do 3 eexists. split; [vm_compute; reflexivity|]. split; [reflexivity|]. split; [reflexivity|].
  intros k. match goal with |- get_attached ?s _ = [] => specialize (A s k); destruct (get_attached s (Some k)) as [|y l] eqn:E; [reflexivity|] end.
  exfalso. assert (I : In y (y :: l)) by now left. specialize (A y I). rewrite <- E in I. apply filter_In in I as [[<-|[]] _].
  cbn in A. destruct A as [A|[A|A]]; discriminate A.
Qed.
Print Assumptions C123_kinds_refuted.

(** Only the lines for lists are the attributes of a list: false, a line for a target called attr_list is one too. *)
Theorem C123_attr_list_refuted : exists s r, parts (ln "#+attr_list: :k v" ++ ln "#+attr_attr_list: :k w" ++ ln "- a") = s :: r /\
  list_attrs s (lit "k") = [kv "k" "v"; kv "k" "w"] /\ attrs_given (lit "list") (lit "k") (sattached s) [kv "k" "v"].
Proof.
  do 2 eexists. split; [vm_compute; reflexivity|]. split; [reflexivity|]. cbn [sattached].
  apply (ag_line _ _ _ _ [kv "k" "v"] []).
  - reflexivity.
  - apply picks_yes; [|constructor]. exists (lit "k"). split; reflexivity.
  - apply ag_other; [intros X; vm_compute in X; discriminate X|constructor].
Qed.
Print Assumptions C123_attr_list_refuted.

(** A list is numbered if its items have numbers: false, any bullet is enough, and all items of a text have one. *)
Theorem C123_numbered_refuted :
  (forall s, is_numbered_list s = true <-> exists x b l, In x (ssubs s) /\ skind x = oListItem /\ dtext (sdata x) = b :: l) /\
  (exists s r, parts (ln "- a" ++ ln "- b") = s :: r /\ skind s = oList /\ is_numbered_list s = true /\
     map (fun x => dtext (sdata x)) (ssubs s) = [[lit "-"]; [lit "-"]]).
Proof.
  split.
  - intros s. unfold is_numbered_list. rewrite existsb_exists. split.
    + intros (x & I & H). apply Bool.andb_true_iff in H as [K H]. apply kind_is in K. destruct (dtext (sdata x)) as [|b l] eqn:E; [discriminate|].
      exists x, b, l. auto.
    + intros (x & b & l & I & K & E). exists x. split; [exact I|]. rewrite E. apply Bool.andb_true_iff. split; [now apply kind_is|reflexivity].
  - do 2 eexists. split; [vm_compute; reflexivity|]. repeat split.
Qed.
Print Assumptions C123_numbered_refuted.
