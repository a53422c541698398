(** Theorems about the parser. *)
From Coq Require Import String.
From Verif Require Import Base StrModel TokKind NodeKind.
From Verif Require TokModel RegroupModel TreeModel AttrModel.
From Verif Require Import TreeSpec ParseModel ParseSpec.
From Verif Require ParseProofs ParseLoop.
Local Open Scope nat_scope.
Notation ln s := (AttrModel.lit s ++ [10%Z]).

(** The tokens of a document, as the stages before the parser give them. *)
Definition tokens_of (s : str) : outcome (list RegroupModel.otok) :=
  obind (TokModel.tokenize s 3000) RegroupModel.convert_tokens.

(** *** C76 *)
(** What the parser returns, before and after the headings are nested, is one tree written out in full: below the
    root, a list of statements, every node is followed by its children and counts the nodes below it. *)
Theorem C76_parse_gives_a_tree : forall toks n ns, parse_full toks n = Ok ns ->
  exists ts, ns = preorder (Branch nStmtList ts).
Proof.
  intros toks n ns E. destruct (ParseProofs.full_tree _ _ _ E) as (ts & _ & _ & -> & _). exists ts. symmetry. apply ParseProofs.preorder_flat.
Qed.
Print Assumptions C76_parse_gives_a_tree.
Theorem C76_flat_parse_gives_a_tree : forall toks n ns, parse_flat toks n = Ok ns ->
  exists ts, ns = preorder (Branch nStmtList ts).
Proof.
  intros toks n ns E. destruct (ParseProofs.top_flat _ _ _ E) as (ts & -> & _). exists ts. symmetry. apply ParseProofs.preorder_flat.
Qed.
Print Assumptions C76_flat_parse_gives_a_tree.

(** *** C77 *)
(** The tokens of the tree, read from left to right, are tokens of the document in their order, none of them twice.
    Any token that is not notation (or the name of a day, or the start of a line label) is in the tree. *)
Theorem C77_parse_keeps_tokens : forall toks n ns, parse_full toks n = Ok ns ->
  exists js, leaf_tokens ns = map Some js /\ StronglySorted lt js /\ (forall i, In i js -> i < length toks) /\
    forall i, i < length toks -> In i js \/ droppable toks i.
Proof. exact ParseProofs.full_keeps. Qed.
Print Assumptions C77_parse_keeps_tokens.

Definition doc : str :=
  ln "* TODO [#A] Title with *bold* text :tag:" ++ ln ":PROPERTIES:" ++ ln ":ID: x" ++ ln ":END:" ++ ln "Some text, [[https://a.b][link]]." ++
  ln "- one" ++ ln "  - two" ++ ln "** Sub" ++ ln "#+begin_src c -x" ++ ln "  f();" ++ ln "#+end_src" ++ ln "| a | b |" ++ ln "* Next" ++ ln "end".
Example C77_doc : exists toks ns, tokens_of doc = Ok toks /\ parse_full toks 400 = Ok ns /\
  length toks = 84 /\ length ns = 115 /\ length (leaf_tokens ns) = 42.
Proof.
  remember (tokens_of doc) as o eqn:E. vm_compute in E. subst o. eexists _, _. split; [reflexivity|].
  split; [vm_compute; reflexivity|]. vm_compute. auto.
Qed.
(** Without the exception for days: the name of a day is a word of the document and is lost. *)
Theorem C77_every_word_refuted : exists s toks ns i t, tokens_of s = Ok toks /\ parse_full toks 400 = Ok ns /\
  nth_error toks i = Some t /\ RegroupModel.okind t = kWord /\ ~ In (Some i) (leaf_tokens ns).
Proof.
  exists (ln "<2024-01-01 Mon>"). remember (tokens_of (ln "<2024-01-01 Mon>")) as o eqn:E. vm_compute in E. subst o.
  eexists _, _, 3, _. split; [reflexivity|]. split; [vm_compute; reflexivity|]. split; [reflexivity|]. split; [reflexivity|].
  vm_compute. intros H. decompose [or] H; try discriminate; assumption.
Qed.
Print Assumptions C77_every_word_refuted.

(** *** C78 *)
(** Parsing fails with an exception for documents a user can write: a line that closes a block that is not open,
    an empty inline footnote, an empty addition, a space in the name of a macro, a heading at the beginning of a
    quote, a line for results without anything after it. *)
Theorem C78_parse_returns_refuted :
  Forall (fun s => exists toks, tokens_of s = Ok toks /\ parse_full toks 400 = Throw)
    [ln "#+end_quote"; ln "#+end_src"; ln "[fn::]"; ln "{++++}"; ln "{{{a b}}}";
     ln "#+begin_quote" ++ ln "* h" ++ ln "text" ++ ln "#+end_quote";
     ln "#+begin_src c" ++ ln "x" ++ ln "#+end_src" ++ ln "#+results:"].
Proof.
  repeat (apply Forall_cons; [match goal with |- exists t, ?f = _ /\ _ => let o := fresh in remember f as o eqn:E; vm_compute in E; subst o end;
    eexists; split; [reflexivity|vm_compute; reflexivity]|]). apply Forall_nil.
Qed.
Print Assumptions C78_parse_returns_refuted.
(** For a target in which brackets are opened twice it does not end, however many rounds it is given. *)
Theorem C78_parse_ends_refuted : exists s toks, tokens_of s = Ok toks /\ forall n, parse_full toks n = Fuel.
Proof.
  exists (ln "<<a<<b>>"), ParseLoop.open_twice. split; [vm_compute; reflexivity|]. intros n. unfold parse_full. rewrite ParseLoop.parse_stuck. reflexivity.
Qed.
Print Assumptions C78_parse_ends_refuted.
