(** Theorems about the nesting of headings and the fields of nodes. *)
From Coq Require Import String.
From Verif Require Import Base StrModel TokKind NodeKind.
From Verif Require TokModel RegroupModel TreeModel AttrModel.
From Verif Require Import TreeSpec ParseModel ParseSpec LayoutKindSpec ParseProps.
From Verif Require ParseProofs ParseShapeStmt ParseNest ParseHead.
Local Open Scope nat_scope.

(** *** C79 *)
(** The parser first reads a document as a list of statements in which a heading is one line. If no heading is inside
    another statement and no heading has an empty run of stars, the headings are then nested: pulling the bodies out
    again gives the list of statements, and below a heading are exactly the statements up to the next heading that
    is not deeper. *)
Theorem C79_headings_nest : forall toks n ts, parse_flat toks n = Ok (preorder (Branch nStmtList ts)) ->
  ~ In None (leaf_tokens (preorder (Branch nStmtList ts))) ->
  (forall t, In t ts -> Forall no_heading (sub_of t)) ->
  (forall t, In t toks -> RegroupModel.okind t = kSubtreeStars -> RegroupModel.otext t <> []) ->
  exists us, parse_full toks n = Ok (preorder (Branch nStmtList us)) /\ flat_map unnest us = ts /\ well_nested toks 0 us.
Proof.
  intros toks n ts P N H St. rewrite ParseProofs.preorder_flat in P, N. destruct (ParseShapeStmt.flat_laid _ _ _ P) as (ts' & E & L).
  assert (ts' = ts) as ->.
  { apply ParseHead.flat_inj in E. injection E as ->. reflexivity. }
  destruct (ParseHead.headings_nest toks n ts P L) as (us & Pf & Un & W & _).
  - intros X. apply N. rewrite TreeProofs.flat_unfold. exact X.
  - apply Forall_forall. exact H.
  - intros i x Ex. apply St. eapply nth_error_In. exact Ex.
  - exists us. rewrite ParseProofs.preorder_flat. auto.
Qed.
Print Assumptions C79_headings_nest.
(** There is one such nesting. *)
Theorem C79_one_nesting : forall toks o us vs, well_nested toks o us -> well_nested toks o vs ->
  flat_map unnest us = flat_map unnest vs -> us = vs.
Proof. exact ParseHead.nesting_unique. Qed.
Print Assumptions C79_one_nesting.

(** *** C80 *)
(** Every node of the tree, before and after the headings are nested, has the fields of its kind, in their places. *)
Theorem C80_nodes_have_their_fields : forall toks n ns, parse_flat toks n = Ok ns ->
  exists ts, ns = preorder (Branch nStmtList ts) /\ Forall (laid_out toks (fun body => body = [])) ts.
Proof.
  intros toks n ns P. destruct (ParseShapeStmt.flat_laid _ _ _ P) as (ts & -> & L). exists ts. split; [|exact L]. symmetry. apply ParseProofs.preorder_flat.
Qed.
Print Assumptions C80_nodes_have_their_fields.
Theorem C80_nested_nodes_have_their_fields : forall toks n ts us, parse_flat toks n = Ok (preorder (Branch nStmtList ts)) ->
  flat_map unnest us = ts -> Forall (laid_out toks (fun _ => True)) us.
Proof.
  intros toks n ts us P Un. rewrite ParseProofs.preorder_flat in P. destruct (ParseShapeStmt.flat_laid _ _ _ P) as (ts' & E & L).
  apply ParseHead.flat_inj in E. injection E as <-. apply ParseHead.laid_nested. rewrite Un. exact L.
Qed.
Print Assumptions C80_nested_nodes_have_their_fields.

(** Reads a flat tree back, for the examples. *)
Fixpoint tree_at (fuel : nat) (ns : list (TreeModel.node nk (option nat) mono)) : option (tree nk (option nat) mono * list (TreeModel.node nk (option nat) mono)) :=
  match fuel, ns with
  | S fuel, TreeModel.mkNode k v :: r =>
      match v with
      | TreeModel.Tok x => Some (Leaf k x, r)
      | TreeModel.Mono x => Some (MonoLeaf k x, r)
      | TreeModel.Ext n =>
          (fix subs (g : nat) (todo : list _) (acc : list (tree nk (option nat) mono)) :=
             match g with
             | 0 => None
             | S g => match todo with
                      | [] => Some (Branch k (rev acc), skipn n r)
                      | _ => match tree_at fuel todo with Some (t, todo') => subs g todo' (t :: acc) | None => None end
                      end
             end) (S n) (firstn n r) []
      end
  | _, _ => None
  end.
Definition trees_of (o : outcome (list (TreeModel.node nk (option nat) mono))) : list (tree nk (option nat) mono) :=
  match o with Ok ns => match tree_at 400 ns with Some (Branch _ ts, _) => ts | _ => [] end | _ => [] end.
Definition flat_trees (s : str) := match tokens_of s with Ok toks => trees_of (parse_flat toks 400) | _ => [] end.
Definition full_trees (s : str) := match tokens_of s with Ok toks => trees_of (parse_full toks 400) | _ => [] end.
Definition headed : str :=
  ln "before" ++ ln "** A" ++ ln "a" ++ ln "*** B" ++ ln "b" ++ ln "**** C" ++ ln "** D" ++ ln "*** E" ++ ln "* F" ++ ln "f".
Example C79_headed : exists toks, tokens_of headed = Ok toks /\
  parse_flat toks 400 = Ok (preorder (Branch nStmtList (flat_trees headed))) /\
  ~ In None (leaf_tokens (preorder (Branch nStmtList (flat_trees headed)))) /\
  (forall t, In t (flat_trees headed) -> Forall no_heading (sub_of t)) /\
  (forall t, In t toks -> RegroupModel.okind t = kSubtreeStars -> RegroupModel.otext t <> []) /\
  map (level_of toks) (flat_trees headed) = [None; Some 2; None; Some 3; None; Some 4; Some 2; Some 3; Some 1; None] /\
  map (level_of toks) (full_trees headed) = [None; Some 2; Some 2; Some 1] /\
  map (fun t => map (level_of toks) (body_of t)) (full_trees headed) = [[]; [None; Some 3]; [Some 3]; [None]].
Proof.
  remember (tokens_of headed) as o eqn:E. vm_compute in E. subst o. eexists. split; [reflexivity|].
  split; [vm_compute; reflexivity|]. split; [vm_compute; intuition discriminate|]. split.
  - remember (flat_trees headed) as ts eqn:Et. vm_compute in Et. subst ts. apply (proj1 (Forall_forall (fun t => Forall no_heading (sub_of t)) _)).
    repeat constructor; intros H; discriminate H.
  - split; [intros t H K|vm_compute; auto].
    cbn [In] in H. decompose [or] H; clear H; subst; cbn in *; try discriminate; contradiction.
Qed.
(** The fields of the first heading of a document, and of the first item of its list. *)
Example C80_doc : match full_trees doc with
  | Branch nSubtree sub :: _ => map kind_of sub = [nRawText; nBigIdent; nSubtreeUrgency; nParagraph; nEmpty; nInlineStmtList; nEmpty; nDrawer; nStmtList]
  | _ => False
  end /\
  match skipn 2 (flat_trees doc) with
  | Branch nList (Branch nListItem sub :: _) :: _ => map kind_of sub = [nRawText; nEmpty; nEmpty; nEmpty; nStmtList]
  | _ => False
  end.
Proof. vm_compute. auto. Qed.
