(** A path is the list of enclosing keys, outermost first. *)
From Verif Require Import Base TrackModel.

Inductive scope_op {A : Type} := Enter (x : A) | Leave.
Arguments scope_op : clear implicits.

Definition path_step {A} (l : list A) (o : scope_op A) : list A :=
  match o with Enter x => l ++ [x] | Leave => removelast l end.

Definition track_step {A} (t : tracker A) (o : scope_op A) : tracker A :=
  match o with Enter x => tr_push t x | Leave => tr_pop t end.

(** Trees of nested scopes: the paths a traversal should see at each entry, in order. *)
Inductive scopes {A : Type} := Scope (key : A) (sub : list (@scopes A)).
Arguments scopes : clear implicits.

Fixpoint visit_paths {A} (here : list A) (s : scopes A) : list (list A) :=
  let '(Scope k sub) := s in
  let p := here ++ [k] in
  p :: (fix go l := match l with [] => [] | x :: l' => visit_paths p x ++ go l' end) sub.

(** The traversal as written by users of the tracker: recurse with t.push(key). *)
Fixpoint visit_track {A} (t : tracker A) (s : scopes A) : list (list A) :=
  let '(Scope k sub) := s in
  let t' := tr_push t k in
  tr_vector t' :: (fix go l := match l with [] => [] | x :: l' => visit_track t' x ++ go l' end) sub.
