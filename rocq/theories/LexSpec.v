(** Specification for token cursors: a cursor walks a fixed list of token ids (all tokens of the group
    for a plain cursor, the selection for a sub-cursor). *)
From Verif Require Import Base LexModel.

Section Spec.
Context {K : Type}.

(** The ids a cursor walks over. *)
Definition walk (c : cursor K) : list nat :=
  match sub c with None => seq 0 (length (toks c)) | Some (_, ids) => ids end.

(** [on c i]: the cursor stands on the [i]-th id of its walk. *)
Definition on (c : cursor K) (i : nat) : Prop :=
  pos c = nth_error (walk c) i /\ i < length (walk c) /\
  match sub c with None => True | Some (sp, _) => sp = Z.of_nat i end.

(** Every selected id names a token of the group. *)
Definition valid_ids (ts : list K) (ids : list nat) : Prop := Forall (fun i => i < length ts) ids.

(** Number of leading ids whose token does not satisfy [stop]. *)
Fixpoint lead (ts : list K) (stop : K -> bool) (ids : list nat) : nat :=
  match ids with
  | [] => 0
  | i :: r => match nth_error ts i with
              | Some k => if stop k then 0 else S (lead ts stop r)
              | None => 0
              end
  end.

(** The tokens of the leading ids satisfy the predicates one by one. *)
Fixpoint matches (ts : list K) (fs : list (K -> bool)) (ids : list nat) : bool :=
  match fs, ids with
  | [], _ => true
  | f :: fs', i :: r => match nth_error ts i with Some k => f k && matches ts fs' r | None => false end
  | _ :: _, [] => false
  end.

(** Consecutive ids. *)
Definition contiguous (ids : list nat) : Prop :=
  forall i a b, nth_error ids i = Some a -> nth_error ids (S i) = Some b -> b = S a.

(** A history that never repositions explicitly. *)
Definition no_set_pos (o : op K) : Prop := match o with OSetPos _ => False | _ => True end.

(** A cursor as created: over a whole token group, or over a selection of valid ids. *)
Definition fresh (c : cursor K) : Prop :=
  (exists ts, c = lexer ts) \/ (exists ts ids, valid_ids ts ids /\ c = sublexer ts ids).

(** A plain cursor standing on index [i], or finished when [i] is past the end. *)
Definition cursor_at (ts : list K) (i : nat) : cursor K :=
  if i <? length ts then mkCursor ts (Some i) None else mkCursor ts None None.

End Spec.
