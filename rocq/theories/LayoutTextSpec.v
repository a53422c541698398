(** The text a block without alternatives stands for, line by line. *)
From Coq Require Import ZArith List Bool Lia.
From Verif Require Import Base StrModel LayoutModel.
Import ListNotations.
Local Open Scope Z_scope.

Definition pad (n : nat) : str := repeat 32 n.

(** The bytes of a string of the store [txt]; the reserved id is a run of
    spaces. *)
Definition str_of (txt : nat -> str) (x : lytstr) : str :=
  match lid x with
  | TextId n => txt n
  | SpacesId => pad (Z.to_nat (llen x))
  | NilId => []
  end.
Definition strs_of (txt : nat -> str) (strs : list lytstr) : str := concat (map (str_of txt) strs).

(** The lines [b] put right of the lines [a]: the first line of [b] continues
    the last line of [a], the others are indented to the column it starts at. *)
Definition attach (a b : list str) : list str :=
  match b with
  | [] => a
  | h :: t => removelast a ++ (last a [] ++ h) :: map (app (pad (length (last a [])))) t
  end.

(** The lines of a block: texts are one line, a stack puts the lines of its
    parts below each other, a line puts its parts right of each other. *)
Fixpoint block_lines (txt : nat -> str) (b : block) : list str :=
  match b with
  | BText strs => [strs_of txt strs]
  | BLine l => fold_right (fun e r => attach (block_lines txt e) r) [] l
  | BStack _ l => flat_map (block_lines txt) l
  | BEmpty | BChoice _ => []
  end.

(** Blocks of texts, lines and stacks, each with at least one part; recorded
    widths are the lengths of the strings. *)
Definition measured (txt : nat -> str) (x : lytstr) : Prop :=
  llen x = Z.of_nat (length (str_of txt x)).
Fixpoint fixed (txt : nat -> str) (b : block) : Prop :=
  match b with
  | BText strs => Forall (measured txt) strs
  | BLine l => l <> [] /\ (fix all (l : list block) : Prop := match l with [] => True | e :: l' => fixed txt e /\ all l' end) l
  | BStack k l => 0 <= k /\ l <> [] /\ (fix all (l : list block) : Prop := match l with [] => True | e :: l' => fixed txt e /\ all l' end) l
  | BEmpty | BChoice _ => False
  end.
(** The length of all its texts together. *)
Fixpoint block_size (txt : nat -> str) (b : block) : nat :=
  match b with
  | BText strs => length (strs_of txt strs)
  | BLine l | BStack _ l => list_sum (map (block_size txt) l)
  | BEmpty | BChoice _ => 0
  end.

(** The text of a list of events. *)
Definition ev_text (txt : nat -> str) (e : event) : str :=
  match e with EvText n _ => txt n | EvSpaces n => pad (Z.to_nat n) | EvNewline => [10] end.
Definition events_text (txt : nat -> str) (ev : list event) : str := concat (map (ev_text txt) ev).

(** Lines as one text, with a line break between them. *)
Fixpoint in_lines (ls : list str) : str :=
  match ls with [] => [] | [x] => x | x :: r => x ++ 10 :: in_lines r end.
