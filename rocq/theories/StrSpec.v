(** What the string helpers are compared with. *)
From Verif Require Import Base StrModel.
Local Open Scope Z_scope.

Definition is_bytes (s : str) : Prop := Forall (fun b => 0 <= b < 256) s.

(** [p] occurs in [s] at offset [i]. *)
Definition occurs_at (p s : str) (i : nat) : Prop := exists a b, s = a ++ p ++ b /\ length a = i.
Definition occurs (p s : str) : Prop := exists i, occurs_at p s i.
Definition first_occurrence (p s : str) (i : nat) : Prop :=
  occurs_at p s i /\ forall j, (j < i)%nat -> ~ occurs_at p s j.

(** Left to right replacement of non-overlapping occurrences; replaced text is not looked at again. *)
Inductive replaced (from to : str) : str -> str -> Prop :=
| rep_none : forall s, ~ occurs from s -> replaced from to s s
| rep_step : forall a b b', first_occurrence from (a ++ from ++ b) (length a) ->
    replaced from to b b' -> replaced from to (a ++ from ++ b) (a ++ to ++ b').

(** Splitting at a delimiter, reading left to right. *)
Inductive split_at (d : str) : str -> list str -> Prop :=
| split_last : forall s, ~ occurs d s -> split_at d s [s]
| split_more : forall a b ts, first_occurrence d (a ++ d ++ b) (length a) ->
    split_at d b ts -> split_at d (a ++ d ++ b) (a :: ts).

(** A piece of a split that keeps separators: a maximal stretch without separators or a stretch of one
    repeated separator character. *)
Definition plain_piece (sep : charset) (p : str) : Prop := p <> [] /\ Forall (fun c => sep c = false) p.
Definition sep_piece (sep : charset) (p : str) : Prop :=
  exists c n, sep c = true /\ (0 < n)%nat /\ p = repeat c n.

(** Two neighbouring pieces could not have been one. *)
Fixpoint no_merge (sep : charset) (l : list str) : Prop :=
  match l with
  | p :: ((q :: _) as l') =>
      ~ (plain_piece sep p /\ plain_piece sep q)
      /\ ~ (exists c, sep_piece sep p /\ sep_piece sep q /\ In c p /\ In c q)
      /\ no_merge sep l'
  | _ => True
  end.

(** Unicode scalar values and their UTF-8 encoding. *)
Definition scalar (c : Z) : Prop := 0 <= c < 55296 \/ 57344 <= c < 1114112.

Definition utf8_encode (c : Z) : str :=
  if c <? 128 then [c]
  else if c <? 2048 then [192 + c / 64; 128 + c mod 64]
  else if c <? 65536 then [224 + c / 4096; 128 + (c / 64) mod 64; 128 + c mod 64]
  else [240 + c / 262144; 128 + (c / 4096) mod 64; 128 + (c / 64) mod 64; 128 + c mod 64].

Definition utf8_text (s : str) (cs : list Z) : Prop := Forall scalar cs /\ s = flat_map utf8_encode cs.

(** Reading an escaped text back: the inverse a reader of the output would apply. *)
Fixpoint unescape (s : str) : str :=
  match s with
  | 92 :: 116 :: s' => 9 :: unescape s'
  | 92 :: 110 :: s' => 10 :: unescape s'
  | 92 :: 34 :: s' => 34 :: unescape s'
  | c :: s' => c :: unescape s'
  | [] => []
  end.

(** Reading a quoted text up to its closing quote: the text and what follows it. *)
Fixpoint read_body (s : str) : option (str * str) :=
  match s with
  | [] => None
  | 34 :: s' => Some ([], s')
  | 92 :: 116 :: s' => option_map (fun '(t, r) => (9 :: t, r)) (read_body s')
  | 92 :: 110 :: s' => option_map (fun '(t, r) => (10 :: t, r)) (read_body s')
  | 92 :: 34 :: s' => option_map (fun '(t, r) => (34 :: t, r)) (read_body s')
  | c :: s' => option_map (fun '(t, r) => (c :: t, r)) (read_body s')
  end.
Definition read_quoted (s : str) : option (str * str) :=
  match s with 34 :: s' => read_body s' | _ => None end.

(** Letters and digits of a text, lower case. *)
Definition is_alnum (c : byte) : bool := is_lower c || is_upper c || is_digit c.
Definition folded_alnum (s : str) : str := map to_lower (filter is_alnum s).
