(** What laying out text is compared with: groups of words, gaps between words, places in a table, reading of
    numbers. *)
From Verif Require Import Base StrModel.
Local Open Scope Z_scope.

(** * Wrapping *)

(** The words of a line with gaps of the given widths between them. *)
Fixpoint woven (ws : list str) (gaps : list nat) : str :=
  match ws with
  | [] => []
  | [w] => w
  | w :: ws' => w ++ repeat 32 (hd O gaps) ++ woven ws' (tl gaps)
  end.

(** The words with one space between them. *)
Definition spaced (ws : list str) : str := woven ws (repeat 1%nat (length ws)).

(** Texts on lines of their own. *)
Fixpoint on_lines (ls : list str) : str :=
  match ls with
  | [] => []
  | [l] => l
  | l :: ls' => l ++ [10] ++ on_lines ls'
  end.

Definition width (s : str) : Z := Z.of_nat (length s).

(** A group of words that may stand on a line of width [max]: one word, or words that leave a free column. *)
Definition fits (max : Z) (g : list str) : Prop := g <> [] /\ ((length g <= 1)%nat \/ width (spaced g) < max).

(** Every group takes all the words it can: the first word of the next group does not fit on its line. *)
Fixpoint full (max : Z) (gs : list (list str)) : Prop :=
  match gs with
  | g :: (((w :: _) :: _) as gs') => ~ fits max (g ++ [w]) /\ full max gs'
  | _ => True
  end.

(** Gaps as equal as possible: wider ones first, and by one column only. *)
Definition even (gaps : list nat) : Prop := exists n a b, gaps = repeat (S n) a ++ repeat n b.

(** A line of justified text. *)
Definition justified_line (max : Z) (g : list str) (l : str) : Prop :=
  exists gaps, l = woven g gaps /\ length gaps = (length g - 1)%nat /\ even gaps
    /\ Forall (fun n => (1 <= n)%nat) gaps /\ ((2 <= length g)%nat -> width l = max).

(** A word: visible characters only. *)
Definition word_text (w : str) : Prop := w <> [] /\ ~ In 32 w /\ ~ In 10 w.

(** The words of a text: its stretches without spaces and newlines. *)
Fixpoint words_from (cur : str) (s : str) : list str :=
  match s with
  | [] => match cur with [] => [] | _ => [cur] end
  | c :: s' =>
      if ((c =? 32) || (c =? 10))%bool
      then match cur with [] => words_from [] s' | _ => cur :: words_from [] s' end
      else words_from (cur ++ [c]) s'
  end.
Definition words_of (s : str) : list str := words_from [] s.

(** * Tables *)

(** The lines of a text: a final newline does not begin a new line, and the empty text has no lines. *)
Fixpoint lines_from (cur : str) (s : str) : list str :=
  match s with
  | [] => match cur with [] => [] | _ => [cur] end
  | c :: s' => if c =? 10 then cur :: lines_from [] s' else lines_from (cur ++ [c]) s'
  end.
Definition lines_of (s : str) : list str := lines_from [] s.

Definition longest (ls : list str) : nat := fold_right (fun l n => Nat.max (length l) n) O ls.
Definition cell (row : list str) (c : nat) : str := nth c row [].

(** The widest line in a column, and the most lines in a row. *)
Definition col_width (rows : list (list str)) (c : nat) : nat :=
  fold_right (fun row n => Nat.max (longest (lines_of (cell row c))) n) O rows.
Definition row_height (row : list str) : nat :=
  fold_right (fun t n => Nat.max (length (lines_of t)) n) 1%nat row.
Definition columns (rows : list (list str)) : nat := fold_right (fun row n => Nat.max (length row) n) O rows.

(** The column of text where a column of the table begins. *)
Fixpoint col_start (rows : list (list str)) (gap : nat) (c : nat) : nat :=
  match c with O => O | S c' => (col_start rows gap c' + col_width rows c' + gap)%nat end.

(** The line of text where a row of the table begins; [rule] lines stand between two rows. *)
Fixpoint row_start (rows : list (list str)) (rule : nat) (r : nat) : nat :=
  match r, rows with
  | S r', row :: rows' => (row_height row + rule + row_start rows' rule r')%nat
  | _, _ => O
  end.

Definition rules (rsp : str) : nat := match rsp with [] => O | _ => 1%nat end.

(** * Numbers *)

Definition digit_value (c : byte) : Z := if c <? 58 then c - 48 else c - 87.
(** The number written by digits. *)
Definition number (base : Z) (s : str) : Z := fold_left (fun n c => n * base + digit_value c) s 0.
Definition is_digit_of (base : Z) (c : byte) : Prop := (48 <= c <= 57 \/ 97 <= c <= 102) /\ digit_value c < base.
Definition without_quotes (s : str) : str := filter (fun c => negb (c =? 39)) s.

(** Digits in groups of four from the right, the first of one to four. *)
Inductive in_fours : str -> Prop :=
| fours_first : forall s, (1 <= length s <= 4)%nat -> ~ In 39 s -> in_fours s
| fours_more : forall s t, in_fours s -> length t = 4%nat -> ~ In 39 t -> in_fours (s ++ [39] ++ t).

(** What the letter of a format asks for. *)
Definition base_of (fmt : byte) : Z := if fmt =? 98 then 2 else if fmt =? 111 then 8 else if fmt =? 120 then 16 else 10.
Definition prefix_of (fmt : byte) : str :=
  if fmt =? 98 then [48; 98] else if fmt =? 111 then [48; 111] else if fmt =? 120 then [48; 120] else [].
