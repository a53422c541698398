(** Model of three helpers of src/hstd/stdlib/strutils.cpp that lay out text: wrap_text (328-402), format_table
    (624-690) and format_integer_bits (565-622).

    Simplified: int arithmetic does not overflow (lengths and widths fit into int); an output stream is the text
    written to it. *)
From Verif Require Import Base StrModel.
Local Open Scope Z_scope.

Definition slen (s : str) : Z := Z.of_nat (length s).

(** Str(int count, char c), Str.cpp:13: std::string throws for a negative count, which is a size_t beyond the
    maximal size. *)
Definition str_of (count : Z) (c : byte) : outcome str :=
  if count <? 0 then Throw else Ok (repeat c (Z.to_nat count)).

(** The lambda join_line, strutils.cpp:337-348: the words of the buffer with the paddings between them. *)
Fixpoint join_rest (buffer padding : list str) : str :=
  match buffer with
  | [] => []
  | b :: buffer' => hd [] padding ++ b ++ join_rest buffer' (tl padding)
  end.
Definition join_line (buffer padding : list str) : str :=
  match buffer with [] => [] | b :: buffer' => b ++ join_rest buffer' padding end.

(** padding.at(i).append(" "), strutils.cpp:362. *)
Fixpoint widen (i : nat) (padding : list str) : list str :=
  match i, padding with
  | O, p :: ps => (p ++ [32]) :: ps
  | S i', p :: ps => p :: widen i' ps
  | _, [] => []
  end.

(** The for loop, strutils.cpp:360-363. *)
Fixpoint pad_pass (n : nat) (buffer : list str) (max : Z) (i : nat) (padding : list str) : list str :=
  match n with
  | O => padding
  | S n' =>
      if ((i <? length padding)%nat && (slen (join_line buffer padding) <? max))%bool
      then pad_pass n' buffer max (S i) (widen i padding)
      else padding
  end.

(** The while loop, strutils.cpp:359-364. *)
Fixpoint pad_loop (fuel : nat) (buffer : list str) (max : Z) (padding : list str) : outcome (list str) :=
  match fuel with
  | O => Fuel
  | S f =>
      if slen (join_line buffer padding) <? max
      then pad_loop f buffer max (pad_pass (length padding) buffer max 0 padding)
      else Ok padding
  end.

(** The lambda fold_buffer, strutils.cpp:333-380: the line pushed for the buffer. It is called with a buffer that
    is not empty. *)
Definition fold_buffer (justified : bool) (max : Z) (buffer : list str) (currentWidth : Z) : outcome str :=
  if (justified && (1 <? length buffer)%nat)%bool then
    let slots := Z.of_nat (length buffer) - 1 in
    let toAdd := max - (currentWidth - slots) in
    let addPerSlot := Z.quot toAdd slots in
    obind (str_of addPerSlot 32) (fun pad =>
    obind (pad_loop (S (Z.to_nat max)) buffer max (repeat pad (length buffer - 1))) (fun padding =>
    Ok (join_line buffer padding)))
  else
    match buffer with
    | [] => UB
    | b :: rest => Ok (fold_left (fun a x => a ++ [32] ++ x) rest b)
    end.

(** The loop over the words, strutils.cpp:382-388. *)
Fixpoint wrap_loop (justified : bool) (max : Z) (words : list str) (lines buffer : list str) (currentWidth : Z)
  : outcome (list str) :=
  match words with
  | [] =>
      match buffer with
      | [] => Ok lines
      | _ => obind (fold_buffer justified max buffer currentWidth) (fun l => Ok (lines ++ [l]))
      end
  | word :: words' =>
      let isEmpty (b : list str) := match b with [] => true | _ => false end in
      let push (ls b : list str) (cw : Z) :=
        let b' := b ++ [word] in
        wrap_loop justified max words' ls b' (cw + (slen word + (if isEmpty b' then 0 else 1))) in
      if max <? currentWidth + slen word + (if isEmpty buffer then 0 else 1) then
        if isEmpty buffer then push lines buffer currentWidth
        else obind (fold_buffer justified max buffer currentWidth) (fun l => push (lines ++ [l]) [] 0)
      else push lines buffer currentWidth
  end.

(** wrap_text, strutils.cpp:328-402. *)
Definition wrap_text (words : list str) (maxWidth : Z) (justified : bool) : outcome str :=
  obind (wrap_loop justified maxWidth words [] [] 0) (fun lines =>
  match lines with
  | [] => Ok []
  | l :: rest => Ok (fold_left (fun a x => a ++ [10] ++ x) rest l)
  end).

(** * format_table *)

(** strutils.cpp:629-630. *)
Definition col_count (rows : list (list str)) : nat := fold_left (fun n row => Nat.max n (length row)) rows O.

Fixpoint omapM {A B} (f : A -> outcome B) (l : list A) : outcome (list B) :=
  match l with
  | [] => Ok []
  | x :: l' => obind (f x) (fun y => obind (omapM f l') (fun ys => Ok (y :: ys)))
  end.

(** The cells of a row, one for each column: split(row[col], '\n') or {""}, strutils.cpp:652-657. *)
Fixpoint cell_lines (n : nat) (row : list str) : outcome (list (list str)) :=
  match n with
  | O => Ok []
  | S n' =>
      match row with
      | [] => obind (cell_lines n' []) (fun r => Ok ([[]] :: r))
      | c :: row' => obind (split_char c 10) (fun ls => obind (cell_lines n' row') (fun r => Ok (ls :: r)))
      end
  end.

(** strutils.cpp:636-642, one row: the widths of the columns grow to the longest line of the cell. *)
Fixpoint widths_row (widths : list nat) (row : list str) : outcome (list nat) :=
  match widths, row with
  | w :: ws, c :: row' =>
      obind (split_char c 10) (fun ls =>
      obind (widths_row ws row') (fun r => Ok (fold_left (fun w l => Nat.max w (length l)) ls w :: r)))
  | ws, [] => Ok ws
  | [], _ :: _ => UB
  end.
Fixpoint col_widths (widths : list nat) (rows : list (list str)) : outcome (list nat) :=
  match rows with
  | [] => Ok widths
  | row :: rows' => obind (widths_row widths row) (fun ws => col_widths ws rows')
  end.

(** strutils.cpp:664-677, one line of a row: the line of every cell, padded to the width of its column. *)
Fixpoint table_line (sp : str) (widths : list nat) (cells : list (list str)) (k : nat) : outcome str :=
  match widths, cells with
  | w :: ws, ls :: cells' =>
      let cell_line := if (k <? length ls)%nat then nth k ls [] else [] in
      obind (str_of (Z.of_nat w - slen cell_line) 32) (fun padding =>
      obind (table_line sp ws cells' k) (fun r =>
      Ok (cell_line ++ padding ++ (match ws with [] => [] | _ => sp end) ++ r)))
  | _, _ => Ok []
  end.

(** strutils.cpp:663-678: the lines of a row. *)
Definition row_text (sp : str) (widths : list nat) (cells : list (list str)) : outcome str :=
  let row_height := fold_left (fun h ls => Nat.max h (length ls)) cells 1%nat in
  obind (omapM (fun k => obind (table_line sp widths cells k) (fun l => Ok (l ++ [10]))) (seq 0 row_height))
    (fun ls => Ok (concat ls)).

(** strutils.cpp:682-686: the line between two rows. *)
Fixpoint rule_line (rsp : str) (ul : byte) (widths : list nat) : str :=
  match widths with
  | [] => []
  | w :: ws => repeat ul w ++ (match ws with [] => [] | _ => rsp end) ++ rule_line rsp ul ws
  end.

(** The loop over the rows, strutils.cpp:646-688. *)
Fixpoint table_rows (sp rsp : str) (ul : byte) (n : nat) (widths : list nat) (rows : list (list str)) : outcome str :=
  match rows with
  | [] => Ok []
  | row :: rows' =>
      obind (cell_lines n row) (fun cells =>
      obind (row_text sp widths cells) (fun text =>
      obind (table_rows sp rsp ul n widths rows') (fun rest =>
      Ok (text ++ (match rsp, rows' with
                   | _ :: _, _ :: _ => rule_line rsp ul widths ++ [10]
                   | _, _ => []
                   end) ++ rest))))
  end.

(** format_table, strutils.cpp:624-690. *)
Definition format_table (rows : list (list str)) (sp rsp : str) (ul : byte) : outcome str :=
  let n := col_count rows in
  if (n =? 0)%nat then Ok []
  else obind (col_widths (repeat O n) rows) (fun widths => table_rows sp rsp ul n widths rows).

(** * format_integer_bits *)

(** strutils.cpp:573-576: the bits of the value; the loop ends because the value has 64 bits. *)
Fixpoint bits_loop (fuel : nat) (v : Z) (raw : str) : outcome str :=
  if v =? 0 then Ok raw
  else match fuel with
       | O => Fuel
       | S f => bits_loop f (Z.shiftr v 1) ((48 + Z.land v 1) :: raw)
       end.

(** operator<< with std::oct or std::hex and std::to_string: the digits of a value that is not negative, without
    leading zeros. *)
Definition digit_char (d : Z) : byte := if d <? 10 then 48 + d else 87 + d.
Fixpoint based (fuel : nat) (base v : Z) (acc : str) : outcome str :=
  match fuel with
  | O => Fuel
  | S f =>
      let acc := digit_char (v mod base) :: acc in
      if v <? base then Ok acc else based f base (v / base) acc
  end.

(** strutils.cpp:594-596 and 601-603. *)
Definition pad_zeros (pad_to : Z) (raw : str) : str :=
  if ((0 <? pad_to) && (slen raw <? pad_to))%bool then repeat 48 (Z.to_nat (pad_to - slen raw)) ++ raw else raw.

(** strutils.cpp:606-612: a quote before every fourth digit, from the right; [rev raw] is read from its start. *)
Fixpoint group_loop (rest : str) (count : nat) (grouped : str) : str :=
  match rest with
  | [] => grouped
  | c :: rest' =>
      let grouped := if ((0 <? count)%nat && (count mod 4 =? 0)%nat)%bool then 39 :: grouped else grouped in
      group_loop rest' (S count) (c :: grouped)
  end.
Definition grouped (raw : str) : str := group_loop (rev raw) 0 [].

(** format_integer_bits, strutils.cpp:565-622. *)
Definition format_integer_bits (value : Z) (fmt : byte) (pad_to : Z) : outcome str :=
  if fmt =? 98 then
    obind (if value =? 0 then Ok [48] else bits_loop 64 value []) (fun raw =>
    Ok ([48; 98] ++ grouped (pad_zeros pad_to raw)))
  else if fmt =? 111 then
    obind (based 64 8 value []) (fun raw => Ok ([48; 111] ++ grouped (pad_zeros pad_to raw)))
  else if fmt =? 120 then
    obind (based 64 16 value []) (fun raw => Ok ([48; 120] ++ grouped (pad_zeros pad_to raw)))
  else obind (based 64 10 value []) (fun raw => Ok (pad_zeros pad_to raw)).
