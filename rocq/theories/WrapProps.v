(** C112 wrapping text, C113 tables of text, C114 numbers in groups of digits. *)
From Verif Require Import Base StrModel WrapModel WrapSpec WrapProofs WrapTable WrapNum.
Local Open Scope Z_scope.

(** Wrapped text is the words in order, in groups on lines of their own, one space between words. A line with more
    than one word leaves a free column, and the first word of the next line would not have fitted. *)
Theorem C112_plain : forall words max, exists gs, concat gs = words /\ Forall (fits max) gs /\ full max gs
  /\ wrap_text words max false = Ok (on_lines (map spaced gs)).
Proof. exact wrap_plain. Qed.
Print Assumptions C112_plain.

(** No division of the words into lines that fit has fewer lines. *)
Theorem C112_fewest : forall words max gs', concat gs' = words -> Forall (fits max) gs' ->
  exists gs, concat gs = words /\ (length gs <= length gs')%nat
    /\ wrap_text words max false = Ok (on_lines (map spaced gs)).
Proof.
  intros words max gs' E F. destruct (wrap_plain words max) as (gs & R1 & R2 & R3 & R4).
  exists gs. split; [exact R1|]. split; [|exact R4].
  apply (fewest_suffix max gs' gs []); try assumption. now rewrite R1.
Qed.
Print Assumptions C112_fewest.

(** Justified text has the same lines; one with more than one word is exactly as wide as asked, its gaps are as
    equal as possible and the wider ones come first. *)
Theorem C112_justified : forall words max, exists gs lines, concat gs = words /\ Forall (fits max) gs /\ full max gs
  /\ Forall2 (justified_line max) gs lines /\ wrap_text words max true = Ok (on_lines lines).
Proof. exact wrap_just. Qed.
Print Assumptions C112_justified.

(** No word is lost or torn. *)
Theorem C112_words : forall words max j, Forall word_text words ->
  exists t, wrap_text words max j = Ok t /\ words_of t = words.
Proof. exact wrap_words. Qed.
Print Assumptions C112_words.

(** Words that fill a line exactly are torn apart: `aa bb` has five columns. *)
Theorem C112_exact_refuted : exists words max, width (spaced words) = max
  /\ wrap_text words max false = Ok (on_lines (map spaced [[[97; 97]]; [[98; 98]]])) /\ words = [[97; 97]; [98; 98]].
Proof. exists [[97; 97]; [98; 98]], 5. vm_compute. repeat split. Qed.
Print Assumptions C112_exact_refuted.

(** The last line of justified text is stretched too: `a b` in twenty columns. *)
Theorem C112_last_refuted : wrap_text [[97]; [98]] 20 true = Ok ([97] ++ repeat 32 18 ++ [98]).
Proof. vm_compute. reflexivity. Qed.
Print Assumptions C112_last_refuted.

Example C112_demo :
  wrap_text [[97; 97]; [98]; [99; 99; 99]; [100]; [101; 101; 101; 101; 101; 101; 101; 101; 101; 101; 101; 101]] 9 false
    = Ok (on_lines [[97; 97; 32; 98; 32; 99; 99; 99]; [100]; repeat 101 12])
  /\ wrap_text [[97]; [98]; [99]; [100]] 9 true = Ok ([97] ++ repeat 32 2 ++ [98] ++ repeat 32 2 ++ [99] ++ [32] ++ [100])
  /\ Forall (fits 9) [[[97; 97]; [98]]; [[99; 99; 99]]]
  /\ Forall word_text [[97; 97]; [98]].
Proof.
  split; [vm_compute; reflexivity|]. split; [vm_compute; reflexivity|]. split.
  - constructor; [|constructor; [|constructor]]; (split; [discriminate|]); [right; vm_compute; reflexivity|left; cbn; lia].
  - constructor; [|constructor; [|constructor]]; (split; [discriminate|]); split; cbn; intuition discriminate.
Qed.

(** A table: every line of every cell stands in the line and column where its row and column begin, filled with
    spaces up to the width of its column and followed by the separator; all lines of rows are of one length; lines
    that are drawn stand between the rows. *)
Theorem C113_table : forall rows sp rsp ul, columns rows <> O -> ~ In 10 sp -> ~ In 10 rsp -> ul <> 10 ->
  exists out, format_table rows sp rsp ul = Ok out
    /\ out = flat_map (fun l => l ++ [10]) (lines_of out)
    /\ (length (lines_of out) + rules rsp = row_start rows (rules rsp) (length rows))%nat
    /\ (forall r row k, nth_error rows r = Some row -> (k < row_height row)%nat ->
         exists line, nth_error (lines_of out) (row_start rows (rules rsp) r + k) = Some line
           /\ (length line + length sp = col_start rows (length sp) (columns rows))%nat
           /\ forall c, (c < columns rows)%nat -> exists a b,
                let l := nth k (lines_of (cell row c)) [] in
                line = a ++ l ++ repeat 32 (col_width rows c - length l) ++ (if (S c <? columns rows)%nat then sp else []) ++ b
                /\ length a = col_start rows (length sp) c /\ (S c = columns rows -> b = []))
    /\ (forall r row, nth_error rows r = Some row -> (S r < length rows)%nat -> rsp <> [] ->
         exists line, nth_error (lines_of out) (row_start rows (rules rsp) r + row_height row) = Some line
           /\ (length line + length rsp = col_start rows (length rsp) (columns rows))%nat
           /\ forall c, (c < columns rows)%nat -> exists a b,
                line = a ++ repeat ul (col_width rows c) ++ (if (S c <? columns rows)%nat then rsp else []) ++ b
                /\ length a = col_start rows (length rsp) c /\ (S c = columns rows -> b = [])).
Proof. exact table_cells. Qed.
Print Assumptions C113_table.

(** A table without cells is the empty text. *)
Theorem C113_empty : forall rows sp rsp ul, Forall (fun row => row = []) rows -> format_table rows sp rsp ul = Ok [].
Proof.
  intros rows sp rsp ul H. apply table_empty. induction H as [|row rows -> _ IH]; [reflexivity|]. cbn. exact IH.
Qed.
Print Assumptions C113_empty.

(** Widths are counted in bytes, so that the columns of text with other letters do not line up: the separator stands
    after one character in the first line and after two in the second. *)
Theorem C113_letters_refuted :
  format_table [[[195; 169]; [120]]; [[97; 98]; [121]]] [124] [] 45
    = Ok ([195; 169; 124; 120; 10] ++ [97; 98; 124; 121; 10])
  /\ rune_length [195; 169] = Ok 1%nat /\ rune_length [97; 98] = Ok 2%nat.
Proof. vm_compute. repeat split. Qed.
Print Assumptions C113_letters_refuted.

Example C113_demo :
  format_table [[[97; 10; 98; 98]; [99]]; [[100; 100; 100]]] [32; 124; 32] [45; 43; 45] 45
    = Ok ([97; 32; 32; 32; 124; 32; 99; 10] ++ [98; 98; 32; 32; 124; 32; 32; 10] ++ [45; 45; 45; 45; 43; 45; 45; 10]
          ++ [100; 100; 100; 32; 124; 32; 32; 10])
  /\ columns [[[97; 10; 98; 98]; [99]]; [[100; 100; 100]]] = 2%nat
  /\ format_table [[]; []] [124] [45] 45 = Ok [].
Proof. vm_compute. repeat split. Qed.

(** The digits written for a number mean this number: after the prefix of the format and without the quotes, they
    are digits of its base, at least as many as asked for and with no more leading zeros than that; the quotes part
    groups of four digits. *)
Theorem C114_digits : forall v fmt pad, 0 <= v < 2 ^ 64 ->
  exists d, format_integer_bits v fmt pad = Ok (prefix_of fmt ++ d) /\
    let digits := without_quotes d in
    number (base_of fmt) digits = v /\ Forall (is_digit_of (base_of fmt)) digits
    /\ pad <= width digits /\ (1 <= length digits)%nat
    /\ ((2 <= length digits)%nat -> pad < width digits -> hd 48 digits <> 48)
    /\ (if base_of fmt =? 10 then ~ In 39 d else in_fours d).
Proof.
  intros v fmt pad H. destruct (format_ok v fmt pad H) as (d & D1 & (P1 & P2 & P3 & P4 & P5) & D3).
  exists d. split; [exact D1|]. cbv zeta. split; [exact P1|]. split; [exact P2|]. split; [exact P4|].
  split; [destruct (without_quotes d); [contradiction|cbn; lia]|]. split; [exact P5|exact D3].
Qed.
Print Assumptions C114_digits.

(** Different numbers are written differently. *)
Theorem C114_distinct : forall v w fmt pad pad', 0 <= v < 2 ^ 64 -> 0 <= w < 2 ^ 64 ->
  format_integer_bits v fmt pad = format_integer_bits w fmt pad' -> v = w.
Proof.
  intros v w fmt pad pad' Hv Hw E.
  destruct (format_ok v fmt pad Hv) as (d & D1 & (P1 & _) & _). destruct (format_ok w fmt pad' Hw) as (e & E1 & (Q1 & _) & _).
  rewrite D1, E1 in E. injection E as E. apply app_inv_head in E. subst e. now rewrite <- P1, <- Q1.
Qed.
Print Assumptions C114_distinct.

Example C114_demo :
  format_integer_bits 37 98 8 = Ok [48; 98; 48; 48; 49; 48; 39; 48; 49; 48; 49]
  /\ format_integer_bits (2 ^ 64 - 1) 120 0
     = Ok ([48; 120] ++ repeat 102 4 ++ [39] ++ repeat 102 4 ++ [39] ++ repeat 102 4 ++ [39] ++ repeat 102 4)
  /\ format_integer_bits 12345 100 0 = Ok [49; 50; 51; 52; 53]
  /\ format_integer_bits 0 111 0 = Ok [48; 111; 48].
Proof. vm_compute. repeat split. Qed.
