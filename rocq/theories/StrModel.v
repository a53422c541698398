(** Model of the string helpers of src/hstd/stdlib/strutils.cpp and src/hstd/stdlib/Str.cpp: splitting,
    joining, replacing, trimming, escaping, aligning and normalising.

    A string is the list of its bytes, each an integer in 0..255 (the char is signed in the code; only
    equality, set membership and the tests below look at it). Simplified: lengths fit into int; character sets
    are membership predicates (C13 covers the bit sets); the character classification of <cctype> is that of
    the "C" locale. *)
From Verif Require Import Base.
Local Open Scope Z_scope.

Notation byte := Z (only parsing).
Notation str := (list Z) (only parsing).
Definition charset := byte -> bool.

(** std::string::substr(pos, n) for pos <= size; the callers below never pass a larger pos. *)
Definition substr (s : str) (pos n : nat) : str := firstn n (skipn pos s).

Definition char_at (s : str) (i : nat) : byte := nth i s 0.

(** join(sep, list), strutils.hpp:10-20. *)
Fixpoint join_from (sep : str) (index : nat) (l : list str) : str :=
  match l with
  | [] => []
  | x :: l' => (if (0 <? index)%nat then sep else []) ++ x ++ join_from sep (S index) l'
  end.
Definition join (sep : str) (l : list str) : str := join_from sep 0 l.

(** std::getline(stream, token, ch): the token and the rest of the stream; None when no character could be
    extracted. *)
Fixpoint getline_aux (ch : byte) (s : str) : str * str :=
  match s with
  | [] => ([], [])
  | c :: s' => if c =? ch then ([], s') else let '(t, r) := getline_aux ch s' in (c :: t, r)
  end.
Definition getline (ch : byte) (s : str) : option (str * str) :=
  match s with [] => None | _ => Some (getline_aux ch s) end.

(** split(str, ch), strutils.cpp:111-119. *)
Fixpoint split_char_loop (fuel : nat) (s : str) (ch : byte) (tokens : list str) : outcome (list str) :=
  match fuel with
  | O => Fuel
  | S fuel' =>
      match getline ch s with
      | None => Ok tokens
      | Some (t, r) => split_char_loop fuel' r ch (tokens ++ [t])
      end
  end.
Definition split_char (s : str) (ch : byte) : outcome (list str) := split_char_loop (S (length s)) s ch [].

(** The inner while of split_keep_separator, strutils.cpp:129. *)
Fixpoint same_run (fuel : nat) (s : str) (curr : nat) : outcome nat :=
  match fuel with
  | O => Fuel
  | S fuel' =>
      if (curr <? length s - 1)%nat && (char_at s (curr + 1) =? char_at s curr)
      then same_run fuel' s (curr + 1) else Ok curr
  end.

(** split_keep_separator, strutils.cpp:122-139. *)
Fixpoint keep_loop (fuel : nat) (s : str) (sep : charset) (prev curr : nat) (res : list str)
    : outcome (list str) :=
  match fuel with
  | O => Fuel
  | S fuel' =>
      if (curr <? length s)%nat then
        if sep (char_at s curr) then
          let res := if (prev =? curr)%nat then res else res ++ [substr s prev (curr - prev)] in
          obind (same_run (S (length s)) s curr) (fun c =>
            keep_loop fuel' s sep (c + 1) (c + 1) (res ++ [substr s curr (c - curr + 1)]))
        else keep_loop fuel' s sep prev (curr + 1) res
      else Ok (if (prev <? curr)%nat then res ++ [substr s prev (curr - prev)] else res)
  end.
Definition split_keep (s : str) (sep : charset) : outcome (list str) :=
  keep_loop (S (length s)) s sep 0 0 [].

(** std::string::starts_with and find(pat, pos). *)
Fixpoint starts_with (s p : str) : bool :=
  match p, s with
  | [], _ => true
  | _, [] => false
  | x :: p', y :: s' => (x =? y) && starts_with s' p'
  end.
Fixpoint find_rel (s p : str) : option nat :=
  if starts_with s p then Some 0%nat
  else match s with [] => None | _ :: s' => option_map S (find_rel s' p) end.
Definition find (s p : str) (pos : nat) : option nat :=
  if (length s <? pos)%nat then None else option_map (Nat.add pos) (find_rel (skipn pos s) p).

(** split(value, delimiter), strutils.cpp:692-706. *)
Fixpoint split_str_loop (fuel : nat) (s d : str) (start : nat) (e : option nat) (tokens : list str)
    : outcome (list str) :=
  match fuel with
  | O => Fuel
  | S fuel' =>
      match e with
      | Some en =>
          let start' := (en + length d)%nat in
          split_str_loop fuel' s d start' (find s d start') (tokens ++ [substr s start (en - start)])
      | None => Ok (tokens ++ [skipn start s])
      end
  end.
Definition split_str (fuel : nat) (s d : str) : outcome (list str) :=
  split_str_loop fuel s d 0 (find s d 0) [].

(** std::string::replace(pos, n, to). *)
Definition replace_at (s : str) (pos n : nat) (to : str) : str := firstn pos s ++ to ++ skipn (pos + n) s.

(** The loop shared by replace_all (strutils.cpp:407-411) and Str::replaceAll (Str.cpp:62-67). *)
Fixpoint replace_loop (fuel : nat) (s from to : str) (pos : nat) : outcome str :=
  match fuel with
  | O => Fuel
  | S fuel' =>
      match find s from pos with
      | None => Ok s
      | Some p => replace_loop fuel' (replace_at s p (length from) to) from to (p + length to)
      end
  end.
(** replace_all, strutils.cpp:404-412. *)
Definition replace_all (fuel : nat) (s from to : str) : outcome str :=
  match from with [] => Ok s | _ => replace_loop fuel s from to 0 end.
(** Str::replaceAll, Str.cpp:61-69. *)
Definition str_replace_all (fuel : nat) (s from to : str) : outcome str := replace_loop fuel s from to 0.

(** strip, strutils.cpp:91-109; the span is the pair of its offset and size (Span::moveStart and moveEnd,
    Span.hpp:68-108, with both clamps inactive inside the string). *)
Fixpoint strip_start (fuel : nat) (s : str) (leading : charset) (off size : nat) : nat * nat :=
  match fuel with
  | O => (off, size)
  | S fuel' =>
      if (0 <? size)%nat && leading (char_at s off)
      then strip_start fuel' s leading (off + 1) (size - 1) else (off, size)
  end.
Fixpoint strip_end (fuel : nat) (s : str) (trailing : charset) (off size : nat) : nat * nat :=
  match fuel with
  | O => (off, size)
  | S fuel' =>
      if (0 <? size)%nat && trailing (char_at s (off + size - 1))
      then strip_end fuel' s trailing off (size - 1) else (off, size)
  end.
Definition strip (s : str) (leading trailing : charset) : str :=
  if (0 <? length s)%nat then
    let '(o1, n1) := strip_start (length s) s leading 0 (length s) in
    let '(o2, n2) := strip_end (length s) s trailing o1 n1 in
    substr s o2 n2
  else [].

(** dropPrefix, dropSuffix, Str.cpp:25-39. *)
Definition ends_with (s p : str) : bool :=
  (length p <=? length s)%nat && starts_with (skipn (length s - length p) s) p.
Definition drop_prefix (s p : str) : str := if starts_with s p then skipn (length p) s else s.
Definition drop_suffix (s p : str) : str := if ends_with s p then firstn (length s - length p) s else s.

(** indent, strutils.cpp:204-208 with repeat, 224-229. *)
Fixpoint repeat_str (s : str) (n : nat) : str := match n with O => [] | S n' => repeat_str s n' ++ s end.
Definition indent (s : str) (spaces : Z) (space : byte) (prefix : str) : outcome str :=
  omap (fun lines => join [10] (map (fun l => prefix ++ repeat_str [space] (Z.to_nat spaces) ++ l) lines))
    (split_char s 10).

(** <cctype> in the "C" locale. *)
Definition is_lower (c : byte) : bool := (97 <=? c) && (c <=? 122).
Definition is_upper (c : byte) : bool := (65 <=? c) && (c <=? 90).
Definition is_digit (c : byte) : bool := (48 <=? c) && (c <=? 57).
Definition to_lower (c : byte) : byte := if is_upper c then c + 32 else c.

(** normalize, strutils.cpp:210-222; '_' is 95, '-' is 45. *)
Fixpoint normalize (s : str) : str :=
  match s with
  | [] => []
  | c :: s' =>
      (if negb ((c =? 95) || (c =? 45)) then
         if is_lower c || is_digit c then [c]
         else if is_upper c then [to_lower c] else []
       else []) ++ normalize s'
  end.

(** iequals, strutils.cpp:414-423. *)
Fixpoint iequals_loop (a b : str) : bool :=
  match a, b with
  | [], [] => true
  | x :: a', y :: b' => (to_lower x =? to_lower y) && iequals_loop a' b'
  | _, _ => false
  end.
Definition iequals (a b : str) : bool := if (length a =? length b)%nat then iequals_loop a b else false.

(** escape_for_write, strutils.cpp:248-265: tab 9, newline 10, double quote 34, backslash 92, 't' 116,
    'n' 110. *)
Fixpoint escape_body (s : str) (quote : bool) : str :=
  match s with
  | [] => []
  | c :: s' =>
      (if c =? 9 then [92; 116]
       else if c =? 10 then [92; 110]
       else if (c =? 34) && quote then [92; 34]
       else [c]) ++ escape_body s' quote
  end.
Definition escape_for_write (s : str) (quote : bool) : str :=
  (if quote then [34] else []) ++ escape_body s quote ++ (if quote then [34] else []).

(** escape_literal, strutils.cpp:455-471; the three multi-byte characters as UTF-8. *)
Fixpoint escape_lit_body (s : str) : str :=
  match s with
  | [] => []
  | c :: s' => (if c =? 10 then [226; 144; 164] else [c]) ++ escape_lit_body s'
  end.
Definition escape_literal (s : str) : str := [194; 171] ++ escape_lit_body s ++ [194; 187].

(** Number of bytes of the rune that starts with byte [b], strutils.cpp:271-285 and 298-312. *)
Definition rune_width (b : byte) : nat :=
  if b <=? 127 then 1
  else if Z.shiftr b 5 =? 6 then 2
  else if Z.shiftr b 4 =? 14 then 3
  else if Z.shiftr b 3 =? 30 then 4
  else if Z.shiftr b 2 =? 62 then 5
  else if Z.shiftr b 1 =? 126 then 6
  else 1.

(** rune_length, strutils.cpp:267-289. *)
Fixpoint rune_length_loop (fuel : nat) (s : str) (i count : nat) : outcome nat :=
  match fuel with
  | O => Fuel
  | S fuel' =>
      if (i <? length s)%nat
      then rune_length_loop fuel' s (i + rune_width (char_at s i)) (count + 1)
      else Ok count
  end.
Definition rune_length (s : str) : outcome nat := rune_length_loop (S (length s)) s 0 0.

(** rune_chunks, strutils.cpp:293-318. *)
Fixpoint rune_chunks_loop (fuel : nat) (s : str) (i : nat) (runes : list str) : outcome (list str) :=
  match fuel with
  | O => Fuel
  | S fuel' =>
      if (i <? length s)%nat then
        let len := rune_width (char_at s i) in
        rune_chunks_loop fuel' s (i + len) (runes ++ [substr s i len])
      else Ok runes
  end.
Definition rune_chunks (s : str) : outcome (list str) := rune_chunks_loop (S (length s)) s 0 [].

(** left_aligned, right_aligned, strutils.cpp:231-246. *)
Definition left_aligned (s : str) (n : Z) (c : byte) : outcome str :=
  omap (fun r => if Z.of_nat r <? n then s ++ repeat_str [c] (Z.to_nat (n - Z.of_nat r)) else s)
    (rune_length s).
Definition right_aligned (s : str) (n : Z) (c : byte) : outcome str :=
  omap (fun r => (if Z.of_nat r <? n then repeat_str [c] (Z.to_nat (n - Z.of_nat r)) else []) ++ s)
    (rune_length s).

(** Continuation byte test (b & 0xC0) != 0x80, negated. *)
Definition is_cont (b : byte) : bool := Z.land b 192 =? 128.

(** validate_utf8, strutils.cpp:477-563. *)
Fixpoint validate_loop (fuel : nat) (s : str) (i : nat) : outcome unit :=
  match fuel with
  | O => Fuel
  | S fuel' =>
      let len := length s in
      let b := char_at s in
      if (i <? len)%nat then
        if b i <=? 127 then validate_loop fuel' s (i + 1)
        else if (194 <=? b i) && (b i <=? 223) then
          if (len <=? i + 1)%nat then Throw
          else if negb (is_cont (b (i + 1)%nat)) then Throw
          else validate_loop fuel' s (i + 1 + 1)
        else if (224 <=? b i) && (b i <=? 239) then
          if (len <=? i + 2)%nat then Throw
          else if negb (is_cont (b (i + 1)%nat)) || negb (is_cont (b (i + 2)%nat)) then Throw
          else if (b i =? 224) && (b (i + 1)%nat <? 160) then Throw
          else if (b i =? 237) && (159 <? b (i + 1)%nat) then Throw
          else validate_loop fuel' s (i + 2 + 1)
        else if (240 <=? b i) && (b i <=? 244) then
          if (len <=? i + 3)%nat then Throw
          else if negb (is_cont (b (i + 1)%nat)) || negb (is_cont (b (i + 2)%nat))
                  || negb (is_cont (b (i + 3)%nat)) then Throw
          else if (b i =? 240) && (b (i + 1)%nat <? 144) then Throw
          else if (b i =? 244) && (143 <? b (i + 1)%nat) then Throw
          else validate_loop fuel' s (i + 3 + 1)
        else Throw
      else Ok tt
  end.
Definition validate_utf8 (s : str) : outcome unit := validate_loop (S (length s)) s 0.
