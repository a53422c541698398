(** Comment blocks of program text: extractCommentBlocks,
    src/haxorg/api/ParseContext.cpp:18-108.

    Strings are lists of bytes as in StrModel; line and column numbers fit
    into int. *)
From Coq Require Import ZArith List Bool Lia.
From Verif Require Import Base StrModel.
Import ListNotations.
Local Open Scope Z_scope.

Definition nl : Z := 10.

(** OrgParseFragment, ParseContext.hpp *)
Record frag := mkFrag { base_line : nat; base_col : nat; ftext : list Z }.

(** ParseContext.cpp:27, 79: all lines of a stream *)
Definition lines_of (s : list Z) : outcome (list (list Z)) := split_char s nl.

(** ParseContext.cpp:37-45: the leftmost prefix, among several at one place
    the first of the list. *)
Fixpoint leftmost (prefixes : list (list Z)) (line : list Z) (best : option (nat * list Z)) : option (nat * list Z) :=
  match prefixes with
  | [] => best
  | p :: ps =>
      leftmost ps line
        (match find line p 0 with
         | None => best
         | Some pos => match best with
                       | None => Some (pos, p)
                       | Some (old, _) => if Nat.ltb pos old then Some (pos, p) else best
                       end
         end)
  end.

(** ParseContext.cpp:29-70; None is the fragment {-1, -1, ""}. *)
Fixpoint blocks (prefixes : list (list Z)) (idx : nat) (current : option frag) (done : list frag)
    (lines : list (list Z)) : list frag :=
  match lines with
  | [] => match current with Some f => done ++ [f] | None => done end
  | line :: lines' =>
      match leftmost prefixes line None with
      | Some (pos, p) =>
          let text := skipn (pos + length p) line in
          let f := match current with
                   | Some f => mkFrag (base_line f) (base_col f) (ftext f ++ nl :: text)
                   | None => mkFrag idx pos text
                   end in
          blocks prefixes (S idx) (Some f) done lines'
      | None =>
          match current with
          | Some f => blocks prefixes (S idx) None (done ++ [f]) lines'
          | None => blocks prefixes (S idx) None done lines'
          end
      end
  end.

(** find_first_not_of(" \t") *)
Definition blank (c : Z) : bool := (c =? 32) || (c =? 9).
Fixpoint first_not_blank (s : list Z) : option nat :=
  match s with
  | [] => None
  | c :: s' => if blank c then option_map S (first_not_blank s') else Some 0%nat
  end.

(** ParseContext.cpp:85-92 *)
Fixpoint strip_again (prefixes : list (list Z)) (line : list Z) : list Z :=
  match prefixes with
  | [] => line
  | p :: ps =>
      match find line p 0, first_not_blank line with
      | Some pos, Some start => if Nat.eqb pos start then skipn (pos + length p) line else strip_again ps line
      | _, _ => strip_again ps line
      end
  end.

(** ParseContext.cpp:96-98 *)
Definition drop_space (s : list Z) : list Z :=
  match s with c :: s' => if c =? 32 then s' else s | [] => [] end.

(** ParseContext.cpp:79-102 *)
Fixpoint clean_lines (prefixes : list (list Z)) (is_first : bool) (lines : list (list Z)) : list Z :=
  match lines with
  | [] => []
  | line :: lines' =>
      (if is_first then [] else [nl])
      ++ drop_space (if is_first then line else strip_again prefixes line)
      ++ clean_lines prefixes false lines'
  end.

Fixpoint clean_all (prefixes : list (list Z)) (fs : list frag) : outcome (list frag) :=
  match fs with
  | [] => Ok []
  | f :: fs' =>
      obind (lines_of (ftext f)) (fun ls =>
      omap (cons (mkFrag (base_line f) (base_col f) (clean_lines prefixes true ls))) (clean_all prefixes fs'))
  end.

Definition extract (text : list Z) (prefixes : list (list Z)) : outcome (list frag) :=
  obind (lines_of text) (fun ls => clean_all prefixes (blocks prefixes 0 None [] ls)).
