(** Reports of errors in source text: src/hstd/ext/error_write.{hpp,cpp}.

    Modelled: which lines of which sources are written, with which numbers,
    and which labels are written below them at which columns.  Left out: the
    drawing of margins, arrows and underlines, colours, help and notes.

    Simplified: text is a list of characters; offsets are natural numbers
    (CodeSpan's constructor, cpp:1412-1415, asserts 0 <= start <= end);
    std::lower_bound is its specification on sorted lines; std::sort is a
    parameter; a failed assertion throws. *)
From Coq Require Import ZArith List Bool Arith.
From Verif Require Import Base.
Import ListNotations.

(** hpp:82-100 Line: offset and length *)
Definition line_at := (nat * nat)%type.
(** strutils.cpp:111-119 split: repeated std::getline *)
Fixpoint getlines (cur : list Z) (t : list Z) : list (list Z) :=
  match t with
  | [] => match cur with [] => [] | _ => [rev cur] end
  | c :: t' => if Z.eqb c 10 then rev cur :: getlines [] t' else getlines (c :: cur) t'
  end.
Fixpoint number_lines (off : nat) (ls : list (list Z)) : list line_at :=
  match ls with [] => [] | l :: ls' => (off, length l) :: number_lines (off + length l + 1) ls' end.
Fixpoint total (off : nat) (ls : list (list Z)) : nat :=
  match ls with [] => off | l :: ls' => total (off + length l + 1) ls' end.
(** cpp:1317-1332 Source::Source; hpp:106-143 *)
Record source := mkS { content : list Z; slines : list line_at; slen : nat }.
Definition source_of (t : list Z) : source :=
  match t with
  | [] => mkS t [(0, 0)] 0
  | _ => mkS t (number_lines 0 (getlines [] t)) (total 0 (getlines [] t))
  end.

(** cpp:1334-1356 get_offset_line: index of the line and column. *)
Fixpoint until (off : nat) (ls : list line_at) : nat :=
  match ls with [] => 0 | l :: ls' => if fst l <=? off then Datatypes.S (until off ls') else 0 end.
Definition offset_line (s : source) (off : nat) : outcome (option (nat * nat)) :=
  if off <=? slen s then
    let idx := pred (until off (slines s)) in
    match nth_error (slines s) idx with
    | Some l => if fst l <=? off then Ok (Some (idx, off - fst l)) else Throw
    | None => Ok None
    end
  else Ok None.
(** cpp:1358-1365 get_line_range; both ends are included. *)
Definition line_range (s : source) (a b : nat) : outcome (nat * nat) :=
  obind (offset_line s a) (fun x => obind (offset_line s (Nat.max b a)) (fun y =>
    Ok (match x with Some (i, _) => i | None => 0 end,
        match y with Some (i, _) => i + 1 | None => length (slines s) - 1 end))).
(** cpp:1367-1373 get_line_text *)
Definition line_text (s : source) (l : line_at) : list Z := firstn (snd l) (skipn (fst l) (content s)).

(** hpp:196-252 Label (the span is from..to), and its kind: Multiline or Inline *)
Record label := mkL { lid : nat; lsrc : nat; from : nat; to : nat; msg : option (list Z); lorder : Z }.
Notation info := (bool * label)%type (only parsing).
(** hpp:263-268 SourceGroup *)
Record group := mkG { gsrc : nat; gfrom : nat; gto : nat; ginfos : list info }.
(** hpp:281-290 LabelAttach and Config::compact *)
Inductive att := AStart | AMiddle | AEnd.

(** cpp:69-82 LineLabel *)
Record line_label := mkLL { lcol : nat; lab : label; multi : bool; draw : bool }.

Definition contains (l : line_at) (off : nat) : bool := (fst l <=? off) && (off <=? fst l + snd l).

(** Number of decimal digits, as fmt1 writes them. *)
Fixpoint digits_to (fuel n : nat) : nat :=
  match fuel with O => 1 | Datatypes.S k => if n <? 10 then 1 else Datatypes.S (digits_to k (n / 10)) end.
Definition digits (n : nat) : nat := digits_to n n.

Section Report.
  Variable sources : nat -> option source.
  Variable sort_multi : list label -> list label.
  Variable sort_notes : list line_label -> list line_label.
  Variable attach_to : att.
  Variable compact : bool.

  (** cpp:875-931 get_source_groups *)
  Fixpoint put (gs : list group) (i : info) : list group :=
    match gs with
    | [] => [mkG (lsrc (snd i)) (from (snd i)) (to (snd i)) [i]]
    | g :: gs' =>
        if gsrc g =? lsrc (snd i)
        then mkG (gsrc g) (Nat.min (gfrom g) (from (snd i))) (Nat.max (gto g) (to (snd i))) (ginfos g ++ [i]) :: gs'
        else g :: put gs' i
    end.
  Definition kind_of (s : source) (l : label) : outcome bool :=
    if to l <? from l then Throw
    else obind (offset_line s (from l)) (fun a => obind (offset_line s (Nat.max (to l - 1) (from l))) (fun b =>
      match a, b with
      | Some (i, _), Some (j, _) => Ok (negb (i =? j))
      | _, _ => Throw
      end)).
  Fixpoint grouped (gs : list group) (ls : list label) : outcome (list group) :=
    match ls with
    | [] => Ok gs
    | l :: ls' =>
        match sources (lsrc l) with
        | None => Throw
        | Some s => obind (kind_of s l) (fun k => grouped (put gs (k, l)) ls')
        end
    end.

  (** cpp:857-873 build_multi_labels *)
  Definition multi_labels (is : list info) : list label := sort_multi (map snd (filter fst is)).
  (** cpp:194-223 get_margin_label *)
  Definition margin_key (ln : line_at) (l : label) : nat :=
    2 * ((if contains ln (from l) then from l else to l) - fst ln) + (if from l =? 0 then 1 else 0).
  Fixpoint margin_label (ln : line_at) (ls : list label) (best : option label) : option label :=
    match ls with
    | [] => best
    | l :: ls' =>
        margin_label ln ls'
          (if contains ln (from l) || contains ln (to l)
           then match best with
                | Some b => if margin_key ln l <? margin_key ln b then Some l else best
                | None => Some l
                end
           else best)
    end.
  (** cpp:672-702 collect_multiline_labels *)
  Definition multi_note (ln : line_at) (mg : option label) (l : label) : list line_label :=
    if contains ln (from l) && match mg with Some b => negb (lid l =? lid b) | None => true end
    then [mkLL (from l - fst ln) l true (contains ln (to l))]
    else if contains ln (to l) then [mkLL (to l - fst ln) l true true] else [].
  (** cpp:704-746 collect_inline_labels *)
  Definition place (l : label) : nat :=
    Nat.max (match attach_to with AStart => from l | AMiddle => (from l + to l) / 2 | AEnd => to l end) (from l).
  Definition inline_note (s : source) (ln : line_at) (i : info) : list line_label :=
    let l := snd i in
    if (fst ln <=? from l) && ((to l <=? fst ln + snd ln) || (slen s <=? to l)) && negb (fst i)
    then [mkLL (place l - fst ln) l false true] else [].
  (** cpp:751-764 build_line_labels *)
  Definition line_labels (s : source) (ln : line_at) (is : list info) : list line_label :=
    let ms := multi_labels is in
    flat_map (multi_note ln (margin_label ln ms None)) ms ++ flat_map (inline_note s ln) is.

  (** What is written: a gap, a line of the source with its number, a label
      below the line before. *)
  Inductive item := Gap | Src (n : nat) (t : list Z) | Note (l : line_label).
  (** cpp:227-252 is_gap_and_skip_line, cpp:1070-1119 write_report_group_source_lines *)
  Fixpoint source_lines (s : source) (is : list info) (idx n : nat) (gap : bool) : list item :=
    match n with
    | O => []
    | Datatypes.S n' =>
        match nth_error (slines s) idx with
        | None => source_lines s is (idx + 1) n' gap
        | Some ln =>
            let ms := multi_labels is in
            let lls := line_labels s ln is in
            match lls, margin_label ln ms None with
            | [], None =>
                if negb gap && existsb (fun l => (from l <=? fst ln) && (fst ln <=? to l)) ms
                then Gap :: source_lines s is (idx + 1) n' true
                else (if negb compact && negb gap then [Gap] else []) ++ source_lines s is (idx + 1) n' true
            | _, _ =>
                Src (idx + 1) (line_text s ln) :: map Note (sort_notes lls) ++ source_lines s is (idx + 1) n' false
            end
        end
    end.
  (** cpp:946-990 write_report_group_header: number of line and column. *)
  Definition header (loc : nat * nat) (s : source) (g : group) : outcome (option (nat * nat)) :=
    let p := if gsrc g =? fst loc then snd loc else match ginfos g with i :: _ => from (snd i) | [] => 0 end in
    omap (option_map (fun x => (fst x + 1, snd x + 1))) (offset_line s p).
  (** cpp:766-779 get_line_number_width *)
  Fixpoint number_width (gs : list group) : outcome nat :=
    match gs with
    | [] => Ok 0
    | g :: gs' =>
        match sources (gsrc g) with
        | None => Throw
        | Some s => obind (line_range s (gfrom g) (gto g)) (fun r => omap (Nat.max (digits (snd r))) (number_width gs'))
        end
    end.
  (** cpp:476-492 write_margin_line_number: a number wider than that makes
      Str::repeated (Str.cpp:84-89) reserve a negative size, which throws. *)
  Fixpoint fits_width (w : nat) (is : list item) : bool :=
    match is with
    | [] => true
    | Src n _ :: is' => (digits n <=? w) && fits_width w is'
    | _ :: is' => fits_width w is'
    end.
  Definition write_group (loc : nat * nat) (w : nat) (g : group) : outcome (nat * option (nat * nat) * list item) :=
    match sources (gsrc g) with
    | None => Throw
    | Some s =>
        obind (header loc s g) (fun h => obind (line_range s (gfrom g) (gto g)) (fun r =>
          let is := source_lines s (ginfos g) (fst r) (Datatypes.S (snd r) - fst r) false in
          if fits_width w is then Ok (gsrc g, h, is) else Throw))
    end.
  Fixpoint write_groups (loc : nat * nat) (w : nat) (gs : list group) : outcome (list (nat * option (nat * nat) * list item)) :=
    match gs with
    | [] => Ok []
    | g :: gs' => obind (write_group loc w g) (fun x => omap (cons x) (write_groups loc w gs'))
    end.
  (** cpp:1267-1315 write_for_stream *)
  Fixpoint unique (seen : list nat) (ls : list label) : bool :=
    match ls with [] => true | l :: ls' => negb (existsb (Nat.eqb (lid l)) seen) && unique (lid l :: seen) ls' end.
  Definition report (loc : nat * nat) (ls : list label) : outcome (list (nat * option (nat * nat) * list item)) :=
    if unique [] ls then obind (grouped [] ls) (fun gs => obind (number_width gs) (fun w => write_groups loc w gs)) else Throw.
End Report.
