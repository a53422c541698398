(** Text layout: src/hstd/ext/textlayouter.{hpp,cpp}.

    Costs ([float]) are integers, i.e. multiples of a common unit; rounding is
    not modelled.  [int] is unbounded.  The five parallel vectors of a
    Solution are one list of pieces; shared pointers to solutions are their
    values (every function resets the cursor it uses). *)
From Coq Require Import ZArith List Bool Lia.
From Verif Require Import Base.
Import ListNotations.
Local Open Scope Z_scope.

(** textlayouter.cpp:16-18 *)
Definition infty : Z := 1024 * 1024 * 1024.
Definition is_inf (a : Z) : bool := (infty - 4096 <=? a) && (a <=? infty + 4096).

(** textlayouter.hpp:375-388 Options (without the format policy) *)
Record options := mkOpts {
  left_margin : Z; right_margin : Z; left_cost : Z; right_cost : Z; linebreak_cost : Z }.

Section Solution.
Context {L : Type}.

(** textlayouter.hpp:164-176: one entry of knots, spans, intercepts,
    gradients, layouts. *)
Record piece := mkP { pknot : Z; pspan : Z; pint : Z; pgrad : Z; plyt : L }.
Notation sol := (list piece) (only parsing).
(** A solution with its [index]. *)
Notation cursor := (list piece * nat)%type (only parsing).

(** textlayouter.hpp:182-187: reading past the vectors is undefined. *)
Definition cur (c : cursor) : outcome piece :=
  match nth_error (fst c) (snd c) with Some p => Ok p | None => UB end.

(** textlayouter.hpp:208-210 curValueAt *)
Definition value_at (p : piece) (margin : Z) : Z := pint p + pgrad p * (margin - pknot p).

(** textlayouter.hpp:212-217 plusConst *)
Definition plus_const (s : sol) (v : Z) : sol :=
  map (fun p => mkP (pknot p) (pspan p) (pint p + v) (pgrad p) (plyt p)) s.

(** textlayouter.cpp:20-26 nextKnot *)
Definition next_knot (c : cursor) : Z :=
  match nth_error (fst c) (S (snd c)) with Some p => pknot p | None => infty end.

(** textlayouter.cpp:30 and 32: the two loops of moveToMargin; retreating
    below index 0 is undefined. *)
Fixpoint retreat_to (s : sol) (margin : Z) (i : nat) : outcome nat :=
  match nth_error s i with
  | None => UB
  | Some p =>
      if margin <? pknot p then match i with O => UB | S i' => retreat_to s margin i' end
      else Ok i
  end.
Fixpoint advance_to (fuel : nat) (s : sol) (margin : Z) (i : nat) : outcome nat :=
  match fuel with
  | O => Fuel
  | S f =>
      if (next_knot (s, i) <=? margin) && negb (next_knot (s, i) =? infty)
      then advance_to f s margin (S i) else Ok i
  end.
(** textlayouter.cpp:28-34 moveToMargin *)
Definition move_to_margin (c : cursor) (margin : Z) : outcome cursor :=
  obind (cur c) (fun p =>
  omap (pair (fst c))
    (if margin <? pknot p then retreat_to (fst c) margin (snd c)
     else advance_to (S (length (fst c))) (fst c) margin (snd c))).

(** textlayouter.cpp:36-67 add *)
Definition add_piece (s : sol) (q : piece) : outcome sol :=
  let redundant :=
    match rev s with
    | [] => false
    | l :: _ => (pspan q =? pspan l) && (pgrad q =? pgrad l)
                && (pint l + (pknot q - pknot l) * pgrad l =? pint q)
    end in
  if redundant then Ok s
  else if (pknot q <? 0) || (pspan q <? 0) || (pint q <? 0) || (pgrad q <? 0) then Throw
  else Ok (s ++ [q]).

(** std::min_element: position and value of the first smallest. *)
Fixpoint first_min (l : list Z) : option (nat * Z) :=
  match l with
  | [] => None
  | x :: l' =>
      match first_min l' with
      | Some (i, v) => if v <? x then Some (S i, v) else Some (O, x)
      | None => Some (O, x)
      end
  end.

(** [ceil(a / b)] for positive [b]. *)
Definition ceil_div (a b : Z) : Z := - ((- a) / b).

Fixpoint cur_all (cs : list cursor) : outcome (list piece) :=
  match cs with
  | [] => Ok []
  | c :: cs' => obind (cur c) (fun p => omap (cons p) (cur_all cs'))
  end.
Fixpoint move_all (cs : list cursor) (margin : Z) : outcome (list cursor) :=
  match cs with
  | [] => Ok []
  | c :: cs' => obind (move_to_margin c margin) (fun c' => omap (cons c') (move_all cs' margin))
  end.

(** textlayouter.cpp:124-135 the crossovers inside [kL, kH] *)
Definition crossovers (ps : list piece) (kl kh minv ming : Z) : list Z :=
  filter (fun k => k <=? kh)
    (map (fun p => kl + ceil_div (value_at p kl - minv) (ming - pgrad p))
       (filter (fun p => pgrad p <? ming) ps)).

(** textlayouter.cpp:102-146 the inner loop of minSolution; [lst] is the pair
    (lastIMinSoln, lastIndex), initially (-1, -1). *)
Fixpoint min_inner (fuel : nat) (ps : list piece) (ixs : list nat) (kl kh : Z)
    (lst : option (nat * nat)) (fac : sol) : outcome (option (nat * nat) * sol) :=
  match fuel with
  | O => Fuel
  | S f =>
      match first_min (map (fun p => value_at p kl) ps) with
      | None => UB
      | Some (i, minv) =>
          match nth_error ps i, nth_error ixs i with
          | Some p, Some ix =>
              let same := match lst with
                          | Some (i', ix') => Nat.eqb i i' && Nat.eqb ix ix'
                          | None => false
                          end in
              obind (if same then Ok fac
                     else add_piece fac (mkP kl (pspan p) minv (pgrad p) (plyt p)))
                (fun fac' =>
              match first_min (crossovers ps kl kh minv (pgrad p)) with
              | Some (_, k) => min_inner f ps ixs k kh (Some (i, ix)) fac'
              | None => Ok (Some (i, ix), fac')
              end)
          | _, _ => UB
          end
      end
  end.

(** textlayouter.cpp:90-147 the outer loop *)
Fixpoint min_outer (fuel : nat) (cs : list cursor) (kl : Z) (lst : option (nat * nat)) (fac : sol)
  : outcome sol :=
  match fuel with
  | O => Fuel
  | S f =>
      if kl <? infty then
        match first_min (map next_knot cs) with
        | None => UB
        | Some (_, nk) =>
            let kh := nk - 1 in
            obind (cur_all cs) (fun ps =>
            obind (min_inner f ps (map snd cs) kl kh lst fac) (fun '(lst', fac') =>
            obind (if kh + 1 <? infty then move_all cs (kh + 1) else Ok cs) (fun cs' =>
            min_outer f cs' (kh + 1) lst' fac')))
        end
      else Ok fac
  end.

(** textlayouter.cpp:78-150 minSolution *)
Definition min_solution (fuel : nat) (ss : list sol) : outcome sol :=
  match ss with
  | [s] => Ok s
  | _ => min_outer fuel (map (fun s => (s, O)) ss) 0 None []
  end.

Definition zsum (l : list Z) : Z := fold_left Z.add l 0.

(** textlayouter.cpp:210-222 dStar *)
Fixpoint dstar (margin : Z) (knots : list Z) (acc : option Z) : Z :=
  match knots with
  | [] => match acc with Some d => d | None => 0 end
  | k :: knots' =>
      dstar margin knots'
        (if margin <? k then Some (match acc with None => k - margin | Some d => Z.min d (k - margin) end)
         else acc)
  end.

(** textlayouter.cpp:187-229; [stack] is getStacked. *)
Fixpoint vsum_loop (fuel : nat) (stack : list L -> L) (cs : list cursor) (margin : Z) (res : sol)
  : outcome sol :=
  match fuel with
  | O => Fuel
  | S f =>
      obind (cur_all cs) (fun ps =>
      match rev ps with
      | [] => UB
      | lastp :: _ =>
          obind (add_piece res (mkP margin (pspan lastp)
                   (zsum (map (fun p => value_at p margin) ps)) (zsum (map pgrad ps))
                   (stack (map plyt ps)))) (fun res' =>
          let d := dstar margin (map next_knot cs) None in
          if is_inf d then Ok res'
          else obind (move_all cs (margin + d)) (fun cs' =>
               vsum_loop f stack cs' (margin + d) res'))
      end)
  end.

(** textlayouter.cpp:178-232 vSumSolution *)
Definition vsum_solution (fuel : nat) (stack : list L -> L) (ss : list sol) : outcome sol :=
  match ss with
  | [] => Throw
  | [s] => Ok s
  | _ => vsum_loop fuel stack (map (fun s => (s, O)) ss) 0 []
  end.

(** textlayouter.cpp:263-316; [join] builds the layout of the pair. *)
Fixpoint hplus_loop (fuel : nat) (o : options) (join : L -> L -> L) (c1 c2 : cursor) (m1 m2 : Z)
    (res : sol) : outcome sol :=
  match fuel with
  | O => Fuel
  | S f =>
      obind (cur c1) (fun p1 =>
      obind (cur c2) (fun p2 =>
      let over0 := m2 - left_margin o in
      let over1 := m2 - right_margin o in
      let g := pgrad p1 + pgrad p2 - (if 0 <=? over0 then left_cost o else 0)
               - (if 0 <=? over1 then right_cost o else 0) in
      let v := value_at p1 m1 + value_at p2 m2
               - left_cost o * Z.max over0 0 - right_cost o * Z.max over1 0 in
      obind (add_piece res (mkP m1 (pspan p1 + pspan p2) v g (join (plyt p1) (plyt p2)))) (fun res' =>
      let kn1 := next_knot c1 in
      let kn2 := next_knot c2 in
      if is_inf kn1 && is_inf kn2 then Ok res'
      else if kn1 - m1 <=? kn2 - m2 then
        let c1' := (fst c1, S (snd c1)) in
        obind (cur c1') (fun p1' =>
        let m2' := kn1 + pspan p1' in
        obind (move_to_margin c2 m2') (fun c2' => hplus_loop f o join c1' c2' kn1 m2' res'))
      else
        hplus_loop f o join c1 (fst c2, S (snd c2)) (kn2 - pspan p1) kn2 res')))
  end.

(** textlayouter.cpp:252-318 hPlusSolution *)
Definition hplus_solution (fuel : nat) (o : options) (join : L -> L -> L) (s1 s2 : sol) : outcome sol :=
  obind (cur (s1, O)) (fun p1 =>
  obind (move_to_margin (s2, O) (pspan p1)) (fun c2 =>
  hplus_loop fuel o join (s1, O) c2 0 (pspan p1) [])).

(** textlayouter.cpp:386-425 the solution of a text of width [span] *)
Definition text_solution (o : options) (span : Z) (lyt : L) : sol :=
  if right_margin o <=? span then
    [mkP 0 span ((span - left_margin o) * left_cost o + (span - right_margin o) * right_margin o)
        (left_cost o + right_cost o) lyt]
  else if left_margin o <=? span then
    [mkP 0 span ((span - left_margin o) * left_cost o) (left_cost o) lyt;
     mkP (right_margin o - span) span ((right_margin o - left_margin o) * left_cost o)
        (left_cost o + right_cost o) lyt]
  else
    [mkP 0 span 0 0 lyt;
     mkP (left_margin o - span) span 0 (left_cost o) lyt;
     mkP (right_margin o - span) span ((right_margin o - left_margin o) * left_cost o)
        (left_cost o + right_cost o) lyt].

End Solution.
Arguments piece : clear implicits.

(** * Layouts and their output *)

(** textlayouter.hpp:28-40 LytStr; the id is nil, the reserved "spaces" id or
    a text. *)
Inductive lytid := NilId | SpacesId | TextId (n : nat).
Record lytstr := mkStr { lid : lytid; llen : Z }.

(** textlayouter.hpp:81-109 LayoutElement; a Layout is the list of its
    elements (shared pointers as values). *)
Inductive elem :=
| EString (strs : list lytstr)
| ENewline
| ENewlineSpace (n : Z)
| EPrint (l : list elem).
Notation layout := (list elem) (only parsing).

(** textlayouter.cpp:158-168 getStacked: the last newline is cut off by the
    slice [0 .. size-2]; an empty list makes the slice throw, callers never
    pass it. *)
Definition get_stacked (ls : list layout) : layout :=
  let es := flat_map (fun l => l ++ [ENewline]) ls in firstn (length es - 1) es.

(** textlayouter.cpp:290-294 *)
Definition join_line (a b : layout) : layout := [EPrint a; EPrint b].

(** textlayouter.hpp:120-144 Event *)
Inductive event := EvText (n : nat) (len : Z) | EvSpaces (n : Z) | EvNewline.

(** textlayouter.cpp:702-712 *)
Fixpoint string_events (strs : list lytstr) (hpos : Z) : list event * Z :=
  match strs with
  | [] => ([], hpos)
  | x :: strs' =>
      match lid x with
      | SpacesId =>
          let '(ev, h) := string_events strs' (hpos + llen x) in
          ((if llen x =? 0 then [] else [EvSpaces (llen x)]) ++ ev, h)
      | NilId => string_events strs' hpos
      | TextId n =>
          let '(ev, h) := string_events strs' (hpos + llen x) in (EvText n (llen x) :: ev, h)
      end
  end.

(** textlayouter.cpp:717-733 *)
Definition newline_events (mar space : Z) : list event * Z :=
  (EvNewline :: (if mar =? 0 then [] else [EvSpaces mar])
     ++ (if space =? 0 then [] else [EvSpaces space]),
   mar + space).

(** textlayouter.cpp:695-744: the explicit stack of partly printed layouts,
    the stack of margins and the column.  [margins.back()] of an empty vector
    is undefined. *)
Fixpoint format_loop (fuel : nat) (stack : list layout) (margins : list Z) (hpos : Z)
  : outcome (list event) :=
  match fuel with
  | O => Fuel
  | S f =>
      match stack with
      | [] => Ok []
      | [] :: stack' => match margins with [] => UB | _ :: ms => format_loop f stack' ms hpos end
      | (e :: es) :: stack' =>
          match margins with
          | [] => UB
          | mar :: _ =>
              let hpos := Z.max hpos mar in
              match e with
              | EString strs =>
                  let '(ev, h) := string_events strs hpos in
                  omap (app ev) (format_loop f (es :: stack') margins h)
              | ENewline =>
                  let '(ev, h) := newline_events mar 0 in
                  omap (app ev) (format_loop f (es :: stack') margins h)
              | ENewlineSpace n =>
                  let '(ev, h) := newline_events mar n in
                  omap (app ev) (format_loop f (es :: stack') margins h)
              | EPrint l => format_loop f (l :: es :: stack') (hpos :: margins) hpos
              end
          end
      end
  end.

(** textlayouter.cpp:683-745 formatEvents *)
Definition format_events (fuel : nat) (l : layout) : outcome (list event) :=
  format_loop fuel [l] [0] 0.

(** * Blocks *)

(** textlayouter.hpp:236-305 Block: Text, Empty, Line, Stack (with its
    breakMult) and Choice.  Wrap, Verb and isBreaking are not modelled; ids
    are the blocks they refer to; the cache (350-366) returns what was computed
    for the same arguments. *)
Inductive block :=
| BText (strs : list lytstr)
| BEmpty
| BLine (l : list block)
| BStack (mult : Z) (l : list block)
| BChoice (l : list block).

(** textlayouter.hpp:47-56 LytStrSpan::len *)
Definition strs_len (strs : list lytstr) : Z := zsum (map llen strs).

(** textlayouter.cpp:321-342 withRestOfLine *)
Definition with_rest (fuel : nat) (o : options) (s : list (piece layout)) (rest : option (list (piece layout)))
  : outcome (option (list (piece layout))) :=
  match rest with
  | None => Ok (Some s)
  | Some r => omap Some (hplus_solution fuel o join_line s r)
  end.

(** textlayouter.cpp:667-681 doOptLayout with 368-428 (text), 430-477 (line),
    479-493 (choice), 495-529 (stack); [fuel] bounds the loops of the
    solution operations. *)
Fixpoint opt_layout (fuel : nat) (o : options) (b : block) (rest : option (list (piece layout))) {struct b}
  : outcome (option (list (piece layout))) :=
  match b with
  | BEmpty => Ok None
  | BText strs => with_rest fuel o (text_solution o (strs_len strs) [EString strs]) rest
  | BLine [] => Ok rest
  | BLine l =>
      obind ((fix go (l : list block) : outcome (option (list (piece layout))) :=
                match l with
                | [] => Ok rest
                | e :: l' => obind (go l') (fun r => opt_layout fuel o e r)
                end) l) (fun ln =>
      omap (fun s => Some (plus_const s 0))
        (vsum_solution fuel get_stacked (match ln with Some s => [s] | None => [] end)))
  | BChoice l =>
      obind ((fix go (l : list block) : outcome (list (list (piece layout))) :=
                match l with
                | [] => Ok []
                | e :: l' =>
                    obind (opt_layout fuel o e rest) (fun r =>
                    omap (fun rs => match r with Some s => s :: rs | None => rs end) (go l'))
                end) l) (fun ss =>
      omap Some (min_solution fuel ss))
  | BStack mult [] => Ok rest
  | BStack mult l =>
      obind ((fix go (l : list block) : outcome (list (list (piece layout))) :=
                match l with
                | [] => Ok []
                | e :: l' =>
                    obind (opt_layout fuel o e (match l' with [] => rest | _ => None end)) (fun r =>
                    omap (fun rs => match r with Some s => s :: rs | None => rs end) (go l'))
                end) l) (fun ss =>
      obind (vsum_solution fuel get_stacked ss) (fun s =>
      match s with
      | [] => Ok rest
      | _ => Ok (Some (plus_const s (linebreak_cost o * mult * Z.max 0 (Z.of_nat (length l) - 1))))
      end))
  end.

(** textlayouter.cpp:911-915 toLayouts; [value()] of an empty optional throws *)
Definition to_layouts (fuel : nat) (o : options) (b : block) : outcome (list layout) :=
  obind (opt_layout fuel o b None) (fun s => match s with Some s => Ok (map (@plyt _) s) | None => Throw end).
