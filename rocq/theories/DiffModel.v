(** Sequence comparison: src/hstd/stdlib/diffs.hpp, src/hstd/stdlib/diffs.cpp.

    [int] is modelled by [Z] without wrap-around (sizes are bounded by
    memory, none of the properties is about overflow).  The element
    comparison callback is any boolean function of two indices; it is
    assumed to be pure (the code calls it an unspecified number of times). *)
From Coq Require Import ZArith List Bool Lia.
From Verif Require Import Base.
Import ListNotations.
Local Open Scope Z_scope.

(** diffs.hpp:27-35 SeqEditKind *)
Inductive kind := KNone | Keep | Insert | Replace | Delete | Transpose.

(** diffs.hpp:39-48 SeqEdit *)
Record edit := mkE { ekind : kind; esrc : Z; etgt : Z }.

(** * Levenshtein distance *)

(** diffs.cpp:168-200: the value table.  Row [l] column [r]; the loops fill
    rows top-down and columns left-to-right, so each cell only reads cells
    above / to the left; the table is modelled by the recursion. *)
Fixpoint lev_table (eq : Z -> Z -> bool) (l : nat) {struct l} : nat -> Z :=
  match l with
  | O => fun r => Z.of_nat r
  | S l' =>
      fix row (r : nat) : Z :=
        match r with
        | O => Z.of_nat l
        | S r' =>
            if eq (Z.of_nat l') (Z.of_nat r') then lev_table eq l' r'
            else Z.min (Z.min (lev_table eq l' (S r')) (row r')) (lev_table eq l' r') + 1
        end
  end.

(** diffs.cpp:169-200: the path table.  [paths[0][0]] is written by both
    initialisation loops, the second one wins. *)
Definition lev_path (eq : Z -> Z -> bool) (l r : nat) : Z * Z :=
  match l, r with
  | O, _ => (0, Z.of_nat r - 1)
  | S l', O => (Z.of_nat l - 1, 0)
  | S l', S r' =>
      if eq (Z.of_nat l') (Z.of_nat r') then (Z.of_nat l', Z.of_nat r')
      else
        let m := Z.min (Z.min (lev_table eq l' r) (lev_table eq l r')) (lev_table eq l' r') in
        if lev_table eq l' r =? m then (Z.of_nat l', Z.of_nat r)
        else if lev_table eq l r' =? m then (Z.of_nat l, Z.of_nat r')
        else if lev_table eq l' r' =? m then (Z.of_nat l', Z.of_nat r')
        else (0, 0)
  end.

(** diffs.cpp:213-218, the inner loop; returns the points pushed and the
    indices at loop exit. *)
Fixpoint lev_inner (fuel : nat) (eq : Z -> Z -> bool) (l r : Z)
  : outcome (list (Z * Z) * (Z * Z)) :=
  match fuel with
  | O => Fuel
  | S f =>
      if (0 <=? l) && (0 <=? r) then
        let '(l', r') := lev_path eq (Z.to_nat l) (Z.to_nat r) in
        obind (lev_inner f eq l' r') (fun '(p, e) => Ok ((l, r) :: p, e))
      else Ok ([], (l, r))
  end.

(** diffs.cpp:211-219, the outer loop. *)
Fixpoint lev_outer (fuel : nat) (eq : Z -> Z -> bool) (rmax l r : Z)
  : outcome (list (Z * Z)) :=
  match fuel with
  | O => Fuel
  | S f =>
      if (0 <=? l) && (0 <=? r) then
        obind (lev_inner f eq l rmax) (fun '(p, (l', r')) =>
        obind (lev_outer f eq rmax l' r') (fun q => Ok (p ++ q)))
      else Ok []
  end.

(** diffs.cpp:225-241: the operation for one step of the path. *)
Definition lev_op (eq : Z -> Z -> bool) (last cur : Z * Z) : edit :=
  let t p := lev_table eq (Z.to_nat (fst p)) (Z.to_nat (snd p)) in
  let k :=
    if (fst cur =? fst last + 1) && (snd cur =? snd last + 1) && negb (t cur =? t last)
    then Replace
    else if (fst cur =? fst last) && (snd cur =? snd last + 1) then Insert
    else if (fst cur =? fst last + 1) && (snd cur =? snd last) then Delete
    else Keep in
  mkE k (fst cur - 1) (snd cur - 1).

(** diffs.cpp:224-243 *)
Fixpoint lev_ops (eq : Z -> Z -> bool) (last : Z * Z) (rest : list (Z * Z)) : list edit :=
  match rest with
  | [] => []
  | cur :: rest' => lev_op eq last cur :: lev_ops eq cur rest'
  end.

(** diffs.cpp:163-246 levenshteinDistance: score and operations.  Negative
    sizes make [Vec(size)] throw (std::length_error); [levenpath.back()] of an
    empty vector is undefined behaviour. *)
Definition levenshtein (fuel : nat) (lmax rmax : Z) (eq : Z -> Z -> bool)
  : outcome (Z * list edit) :=
  if (lmax + 1 <? 0) || (rmax + 1 <? 0) then Throw else
  if (lmax + 1 =? 0) || (rmax + 1 =? 0) then UB else
  obind (lev_outer fuel eq rmax lmax rmax) (fun p =>
  match rev p with
  | [] => UB
  | first :: rest =>
      let e := last (first :: rest) (0, 0) in
      Ok (lev_table eq (Z.to_nat (fst e)) (Z.to_nat (snd e)), lev_ops eq first rest)
  end).

(** * Myers diff *)

(** diffs.cpp:110-112: the front, one (furthest x, history) pair per diagonal
    in [-maxD .. maxD]; [at] outside throws (diffs.cpp uses [.at]). *)
Definition front := Z -> Z * list edit.
Definition fr_at (maxD : Z) (f : front) (k : Z) : outcome (Z * list edit) :=
  if (- maxD <=? k) && (k <=? maxD) then Ok (f k) else Throw.
Definition fr_set (f : front) (k : Z) (v : Z * list edit) : front :=
  fun k' => if k' =? k then v else f k'.

(** diffs.cpp:145-149: the snake; fuelled by the remaining left items. *)
Fixpoint snake (fuel : nat) (N M : Z) (eq : Z -> Z -> bool) (x y : Z) (h : list edit)
  : outcome (Z * Z * list edit) :=
  match fuel with
  | O => Fuel
  | S f =>
      if (x <? N) && (y <? M) && eq x y
      then snake f N M eq (x + 1) (y + 1) (h ++ [mkE Keep x y])
      else Ok (x, y, h)
  end.

(** diffs.cpp:117-156: one iteration of the inner loop: the [return history]
    is [inl], the updated front [inr]. *)
Definition myers_step (fuel : nat) (N M : Z) (eq : Z -> Z -> bool) (f : front) (d k : Z)
  : outcome (list edit + front) :=
  let maxD := N + M in
  obind (if k =? - d then Ok true
         else if k =? d then Ok false
         else obind (fr_at maxD f (k - 1)) (fun a =>
              obind (fr_at maxD f (k + 1)) (fun b => Ok (fst a <? fst b))))
    (fun goDown =>
  obind (if goDown : bool then fr_at maxD f (k + 1)
         else obind (fr_at maxD f (k - 1)) (fun a => Ok (fst a + 1, snd a)))
    (fun '(x, h) =>
  let y := x - k in
  let h' :=
    if (1 <=? y) && (y <=? M) && goDown then h ++ [mkE Insert (-1) (y - 1)]
    else if (1 <=? x) && (x <=? N) then h ++ [mkE Delete (x - 1) (-1)]
    else h in
  obind (snake fuel N M eq x y h') (fun '(x', y', h'') =>
  if (N <=? x') && (M <=? y') then Ok (inl h'')
  else obind (fr_at maxD f k) (fun _ => Ok (inr (fr_set f k (x', h''))))))).

(** diffs.cpp:116-157: the loop over diagonals, [n] iterations left. *)
Fixpoint myers_inner (n fuel : nat) (N M : Z) (eq : Z -> Z -> bool) (f : front) (d k : Z)
  : outcome (list edit + front) :=
  match n with
  | O => Ok (inr f)
  | S n' =>
      obind (myers_step fuel N M eq f d k) (fun r =>
      match r with
      | inl h => Ok (inl h)
      | inr f' => myers_inner n' fuel N M eq f' d (k + 2)
      end)
  end.

(** diffs.cpp:115-158: the loop over distances; for distance [d] the inner
    loop visits -d, -d+2, ..., d, i.e. [d + 1] diagonals. *)
Fixpoint myers_outer (n fuel : nat) (N M : Z) (eq : Z -> Z -> bool) (f : front) (d : Z)
  : outcome (list edit) :=
  match n with
  | O => Ok []
  | S n' =>
      obind (myers_inner (S (Z.to_nat d)) fuel N M eq f d (- d)) (fun r =>
      match r with
      | inl h => Ok h
      | inr f' => myers_outer n' fuel N M eq f' (d + 1)
      end)
  end.

(** diffs.cpp:100-161 myersDiff.  The first iteration (d = 0, k = 0) reads
    [front.at(offset + 1)], present because 2*maxD+1 >= 3 here. *)
Definition myers (fuel : nat) (N M : Z) (eq : Z -> Z -> bool) : outcome (list edit) :=
  if (N =? 0) && (M =? 0) then Ok []
  else myers_outer (S (Z.to_nat (N + M))) fuel N M eq (fun _ => (0, [])) 0.

(** * Side-by-side form *)

(** diffs.hpp ShiftedDiff::Item: kind and index. *)
Notation item := (kind * Z)%type (only parsing).

(** [zrange a n]: a, a+1, ..., n values: the counting loops. *)
Fixpoint zrange (a : Z) (n : nat) : list Z :=
  match n with O => [] | S n' => a :: zrange (a + 1) n' end.

(** diffs.cpp:248-285: ShiftedDiff(BacktrackRes, lhsMax, rhsMax); the
    [track.rhsIndex.at(pos)] throws if the right list is shorter. *)
Fixpoint shift_track_loop (ls rs : list Z) (pl pr : Z) (o n : list item)
  : outcome (Z * Z * list item * list item) :=
  match ls with
  | [] => Ok (pl, pr, o, n)
  | l :: ls' =>
      match rs with
      | [] => Throw
      | r :: rs' =>
          let dels := zrange pl (Z.to_nat (l - pl)) in
          let inss := zrange pr (Z.to_nat (r - pr)) in
          shift_track_loop ls' rs' (l + 1) (r + 1)
            (o ++ map (fun i => (Delete, i)) dels ++ map (fun _ => (KNone, 0)) inss ++ [(Keep, l)])
            (n ++ map (fun _ => (KNone, 0)) dels ++ map (fun i => (Insert, i)) inss ++ [(Keep, r)])
      end
  end.

Definition shift_track (ls rs : list Z) (lmax rmax : Z) : outcome (list item * list item) :=
  obind (shift_track_loop ls rs 0 0 [] []) (fun '(pl, pr, o, n) =>
  let dels := zrange pl (Z.to_nat (lmax - pl)) in
  let inss := zrange pr (Z.to_nat (rmax - pr)) in
  Ok (o ++ map (fun i => (Delete, i)) dels ++ map (fun _ => (KNone, 0)) inss,
      n ++ map (fun _ => (KNone, 0)) dels ++ map (fun i => (Insert, i)) inss)).

(** diffs.cpp:287-334: ShiftedDiff(diff).  [assert(false)] is [UB]. *)
Fixpoint shift_edits_loop (ops : list edit) (o n : list item) : outcome (list item * list item) :=
  match ops with
  | [] => Ok (o, n)
  | e :: ops' =>
      match ekind e with
      | Replace => shift_edits_loop ops' (o ++ [(Replace, esrc e)]) n
      | KNone | Transpose => UB
      | Delete => shift_edits_loop ops' (o ++ [(Delete, esrc e)]) n
      | Insert => shift_edits_loop ops' o (n ++ [(Insert, etgt e)])
      | Keep =>
          let o' := o ++ repeat (KNone, 0) (length n - length o) in
          let n' := n ++ repeat (KNone, 0) (length o - length n) in
          shift_edits_loop ops' (o' ++ [(Keep, esrc e)]) (n' ++ [(Keep, etgt e)])
      end
  end.
Definition shift_edits (ops : list edit) : outcome (list item * list item) :=
  shift_edits_loop ops [] [].

(** * Longest common subsequence *)

(** diffs.cpp:20: the memo table, an association list. *)
Definition memo := list ((Z * Z) * Z).
Fixpoint mget (m : memo) (l r : Z) : option Z :=
  match m with
  | [] => None
  | ((l', r'), v) :: m' => if (l' =? l) && (r' =? r) then Some v else mget m' l r
  end.
Definition mset (m : memo) (l r v : Z) : memo := ((l, r), v) :: m.

(** diffs.cpp:22-36: the memoised length.  The metric is the constant 1 of
    the overload without metric (diffs.hpp:189-201: it is only consulted for
    equal items, where that overload yields 1.0).  The two arguments of
    [std::max] are evaluated left to right (C++ leaves the order open; it only
    changes the order of memo insertions). *)
Fixpoint lcs (fuel : nat) (eq : Z -> Z -> bool) (m : memo) (l r : Z) : outcome (Z * memo) :=
  match fuel with
  | O => Fuel
  | S f =>
      match mget m l r with
      | Some v => Ok (v, m)
      | None =>
          if (l =? -1) || (r =? -1) then Ok (0, mset m l r 0)
          else if eq l r then
            obind (lcs f eq m (l - 1) (r - 1)) (fun '(v, m1) =>
            Ok (v + 1, mset m1 l r (v + 1)))
          else
            obind (lcs f eq m l (r - 1)) (fun '(v1, m1) =>
            obind (lcs f eq m1 (l - 1) r) (fun '(v2, m2) =>
            Ok (Z.max v1 v2, mset m2 l r (Z.max v1 v2))))
      end
  end.

(** diffs.cpp:45-53 and 59-67: the two walks; [cur] is [lcs(lhsIdx, rhsIdx)],
    both operands are in the table when compared, so calling [lcs] on them is
    a lookup. *)
Fixpoint walk_r (fuel : nat) (m : memo) (l cur r : Z) : outcome Z :=
  match fuel with
  | O => Fuel
  | S f =>
      match mget m l (r - 1) with
      | Some v => if v =? cur then walk_r f m l cur (r - 1) else Ok r
      | None => Ok r
      end
  end.
Fixpoint walk_l (fuel : nat) (m : memo) (r cur l : Z) : outcome Z :=
  match fuel with
  | O => Fuel
  | S f =>
      match mget m (l - 1) r with
      | Some v => if v =? cur then walk_l f m r cur (l - 1) else Ok l
      | None => Ok l
      end
  end.

(** diffs.cpp:41-90: the reconstruction; a result is a pair of index lists. *)
Fixpoint backtrack (fuel : nat) (eq : Z -> Z -> bool) (m : memo) (l r : Z)
  : outcome (list (list Z * list Z) * memo) :=
  match fuel with
  | O => Fuel
  | S f =>
      obind (lcs f eq m l r) (fun '(cur, m) =>
      if cur =? 0 then Ok ([], m)
      else if l =? 0 then
        obind (walk_r f m l cur r) (fun r' => Ok ([([l], [r'])], m))
      else if r =? 0 then
        obind (walk_l f m r cur l) (fun l' => Ok ([([l'], [r])], m))
      else if eq l r then
        obind (backtrack f eq m (l - 1) (r - 1)) (fun '(back, m) =>
        Ok (map (fun t => (fst t ++ [l], snd t ++ [r])) back, m))
      else
        obind (lcs f eq m l (r - 1)) (fun '(a, m) =>
        obind (lcs f eq m (l - 1) r) (fun '(b, m) =>
        if b <? a then backtrack f eq m l (r - 1)
        else backtrack f eq m (l - 1) r)))
  end.

(** diffs.cpp:12-98 longestCommonSubsequence *)
Definition longest_common (fuel : nat) (N M : Z) (eq : Z -> Z -> bool)
  : outcome (list (list Z * list Z)) :=
  if (N =? 0) || (M =? 0) then Ok [([], [])]
  else
    obind (backtrack fuel eq [] (N - 1) (M - 1)) (fun '(res, _) =>
    match res with
    | [] => Ok [([], [])]
    | _ => Ok res
    end).

(** * Fuzzy matching *)

(** [matches.at(i) = v] *)
Fixpoint set_at (l : list Z) (i : nat) (v : Z) : outcome (list Z) :=
  match l, i with
  | [], _ => Throw
  | _ :: l', O => Ok (v :: l')
  | x :: l', S i' => obind (set_at l' i' v) (fun t => Ok (x :: t))
  end.

(** diffs.cpp:742-855 fuzzy_match_recursive; ranges are (first, last), both
    inclusive (Slice.hpp:35 isValid).  [score] is [matchScore], called with
    the rest of the text range, the number of matched items and the
    positions.  [cnt] is the shared [recursionCount], threaded.  The result is
    [Some (score, matches)] for a match; the content of [matches] after a
    failed call is not modelled.  [cur] starts as [src]: the code copies [src]
    on the first match, and never reads [matches] before that. *)
Fixpoint fz (fuel : nat) (limit : Z) (eq : Z -> Z -> bool) (score : Z * Z -> Z -> list Z -> Z)
    (plast slast : Z) (p s : Z) (src : list Z) (next : nat) (cnt : Z)
  : outcome (option (Z * list Z) * Z) :=
  match fuel with
  | O => Fuel
  | S f =>
      let cnt := cnt + 1 in
      if limit <=? cnt then Ok (None, cnt)
      else if negb (p <=? plast) || negb (s <=? slast) then Ok (None, cnt)
      else fz_loop f limit eq score plast slast p s src next cnt None
  end
with fz_loop (fuel : nat) (limit : Z) (eq : Z -> Z -> bool) (score : Z * Z -> Z -> list Z -> Z)
    (plast slast : Z) (p s : Z) (cur : list Z) (next : nat) (cnt : Z)
    (best : option (Z * list Z))
  : outcome (option (Z * list Z) * Z) :=
  match fuel with
  | O => Fuel
  | S f =>
      if (p <=? plast) && (s <=? slast) then
        if eq p s then
          obind (fz f limit eq score plast slast p (s + 1) cur next cnt) (fun '(rec, cnt) =>
          let best' :=
            match rec with
            | None => best
            | Some (rs, rm) =>
                match best with
                | None => Some (rs, rm)
                | Some (bs, _) => if bs <? rs then Some (rs, rm) else best
                end
            end in
          obind (set_at cur next s) (fun cur' =>
          fz_loop f limit eq score plast slast (p + 1) (s + 1) cur' (S next) cnt best'))
        else fz_loop f limit eq score plast slast p (s + 1) cur next cnt best
      else
        let matched := negb (p <=? plast) in
        let out := if matched then score (s, slast) (Z.of_nat next) cur else 0 in
        match best with
        | Some (bs, bm) =>
            if negb matched || (out <? bs) then Ok (Some (bs, bm), cnt)
            else Ok (Some (out, cur), cnt)
        | None => if matched then Ok (Some (out, cur), cnt) else Ok (None, cnt)
        end
  end.

(** diffs.cpp:901-924 FuzzyMatcher::fuzzy_match (pattern and text range);
    [resize] of a negative count throws. *)
Definition fuzzy_match (fuel : nat) (limit : Z) (eq : Z -> Z -> bool)
    (score : Z * Z -> Z -> list Z -> Z) (pattern str : Z * Z)
  : outcome (option (Z * list Z)) :=
  if snd pattern + 1 <? 0 then Throw
  else
    obind (fz fuel limit eq score (snd pattern) (snd str) (fst pattern) (fst str)
              (repeat 0 (Z.to_nat (snd pattern + 1))) 0%nat 0)
      (fun '(r, _) => Ok r).
