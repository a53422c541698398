(** Property theorems C11, C12, C48: token cursors. *)
From Verif Require Import Base LexModel LexSpec LexProofs.

(** Kinds used by the examples: 1 opens, 2 closes. *)
Definition is1 (k : nat) := k =? 1.
Definition is2 (k : nat) := k =? 2.

(** *** C11 *)

Theorem cursor_current_token_is_real : forall (K : Type) (c0 : cursor K) ops,
  fresh c0 -> let c := run ops c0 in
  finished c = false ->
  exists i id k, nth_error (walk c0) i = Some id /\ pos c = Some id /\
    nth_error (toks c0) id = Some k /\ tok c 0 = Ok k /\ on c i.
Proof. exact (fun K c0 ops H => run_reports_token c0 ops (fresh_inv c0 H)). Qed.
Print Assumptions cursor_current_token_is_real.

Example cursor_current_case :
  let c := run [ONext 2; OSkip is1; ONext (-1); OTrySkip is2; OSetPos 1] (lexer [5; 6; 1; 7]) in
  finished c = false /\ tok c 0 = Ok 6.
Proof. vm_compute. split; reflexivity. Qed.

(** Collecting tokens until a stop kind yields exactly the following tokens of the walk, each once and
    in order, and leaves the cursor on the first stop token (or finished). *)
Theorem cursor_collects_each_token_once : forall (K : Type) (c0 : cursor K) ops stop fuel,
  fresh c0 -> let c := run ops c0 in
  length (walk c0) < fuel ->
  (finished c = true /\ pop_until fuel c stop = Ok ([], c)) \/
  (exists i, on c i /\ let m := lead (toks c0) stop (skipn i (walk c0)) in
   exists c', pop_until fuel c stop = Ok (map Some (firstn m (skipn i (walk c0))), c') /\
     (if i + m <? length (walk c0) then on c' (i + m) else finished c' = true)).
Proof. exact (fun K c0 ops stop fuel H => pop_until_run c0 ops stop fuel (fresh_inv c0 H)). Qed.
Print Assumptions cursor_collects_each_token_once.

Example cursor_collects_case :
  exists c', pop_until 10 (run [ONext 1] (sublexer [5; 6; 1; 7; 8] [4; 3; 0; 2; 1])) is1 = Ok ([Some 3; Some 0], c').
Proof. eexists. vm_compute. reflexivity. Qed.

Theorem cursor_next_moves_exactly : forall (K : Type) (c0 : cursor K) ops off,
  fresh c0 -> let c := run ops c0 in
  forall i, on c i -> exists c', next c off = Ok c' /\
    let j := (Z.of_nat i + off)%Z in
    if ((0 <=? j)%Z && (j <? Z.of_nat (length (walk c0)))%Z)
    then on c' (Z.to_nat j) else pos c' = None /\ finished c' = true.
Proof. exact (fun K c0 ops off H => next_exact c0 ops off (fresh_inv c0 H)). Qed.
Print Assumptions cursor_next_moves_exactly.

Theorem cursor_finished_stays_finished : forall (K : Type) (ops : list (op K)) c,
  pos c = None -> Forall no_set_pos ops -> pos (run ops c) = None /\ finished (run ops c) = true.
Proof. exact @finished_stays. Qed.
Print Assumptions cursor_finished_stays_finished.

Example cursor_finished_case :
  pos (run [ONext 7] (lexer [5; 6])) = None /\ Forall no_set_pos [ONext (-1); OPop (K := nat); OSkip is1].
Proof. split; [reflexivity|repeat constructor]. Qed.

Theorem cursor_skip_expects_current : forall (K : Type) (c0 : cursor K) ops f,
  fresh c0 -> let c := run ops c0 in
  match skip c f with
  | Ok c' => exists i id k, on c i /\ nth_error (walk c0) i = Some id /\ nth_error (toks c0) id = Some k /\ f k = true /\
               (if S i <? length (walk c0) then on c' (S i) else finished c' = true)
  | Throw => finished c = true \/
             exists i id k, on c i /\ nth_error (walk c0) i = Some id /\ nth_error (toks c0) id = Some k /\ f k = false
  | _ => False
  end.
Proof. exact (fun K c0 ops f H => skip_exact c0 ops f (fresh_inv c0 H)). Qed.
Print Assumptions cursor_skip_expects_current.

Example cursor_skip_case :
  skip (run [ONext 1] (lexer [5; 1; 6])) is1 = Ok (run [ONext 2] (lexer [5; 1; 6])) /\
  skip (lexer [5; 1; 6]) is1 = Throw.
Proof. vm_compute. split; reflexivity. Qed.

(** Searching ahead from offset [j]: the distance of the first matching token, or -1. *)
Theorem cursor_find_first : forall (K : Type) f (ts : list K) ops,
  let c := run ops (lexer ts) in
  forall n i j fuel, on c i -> i + j <= length (walk (lexer ts)) -> length (walk (lexer ts)) - (i + j) = n -> n < fuel ->
  let m := lead (toks (lexer ts)) f (skipn (i + j) (walk (lexer ts))) in
  find_kind fuel c f (Z.of_nat j) =
  Ok (if i + j + m <? length (walk (lexer ts)) then Z.of_nat (j + m) else (-1)%Z).
Proof.
  exact (fun K f ts ops => find_kind_spec f (lexer ts) ops (inv_start_lexer ts) (lexer_contiguous ts)).
Qed.
Print Assumptions cursor_find_first.

Theorem cursor_find_after_skipping : forall (K : Type) sk tg (ts : list K) ops,
  let c := run ops (lexer ts) in
  forall n i j fuel, on c i -> i + j <= length (walk (lexer ts)) -> length (walk (lexer ts)) - (i + j) = n -> n < fuel ->
  let m := lead (toks (lexer ts)) (fun k => negb (sk k)) (skipn (i + j) (walk (lexer ts))) in
  find_set fuel c sk tg (Z.of_nat j) =
  Ok (match nth_error (walk (lexer ts)) (i + j + m) with
      | Some id => match nth_error (toks (lexer ts)) id with
                   | Some k => if tg k then Z.of_nat (j + m) else (-1)%Z
                   | None => (-1)%Z end
      | None => (-1)%Z
      end).
Proof.
  exact (fun K sk tg ts ops => find_set_spec sk tg (lexer ts) ops (inv_start_lexer ts) (lexer_contiguous ts)).
Qed.
Print Assumptions cursor_find_after_skipping.

Example cursor_find_case :
  find_kind 9 (run [ONext 1] (lexer [2; 5; 5; 1; 2])) is2 0 = Ok 3%Z /\
  find_set 9 (run [ONext 1] (lexer [2; 5; 5; 1; 2])) (fun k => k =? 5) is1 0 = Ok 2%Z /\
  find_set 9 (run [ONext 1] (lexer [2; 5; 5; 1; 2])) (fun k => k =? 5) is2 0 = Ok (-1)%Z.
Proof. vm_compute. repeat split. Qed.

(** *** C12 *)

(** Full claim: looking ahead sees the cursor's own walk.  True for every plain cursor and for
    contiguous selections. *)
Theorem cursor_lookahead_partial : forall (K : Type) (c0 : cursor K) ops off,
  fresh c0 -> contiguous (walk c0) -> let c := run ops c0 in
  forall i, on c i -> forall id, (0 <= Z.of_nat i + off)%Z ->
  nth_error (walk c0) (Z.to_nat (Z.of_nat i + off)) = Some id ->
  has_next c off = true /\
  tok c off = match nth_error (toks c0) id with Some k => Ok k | None => Throw end.
Proof. exact (fun K c0 ops off H => lookahead_contiguous c0 ops off (fresh_inv c0 H)). Qed.
Print Assumptions cursor_lookahead_partial.

Example cursor_lookahead_case :
  contiguous (walk (lexer [5; 6; 7])) /\ contiguous (walk (sublexer [5; 6; 7; 8] [1; 2; 3])).
Proof.
  split; [apply lexer_contiguous|]. intros i a b Ha Hb.
  destruct i as [|[|[|i]]]; cbn in Ha, Hb; try congruence.
Qed.

(** Testing for a sequence of kinds compares it with the tokens ahead, one by one. *)
Theorem cursor_sequence_test : forall (K : Type) (c0 : cursor K) ops fs j,
  fresh c0 -> contiguous (walk c0) -> let c := run ops c0 in
  forall i, on c i -> fs <> [] ->
  at_seq c fs (Z.of_nat j) = Ok (matches (toks c0) fs (skipn (i + j) (walk c0))).
Proof. exact (fun K c0 ops fs j H Hc i Ho Hf => at_seq_spec c0 ops (fresh_inv c0 H) Hc fs i j Ho Hf). Qed.
Print Assumptions cursor_sequence_test.

Example cursor_sequence_case :
  at_seq (run [ONext 1] (lexer [5; 1; 2; 6])) [is1; is2] 0 = Ok true /\
  at_seq (run [ONext 1] (lexer [5; 1; 1; 6])) [is1; is2] 0 = Ok false /\
  at_seq (run [ONext 1] (lexer [5; 1])) [is1; is2] 0 = Ok false.
Proof. vm_compute. repeat split. Qed.

(** For a sub-cursor with a gap in its selection the look-ahead reads the token next to the current one
    in the group instead of the next selected one. *)
Theorem sub_cursor_lookahead_exact : forall (K : Type) (ts : list K) ids ops off,
  valid_ids ts ids -> (0 <= off)%Z ->
  let c := run ops (sublexer ts ids) in
  forall i id, on c i -> nth_error ids i = Some id ->
  tok c off = match nth_error ts (id + Z.to_nat off) with Some k => Ok k | None => Throw end.
Proof. exact @sub_lookahead_exact. Qed.
Print Assumptions sub_cursor_lookahead_exact.

Theorem sub_cursor_lookahead_refuted : exists (ts : list nat) ids,
  valid_ids ts ids /\ has_next (sublexer ts ids) 1 = true /\
  nth_error ids 1 = Some 2 /\ nth_error ts 2 = Some 7 /\ tok (sublexer ts ids) 1 = Ok 6.
Proof.
  exists [5; 6; 7], [0; 2]. repeat split. unfold valid_ids. repeat constructor.
Qed.
Print Assumptions sub_cursor_lookahead_refuted.

(** *** C48 *)

(** Full claim: the group between the opening delimiter and the matching closing one is returned.
    Proved for groups without nested delimiters (one run of opening and one run of closing tokens). *)
Theorem bracket_group_partial : forall (K : Type) st fi (pre opens body closes rest : list K),
  let ts := pre ++ opens ++ body ++ closes ++ rest in
  Forall (fun k => st k = true) opens ->
  Forall (fun k => st k = false /\ fi k = false) body ->
  Forall (fun k => fi k = true /\ st k = false) closes -> closes <> [] ->
  match rest with [] => True | k :: _ => fi k = false end ->
  get_inside (cursor_at ts (length pre)) st fi =
  Ok (map Some (seq (length pre + length opens) (length body)),
      cursor_at ts (length pre + length opens + length body + length closes)).
Proof. exact @get_inside_flat. Qed.
Print Assumptions bracket_group_partial.

Example bracket_group_case :
  get_inside (cursor_at [9; 1; 5; 6; 2; 7] 1) is1 is2 = Ok ([Some 2; Some 3], cursor_at [9; 1; 5; 6; 2; 7] 5).
Proof. vm_compute. reflexivity. Qed.

(** "{a{b}}c": the inner group's close and the outer close form one run, which is counted once, so the
    closing delimiter of the group itself and everything after it are returned as content. *)
Theorem bracket_group_nested_refuted :
  get_inside (cursor_at [1; 5; 1; 6; 2; 2; 7] 0) is1 is2 =
  Ok ([Some 1; Some 2; Some 3; Some 4; Some 5; Some 6], cursor_at [1; 5; 1; 6; 2; 2; 7] 7).
Proof. vm_compute. reflexivity. Qed.
Print Assumptions bracket_group_nested_refuted.

(** "{a{{b}c}d}": the two opening delimiters in a row are counted once, so the group ends too early. *)
Theorem bracket_group_double_open_refuted :
  get_inside (cursor_at [1; 5; 1; 1; 6; 2; 7; 2; 8; 2] 0) is1 is2 =
  Ok ([Some 1; Some 2; Some 3; Some 4; Some 5; Some 6], cursor_at [1; 5; 1; 1; 6; 2; 7; 2; 8; 2] 8).
Proof. vm_compute. reflexivity. Qed.
Print Assumptions bracket_group_double_open_refuted.
