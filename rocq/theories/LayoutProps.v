(** * Text layout: C42, C43, C54-C57 *)
From Coq Require Import ZArith List Bool Lia Sorting.Sorted.
From Verif Require Import Base LayoutModel LayoutSpec LayoutProofs LayoutSums LayoutLine LayoutBlocks LayoutPrint.
Import ListNotations.
Local Open Scope Z_scope.

(** ** C42 *)

(** Whenever minSolution returns, the result is a well-formed solution whose
    cost and width at every column are those of a cheapest alternative. *)
Theorem C42_min_is_cheapest : forall (L : Type) fuel (ss : list (list (piece L))) r,
  Forall proper ss -> min_solution fuel ss = Ok r ->
  proper r /\ forall m, column m ->
    exists v w, cost r m = Some v /\ span_at r m = Some w /\ cheapest ss m v w.
Proof. intros L. exact (@min_solution_correct L). Qed.
Print Assumptions C42_min_is_cheapest.

(** It never raises and never reads outside a solution. *)
Theorem C42_min_total : forall (L : Type) fuel (ss : list (list (piece L))), ss <> [] -> Forall proper ss ->
  min_solution fuel ss = Fuel \/ exists r, min_solution fuel ss = Ok r.
Proof. intros L. exact (@min_solution_total L). Qed.
Print Assumptions C42_min_total.

(** It returns exactly when at no column the first cheapest alternative is
    tied with one that grows more slowly. *)
Theorem C42_min_returns_iff : forall (L : Type) (ss : list (list (piece L))), (2 <= length ss)%nat -> Forall proper ss ->
  ((exists fuel r, min_solution fuel ss = Ok r) <-> forall m, column m -> ~ steeper_tie ss m).
Proof. intros L. exact (@min_solution_returns_iff L). Qed.
Print Assumptions C42_min_returns_iff.

(** The layout kept is that of a cheapest alternative when pieces on the same
    line (same width, slope and value) carry the same layout. *)
Theorem C42_min_layout_partial : forall (L : Type) fuel (ss : list (list (piece L))) r,
  Forall proper ss -> min_solution fuel ss = Ok r ->
  (forall s1 s2 a b, In s1 ss -> In s2 ss -> In a s1 -> In b s2 -> pspan a = pspan b -> pgrad a = pgrad b ->
     (forall m, pint a + pgrad a * (m - pknot a) = pint b + pgrad b * (m - pknot b)) -> plyt a = plyt b) ->
  forall m, column m -> exists s v, In s ss /\ cost s m = Some v /\ cost r m = Some v /\
    layout_at r m = layout_at s m /\ span_at r m = span_at s m /\
    forall s' v', In s' ss -> cost s' m = Some v' -> v <= v'.
Proof. intros L. exact (@min_solution_layout L). Qed.
Print Assumptions C42_min_layout_partial.

Ltac proper_tac :=
  split; [eexists; eexists; split; reflexivity|split;
    [repeat constructor|repeat (constructor; [vm_compute; intuition congruence|]); constructor]].

Definition sA : list (piece nat) := [mkP 0 5 0 1 10%nat; mkP 8 5 8 3 11%nat].
Definition sB : list (piece nat) := [mkP 0 3 4 0 20%nat; mkP 20 3 4 2 21%nat].
Example C42_min_ex :
  min_solution 20 [sB; sA] = Ok [mkP 0 5 0 1 10%nat; mkP 4 3 4 0 20%nat; mkP 20 3 4 2 21%nat].
Proof. vm_compute. reflexivity. Qed.
Example C42_proper_ex : Forall proper [sB; sA].
Proof. constructor; [proper_tac|constructor; [proper_tac|constructor]]. Qed.

(** Combining does not always terminate: [sA] then [sB] tie at column 4, where
    [sA] grows faster. *)
Theorem C42_min_returns_refuted : exists ss : list (list (piece nat)),
  Forall proper ss /\ forall fuel, min_solution fuel ss = Fuel.
Proof.
  exists [sA; sB].
  assert (HP : Forall proper [sA; sB]) by (constructor; [proper_tac|constructor; [proper_tac|constructor]]).
  split; [exact HP|]. intros fuel.
  destruct (C42_min_total nat fuel [sA; sB] ltac:(discriminate) HP) as [E|[r E]]; [exact E|exfalso].
  refine (proj1 (C42_min_returns_iff nat [sA; sB] ltac:(cbn; lia) HP) _ 4 _ _).
  - exists fuel, r. exact E.
  - split; [lia|reflexivity].
  - exists 0%nat, 1%nat, sA, sB, 4, 1, 0.
    split; [reflexivity|]. split; [reflexivity|]. split; [reflexivity|]. split; [reflexivity|].
    split; [|split; [|split; [reflexivity|split; [reflexivity|lia]]]].
    + intros s v' [<-|[<-|[]]] Hc; vm_compute in Hc; injection Hc as <-; lia.
    + intros i' s v' Hi. lia.
Qed.
Print Assumptions C42_min_returns_refuted.

(** The layout kept may be dearer than the cheapest: the alternative with
    layout 1 costs 10 from column 5 on, the result still names layout 1. *)
Theorem C42_min_layout_refuted : exists (ss : list (list (piece nat))) r s1 s2,
  ss = [s1; s2] /\ Forall proper ss /\ min_solution 20 ss = Ok r /\
  layout_at r 7 = Some 1%nat /\ layout_at s1 7 = Some 1%nat /\ layout_at s2 7 = Some 2%nat /\
  cost s1 7 = Some 10 /\ cost s2 7 = Some 1.
Proof.
  exists [[mkP 0 3 1 0 1%nat; mkP 5 3 10 0 1%nat]; [mkP 0 3 1 0 2%nat]],
    [mkP 0 3 1 0 1%nat], [mkP 0 3 1 0 1%nat; mkP 5 3 10 0 1%nat], [mkP 0 3 1 0 2%nat].
  split; [reflexivity|]. split; [constructor; [proper_tac|constructor; [proper_tac|constructor]]|].
  repeat (split; [vm_compute; reflexivity|]). vm_compute. reflexivity.
Qed.
Print Assumptions C42_min_layout_refuted.

(** ** C43 *)

(** Stacking returns the sum of the costs and of the slopes and the width of the last part at
    every column, provided no knot lies beyond column 4096. *)
Theorem C43_stack_sums_partial : forall (L : Type) stack (ss : list (list (piece L))), ss <> [] -> Forall proper ss ->
  (forall s p, In s ss -> In p s -> pknot p <= 4096) ->
  forall fuel, (4096 < fuel)%nat -> exists r, vsum_solution fuel stack ss = Ok r /\ proper r /\
  forall m, 0 <= m -> cost r m = osum (map (fun s => cost s m) ss) /\ cost r m <> None /\
    span_at r m = span_at (last ss []) m /\ slope_at r m = osum (map (fun s => slope_at s m) ss).
Proof. intros L. exact (@vsum_solution_ok L). Qed.
Print Assumptions C43_stack_sums_partial.

Example C43_stack_ex : vsum_solution 20 (fun l => hd O l) [sA; sB] =
  Ok [mkP 0 3 4 1 10%nat; mkP 8 3 12 3 11%nat; mkP 20 3 48 5 11%nat].
Proof. vm_compute. reflexivity. Qed.

(** With a knot beyond column 4096 stacking never returns. *)
Theorem C43_stack_far_knot_hangs : forall (L : Type) stack (ss : list (list (piece L))), (2 <= length ss)%nat -> Forall proper ss ->
  (forall s p, In s ss -> In p s -> pknot p < infty - 4096) ->
  (exists s p, In s ss /\ In p s /\ 4096 < pknot p) ->
  forall fuel, vsum_solution fuel stack ss = Fuel.
Proof. intros L. exact (@vsum_solution_diverges L). Qed.
Print Assumptions C43_stack_far_knot_hangs.

(** So two lines of text stacked with a right margin of 5000 hang. *)
Theorem C43_stack_sums_refuted : exists o b, options_ok o /\
  forall fuel, opt_layout fuel o b None = Fuel.
Proof.
  set (o := mkOpts 0 5000 1 100 5).
  assert (Ho : options_ok o) by (vm_compute; intuition congruence).
  exists o, (BStack 1 [BText [mkStr (TextId 0) 3]; BText [mkStr (TextId 1) 4]]). split; [exact Ho|].
  intros fuel. cbn [opt_layout with_rest obind omap].
  match goal with |- obind (vsum_solution fuel get_stacked ?ss) _ = _ => 
    assert (E : vsum_solution fuel get_stacked ss = Fuel); [apply C43_stack_far_knot_hangs|rewrite E; reflexivity] end.
  - cbn. lia.
  - constructor; [|constructor; [|constructor]]; (apply text_proper; [exact Ho|vm_compute; reflexivity|vm_compute; congruence]).
  - intros s p [<-|[<-|[]]] Hp; vm_compute in Hp; intuition (subst; vm_compute; reflexivity).
  - eexists. exists (mkP 4997 3 5000 101 [EString [mkStr (TextId 0) 3]]).
    split; [left; reflexivity|]. split; [right; left; reflexivity|reflexivity].
Qed.
Print Assumptions C43_stack_sums_refuted.

(** ** C54: one layout beside another *)

Theorem C54_beside : forall (L : Type) o (join : L -> L -> L) (s1 s2 : list (piece L)),
  options_ok o -> proper s1 -> proper s2 -> aligned o s1 -> pays o s2 -> small s1 -> small s2 ->
  forall fuel, (Z.to_nat (2 ^ 28) < fuel)%nat -> exists r, hplus_solution fuel o join s1 s2 = Ok r /\ proper r /\
    (forall x, In x r -> pknot x <= 2 ^ 28) /\
    forall m, 0 <= m -> exists c w g, cost r m = Some c /\ span_at r m = Some w /\ slope_at r m = Some g /\
      beside o s1 s2 m c w g.
Proof. intros L. exact (@plus_ok L). Qed.
Print Assumptions C54_beside.

(** Texts meet the hypotheses of [C54_beside] on either side. *)
Theorem C54_text_fits : forall (L : Type) o span (lyt : L), options_ok o -> 0 <= span <= 2 ^ 28 -> right_margin o <= 2 ^ 28 ->
  proper (text_solution o span lyt) /\ aligned o (text_solution o span lyt) /\
  pays o (text_solution o span lyt) /\ small (text_solution o span lyt).
Proof.
  intros L o span lyt Ho Hs Hr. split; [apply text_proper; [exact Ho|unfold infty; lia|lia]|].
  split; [apply text_aligned; exact Ho|]. split; [apply text_pays; [exact Ho|lia]|apply text_small; auto].
Qed.
Print Assumptions C54_text_fits.

Definition oEx : options := mkOpts 0 10 1 100 5.
Example C54_beside_ex :
  hplus_solution 20 oEx Nat.add (text_solution oEx 4 1%nat) (text_solution oEx 3 2%nat) =
  Ok [mkP 0 7 7 1 3%nat; mkP 3 7 10 101 3%nat].
Proof. vm_compute. reflexivity. Qed.

(** A line of texts, each no wider than the right margin, costs what one text
    of the total width costs. *)
Theorem C54_line_of_texts : forall o tss, options_ok o -> right_margin o <= 2 ^ 28 -> Forall widths_ok tss ->
  Forall (fun t => strs_len t <= right_margin o) tss -> tss <> [] -> zsum (map strs_len tss) <= 2 ^ 28 ->
  exists fuel r, opt_layout fuel o (BLine (map BText tss)) None = Ok (Some r) /\ proper r /\
    forall m, 0 <= m -> cost r m = Some (overhang o (m + zsum (map strs_len tss))) /\
      span_at r m = Some (zsum (map strs_len tss)).
Proof. exact line_of_texts. Qed.
Print Assumptions C54_line_of_texts.
(** A stack of texts costs what its lines cost one by one, and one linebreak
    between each two. *)
Theorem C55_stack_of_texts : forall o k tss, options_ok o -> right_margin o <= 4096 -> Forall widths_ok tss ->
  Forall (fun t => strs_len t <= right_margin o) tss -> tss <> [] ->
  exists fuel r, opt_layout fuel o (BStack k (map BText tss)) None = Ok (Some r) /\
    forall m, 0 <= m ->
      cost r m = Some (linebreak_cost o * k * (Z.of_nat (length tss) - 1) + zsum (map (fun t => overhang o (m + strs_len t)) tss)) /\
      span_at r m = Some (strs_len (last tss [])).
Proof. exact stack_of_texts. Qed.
Print Assumptions C55_stack_of_texts.
Example C55_stack_ex : exists r,
  opt_layout 9 (mkOpts 2 6 1 5 10) (BStack 3 [BText [mkStr (TextId 0) 4]; BText [mkStr (TextId 1) 1]]) None = Ok (Some r) /\
  cost r 0 = Some 32 /\ cost r 3 = Some (30 + 5 + 5 + 2).
Proof. eexists. split; [vm_compute; reflexivity|]. split; reflexivity. Qed.


Example C54_line_ex : exists r,
  opt_layout 20 oEx (BLine [BText [mkStr (TextId 0) 4]; BText [mkStr (TextId 1) 3]; BText [mkStr (TextId 2) 8]]) None = Ok (Some r)
  /\ cost r 2 = Some (17 + 100 * 7) /\ span_at r 2 = Some 15.
Proof. eexists. split; [vm_compute; reflexivity|]. split; reflexivity. Qed.

(** ** C55: a text pays for what sticks out *)

(** The exact cost: the overhang, plus an error for texts wider than the right
    margin, whose excess is charged [rightMargin] instead of
    [rightMarginCost] per column. *)
Theorem C55_text_cost_exact : forall (L : Type) o span (lyt : L) m,
  0 <= left_margin o <= right_margin o -> 0 <= span -> 0 <= m ->
  cost (text_solution o span lyt) m =
    Some (overhang o (m + span) + Z.max 0 (span - right_margin o) * (right_margin o - right_cost o)) /\
  span_at (text_solution o span lyt) m = Some span /\ layout_at (text_solution o span lyt) m = Some lyt.
Proof.
  intros L o span lyt m Ho Hs Hm. destruct (text_pieces o span lyt m Ho Hs Hm) as (p & A & B & C & D & E).
  destruct (piece_cost _ _ _ A) as (X1 & X2 & X3). rewrite X1, X2, D, B. split; [reflexivity|]. split; [reflexivity|].
  unfold layout_at. rewrite A. cbn. congruence.
Qed.
Print Assumptions C55_text_cost_exact.

Theorem C55_text_cost_partial : forall (L : Type) o span (lyt : L) m,
  0 <= left_margin o <= right_margin o -> 0 <= span <= right_margin o -> 0 <= m ->
  cost (text_solution o span lyt) m = Some (overhang o (m + span)).
Proof.
  intros L o span lyt m Ho Hs Hm. destruct (C55_text_cost_exact L o span lyt m Ho ltac:(lia) Hm) as [E _].
  rewrite E. rewrite Z.max_l by lia. f_equal. lia.
Qed.
Print Assumptions C55_text_cost_partial.
Example C55_text_ex : cost (text_solution oEx 8 tt) 5 = Some (13 + 300) /\ 0 <= 8 <= right_margin oEx.
Proof. split; [reflexivity|cbn; lia]. Qed.

(** Two columns beyond the margin at 10 cost 20 instead of 200. *)
Theorem C55_text_cost_refuted : exists o span m, options_ok o /\ 0 <= span /\ 0 <= m /\
  cost (text_solution o span tt) m <> Some (overhang o (m + span)).
Proof. exists oEx, 12, 0. repeat (split; [vm_compute; intuition congruence|]). vm_compute. congruence. Qed.
Print Assumptions C55_text_cost_refuted.

(** ** C56: printing a layout *)

(** The events are those of the reference printer. *)
Theorem C56_format_events : forall l, Forall elem_ok l -> exists fuel0, forall fuel, (fuel0 <= fuel)%nat ->
  format_events fuel l = Ok (fst (print_list l 0 0)).
Proof.
  intros l H. exists (list_size l + 1)%nat. intros fuel Hf.
  replace fuel with (list_size l + S (fuel - list_size l - 1))%nat by lia. apply format_ok. exact H.
Qed.
Print Assumptions C56_format_events.

(** The column the printer believes in is the column the events reach. *)
Theorem C56_columns : forall l mar col, col_after col (fst (print_list l mar col)) = snd (print_list l mar col).
Proof. exact print_list_col. Qed.
Print Assumptions C56_columns.

(** Every text and line break of the layout is printed once, in order. *)
Theorem C56_all_text_in_order : forall l fuel ev, Forall elem_ok l -> format_events fuel l = Ok ev ->
  flat_map ev_words ev = flat_map tok_words (toks l).
Proof.
  intros l fuel ev Hok H.
  assert (Hmono : forall f stack ms h ev, format_loop f stack ms h = Ok ev -> forall g, (f <= g)%nat -> format_loop g stack ms h = Ok ev).
  { clear. induction f as [|f IH]; intros stack ms h ev H g Hg; [discriminate|].
    destruct g as [|g]; [lia|]. cbn [format_loop] in *. destruct stack as [|[|e es] stack]; [exact H| |].
    - destruct ms; [exact H|]. apply IH; [exact H|lia].
    - destruct ms as [|mar ms]; [exact H|]. cbv zeta in *.
      destruct e as [strs| |n|l].
      + destruct (string_events strs (Z.max h mar)) as [ev1 h1]. apply omap_ok in H. destruct H as (a & H & ->).
        rewrite (IH _ _ _ _ H g ltac:(lia)). reflexivity.
      + destruct (newline_events mar 0) as [ev1 h1]. apply omap_ok in H. destruct H as (a & H & ->).
        rewrite (IH _ _ _ _ H g ltac:(lia)). reflexivity.
      + destruct (newline_events mar n) as [ev1 h1]. apply omap_ok in H. destruct H as (a & H & ->).
        rewrite (IH _ _ _ _ H g ltac:(lia)). reflexivity.
      + apply IH; [exact H|lia]. }
  destruct (C56_format_events l Hok) as [f0 Hf0].
  pose proof (Hmono _ _ _ _ _ H (Nat.max fuel f0) (Nat.le_max_l _ _)) as A.
  unfold format_events in Hf0. rewrite (Hf0 (Nat.max fuel f0) (Nat.le_max_r _ _)) in A.
  injection A as <-. apply print_list_tok.
Qed.
Print Assumptions C56_all_text_in_order.

Definition lEx : list elem :=
  [EPrint [EString [mkStr (TextId 0) 4]]; EPrint [EString [mkStr (TextId 1) 2]; ENewline; EString [mkStr (TextId 2) 3]]; ENewline; EString [mkStr (TextId 3) 1]].
Example C56_format_ex : Forall elem_ok lEx /\
  format_events 30 lEx = Ok [EvText 0 4; EvText 1 2; EvNewline; EvSpaces 4; EvText 2 3; EvNewline; EvText 3 1].
Proof.
  split; [|reflexivity]. unfold lEx. repeat constructor; cbn; lia.
Qed.

(** ** C57: a block prints as one of its readings *)

Theorem C57_block_reading_partial : forall fuel o b ls, solid b -> to_layouts fuel o b = Ok ls ->
  ls <> [] /\ forall l, In l ls -> reads b (toks l).
Proof. exact to_layouts_read. Qed.
Print Assumptions C57_block_reading_partial.

Definition bEx : block :=
  BLine [BText [mkStr (TextId 0) 4];
         BChoice [BStack 1 [BText [mkStr (TextId 1) 3]; BText [mkStr (TextId 2) 3]];
                  BLine [BText [mkStr (TextId 1) 3]; BText [mkStr (TextId 2) 3]]]].
Example C57_block_ex : solid bEx /\ exists ls, to_layouts 50 oEx bEx = Ok ls /\
  map (fun l => flat_map tok_words (toks l)) ls =
  [[Some 0; Some 1; Some 2]; [Some 0; Some 1; None; Some 2]; [Some 0; Some 1; None; Some 2]; [Some 0; Some 1; Some 2]]%nat.
Proof.
  split; [cbn; intuition congruence|]. eexists. split; [vm_compute; reflexivity|]. reflexivity.
Qed.

(** An Empty block inside a line drops everything right of it. *)
Theorem C57_block_reading_refuted : exists o b ls, options_ok o /\
  b = BLine [BText [mkStr (TextId 0) 4]; BEmpty; BText [mkStr (TextId 1) 3]] /\
  to_layouts 20 o b = Ok ls /\ forall l, In l ls -> flat_map tok_words (toks l) = [Some 0%nat].
Proof.
  exists oEx. eexists. eexists. split; [vm_compute; intuition congruence|]. split; [reflexivity|].
  split; [vm_compute; reflexivity|]. intros l [<-|[<-|[]]]; reflexivity.
Qed.
Print Assumptions C57_block_reading_refuted.
