From Coq Require Import ZArith List Bool Lia Sorting.Sorted.
From Verif Require Import Base LayoutModel LayoutSpec LayoutProofs LayoutSums LayoutLine LayoutBlocks.
Import ListNotations.
Local Open Scope Z_scope.

(** ** A line of texts *)

Lemma plus_const_0 : forall L (s : list (piece L)), plus_const s 0 = s.
Proof.
  intros L s. unfold plus_const. rewrite <- (map_id s) at 2. apply map_ext. intros [k w i g l]. cbn. rewrite Z.add_0_r. reflexivity.
Qed.

Lemma strs_len_nonneg : forall strs, widths_ok strs -> 0 <= strs_len strs.
Proof.
  intros strs H. unfold strs_len. apply zsum_nonneg. intros x Hx. apply in_map_iff in Hx. destruct Hx as (y & <- & Hy).
  unfold widths_ok in H. rewrite Forall_forall in H. auto.
Qed.

Definition textlike (o : options) (W : Z) (r : list (piece (list elem))) : Prop :=
  proper r /\ pays o r /\ small r /\
  forall m, 0 <= m -> cost r m = Some (overhang o (m + W)) /\ span_at r m = Some W.

Lemma in_piece_at_knot : forall L (s : list (piece L)) x, StronglySorted Z.lt (map (@pknot L) s) -> In x s -> piece_at s (pknot x) = Some x.
Proof.
  intros L s x Hs Hx. apply in_split in Hx. destruct Hx as (s1 & s2 & ->). destruct (sorted_split _ _ _ Hs) as (A & B & _).
  apply piece_at_split; [intros y Hy; specialize (A y Hy); lia|lia|exact B].
Qed.

Lemma text_textlike : forall o W l, options_ok o -> right_margin o <= 2 ^ 28 -> 0 <= W <= right_margin o ->
  textlike o W (text_solution o W l).
Proof.
  intros o W l Ho Hr HW. split; [apply text_proper; [exact Ho|unfold infty; lia|lia]|].
  split; [apply text_pays; [exact Ho|lia]|]. split; [apply text_small; [exact Ho|lia|lia]|].
  intros m Hm. destruct Ho as (O1 & O2 & O3 & O4).
  destruct (text_pieces o W l m ltac:(lia) ltac:(lia) Hm) as (p & A & B & C & D & E).
  destruct (piece_cost _ _ _ A) as (X1 & X2 & X3). rewrite X1, X2, D, B. rewrite Z.max_l by lia. split; [f_equal; lia|reflexivity].
Qed.

Lemma line_go : forall o tss, options_ok o -> right_margin o <= 2 ^ 28 -> Forall widths_ok tss ->
  Forall (fun t => strs_len t <= right_margin o) tss -> tss <> [] -> zsum (map strs_len tss) <= 2 ^ 28 ->
  forall fuel, (Z.to_nat (2 ^ 28) < fuel)%nat -> exists r,
  (fix go (l : list block) : outcome (option (list (piece (list elem)))) :=
                match l with
                | [] => Ok None
                | e :: l' => obind (go l') (fun r => opt_layout fuel o e r)
                end) (map BText tss) = Ok (Some r) /\ textlike o (zsum (map strs_len tss)) r.
Proof.
  intros o tss Ho Hr Hw Hl Hne Hsum fuel Hf. induction tss as [|t tss IH]; [congruence|].
  inversion Hw as [|? ? Hw1 Hw2]; subst. inversion Hl as [|? ? Hl1 Hl2]; subst.
  pose proof (strs_len_nonneg t Hw1) as H0. cbn [map] in *. rewrite zsum_cons in *.
  pose proof (text_textlike o (strs_len t) [EString t] Ho Hr ltac:(lia)) as HT.
  destruct tss as [|t2 tss].
  - exists (text_solution o (strs_len t) [EString t]). cbn [map zsum fold_left]. split; [reflexivity|].
    rewrite Z.add_0_r. exact HT.
  - assert (Hs2 : 0 <= zsum (map strs_len (t2 :: tss))).
    { apply zsum_nonneg. intros x Hx. apply in_map_iff in Hx. destruct Hx as (y & <- & Hy). apply strs_len_nonneg.
      rewrite Forall_forall in Hw2. auto. }
    destruct (IH Hw2 Hl2 ltac:(discriminate) ltac:(lia)) as (r & E & (R1 & R2 & R3 & R4)).
    destruct HT as (T1 & T2 & T3 & T4).
    destruct (plus_ok o join_line (text_solution o (strs_len t) [EString t]) r Ho T1 R1 (text_aligned o _ _ Ho) R2 T3 R3 fuel Hf)
      as (r' & A & B & C & D).
    exists r'. split.
    + change (map BText (t2 :: tss)) with (BText t2 :: map BText tss) in E. cbn [map]. rewrite E. cbn [obind opt_layout with_rest]. rewrite A. reflexivity.
    + assert (F : forall m, 0 <= m -> cost r' m = Some (overhang o (m + (strs_len t + zsum (map strs_len (t2 :: tss))))) /\
                      span_at r' m = Some (strs_len t + zsum (map strs_len (t2 :: tss)))).
      { intros m Hm. destruct (D m Hm) as (c & w & g & D1 & D2 & D3 & (c1 & w1 & g1 & c2 & w2 & g2 & X1 & X2 & X3 & Y1 & Y2 & Y3 & -> & -> & ->)).
        destruct (T4 m Hm) as [U1 U2]. rewrite U1 in X1. injection X1 as <-. rewrite U2 in X2. injection X2 as <-.
        destruct (R4 (m + strs_len t) ltac:(lia)) as [V1 V2]. rewrite V1 in Y1. injection Y1 as <-. rewrite V2 in Y2. injection Y2 as <-.
        rewrite D1, D2. split; [|reflexivity]. f_equal. rewrite Z.add_assoc. cbn [map]. lia. }
      split; [exact B|]. split; [|split; [|exact F]].
      * apply (beside_pays o (text_solution o (strs_len t) [EString t]) r r' T2 R2).
        -- intros m w Hm Hw'. destruct (T4 m Hm) as [_ U]. rewrite U in Hw'. injection Hw' as <-. exact H0.
        -- exact D.
      * unfold small. rewrite Forall_forall. intros x Hx. split; [apply C; exact Hx|].
        assert (Hk : piece_at r' (pknot x) = Some x) by (apply in_piece_at_knot; [apply B|exact Hx]).
        destruct (fields_in r' x B Hx) as [_ Hk0].
        destruct (F (pknot x) Hk0) as [_ F2]. unfold span_at in F2. rewrite Hk in F2. injection F2 as F2. cbn [map] in *. lia.
Qed.

Lemma line_of_texts : forall o tss, options_ok o -> right_margin o <= 2 ^ 28 -> Forall widths_ok tss ->
  Forall (fun t => strs_len t <= right_margin o) tss -> tss <> [] -> zsum (map strs_len tss) <= 2 ^ 28 ->
  exists fuel r, opt_layout fuel o (BLine (map BText tss)) None = Ok (Some r) /\ proper r /\
    forall m, 0 <= m -> cost r m = Some (overhang o (m + zsum (map strs_len tss))) /\ span_at r m = Some (zsum (map strs_len tss)).
Proof.
  intros o tss Ho Hr Hw Hl Hne Hsum. set (fuel := S (Z.to_nat (2 ^ 28))). exists fuel.
  destruct (line_go o tss Ho Hr Hw Hl Hne Hsum fuel (Nat.lt_succ_diag_r _)) as (r & E & (A & B & C & D)).
  exists r. split; [|auto]. destruct tss as [|t tss]; [congruence|].
  transitivity (obind (Ok (Some r)) (fun ln =>
      omap (fun s => Some (plus_const s 0))
        (vsum_solution fuel get_stacked (match ln with Some s => [s] | None => [] end)))); [rewrite <- E; reflexivity|].
  cbn [obind vsum_solution omap]. rewrite plus_const_0. reflexivity.
Qed.

(** ** A stack of texts *)

Lemma plus_const_at : forall L (s : list (piece L)) v m,
  cost (plus_const s v) m = option_map (Z.add v) (cost s m) /\ span_at (plus_const s v) m = span_at s m.
Proof.
  intros L s v m. unfold cost, span_at.
  assert (E : piece_at (plus_const s v) m = option_map (fun p => mkP (pknot p) (pspan p) (pint p + v) (pgrad p) (plyt p)) (piece_at s m)).
  { unfold piece_at, plus_const.
    assert (F : filter (fun p => pknot p <=? m) (map (fun p : piece L => mkP (pknot p) (pspan p) (pint p + v) (pgrad p) (plyt p)) s) =
                map (fun p => mkP (pknot p) (pspan p) (pint p + v) (pgrad p) (plyt p)) (filter (fun p => pknot p <=? m) s)).
    { induction s as [|p s IH]; [reflexivity|]. cbn [map filter pknot]. rewrite IH. destruct (pknot p <=? m); reflexivity. }
    rewrite F. generalize (filter (fun p => pknot p <=? m) s) as l. intros l. induction l as [|p [|q l] IH]; [reflexivity|reflexivity|exact IH]. }
  rewrite E. destruct (piece_at s m) as [p|]; cbn; [|auto]. split; [f_equal; lia|reflexivity].
Qed.

Lemma stack_go : forall fuel o tss, (fix go (l : list block) : outcome (list (list (piece layout))) :=
                match l with
                | [] => Ok []
                | e :: l' =>
                    obind (opt_layout fuel o e (match l' with [] => None | _ => None end)) (fun r =>
                    omap (fun rs => match r with Some s => s :: rs | None => rs end) (go l'))
                end) (map BText tss) = Ok (map (fun t => text_solution o (strs_len t) [EString t]) tss).
Proof.
  intros fuel o tss. induction tss as [|t tss IH]; [reflexivity|]. cbn [map]. rewrite IH. destruct (map BText tss); reflexivity.
Qed.

Lemma stack_of_texts : forall o k tss, options_ok o -> right_margin o <= 4096 -> Forall widths_ok tss ->
  Forall (fun t => strs_len t <= right_margin o) tss -> tss <> [] ->
  exists fuel r, opt_layout fuel o (BStack k (map BText tss)) None = Ok (Some r) /\
    forall m, 0 <= m ->
      cost r m = Some (linebreak_cost o * k * (Z.of_nat (length tss) - 1) + zsum (map (fun t => overhang o (m + strs_len t)) tss)) /\
      span_at r m = Some (strs_len (last tss [])).
Proof.
  intros o k tss Ho Hr Hw Hl Hne. exists (S 4096).
  assert (HT : forall t, In t tss -> textlike o (strs_len t) (text_solution o (strs_len t) [EString t])).
  { intros t Ht. rewrite Forall_forall in Hw, Hl. apply text_textlike; [exact Ho|lia|]. specialize (Hl t Ht).
    pose proof (strs_len_nonneg t (Hw t Ht)). lia. }
  destruct (vsum_solution_ok get_stacked (map (fun t => text_solution o (strs_len t) [EString t]) tss)) with (fuel := S 4096) as (r & A & B & C).
  - destruct tss; [congruence|discriminate].
  - apply Forall_forall. intros s Hs. apply in_map_iff in Hs. destruct Hs as (t & <- & Ht). apply (HT t Ht).
  - intros s p Hs Hp. apply in_map_iff in Hs. destruct Hs as (t & <- & Ht). destruct Ho as (O1 & O2 & O3 & O4).
    rewrite Forall_forall in Hw. pose proof (strs_len_nonneg t (Hw t Ht)) as H0.
    unfold text_solution in Hp. destruct (right_margin o <=? strs_len t); [|destruct (left_margin o <=? strs_len t)];
      cbn in Hp; intuition subst; cbn; lia.
  - lia.
  - exists (plus_const r (linebreak_cost o * k * Z.max 0 (Z.of_nat (length (map BText tss)) - 1))). split.
    + destruct tss as [|t tss]; [congruence|].
      transitivity (obind (Ok (map (fun t => text_solution o (strs_len t) [EString t]) (t :: tss))) (fun ss =>
        obind (vsum_solution (S 4096) get_stacked ss) (fun s =>
        match s with
        | [] => Ok None
        | _ => Ok (Some (plus_const s (linebreak_cost o * k * Z.max 0 (Z.of_nat (length (map BText (t :: tss))) - 1))))
        end))); [rewrite <- (stack_go (S 4096) o (t :: tss)); reflexivity|].
      cbn [obind]. rewrite A. cbn [obind]. destruct r; [|reflexivity]. destruct B as ((p & s' & X & _) & _). discriminate.
    + intros m Hm. destruct (C m Hm) as (C1 & _ & C3 & _). destruct (plus_const_at _ r (linebreak_cost o * k * Z.max 0 (Z.of_nat (length (map BText tss)) - 1)) m) as [P1 P2].
      rewrite P1, P2, C1, C3. rewrite map_length. rewrite Z.max_r by (destruct tss; [congruence|cbn [length]; lia]).
      split.
      * rewrite map_map. assert (S1 : osum (map (fun t => cost (text_solution o (strs_len t) [EString t]) m) tss) =
                                Some (zsum (map (fun t => overhang o (m + strs_len t)) tss))).
        { clear - HT Hm. induction tss as [|t tss IH]; [reflexivity|]. cbn [map osum]. destruct (HT t (or_introl eq_refl)) as (_ & _ & _ & X).
          destruct (X m Hm) as [-> _]. rewrite IH by (intros; apply HT; now right). cbn [option_map]. now rewrite zsum_cons. }
        rewrite S1. cbn [option_map]. reflexivity.
      * assert (E : last (map (fun t => text_solution o (strs_len t) [EString t]) tss) [] =
                    text_solution o (strs_len (last tss [])) [EString (last tss [])]).
        { clear - Hne. induction tss as [|t [|t2 tss] IH]; [congruence|reflexivity|]. apply IH. discriminate. }
        assert (Hin : In (last tss []) tss).
        { clear - Hne. induction tss as [|t [|t2 tss] IH]; [congruence|now left|]. right. apply IH. discriminate. }
        rewrite E. destruct (HT _ Hin) as (_ & _ & _ & X). apply (X m Hm).
Qed.

(** ** Printing *)

Lemma elem_ind' : forall P : elem -> Prop,
  (forall strs, P (EString strs)) -> P ENewline -> (forall n, P (ENewlineSpace n)) ->
  (forall l, Forall P l -> P (EPrint l)) -> forall e, P e.
Proof.
  intros P H1 H2 H3 H4. fix IH 1. intros [strs| |n|l]; [apply H1|exact H2|apply H3|apply H4].
  induction l as [|e l IHl]; constructor; [apply IH|exact IHl].
Qed.

Fixpoint elem_size (e : elem) : nat :=
  match e with
  | EPrint l => S ((fix go (l : list elem) : nat := match l with [] => 1%nat | e :: l' => (elem_size e + go l')%nat end) l)
  | _ => 1%nat
  end.
Fixpoint list_size (l : list elem) : nat := match l with [] => 1%nat | e :: l' => (elem_size e + list_size l')%nat end.
Lemma size_print : forall l, elem_size (EPrint l) = S (list_size l).
Proof. reflexivity. Qed.
Lemma print_print : forall l mar col, print_elem (EPrint l) mar col = print_list l col col.
Proof.
  intros l mar col. cbn [print_elem].
  assert (H : forall c, (fix go (l : list elem) (c : Z) : list event * Z :=
         match l with
         | [] => ([], c)
         | e' :: l' =>
             let '(ev, c1) := print_elem e' col c in
             let '(ev', c2) := go l' c1 in (ev ++ ev', c2)
         end) l c = print_list l col c); [|apply H].
  induction l as [|e l IH]; intros c; [reflexivity|]. cbn [print_list]. destruct (print_elem e col c) as [ev c1].
  rewrite IH. reflexivity.
Qed.
Lemma ok_print : forall l, elem_ok (EPrint l) <-> Forall elem_ok l.
Proof.
  intros l. cbn [elem_ok]. induction l as [|e l IH]; [split; auto; constructor|].
  split.
  - intros [A B]. constructor; [exact A|apply IH; exact B].
  - intros H. inversion H; subst. split; [assumption|apply IH; assumption].
Qed.

Lemma string_events_spec : forall strs h, string_events strs h = print_strs strs h.
Proof.
  induction strs as [|x strs IH]; intros h; [reflexivity|]. cbn [string_events print_strs].
  destruct (lid x).
  - rewrite Z.add_0_r. rewrite IH. destruct (print_strs strs h). reflexivity.
  - rewrite IH. destruct (print_strs strs (h + llen x)). reflexivity.
  - rewrite IH. destruct (print_strs strs (h + llen x)). reflexivity.
Qed.

Lemma print_strs_ge : forall strs h, widths_ok strs -> h <= snd (print_strs strs h).
Proof.
  induction strs as [|x strs IH]; intros h H; [reflexivity|]. inversion H as [|? ? H1 H2]; subst. cbn [print_strs].
  specialize (IH (h + match lid x with NilId => 0 | _ => llen x end) H2).
  destruct (print_strs strs _) as [ev c]. cbn [snd] in *. destruct (lid x); lia.
Qed.

Lemma omap_app : forall (a b : list event) x, omap (app a) (omap (app b) x) = omap (app (a ++ b)) x.
Proof. intros a b [l| | |]; try reflexivity. cbn. f_equal. apply app_assoc. Qed.
Lemma omap_app_nil : forall (x : outcome (list event)), omap (app []) x = x.
Proof. intros [l| | |]; reflexivity. Qed.

Definition Pe (e : elem) : Prop := elem_ok e -> forall f es stack mar ms h, mar <= h ->
  format_loop (elem_size e + f) ((e :: es) :: stack) (mar :: ms) h =
    omap (app (fst (print_elem e mar h))) (format_loop f (es :: stack) (mar :: ms) (snd (print_elem e mar h))) /\
  mar <= snd (print_elem e mar h).

Lemma list_loop : forall l, Forall Pe l -> Forall elem_ok l -> forall f stack mar ms h, mar <= h ->
  format_loop (list_size l + f) (l :: stack) (mar :: ms) h =
    omap (app (fst (print_list l mar h))) (format_loop f stack ms (snd (print_list l mar h))) /\
  mar <= snd (print_list l mar h).
Proof.
  induction l as [|e l IH]; intros HP Ho f stack mar ms h Hm.
  - cbn [list_size print_list fst snd]. rewrite omap_app_nil. split; [reflexivity|exact Hm].
  - inversion HP as [|? ? HP1 HP2]; subst. inversion Ho as [|? ? Ho1 Ho2]; subst. cbn [list_size print_list].
    rewrite <- Nat.add_assoc. destruct (HP1 Ho1 (list_size l + f)%nat l stack mar ms h Hm) as [A B]. rewrite A.
    destruct (print_elem e mar h) as [ev c1]. cbn [fst snd] in *.
    destruct (IH HP2 Ho2 f stack mar ms c1 B) as [C D]. rewrite C. destruct (print_list l mar c1) as [ev' c2].
    cbn [fst snd] in *. rewrite omap_app. auto.
Qed.

Lemma elem_loop : forall e, Pe e.
Proof.
  apply elem_ind'.
  - intros strs Ho f es stack mar ms h Hm. cbn [elem_ok] in Ho. cbn [elem_size Nat.add format_loop print_elem].
    rewrite Z.max_l by lia. rewrite string_events_spec. pose proof (print_strs_ge strs h Ho).
    destruct (print_strs strs h) as [ev c]. cbn [fst snd] in *. split; [reflexivity|lia].
  - intros Ho f es stack mar ms h Hm. cbn [elem_size Nat.add format_loop print_elem]. unfold newline_events, spaces. cbn [fst snd].
    change (0 =? 0) with true. cbn iota. rewrite app_nil_r, Z.add_0_r. split; [reflexivity|lia].
  - intros n Ho f es stack mar ms h Hm. cbn [elem_ok] in Ho. cbn [elem_size Nat.add format_loop print_elem].
    unfold newline_events, spaces. cbn [fst snd]. split; [reflexivity|lia].
  - intros l HP Ho f es stack mar ms h Hm. apply ok_print in Ho. rewrite size_print. cbn [Nat.add format_loop].
    rewrite Z.max_l by lia. rewrite print_print. destruct (list_loop l HP Ho f (es :: stack) h (mar :: ms) h (Z.le_refl h)) as [A B].
    split; [exact A|lia].
Qed.

Lemma format_ok : forall l, Forall elem_ok l -> forall f, format_events (list_size l + S f) l = Ok (fst (print_list l 0 0)).
Proof.
  intros l Ho f. unfold format_events.
  destruct (list_loop l (proj2 (Forall_forall Pe l) (fun e _ => elem_loop e)) Ho (S f) [] 0 [] 0 (Z.le_refl 0)) as [A _].
  rewrite A. cbn [format_loop]. unfold omap. cbn [obind]. rewrite app_nil_r. reflexivity.
Qed.

Lemma col_after_app : forall a b c, col_after c (a ++ b) = col_after (col_after c a) b.
Proof. intros. unfold col_after. apply fold_left_app. Qed.

Lemma print_strs_col : forall strs h, col_after h (fst (print_strs strs h)) = snd (print_strs strs h).
Proof.
  induction strs as [|x strs IH]; intros h; [reflexivity|]. cbn [print_strs].
  specialize (IH (h + match lid x with NilId => 0 | _ => llen x end)).
  destruct (print_strs strs _) as [ev c]. cbn [fst snd] in *. rewrite col_after_app.
  destruct (lid x); cbn [col_after fold_left].
  - rewrite Z.add_0_r in IH. exact IH.
  - destruct (Z.eqb_spec (llen x) 0) as [E|E]; cbn [col_after fold_left]; [rewrite E, Z.add_0_r in IH; exact IH|exact IH].
  - exact IH.
Qed.

Lemma spaces_col : forall c n, col_after c (spaces n) = c + n.
Proof. intros c n. unfold spaces. destruct (Z.eqb_spec n 0); cbn; lia. Qed.

Lemma print_elem_col : forall e mar col, col_after col (fst (print_elem e mar col)) = snd (print_elem e mar col).
Proof.
  apply (elem_ind' (fun e => forall mar col, col_after col (fst (print_elem e mar col)) = snd (print_elem e mar col))).
  - intros strs mar col. apply print_strs_col.
  - intros mar col. cbn [print_elem fst snd]. change (col_after col (EvNewline :: spaces mar)) with (col_after 0 (spaces mar)).
    rewrite spaces_col. lia.
  - intros n mar col. cbn [print_elem fst snd].
    change (col_after col (EvNewline :: spaces mar ++ spaces n)) with (col_after 0 (spaces mar ++ spaces n)).
    rewrite col_after_app, !spaces_col. lia.
  - intros l HP mar col. rewrite print_print. generalize col at 1 3 5 as c.
    induction HP as [|e l H HP IH]; intros c; [reflexivity|]. cbn [print_list]. specialize (H col c).
    destruct (print_elem e col c) as [ev c1]. cbn [fst snd] in H. specialize (IH c1).
    destruct (print_list l col c1) as [ev' c2]. cbn [fst snd] in *. rewrite col_after_app, H. exact IH.
Qed.

Lemma print_list_col : forall l mar col, col_after col (fst (print_list l mar col)) = snd (print_list l mar col).
Proof.
  induction l as [|e l IH]; intros mar col; [reflexivity|]. cbn [print_list]. pose proof (print_elem_col e mar col) as H.
  destruct (print_elem e mar col) as [ev c1]. cbn [fst snd] in H. specialize (IH mar c1).
  destruct (print_list l mar c1) as [ev' c2]. cbn [fst snd] in *. rewrite col_after_app, H. exact IH.
Qed.

Lemma spaces_tok : forall n, flat_map ev_words (spaces n) = [].
Proof. intros n. unfold spaces. destruct (n =? 0); reflexivity. Qed.

Lemma print_strs_tok : forall strs h, flat_map ev_words (fst (print_strs strs h)) = flat_map tok_words (map TStr strs).
Proof.
  induction strs as [|x strs IH]; intros h; [reflexivity|]. cbn [print_strs map flat_map].
  specialize (IH (h + match lid x with NilId => 0 | _ => llen x end)).
  destruct (print_strs strs _) as [ev c]. cbn [fst] in *. rewrite flat_map_app, IH. f_equal.
  cbn [tok_words]. destruct (lid x); [reflexivity| |reflexivity]. destruct (llen x =? 0); reflexivity.
Qed.

Lemma print_elem_tok : forall e mar col, flat_map ev_words (fst (print_elem e mar col)) = flat_map tok_words (toks_of e).
Proof.
  apply (elem_ind' (fun e => forall mar col, flat_map ev_words (fst (print_elem e mar col)) = flat_map tok_words (toks_of e))).
  - intros strs mar col. apply print_strs_tok.
  - intros mar col. cbn [print_elem fst toks_of flat_map ev_words tok_words]. rewrite spaces_tok. reflexivity.
  - intros n mar col. cbn [print_elem fst toks_of flat_map ev_words tok_words lid app]. rewrite flat_map_app, !spaces_tok. reflexivity.
  - intros l HP mar col. rewrite print_print. cbn [toks_of]. generalize col at 2 as c.
    induction HP as [|e l H HP IH]; intros c; [reflexivity|]. cbn [print_list flat_map]. specialize (H col c).
    destruct (print_elem e col c) as [ev c1]. cbn [fst] in H. specialize (IH c1).
    destruct (print_list l col c1) as [ev' c2]. cbn [fst] in *. rewrite !flat_map_app, H, IH. reflexivity.
Qed.

Lemma print_list_tok : forall l mar col, flat_map ev_words (fst (print_list l mar col)) = flat_map tok_words (toks l).
Proof.
  induction l as [|e l IH]; intros mar col; [reflexivity|]. cbn [print_list]. pose proof (print_elem_tok e mar col) as H.
  destruct (print_elem e mar col) as [ev c1]. cbn [fst] in H. specialize (IH mar c1).
  destruct (print_list l mar c1) as [ev' c2]. cbn [fst] in *. unfold toks in *. cbn [flat_map]. rewrite !flat_map_app, H, IH. reflexivity.
Qed.
