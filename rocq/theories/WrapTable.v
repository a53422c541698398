(** Proofs about tables of text. *)
From Verif Require Import Base StrModel WrapModel WrapSpec.
Local Open Scope Z_scope.

(** * Lines *)

Lemma getline_lines : forall s cur, (cur <> [] \/ s <> []) ->
  lines_from cur s = (cur ++ fst (getline_aux 10 s)) :: lines_from [] (snd (getline_aux 10 s)).
Proof.
  induction s as [|c s IH]; intros cur H.
  - cbn. destruct cur; [destruct H; contradiction|]. now rewrite app_nil_r.
  - cbn [lines_from getline_aux]. destruct (c =? 10).
    + cbn. now rewrite app_nil_r.
    + rewrite IH by (left; now destruct cur). destruct (getline_aux 10 s) as [t r]. cbn [fst snd].
      now rewrite <- app_assoc.
Qed.

Lemma getline_shorter : forall s, s <> [] -> (length (snd (getline_aux 10 s)) < length s)%nat.
Proof.
  induction s as [|c s IH]; intros H; [contradiction|]. cbn [getline_aux].
  destruct (c =? 10); [cbn; lia|]. destruct s as [|d s]; [cbn; lia|].
  specialize (IH ltac:(discriminate)). destruct (getline_aux 10 (d :: s)) as [t r]. cbn [snd length] in *. lia.
Qed.

Lemma split_loop_lines : forall fuel s ts, (length s < fuel)%nat -> split_char_loop fuel s 10 ts = Ok (ts ++ lines_of s).
Proof.
  induction fuel as [|f IH]; intros s ts H; [lia|]. cbn [split_char_loop]. unfold getline.
  destruct s as [|c s]; [cbn; now rewrite app_nil_r|].
  pose proof (getline_shorter (c :: s) ltac:(discriminate)) as L.
  pose proof (getline_lines (c :: s) [] ltac:(right; discriminate)) as E.
  destruct (getline_aux 10 (c :: s)) as [t r]. cbn [fst snd] in *.
  rewrite IH by (cbn [length] in *; lia). unfold lines_of. rewrite E. now rewrite <- app_assoc.
Qed.

Lemma split_lines : forall s, split_char s 10 = Ok (lines_of s).
Proof. intros s. unfold split_char. rewrite split_loop_lines by lia. reflexivity. Qed.

Lemma lines_one : forall l cur s, ~ In 10 l -> lines_from cur (l ++ 10 :: s) = (cur ++ l) :: lines_from [] s.
Proof.
  induction l as [|c l IH]; intros cur s H.
  - cbn. now rewrite app_nil_r.
  - cbn [app lines_from]. replace (c =? 10) with false by (symmetry; apply Z.eqb_neq; intros ->; apply H; now left).
    rewrite IH by (intro; apply H; now right). now rewrite <- app_assoc.
Qed.

Definition ended (ls : list str) : str := flat_map (fun l => l ++ [10]) ls.

Lemma lines_ended : forall ls, Forall (fun l => ~ In 10 l) ls -> lines_of (ended ls) = ls.
Proof.
  unfold lines_of. induction ls as [|l ls IH]; intros H; [reflexivity|].
  inversion H as [|? ? H1 H2]; subst. cbn [ended flat_map]. rewrite <- app_assoc. cbn [app].
  rewrite lines_one by exact H1. cbn [app]. now rewrite <- (IH H2) at 2.
Qed.

Lemma lines_no_newline : forall s cur, ~ In 10 cur -> Forall (fun l => ~ In 10 l) (lines_from cur s).
Proof.
  induction s as [|c s IH]; intros cur H; cbn [lines_from].
  - destruct cur; constructor; [exact H|constructor].
  - destruct (c =? 10) eqn:E.
    + constructor; [exact H|]. apply IH. intros [].
    + apply IH. intros X. apply in_app_or in X. destruct X as [X|[X|[]]]; [contradiction|]. lia.
Qed.

(** * Cells *)

Fixpoint cells (n : nat) (row : list str) : list (list str) :=
  match n with
  | O => []
  | S n' => match row with [] => [[]] :: cells n' [] | c :: row' => lines_of c :: cells n' row' end
  end.

Lemma cell_lines_ok : forall n row, cell_lines n row = Ok (cells n row).
Proof.
  induction n as [|n IH]; intros row; [reflexivity|]. destruct row as [|c row]; cbn [cell_lines cells].
  - now rewrite IH.
  - rewrite split_lines. cbn [obind]. now rewrite IH.
Qed.

Lemma cells_length : forall n row, length (cells n row) = n.
Proof. induction n as [|n IH]; intros row; [reflexivity|]. destruct row; cbn; now rewrite IH. Qed.

Lemma cells_nth : forall n row c k, (c < n)%nat -> nth k (nth c (cells n row) []) [] = nth k (lines_of (cell row c)) [].
Proof.
  induction n as [|n IH]; intros row c k H; [lia|].
  destruct row as [|t row]; destruct c as [|c]; cbn [cells nth].
  - unfold cell. cbn. destruct k as [|[|k]]; reflexivity.
  - rewrite IH by lia. unfold cell. now destruct c.
  - reflexivity.
  - rewrite IH by lia. reflexivity.
Qed.

(** * Columns *)

Lemma columns_fold : forall rows n, fold_left (fun n row => Nat.max n (length row)) rows n = Nat.max n (columns rows).
Proof.
  induction rows as [|row rows IH]; intros n; cbn [fold_left columns fold_right]; [lia|].
  rewrite IH. fold (columns rows). lia.
Qed.
Lemma col_count_ok : forall rows, col_count rows = columns rows.
Proof. intros rows. unfold col_count. rewrite columns_fold. lia. Qed.

Lemma columns_in : forall rows row, In row rows -> (length row <= columns rows)%nat.
Proof.
  induction rows as [|r rows IH]; intros row []; cbn [columns fold_right]; fold (columns rows).
  - subst. lia.
  - specialize (IH _ H). lia.
Qed.

Lemma longest_fold : forall ls w, fold_left (fun w l => Nat.max w (length l)) ls w = Nat.max w (longest ls).
Proof.
  induction ls as [|l ls IH]; intros w; cbn [fold_left longest fold_right]; [lia|].
  rewrite IH. fold (longest ls). lia.
Qed.

Definition grown (row : list str) (widths : list nat) (i : nat) : nat :=
  Nat.max (nth i widths O) (longest (lines_of (cell row i))).

Lemma widths_row_ok : forall row widths, (length row <= length widths)%nat ->
  exists ws, widths_row widths row = Ok ws /\ length ws = length widths /\ forall i, (i < length widths)%nat -> nth i ws O = grown row widths i.
Proof.
  induction row as [|c row IH]; intros widths H.
  - exists widths. split; [now destruct widths|]. split; [reflexivity|].
    intros i _. unfold grown, cell. replace (nth i [] []) with (@nil Z) by (now destruct i). cbn. lia.
  - destruct widths as [|w widths]; [cbn in H; lia|]. cbn [widths_row]. rewrite split_lines. cbn [obind].
    destruct (IH widths ltac:(cbn in H; lia)) as (ws & W1 & W2 & W3). rewrite W1. cbn [obind].
    eexists. split; [reflexivity|]. split; [cbn; now rewrite W2|].
    intros [|i] Hi; unfold grown, cell; cbn [nth].
    + rewrite longest_fold. reflexivity.
    + rewrite W3 by (cbn in Hi; lia). reflexivity.
Qed.

Lemma col_widths_ok : forall rows widths, Forall (fun row => length row <= length widths)%nat rows ->
  exists ws, col_widths widths rows = Ok ws /\ length ws = length widths
    /\ forall i, (i < length widths)%nat -> nth i ws O = Nat.max (nth i widths O) (col_width rows i).
Proof.
  induction rows as [|row rows IH]; intros widths H.
  - exists widths. split; [reflexivity|]. split; [reflexivity|]. intros i _. cbn. lia.
  - inversion H as [|? ? H1 H2]; subst. cbn [col_widths].
    destruct (widths_row_ok row widths H1) as (ws & W1 & W2 & W3). rewrite W1. cbn [obind].
    destruct (IH ws) as (ws2 & V1 & V2 & V3); [now rewrite W2|].
    exists ws2. split; [exact V1|]. split; [now rewrite V2|].
    intros i Hi. rewrite V3 by (now rewrite W2). rewrite W3 by exact Hi. unfold grown. cbn [col_width fold_right].
    fold (col_width rows i). lia.
Qed.

Lemma col_width_in : forall rows row c k, In row rows -> (length (nth k (lines_of (cell row c)) []) <= col_width rows c)%nat.
Proof.
  intros rows row c k H.
  assert (L : forall ls, (length (nth k ls []) <= longest ls)%nat).
  { clear. induction k as [|k IH]; intros [|l ls]; cbn [nth longest fold_right length]; try lia.
    specialize (IH ls). unfold longest in IH. lia. }
  induction rows as [|r rows IH]; [destruct H|]. cbn [col_width fold_right]. fold (col_width rows c).
  destruct H as [->|H]; [specialize (L (lines_of (cell row c))); lia|]. specialize (IH H). lia.
Qed.

(** * A line of a row *)

Fixpoint start (gap : nat) (ws : list nat) (c : nat) : nat :=
  match c, ws with S c', w :: ws' => (w + gap + start gap ws' c')%nat | _, _ => O end.

Definition tail_sep (n c : nat) (sep : str) : str := if (S c <? n)%nat then sep else [].

Lemma table_line_ok : forall sp ws cs k, length cs = length ws ->
  (forall c, (c < length ws)%nat -> (length (nth k (nth c cs []) []) <= nth c ws O)%nat) ->
  exists t, table_line sp ws cs k = Ok t
    /\ (length t + (if (0 <? length ws)%nat then length sp else O) = start (length sp) ws (length ws))%nat
    /\ (forall c, (c < length ws)%nat -> exists a b,
          t = a ++ nth k (nth c cs []) [] ++ repeat 32 (nth c ws O - length (nth k (nth c cs []) [])) ++ tail_sep (length ws) c sp ++ b
          /\ length a = start (length sp) ws c /\ (S c = length ws -> b = []))
    /\ (~ In 10 sp -> Forall (fun ls => Forall (fun l => ~ In 10 l) ls) cs -> ~ In 10 t).
Proof.
  intros sp. induction ws as [|w ws IH]; intros cs k Hl Hw.
  - destruct cs; [|discriminate]. exists []. split; [reflexivity|]. split; [reflexivity|]. split; [intros c H; cbn in H; lia|].
    intros _ _ [].
  - destruct cs as [|ls cs]; [discriminate|]. cbn [table_line].
    replace (if (k <? length ls)%nat then nth k ls [] else []) with (nth k ls []).
    2: { destruct (k <? length ls)%nat eqn:E; [reflexivity|]. apply nth_overflow. apply Nat.ltb_ge in E. exact E. }
    pose proof (Hw O ltac:(cbn; lia)) as H0. cbn [nth] in H0. set (l := nth k ls []) in *.
    unfold str_of. replace (Z.of_nat w - slen l <? 0) with false by (unfold slen; lia). cbn [obind].
    destruct (IH cs k ltac:(cbn in Hl; lia)) as (t & T1 & T2 & T3 & T4).
    { intros c Hc. exact (Hw (S c) ltac:(cbn; lia)). }
    rewrite T1. cbn [obind].
    replace (Z.to_nat (Z.of_nat w - slen l)) with (w - length l)%nat by (unfold slen; lia).
    eexists. split; [reflexivity|]. split; [|split].
    + rewrite !app_length, repeat_length. cbn [length start Nat.ltb Nat.leb].
      destruct ws as [|w2 ws].
      * cbn in T2 |- *. lia.
      * change (0 <? length (w2 :: ws))%nat with true in T2. cbv iota in T2. lia.
    + intros [|c] Hc.
      * cbn [nth start]. fold l. destruct ws as [|w2 ws].
        -- cbn in T1. destruct cs; [|discriminate]. injection T1 as <-.
           exists [], []. unfold tail_sep. cbn. split; [reflexivity|]. split; [reflexivity|auto].
        -- exists [], t. unfold tail_sep. cbn [length]. replace (1 <? S (S (length ws)))%nat with true by lia.
           split; [reflexivity|]. split; [reflexivity|]. intros; lia.
      * destruct (T3 c ltac:(cbn in Hc; lia)) as (a & b & A1 & A2 & A3). cbn [nth].
        destruct ws as [|w2 ws]; [cbn in Hc; lia|].
        exists (l ++ repeat 32 (w - length l) ++ sp ++ a), b.
        split; [|split].
        -- rewrite A1 at 1. replace (tail_sep (length (w :: w2 :: ws)) (S c) sp) with (tail_sep (length (w2 :: ws)) c sp)
             by reflexivity.
           now rewrite <- !app_assoc.
        -- rewrite !app_length, repeat_length. cbn [start] in *. lia.
        -- intros E. apply A3. cbn in *. lia.
    + intros Hs Hc. inversion Hc as [|? ? C1 C2]; subst.
      intros X. apply in_app_or in X. destruct X as [X|X].
      { revert X. subst l. destruct (nth_in_or_default k ls []) as [Y|Y].
        - rewrite Forall_forall in C1. apply C1. exact Y.
        - rewrite Y. intros []. }
      apply in_app_or in X. destruct X as [X|X]; [apply repeat_spec in X; lia|].
      apply in_app_or in X. destruct X as [X|X]; [destruct ws; [destruct X|contradiction]|].
      exact (T4 Hs C2 X).
Qed.

(** * A row *)

Lemma height_fold : forall cs h, fold_left (fun h ls => Nat.max h (length ls)) cs h
  = Nat.max h (fold_right (fun (ls : list str) n => Nat.max (length ls) n) O cs).
Proof. induction cs as [|ls cs IH]; intros h; cbn [fold_left fold_right]; [lia|]. rewrite IH. lia. Qed.

Lemma row_height_ok : forall n row, (length row <= n)%nat ->
  Nat.max 1 (fold_right (fun (ls : list str) n => Nat.max (length ls) n) O (cells n row)) = row_height row.
Proof.
  induction n as [|n IH]; intros row H.
  - destruct row; [reflexivity|cbn in H; lia].
  - destruct row as [|t row]; cbn [cells fold_right row_height].
    + specialize (IH [] ltac:(cbn; lia)). cbn [row_height fold_right] in IH. cbn [length]. lia.
    + specialize (IH row ltac:(cbn in H; lia)). fold (row_height row). lia.
Qed.

Lemma omapM_ok : forall (A B : Type) (f : A -> outcome B) (g : A -> B) l, (forall x, In x l -> f x = Ok (g x)) ->
  omapM f l = Ok (map g l).
Proof.
  intros A B f g l. induction l as [|x l IH]; intros H; [reflexivity|]. cbn [omapM map].
  rewrite (H x) by (now left). cbn [obind]. rewrite IH by (intros y Hy; apply H; now right). reflexivity.
Qed.

Definition text_of (o : outcome str) : str := match o with Ok t => t | _ => [] end.
Definition row_lines (sp : str) (ws : list nat) (row : list str) : list str :=
  map (fun k => text_of (table_line sp ws (cells (length ws) row) k)) (seq 0 (row_height row)).

Fixpoint all_lines (sp rsp : str) (ul : byte) (ws : list nat) (rows : list (list str)) : list str :=
  match rows with
  | [] => []
  | row :: rows' =>
      row_lines sp ws row ++ (match rsp, rows' with _ :: _, _ :: _ => [rule_line rsp ul ws] | _, _ => [] end)
      ++ all_lines sp rsp ul ws rows'
  end.

Lemma ended_app : forall a b, ended (a ++ b) = ended a ++ ended b.
Proof. intros a b. unfold ended. apply flat_map_app. Qed.

Section Rows.
Variables sp rsp : str.
Variable ul : byte.
Variable ws : list nat.
(** The widths hold every line of every cell. *)
Definition holds (row : list str) : Prop := (length row <= length ws)%nat
  /\ forall c k, (c < length ws)%nat -> (length (nth k (lines_of (cell row c)) []) <= nth c ws O)%nat.

Lemma line_ok : forall row k, holds row -> exists t, table_line sp ws (cells (length ws) row) k = Ok t
    /\ (length t + (if (0 <? length ws)%nat then length sp else O) = start (length sp) ws (length ws))%nat
    /\ (forall c, (c < length ws)%nat -> exists a b,
          t = a ++ nth k (lines_of (cell row c)) [] ++ repeat 32 (nth c ws O - length (nth k (lines_of (cell row c)) []))
              ++ tail_sep (length ws) c sp ++ b
          /\ length a = start (length sp) ws c /\ (S c = length ws -> b = []))
    /\ (~ In 10 sp -> ~ In 10 t).
Proof.
  intros row k [H1 H2].
  destruct (table_line_ok sp ws (cells (length ws) row) k) as (t & T1 & T2 & T3 & T4).
  - apply cells_length.
  - intros c Hc. rewrite cells_nth by exact Hc. apply H2; exact Hc.
  - exists t. split; [exact T1|]. split; [exact T2|]. split.
    + intros c Hc. destruct (T3 c Hc) as (a & b & A1 & A2 & A3). rewrite cells_nth in A1 by exact Hc.
      exists a, b. auto.
    + intros Hs. apply T4; [exact Hs|]. clear. generalize (length ws). intros n. revert row.
      induction n as [|n IH]; intros row; [constructor|]. destruct row as [|c row]; constructor; try apply IH.
      * constructor; [intros []|constructor].
      * apply lines_no_newline. intros [].
Qed.

Lemma row_text_ok : forall row, holds row -> row_text sp ws (cells (length ws) row) = Ok (ended (row_lines sp ws row)).
Proof.
  intros row H. unfold row_text. rewrite height_fold. rewrite row_height_ok by apply H.
  rewrite (omapM_ok _ _ _ (fun k => text_of (table_line sp ws (cells (length ws) row) k) ++ [10])).
  - cbn [obind]. f_equal. unfold ended, row_lines. rewrite flat_map_concat_map, map_map. reflexivity.
  - intros k _. destruct (line_ok row k H) as (t & T & _). rewrite T. reflexivity.
Qed.

Lemma table_rows_ok : forall rows, Forall holds rows ->
  table_rows sp rsp ul (length ws) ws rows = Ok (ended (all_lines sp rsp ul ws rows)).
Proof.
  induction rows as [|row rows IH]; intros H; [reflexivity|]. inversion H as [|? ? H1 H2]; subst.
  cbn [table_rows all_lines]. rewrite cell_lines_ok. cbn [obind]. rewrite row_text_ok by exact H1. cbn [obind].
  rewrite IH by exact H2. cbn [obind]. rewrite !ended_app. f_equal. f_equal. f_equal.
  destruct rsp, rows; cbn; rewrite ?app_nil_r; reflexivity.
Qed.

Lemma row_lines_length : forall row, length (row_lines sp ws row) = row_height row.
Proof. intros row. unfold row_lines. now rewrite map_length, seq_length. Qed.

Lemma all_lines_row : forall rows r row k, nth_error rows r = Some row -> (k < row_height row)%nat ->
  nth_error (all_lines sp rsp ul ws rows) (row_start rows (rules rsp) r + k)
  = Some (text_of (table_line sp ws (cells (length ws) row) k)).
Proof.
  induction rows as [|row0 rows IH]; intros r row k H Hk; [destruct r; discriminate|].
  destruct r as [|r]; cbn [nth_error] in H; cbn [row_start all_lines plus].
  - injection H as ->. rewrite nth_error_app1 by (rewrite row_lines_length; exact Hk).
    unfold row_lines. rewrite nth_error_map.
    rewrite (nth_error_nth' _ O) by (now rewrite seq_length). cbn [option_map]. rewrite seq_nth by exact Hk. reflexivity.
  - rewrite nth_error_app2 by (rewrite row_lines_length; lia).
    rewrite row_lines_length.
    destruct rows as [|row1 rows]; [destruct r; discriminate|].
    rewrite <- (IH r row k H Hk).
    unfold rules. destruct rsp as [|x rsp'].
    + cbn [app]. f_equal. lia.
    + rewrite nth_error_app2 by (cbn [length]; lia). f_equal. cbn [length]. lia.
Qed.

Lemma all_lines_rule : forall rows r row, nth_error rows r = Some row -> (S r < length rows)%nat -> rsp <> [] ->
  nth_error (all_lines sp rsp ul ws rows) (row_start rows (rules rsp) r + row_height row) = Some (rule_line rsp ul ws).
Proof.
  induction rows as [|row0 rows IH]; intros r row H Hr Hs; [destruct r; discriminate|].
  destruct r as [|r]; cbn [nth_error] in H; cbn [row_start all_lines plus];
    (destruct rows as [|row1 rows]; [cbn in Hr; lia|]).
  - injection H as ->. rewrite nth_error_app2 by (rewrite row_lines_length; lia).
    rewrite row_lines_length, Nat.sub_diag. destruct rsp; [contradiction|]. reflexivity.
  - rewrite nth_error_app2 by (rewrite row_lines_length; lia). rewrite row_lines_length.
    rewrite <- (IH r row H ltac:(cbn in *; lia) Hs).
    unfold rules. destruct rsp as [|x rsp']; [contradiction|].
    rewrite nth_error_app2 by (cbn [length]; lia). f_equal. cbn [length]. lia.
Qed.

Lemma all_lines_length : forall rows, rows <> [] ->
  (length (all_lines sp rsp ul ws rows) + rules rsp = row_start rows (rules rsp) (length rows))%nat.
Proof.
  induction rows as [|row rows IH]; intros H; [contradiction|].
  cbn [all_lines length row_start]. rewrite !app_length, row_lines_length.
  destruct rows as [|row1 rows].
  - unfold rules. destruct rsp; cbn; lia.
  - specialize (IH ltac:(discriminate)). unfold rules in *. destruct rsp; cbn [length] in *; lia.
Qed.

Lemma rule_no_newline : forall w, ul <> 10 -> ~ In 10 rsp -> ~ In 10 (rule_line rsp ul w).
Proof.
  intros w H1 H2. induction w as [|x w IH]; [intros []|]. cbn [rule_line]. intros X.
  apply in_app_or in X. destruct X as [X|X]; [apply repeat_spec in X; congruence|].
  apply in_app_or in X. destruct X as [X|X]; [destruct w; [destruct X|contradiction]|contradiction].
Qed.

Lemma all_no_newline : forall rows, Forall holds rows -> ~ In 10 sp -> ~ In 10 rsp -> ul <> 10 ->
  Forall (fun l => ~ In 10 l) (all_lines sp rsp ul ws rows).
Proof.
  intros rows H Hs Hr Hu. induction rows as [|row rows IH]; [constructor|]. inversion H as [|? ? H1 H2]; subst.
  cbn [all_lines]. apply Forall_app. split; [|apply Forall_app; split; [|apply IH; exact H2]].
  - unfold row_lines. apply Forall_forall. intros l Hl. apply in_map_iff in Hl. destruct Hl as (k & <- & _).
    destruct (line_ok row k H1) as (t & T & _ & _ & N). rewrite T. cbn. apply N. exact Hs.
  - pose proof (rule_no_newline ws Hu Hr) as N.
    destruct rsp; [constructor|]. destruct rows; [constructor|]. constructor; [exact N|constructor].
Qed.

End Rows.

Lemma rule_ok : forall rsp ul ws,
  (length (rule_line rsp ul ws) + (if (0 <? length ws)%nat then length rsp else O) = start (length rsp) ws (length ws))%nat
  /\ forall c, (c < length ws)%nat -> exists a b,
      rule_line rsp ul ws = a ++ repeat ul (nth c ws O) ++ tail_sep (length ws) c rsp ++ b
      /\ length a = start (length rsp) ws c /\ (S c = length ws -> b = []).
Proof.
  intros rsp ul. induction ws as [|w ws [IH1 IH2]]; [split; [reflexivity|intros c H; cbn in H; lia]|].
  split.
  - cbn [rule_line length start Nat.ltb Nat.leb]. rewrite !app_length, repeat_length.
    destruct ws as [|w2 ws].
    + cbn in *. lia.
    + change (0 <? length (w2 :: ws))%nat with true in IH1. cbv iota in IH1. lia.
  - intros [|c] Hc; cbn [rule_line nth].
    + destruct ws as [|w2 ws].
      * exists [], []. cbn. split; [reflexivity|]. split; [reflexivity|auto].
      * exists [], (rule_line rsp ul (w2 :: ws)). unfold tail_sep. cbn [length].
        replace (1 <? S (S (length ws)))%nat with true by lia. split; [reflexivity|]. split; [reflexivity|]. intros; lia.
    + destruct (IH2 c ltac:(cbn in Hc; lia)) as (a & b & A1 & A2 & A3).
      destruct ws as [|w2 ws]; [cbn in Hc; lia|].
      exists (repeat ul w ++ rsp ++ a), b. split; [|split].
      * rewrite A1 at 1. replace (tail_sep (length (w :: w2 :: ws)) (S c) rsp) with (tail_sep (length (w2 :: ws)) c rsp)
          by reflexivity. now rewrite <- !app_assoc.
      * rewrite !app_length, repeat_length. cbn [start] in *. lia.
      * intros E. apply A3. cbn in *. lia.
Qed.

(** * The table *)

Lemma start_zero : forall gap ws, start gap ws O = O.
Proof. intros gap ws. now destruct ws. Qed.
Lemma start_cons : forall gap w ws c, start gap (w :: ws) (S c) = (w + gap + start gap ws c)%nat.
Proof. reflexivity. Qed.

Lemma start_shift : forall gap c ws, (c < length ws)%nat -> start gap ws (S c) = (start gap ws c + nth c ws O + gap)%nat.
Proof.
  intros gap. induction c as [|c IH]; intros ws H; (destruct ws as [|w ws]; [cbn in H; lia|]).
  - rewrite start_cons, !start_zero. cbn [nth]. lia.
  - rewrite !start_cons. rewrite IH by (cbn in H; lia). cbn [nth]. lia.
Qed.

Lemma start_col : forall rows gap ws c, (c <= length ws)%nat -> (forall i, (i < length ws)%nat -> nth i ws O = col_width rows i) ->
  start gap ws c = col_start rows gap c.
Proof.
  intros rows gap ws c Hc H. induction c as [|c IH]; [now destruct ws|].
  rewrite start_shift by lia. rewrite IH by lia. rewrite H by lia. reflexivity.
Qed.

Lemma format_table_ok : forall rows sp rsp ul, columns rows <> O ->
  exists ws, length ws = columns rows /\ (forall i, (i < length ws)%nat -> nth i ws O = col_width rows i)
    /\ Forall (holds ws) rows
    /\ format_table rows sp rsp ul = Ok (ended (all_lines sp rsp ul ws rows)).
Proof.
  intros rows sp rsp ul H. unfold format_table. rewrite col_count_ok.
  destruct (Nat.eqb_spec (columns rows) 0) as [E|_]; [contradiction|].
  destruct (col_widths_ok rows (repeat O (columns rows))) as (ws & W1 & W2 & W3).
  { apply Forall_forall. intros row Hr. rewrite repeat_length. apply columns_in; exact Hr. }
  rewrite repeat_length in W2, W3. rewrite W1. cbn [obind].
  assert (W4 : forall i, (i < length ws)%nat -> nth i ws O = col_width rows i).
  { intros i Hi. rewrite W3 by lia. rewrite nth_repeat. reflexivity. }
  assert (Hh : Forall (holds ws) rows).
  { apply Forall_forall. intros row Hr. split; [rewrite W2; apply columns_in; exact Hr|].
    intros c k Hc. rewrite W4 by exact Hc. apply col_width_in; exact Hr. }
  exists ws. split; [exact W2|]. split; [exact W4|]. split; [exact Hh|].
  rewrite <- W2. apply table_rows_ok. exact Hh.
Qed.

Lemma columns_pos : forall rows row c, In row rows -> (c < length row)%nat -> columns rows <> O.
Proof. intros rows row c H Hc. pose proof (columns_in rows row H). lia. Qed.

Lemma table_empty : forall rows sp rsp ul, columns rows = O -> format_table rows sp rsp ul = Ok [].
Proof. intros rows sp rsp ul H. unfold format_table. rewrite col_count_ok, H. reflexivity. Qed.

Lemma table_cells : forall rows sp rsp ul, columns rows <> O -> ~ In 10 sp -> ~ In 10 rsp -> ul <> 10 ->
  exists out, format_table rows sp rsp ul = Ok out
    /\ out = flat_map (fun l => l ++ [10]) (lines_of out)
    /\ (length (lines_of out) + rules rsp = row_start rows (rules rsp) (length rows))%nat
    /\ (forall r row k, nth_error rows r = Some row -> (k < row_height row)%nat ->
         exists line, nth_error (lines_of out) (row_start rows (rules rsp) r + k) = Some line
           /\ (length line + length sp = col_start rows (length sp) (columns rows))%nat
           /\ forall c, (c < columns rows)%nat -> exists a b,
                let l := nth k (lines_of (cell row c)) [] in
                line = a ++ l ++ repeat 32 (col_width rows c - length l) ++ (if (S c <? columns rows)%nat then sp else []) ++ b
                /\ length a = col_start rows (length sp) c /\ (S c = columns rows -> b = []))
    /\ (forall r row, nth_error rows r = Some row -> (S r < length rows)%nat -> rsp <> [] ->
         exists line, nth_error (lines_of out) (row_start rows (rules rsp) r + row_height row) = Some line
           /\ (length line + length rsp = col_start rows (length rsp) (columns rows))%nat
           /\ forall c, (c < columns rows)%nat -> exists a b,
                line = a ++ repeat ul (col_width rows c) ++ (if (S c <? columns rows)%nat then rsp else []) ++ b
                /\ length a = col_start rows (length rsp) c /\ (S c = columns rows -> b = [])).
Proof.
  intros rows sp rsp ul H Hs Hr Hu.
  destruct (format_table_ok rows sp rsp ul H) as (ws & W1 & W2 & W3 & W4).
  exists (ended (all_lines sp rsp ul ws rows)). split; [exact W4|].
  pose proof (all_no_newline sp rsp ul ws rows W3 Hs Hr Hu) as N. rewrite (lines_ended _ N).
  split; [reflexivity|]. split; [|split].
  - apply all_lines_length. intros ->. now apply H.
  - intros r row k Hrow Hk. rewrite (all_lines_row sp rsp ul ws rows r row k Hrow Hk).
    assert (Hh : holds ws row) by (rewrite Forall_forall in W3; apply W3; eapply nth_error_In; exact Hrow).
    destruct (line_ok sp ws row k Hh) as (t & T1 & T2 & T3 & _). rewrite T1. cbn [text_of].
    exists t. split; [reflexivity|]. rewrite W1 in *. replace (0 <? columns rows)%nat with true in T2 by lia.
    split.
    + rewrite T2. apply start_col; [lia|]. intros i Hi. apply W2; lia.
    + intros c Hc. destruct (T3 c Hc) as (a & b & A1 & A2 & A3). exists a, b. cbv zeta.
      rewrite W2 in A1 by lia. split; [exact A1|]. split; [|exact A3].
      rewrite A2. apply start_col; [lia|]. intros i Hi. apply W2; lia.
  - intros r row Hrow Hlast Hne. rewrite (all_lines_rule sp rsp ul ws rows r row Hrow Hlast Hne).
    exists (rule_line rsp ul ws). split; [reflexivity|].
    destruct (rule_ok rsp ul ws) as [T2 T3]. rewrite W1 in *. replace (0 <? columns rows)%nat with true in T2 by lia.
    split.
    + rewrite T2. apply start_col; [lia|]. intros i Hi. apply W2; lia.
    + intros c Hc. destruct (T3 c Hc) as (a & b & A1 & A2 & A3). exists a, b.
      rewrite W2 in A1 by lia. split; [exact A1|]. split; [|exact A3].
      rewrite A2. apply start_col; [lia|]. intros i Hi. apply W2; lia.
Qed.
