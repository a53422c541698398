(** C118: reports of errors show the right lines and every label. *)
From Coq Require Import ZArith List Bool Arith Lia Permutation.
From Verif Require Import Base ReportModel ReportSpec ReportProofs ReportGroups.
Import ListNotations.

(** The line and the column found for a position are the number of line breaks
    before it and the distance to the last of them. *)
Theorem C118_place t p : inside t p -> offset_line (source_of t) p = Ok (Some (line_of t p, col_of t p)).
Proof.
  intros I. destruct t as [|c t]; [|apply offset_at; [discriminate|exact I]].
  destruct I as [I _]. cbn in I. assert (p = 0) by lia. subst p. reflexivity.
Qed.
Print Assumptions C118_place.
Example C118_place_ex : inside [97; 98; 10; 10; 99]%Z 5 /\
  offset_line (source_of [97; 98; 10; 10; 99]%Z) 5 = Ok (Some (2, 1)) /\ offset_line (source_of [97; 98; 10; 10; 99]%Z) 3 = Ok (Some (1, 0)).
Proof.
  split; [|split; reflexivity]. split; [cbn; lia|]. intros _ t' E.
  change [97; 98; 10; 10; 99]%Z with ([97; 98; 10; 10] ++ [99])%Z in E. apply app_inj_tail in E as [_ E]. discriminate.
Qed.

(** Behind a line break that ends the text the last line is reported. *)
Theorem C118_place_refuted : exists t p, p <= length t /\ line_of t p = 1 /\ offset_line (source_of t) p = Ok (Some (0, 2)).
Proof. exists [97; 10]%Z, 2. cbn. auto. Qed.
Print Assumptions C118_place_refuted.

(** A report has a part for every source in the order in which labels mention
    them.  Its header names the place of the report, or that of the first
    label.  Its lines are lines of the source with their numbers.  A label in
    one line is written once, below this line; a label of several lines is
    written below its last line, and perhaps below its first. *)
Theorem C118_report texts sort_multi sort_notes attach_to compact loc ls :
  (forall l, Permutation l (sort_multi l)) -> (forall l, Permutation l (sort_notes l)) -> NoDup (map lid ls) ->
  (forall l, In l ls -> exists t, texts (lsrc l) = Some t /\ t <> [] /\ label_inside t l) ->
  exists out, report (fun i => option_map source_of (texts i)) sort_multi sort_notes attach_to compact loc ls = Ok out /\
    map (fun x => fst (fst x)) out = mentioned [] ls /\
    forall id h is t, In (id, h, is) out -> texts id = Some t ->
      true_lines t is /\ (forall ll, In (Note ll) is -> In (lab ll) (about id ls)) /\
      (fst loc = id -> inside t (snd loc) -> h = Some (location t (snd loc))) /\
      (fst loc <> id -> forall l0, hd_error (about id ls) = Some l0 -> h = Some (location t (from l0))) /\
      forall l, In l (about id ls) -> clear t l ->
        (line_of t (from l) = line_of t (final l) ->
         notes (lid l) 0 is = [(line_of t (from l) + 1,
           match attach_to with AStart => from l | AMiddle => (from l + to l) / 2 | AEnd => to l end - (from l - col_of t (from l)))]) /\
        (many t l -> exists first, (first = [] \/ first = [(line_of t (from l) + 1, col_of t (from l))]) /\
         notes (lid l) 0 is = first ++ [(line_of t (to l) + 1, col_of t (to l))]).
Proof.
  intros P1 P2 ND ALL. destruct (report_ok texts sort_multi sort_notes attach_to compact P1 P2 ls ND ALL loc) as (out & A & B & C).
  exists out. split; [exact A|]. split; [exact B|]. intros id h is t I T. rewrite Forall_forall in C.
  destruct (C _ I t T) as (D1 & D2 & D3 & D4 & D5). repeat split; auto.
  - intros S. destruct (D5 l H H0) as [D6 _]. rewrite (D6 S). do 3 f_equal.
    apply filter_In in H as [H _]. destruct (ALL l H) as (t' & _ & _ & _ & L). unfold place. apply Nat.max_l.
    assert (from l <= (from l + to l) / 2) by (apply Nat.div_le_lower_bound; lia).
    destruct attach_to; lia.
  - intros M. apply D5; assumption.
Qed.
Print Assumptions C118_report.
Example C118_report_ex :
  report (fun i => option_map source_of (if i =? 7 then Some [97; 98; 10; 99; 10; 100; 10; 101]%Z else None))
    (fun l => l) (fun l => l) AMiddle false (7, 3) [mkL 1 7 0 2 (Some []) 0; mkL 2 7 3 8 (Some []) 0] =
  Ok [(7, Some (2, 1),
    [Src 1 [97; 98]%Z; Note (mkLL 1 (mkL 1 7 0 2 (Some []) 0) false true);
     Src 2 [99]%Z; Gap; Src 4 [101]%Z; Note (mkLL 1 (mkL 2 7 3 8 (Some []) 0) true true)])].
Proof. vm_compute. reflexivity. Qed.

Definition one (t : list Z) (i : nat) : option source := if i =? 0 then Some (source_of t) else None.
Definition run (t : list Z) (ls : list label) := report (one t) (fun l => l) (fun l => l) AMiddle false (0, 0) ls.
(** A label that ends with the line break of its line is not written. *)
Theorem C118_break_refuted : exists t l out, label_inside t l /\ run t [l] = Ok [(0, Some (1, 1), out)] /\ notes (lid l) 0 out = [].
Proof.
  exists [97; 98; 10; 99]%Z, (mkL 1 0 0 3 (Some []) 0). eexists. split; [|split; [vm_compute; reflexivity|reflexivity]].
  split; [split; [cbn; lia|cbn; discriminate]|cbn; lia].
Qed.
Print Assumptions C118_break_refuted.
(** Nor is one of several lines that reaches to the end of a text that ends
    with a line break. *)
Theorem C118_end_refuted : exists t l out, label_inside t l /\ many t l /\ run t [l] = Ok [(0, Some (1, 1), out)] /\ notes (lid l) 0 out = [].
Proof.
  exists [97; 10; 98; 10]%Z, (mkL 1 0 0 4 (Some []) 0). eexists. split; [|split; [|split; [vm_compute; reflexivity|reflexivity]]].
  - split; [split; [cbn; lia|cbn; discriminate]|cbn; lia].
  - unfold many. cbn. discriminate.
Qed.
Print Assumptions C118_end_refuted.
(** One of a single line that reaches to this end is written below every line
    of the report before it too. *)
Theorem C118_repeated_refuted : exists t l1 l2 out,
  label_inside t l1 /\ label_inside t l2 /\ run t [l1; l2] = Ok [(0, Some (1, 1), out)] /\
  map fst (notes (lid l2) 0 out) = [1; 2; 3].
Proof.
  exists [97; 10; 98; 10; 99; 10]%Z, (mkL 1 0 0 1 (Some []) 0), (mkL 2 0 4 6 (Some []) 0). eexists.
  split; [|split; [|split; [vm_compute; reflexivity|reflexivity]]]; (split; [split; [cbn; lia|cbn; discriminate]|cbn; lia]).
Qed.
Print Assumptions C118_repeated_refuted.
(** Of two labels of several lines that begin in one line, one is written
    twice. *)
Theorem C118_twice_refuted : exists t l1 l2 out,
  label_inside t l1 /\ label_inside t l2 /\ clear t l1 /\ clear t l2 /\ run t [l1; l2] = Ok [(0, Some (1, 1), out)] /\
  map fst (notes (lid l1) 0 out) = [2] /\ map fst (notes (lid l2) 0 out) = [1; 3].
Proof.
  exists [97; 97; 97; 10; 98; 10; 99]%Z, (mkL 1 0 1 5 (Some []) 0), (mkL 2 0 2 7 (Some []) 0). eexists.
  split; [|split; [|split; [|split; [|split; [vm_compute; reflexivity|split; reflexivity]]]]].
  1, 2: split; [split; [cbn; lia|cbn; discriminate]|cbn; lia].
  1, 2: right; cbn; discriminate.
Qed.
Print Assumptions C118_twice_refuted.
(** A label that reaches one character behind the end of a text of ten lines
    makes the report fail, while one of nine lines is reported. *)
Theorem C118_width_refuted :
  let t n := concat (repeat [97; 10]%Z n) in
  run (t 10) [mkL 1 0 18 21 (Some []) 0] = Throw /\ exists out, run (t 9) [mkL 1 0 16 19 (Some []) 0] = Ok out.
Proof. cbv zeta. split; [vm_compute; reflexivity|]. eexists. vm_compute. reflexivity. Qed.
Print Assumptions C118_width_refuted.
