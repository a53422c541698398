(** What a block without alternatives prints. *)
From Coq Require Import ZArith List Bool Lia.
From Verif Require Import Base StrModel LayoutModel LayoutSpec LayoutTextSpec LayoutPrint LayoutText.
Import ListNotations.
Local Open Scope Z_scope.

Lemma hung_lines : forall ls, hung 0 ls = in_lines ls.
Proof.
  intros [|h t]; [reflexivity|]. cbn [hung]. revert h. induction t as [|x t IH]; intros h; [cbn; now rewrite app_nil_r|].
  change (in_lines (h :: x :: t)) with (h ++ 10 :: in_lines (x :: t)). rewrite <- IH. reflexivity.
Qed.

(** ** C97 *)

(** Costs and margins choose between alternatives: where there are none, the
    text printed is that of the block whatever they are. *)
Theorem C97_block_text : forall txt o fuel b,
  options_ok o -> right_margin o <= 4096 -> 0 <= linebreak_cost o -> (Z.to_nat (2 ^ 28) < fuel)%nat ->
  fixed txt b -> Z.of_nat (block_size txt b) <= 2 ^ 28 ->
  exists ls, to_layouts fuel o b = Ok ls /\ ls <> [] /\
    forall l, In l ls -> exists fuel0, forall fuel, (fuel0 <= fuel)%nat ->
      exists ev, format_events fuel l = Ok ev /\ events_text txt ev = in_lines (block_lines txt b).
Proof.
  intros txt o fuel b Ho Hr Hc Hfu Hf Hsz.
  destruct (print_block txt o fuel Ho Hr Hc Hfu b Hf Hsz) as (ls & E & Ne & G). exists ls. split; [exact E|]. split; [exact Ne|].
  intros l Hl. destruct (G l Hl) as [Fl T]. exists (S (list_size l)). intros f Hle.
  exists (fst (print_list l 0 0)). split.
  - replace f with (list_size l + S (f - S (list_size l)))%nat by lia. now apply format_ok.
  - rewrite T. apply hung_lines.
Qed.
Print Assumptions C97_block_text.

Definition txEx (n : nat) : str := match n with 0%nat => [42; 32] | 1%nat => [97] | 2%nat => [98; 99] | _ => [100] end.
Definition btEx : block :=
  BLine [BText [mkStr (TextId 0) 2];
         BStack 1 [BText [mkStr (TextId 1) 1]; BLine [BText [mkStr (TextId 2) 2]; BText [mkStr SpacesId 3]]];
         BText [mkStr (TextId 3) 1]].
Example C97_block_ex : fixed txEx btEx /\ block_size txEx btEx = 9%nat /\
  in_lines (block_lines txEx btEx) = [42; 32; 97; 10; 32; 32; 98; 99; 32; 32; 32; 100] /\
  exists ls, to_layouts 50 (mkOpts 0 10 1 100 5) btEx = Ok ls /\
    forall l, In l ls -> exists ev, format_events 50 l = Ok ev /\ events_text txEx ev = [42; 32; 97; 10; 32; 32; 98; 99; 32; 32; 32; 100].
Proof.
  split; [cbn; repeat split; try discriminate; try lia; repeat constructor|]. split; [reflexivity|]. split; [reflexivity|].
  eexists. split; [vm_compute; reflexivity|]. intros l Hl. cbn [In] in Hl.
  repeat destruct Hl as [<-|Hl]; try contradiction; (eexists; split; [vm_compute; reflexivity|reflexivity]).
Qed.
