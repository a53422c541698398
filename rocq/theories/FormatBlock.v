(** The string of a block of the formatter. *)
From Coq Require Import String.
From Verif Require Import Base StrModel StrSpec LayoutModel LayoutSpec LayoutTextSpec LayoutPrint LayoutText LayoutTextProps.
From Verif Require StrProofs.
From Verif Require Import ConvModel ConvProofs FormatModel.
Local Open Scope nat_scope.

(** *** Blocks with their texts in place *)
Fixpoint wlines (b : fblock) : list str :=
  match b with
  | WText s => [s]
  | WLine l => fold_right (fun e r => LayoutTextSpec.attach (wlines e) r) [] l
  | WStack l => flat_map wlines l
  end.
Fixpoint wsize (b : fblock) : nat :=
  match b with WText s => length s | WLine l | WStack l => list_sum (map wsize l) end.
Inductive full : fblock -> Prop :=
| full_text s : full (WText s)
| full_line l : l <> [] -> Forall full l -> full (WLine l)
| full_stack l : l <> [] -> Forall full l -> full (WStack l).

Fixpoint fblock_ind' (P : fblock -> Prop) (ht : forall s, P (WText s)) (hl : forall l, Forall P l -> P (WLine l))
    (hs : forall l, Forall P l -> P (WStack l)) (b : fblock) : P b :=
  match b with
  | WText s => ht s
  | WLine l => hl l ((fix go l : Forall P l := match l with [] => Forall_nil _ | e :: r => Forall_cons _ (fblock_ind' P ht hl hs e) (go r) end) l)
  | WStack l => hs l ((fix go l : Forall P l := match l with [] => Forall_nil _ | e :: r => Forall_cons _ (fblock_ind' P ht hl hs e) (go r) end) l)
  end.

Fixpoint interns (l : list fblock) (st : list str) : list block * list str :=
  match l with [] => ([], st) | e :: r => let '(y, st) := intern e st in let '(ys, st) := interns r st in (y :: ys, st) end.
Lemma intern_line : forall l st, intern (WLine l) st = let '(x, st) := interns l st in (BLine x, st).
Proof. reflexivity. Qed.
Lemma intern_stack : forall l st, intern (WStack l) st = let '(x, st) := interns l st in (BStack 1 x, st).
Proof. reflexivity. Qed.

Definition faithful (b : fblock) : Prop := forall st bl st', intern b st = (bl, st') ->
  (exists ext, st' = st ++ ext) /\
  forall more, let tx := fun n => nth n (st' ++ more) [] in
    block_lines tx bl = wlines b /\ block_size tx bl = wsize b /\ (full b -> fixed tx bl).
Lemma faithful_all : forall l, Forall faithful l -> forall st bs st', interns l st = (bs, st') ->
  (exists ext, st' = st ++ ext) /\
  forall more, let tx := fun n => nth n (st' ++ more) [] in
    map (block_lines tx) bs = map wlines l /\ map (block_size tx) bs = map wsize l /\ (Forall full l -> Forall (fixed tx) bs).
Proof.
  intros l F. induction F as [|e r He _ IH]; intros st bs st' E; cbn [interns] in E.
  - injection E as <- <-. split; [exists []; now rewrite app_nil_r|]. intros more tx. auto.
  - destruct (intern e st) as [y st1] eqn:Ey. destruct (interns r st1) as [ys st2] eqn:Er. injection E as <- <-.
    destruct (He _ _ _ Ey) as [[e1 ->] Ge]. destruct (IH _ _ _ Er) as [[e2 ->] Gr].
    split; [exists (e1 ++ e2); now rewrite app_assoc|]. intros more tx.
    destruct (Gr more) as (A & B & C). destruct (Ge (e2 ++ more)) as (A' & B' & C'). rewrite app_assoc in A', B', C'.
    unfold tx. cbn [map]. rewrite A', B', A, B. split; [reflexivity|]. split; [reflexivity|].
    intros Ff. inversion Ff; subst. constructor; auto.
Qed.
Lemma all_fixed_back : forall tx l, Forall (fixed tx) l -> (fix all (l : list block) : Prop := match l with [] => True | e :: l' => fixed tx e /\ all l' end) l.
Proof. intros tx l F. induction F; auto. Qed.
Lemma intern_faithful : forall b, faithful b.
Proof.
  apply fblock_ind'.
  - intros s st bl st' E. cbn [intern] in E. injection E as <- <-. split; [exists [s]; reflexivity|]. intros more tx.
    assert (T : tx (length st) = s). { unfold tx. rewrite <- app_assoc, app_nth2, Nat.sub_diag by lia. reflexivity. }
    cbn [block_lines block_size wlines wsize]. unfold strs_of, str_of. cbn [map concat lid]. rewrite T, app_nil_r. split; [reflexivity|]. split; [reflexivity|].
    intros _. cbn [fixed]. constructor; [|constructor]. unfold measured, str_of. cbn [lid llen]. now rewrite T.
  - intros l F st bl st' E. rewrite intern_line in E. destruct (interns l st) as [x st1] eqn:El. injection E as <- <-.
    destruct (faithful_all l F _ _ _ El) as [X G]. split; [exact X|]. intros more tx. destruct (G more) as (A & B & C). fold tx in A, B, C.
    cbn [block_lines block_size wlines wsize]. rewrite B. split; [|split; [reflexivity|]].
    + clear - A. revert x A. induction l as [|e l IH]; intros [|y x] A; try discriminate; [reflexivity|]. cbn [map] in A. injection A as A1 A2. cbn [fold_right]. rewrite A1, (IH _ A2). reflexivity.
    + intros Hf. inversion Hf; subst. cbn [fixed]. split; [|apply all_fixed_back; auto]. intros ->. destruct l; [congruence|discriminate].
  - intros l F st bl st' E. rewrite intern_stack in E. destruct (interns l st) as [x st1] eqn:El. injection E as <- <-.
    destruct (faithful_all l F _ _ _ El) as [X G]. split; [exact X|]. intros more tx. destruct (G more) as (A & B & C). fold tx in A, B, C.
    cbn [block_lines block_size wlines wsize]. rewrite B. split; [|split; [reflexivity|]].
    + rewrite !flat_map_concat_map, A. reflexivity.
    + intros Hf. inversion Hf; subst. cbn [fixed]. split; [lia|]. split; [|apply all_fixed_back; auto]. intros ->. destruct l; [congruence|discriminate].
Qed.

Lemma leaf_full : forall b, full b -> leaf_count b <> 0.
Proof.
  apply (fblock_ind' (fun b => full b -> leaf_count b <> 0)).
  - discriminate.
  - intros l F Hf. inversion Hf; subst. destruct l as [|e l]; [congruence|]. inversion F; subst. inversion H1; subst. cbn [leaf_count map list_sum fold_right]. pose proof (H3 H5). lia.
  - intros l F Hf. inversion Hf; subst. destruct l as [|e l]; [congruence|]. inversion F; subst. inversion H1; subst. cbn [leaf_count map list_sum fold_right]. pose proof (H3 H5). lia.
Qed.

Lemma exists_last_or : forall {A} (l : list A), l = [] \/ exists m c, l = m ++ [c].
Proof. intros A l. induction l using rev_ind; eauto. Qed.
(** *** Lines without spaces at their ends *)
Definition neat (x : str) : Prop := ~ In 10%Z x /\ forall m, x <> m ++ [32%Z].
Lemma in_lines_join : forall ls, in_lines ls = join [10%Z] ls.
Proof.
  destruct ls as [|h t]; [reflexivity|]. rewrite StrProofs.join_cons. revert h. induction t as [|x t IH]; intros h; [cbn; now rewrite app_nil_r|].
  change (in_lines (h :: x :: t)) with (h ++ 10%Z :: in_lines (x :: t)). rewrite IH. reflexivity.
Qed.
Lemma occurs_nl : forall x, occurs [10%Z] x -> In 10%Z x.
Proof. intros x (i & a & b & -> & _). apply in_or_app. right. now left. Qed.
Lemma split_lines_at : forall ls, ls <> [] -> Forall (fun x => ~ In 10%Z x) ls -> split_at [10%Z] (in_lines ls) ls.
Proof.
  induction ls as [|x [|y r] IH]; intros N F; [congruence| |]; inversion F; subst.
  - cbn. apply split_last. intros O. apply occurs_nl in O. contradiction.
  - change (in_lines (x :: y :: r)) with (x ++ [10%Z] ++ in_lines (y :: r)). apply split_more; [|apply IH; [discriminate|auto]].
    split; [exists x, (in_lines (y :: r)); auto|]. intros j Hj (a & b & E & La). subst j.
    apply H1. assert (exists c, x = a ++ 10%Z :: c) as [c ->].
    { clear - E Hj. revert a E Hj. induction x as [|z x IH]; intros a E Hj; [cbn in Hj; lia|]. destruct a as [|w a]; cbn in *.
      - injection E as -> _. exists x. reflexivity.
      - injection E as -> E. destruct (IH a E ltac:(lia)) as [c ->]. exists c. reflexivity. }
    apply in_or_app. right. now left.
Qed.
Lemma strip_neat : forall x, (forall m, x <> m ++ [32%Z]) -> strip x (chars []) (chars [32%Z]) = x.
Proof.
  intros x N. destruct (StrProofs.strip_spec x (chars []) (chars [32%Z])) as (a & b & E & A & B & _ & _).
  assert (a = []) as -> by (inversion A; [reflexivity|discriminate]).
  destruct (exists_last_or b) as [-> | (m & c & ->)].
  - rewrite app_nil_r in E. now symmetry.
  - exfalso. apply Forall_app in B. destruct B as [_ B]. inversion B; subst. unfold chars in H1. cbn in H1. rewrite Bool.orb_false_r in H1. apply Z.eqb_eq in H1. subst c.
    apply (N (strip x (chars []) (chars [32%Z]) ++ m)). rewrite <- app_assoc. exact E.
Qed.
Lemma tidy_neat : forall ls, ls <> [] -> Forall neat ls -> tidy (in_lines ls) = Done (in_lines ls).
Proof.
  intros ls N F. unfold tidy, split_by. change (lit (String (Ascii.ascii_of_nat 10) EmptyString)) with [10%Z].
  destruct (StrProofs.split_str_spec (in_lines ls) [10%Z] (S (S (length (in_lines ls)))) ltac:(discriminate) ltac:(lia)) as (ts & E & S).
  rewrite E. cbn [lift rbind]. assert (ts = ls) as ->.
  { eapply StrProofs.split_at_functional; [exact S|]. apply split_lines_at; [exact N|]. eapply Forall_impl; [|exact F]. intros x [H _]. exact H. }
  rewrite (map_ext_in _ (fun x => x)), map_id, in_lines_join; [reflexivity|].
  intros x Hx. apply strip_neat. rewrite Forall_forall in F. apply F, Hx.
Qed.

(** The string of a block whose lines do not end with spaces *)
Lemma block_string_ok : forall o fuel b, options_ok o -> (right_margin o <= 4096)%Z -> (0 <= linebreak_cost o)%Z -> Z.to_nat (2 ^ 28) < fuel ->
  full b -> (Z.of_nat (wsize b) <= 2 ^ 28)%Z -> wlines b <> [] -> Forall neat (wlines b) ->
  exists fuel0, forall fuel', fuel0 <= fuel' -> block_string fuel fuel' o b = Done (in_lines (wlines b)).
Proof.
  intros o fuel b Ho Hr Hc Hfu Hf Hsz Nl Ne. unfold block_string. pose proof (leaf_full b Hf) as Lf. apply Nat.eqb_neq in Lf. rewrite Lf.
  destruct (intern b []) as [bl st] eqn:Ei. destruct (intern_faithful b [] bl st Ei) as [_ G]. destruct (G []) as (A & B & C). rewrite app_nil_r in *.
  destruct (C97_block_text _ o fuel bl Ho Hr Hc Hfu (C Hf) ltac:(rewrite B; exact Hsz)) as (ls & E & Nls & P). rewrite E. cbn [lift rbind].
  destruct ls as [|l ls]; [congruence|]. destruct (P l (or_introl eq_refl)) as (f0 & Q). exists f0. intros f Hle. destruct (Q f Hle) as (ev & Ev & T).
  unfold at_. cbn [nth_error rbind]. rewrite Ev. cbn [lift rbind]. rewrite T, A. now apply tidy_neat.
Qed.
