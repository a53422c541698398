(** A document on which the parser never returns. *)
From Coq Require Import String.
From Verif Require Import Base StrModel TokKind KindEq NodeKind.
From Verif Require RegroupModel TreeModel AttrModel.
From Verif Require Import ParseModel.
Local Open Scope nat_scope.

Lemma bind_fuel : forall A B (m : M A) (k : A -> M B) (l : lx) (g : grp), m l g = Fuel -> bind m k l g = Fuel.
Proof. intros A B m k l g E. unfold bind. rewrite E. reflexivity. Qed.
Lemma bind_then : forall A B (m : M A) (k : A -> M B) (l : lx) (g : grp) a l' g', m l g = Ok (Some a, l', g') -> k a l' g' = Fuel -> bind m k l g = Fuel.
Proof. intros A B m k l g a l' g' E F. unfold bind. rewrite E. exact F. Qed.
Lemma test_then : forall A (c : lx -> bool) (a b : M A) (l : lx) (g : grp) v, c l = v -> (if v then a else b) l g = Fuel -> test c a b l g = Fuel.
Proof. intros A c a b l g v E F. unfold test. rewrite E. destruct v; exact F. Qed.
Lemma guard_fuel : forall A k (m : M A) (l : lx) (g : grp), m l (fst (TreeModel.start_tree g (TreeModel.mkNode k (TreeModel.Ext 0)))) = Fuel -> guard k m l g = Fuel.
Proof. intros A k m l g E. unfold guard. rewrite E. reflexivity. Qed.
Lemma attempt_fuel : forall A (m : M A) (l : lx) (g : grp), m l g = Fuel -> attempt m l g = Fuel.
Proof. intros A m l g E. unfold attempt. rewrite E. reflexivity. Qed.
Lemma while_stuck : forall (c : lx -> bool) (body : M unit) (l : lx) (g : grp), c l = true -> body l g = Ok (Some tt, l, g) -> forall n, while_ n c body l g = Fuel.
Proof.
  intros c body l g C B. induction n as [|n IH]; [reflexivity|]. cbn [while_]. apply test_then with (v := true); [exact C|].
  apply bind_then with (1 := B). exact IH.
Qed.
Lemma while_again : forall n (c : lx -> bool) (body : M unit) (l : lx) (g : grp), c l = true -> (forall k : M unit, bind body (fun _ => k) l g = Fuel) -> while_ n c body l g = Fuel.
Proof. intros [|n] c body l g C B; [reflexivity|]. cbn [while_]. apply test_then with (v := true); [exact C|apply B]. Qed.
Lemma while_round : forall n (c : lx -> bool) (body : M unit) (l : lx) (g : grp) l' g', c l = true -> body l g = Ok (Some tt, l', g') -> (forall n', while_ n' c body l' g' = Fuel) -> while_ n c body l g = Fuel.
Proof. intros [|n] c body l g l' g' C B W; [reflexivity|]. cbn [while_]. apply test_then with (v := true); [exact C|]. apply bind_then with (1 := B). apply W. Qed.

(** two open brackets before the closing one: <<a<<b>> *)
Definition open_twice : list RegroupModel.otok :=
  [RegroupModel.OTok kDoubleAngleBegin (AttrModel.lit "<<") (Some 0); RegroupModel.OTok kWord (AttrModel.lit "a") (Some 2);
   RegroupModel.OTok kDoubleAngleBegin (AttrModel.lit "<<") (Some 3); RegroupModel.OTok kWord (AttrModel.lit "b") (Some 5);
   RegroupModel.OTok kDoubleAngleEnd (AttrModel.lit ">>") (Some 6); RegroupModel.OTok kNewline [10%Z] (Some 8)].

Lemma target_stuck : forall n g, angle_target open_twice n (sub_lexer (map Some (seq 0 6))) g = Fuel.
Proof.
  intros n g. unfold angle_target. eapply bind_then; [reflexivity|]. cbv zeta beta. eapply test_then; [vm_compute; reflexivity|]. cbv iota.
  eapply bind_then; [reflexivity|]. apply guard_fuel. apply bind_fuel.
  eapply while_round; [reflexivity|vm_compute; reflexivity|]. intros n'. apply while_stuck; reflexivity.
Qed.
Lemma parse_stuck : forall n, parse_flat open_twice n = Fuel.
Proof.
  intros n. unfold parse_flat. assert (E : top open_twice n whole TreeModel.empty_group = Fuel); [|rewrite E; reflexivity].
  unfold top. apply guard_fuel. apply while_again; [reflexivity|]. intros k. apply bind_fuel. eapply test_then; [reflexivity|]. cbv iota.
  apply bind_fuel. apply attempt_fuel. destruct n as [|n]; [reflexivity|]. change (stmt open_twice (S n)) with (fun l g => statement open_twice n (stmt open_twice n) l g). cbv beta.
  unfold statement. eapply bind_then; [reflexivity|]. change (stmt_class _) with SText. cbv iota.
  do 7 (destruct n as [|n]; [reflexivity|]). eapply bind_then; [reflexivity|]. unfold in_sub, run_sub.
  match goal with |- match ?x with _ => _ end = _ => assert (P : x = Fuel); [|rewrite P; reflexivity] end.
  unfold paragraph. apply guard_fuel. unfold balanced.
  match goal with |- match ?x with _ => _ end = _ => assert (P : x = Fuel); [|rewrite P; reflexivity] end.
  apply bind_fuel. apply attempt_fuel. change (fold_text open_twice (S (S (S (S (S (S (S n)))))))) with (fun l g => fold_text_ open_twice (S (S (S (S (S (S n)))))) (fold_text open_twice (S (S (S (S (S (S n))))))) l g). cbv beta.
  unfold fold_text_. apply while_again; [reflexivity|]. intros k0. apply bind_fuel. apply bind_fuel. apply attempt_fuel. unfold single.
  eapply bind_then; [reflexivity|]. change (text_class _) with CTarget. cbv iota. unfold sub_parse.
  match goal with |- match ?x with _ => _ end = _ => assert (P : x = Fuel); [|rewrite P; reflexivity] end.
  exact (target_stuck _ _).
Qed.
