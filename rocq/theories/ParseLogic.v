(** A program logic for the parser: what a step takes from the lexer and what it adds to the tree. *)
From Verif Require Import Base StrModel TokKind KindEq NodeKind.
From Verif Require RegroupModel TreeModel TreeSpec TreeProofs.
From Verif Require Import ParseModel ParseSpec.
Local Open Scope nat_scope.

Notation tree := (TreeSpec.tree nk (option nat) mono) (only parsing).
Notation fflat := TreeProofs.fflat.
Notation nodes := TreeModel.nodes.
Notation pending := TreeModel.pending.
Notation Branch := TreeSpec.Branch.
Notation Leaf := TreeSpec.Leaf.
Notation MonoLeaf := TreeSpec.MonoLeaf.
Notation "x <- m ;; k" := (bind m (fun x => k)) (at level 61, m at next level, right associativity).
Notation "m ;; k" := (bind m (fun _ => k)) (at level 61, right associativity).

(** *** What is kept *)
Section Keeps.
Variable drop : nat -> Prop.
Inductive keeps : list nat -> list (option nat) -> Prop :=
| keeps_nil : keeps [] []
| keeps_take i c ts : keeps c ts -> keeps (i :: c) (Some i :: ts)
| keeps_drop i c ts : drop i -> keeps c ts -> keeps (i :: c) ts
| keeps_none c ts : keeps c ts -> keeps c (None :: ts).

Lemma keeps_app : forall a s, keeps a s -> forall b t, keeps b t -> keeps (a ++ b) (s ++ t).
Proof. induction 1; intros b t K; cbn; auto; constructor; auto. Qed.
Lemma keeps_all : forall c, keeps c (map Some c).
Proof. induction c; cbn; constructor; auto. Qed.
Lemma keeps_drops : forall c, Forall drop c -> keeps c [].
Proof. induction 1; [constructor|apply keeps_drop; auto]. Qed.
Lemma keeps_split : forall x s, keeps x s -> forall a b, s = a ++ b ->
  exists x1 x2, x = x1 ++ x2 /\ keeps x1 a /\ keeps x2 b.
Proof.
  induction 1 as [|i c ts K IH|i c ts D K IH|c ts K IH]; intros a b E.
  - symmetry in E. apply app_eq_nil in E as [-> ->]. exists [], []. split; [reflexivity|split; constructor].
  - destruct a as [|a0 a]; cbn in E.
    + subst b. exists [], (i :: c). split; [reflexivity|]. split; [constructor|constructor; auto].
    + injection E as <- E. destruct (IH _ _ E) as (x1 & x2 & -> & K1 & K2). exists (i :: x1), x2. split; [reflexivity|].
      split; [constructor; auto|auto].
  - destruct (IH _ _ E) as (x1 & x2 & -> & K1 & K2). exists (i :: x1), x2. split; [reflexivity|]. split; [apply keeps_drop; auto|auto].
  - destruct a as [|a0 a]; cbn in E.
    + subst b. exists [], c. split; [reflexivity|]. split; [constructor|constructor; auto].
    + injection E as <- E. destruct (IH _ _ E) as (x1 & x2 & -> & K1 & K2). exists x1, x2. split; [reflexivity|].
      split; [constructor; auto|auto].
Qed.
Lemma keeps_drop_app : forall d c ts, Forall drop d -> keeps c ts -> keeps (d ++ c) ts.
Proof. induction 1; intros K; cbn; auto. apply keeps_drop; auto. Qed.
Lemma keeps_some_inv : forall x i D, keeps x (map Some (i :: D)) ->
  exists d x', x = d ++ i :: x' /\ Forall drop d /\ keeps x' (map Some D).
Proof.
  intros x i D K. cbn [map] in K. remember (Some i :: map Some D) as s eqn:E. revert E.
  induction K as [|j c ts K IH|j c ts Dj K IH|c ts K IH]; intros E; try discriminate.
  - injection E as -> ->. exists [], c. split; [reflexivity|]. split; auto.
  - destruct (IH E) as (d & x' & -> & Fd & K'). exists (j :: d), x'. split; [reflexivity|]. split; auto.
Qed.
Lemma keeps_nil_inv : forall x, keeps x [] -> Forall drop x.
Proof. intros x K. remember [] as s eqn:E. revert E. induction K; intros E; try discriminate; auto. Qed.
Lemma keeps_trans : forall e T, keeps e T -> forall D c x, e = D ++ c -> keeps x (map Some D) -> keeps (x ++ c) T.
Proof.
  induction 1 as [|i e ts K IH|i e ts Di K IH|e ts K IH]; intros D c x E Kx.
  - symmetry in E. apply app_eq_nil in E as [-> ->]. rewrite app_nil_r. exact Kx.
  - destruct D as [|j D]; cbn in E.
    + subst c. cbn [map] in Kx. apply keeps_drop_app; [apply keeps_nil_inv; exact Kx|constructor; exact K].
    + injection E as <- E. destruct (keeps_some_inv _ _ _ Kx) as (d & x' & -> & Fd & Kx'). rewrite <- app_assoc. cbn [app].
      apply keeps_drop_app; [exact Fd|]. constructor. apply (IH D c x'); auto.
  - destruct D as [|j D]; cbn in E.
    + subst c. cbn [map] in Kx. apply keeps_drop_app; [apply keeps_nil_inv; exact Kx|]. apply keeps_drop; auto.
    + injection E as <- E. destruct (keeps_some_inv _ _ _ Kx) as (d & x' & -> & Fd & Kx'). rewrite <- app_assoc. cbn [app].
      apply keeps_drop_app; [exact Fd|]. apply keeps_drop; [exact Di|]. apply (IH D c x'); auto.
  - constructor. apply (IH D c x); auto.
Qed.
End Keeps.

(** tokens of a forest *)
Definition ftoks (ts : list tree) : list (option nat) := leaf_tokens (fflat ts).
Lemma leaf_tokens_app : forall (a b : list node), leaf_tokens (a ++ b) = leaf_tokens a ++ leaf_tokens b.
Proof. intros. apply flat_map_app. Qed.
Lemma ftoks_app : forall a b, ftoks (a ++ b) = ftoks a ++ ftoks b.
Proof. intros. unfold ftoks. rewrite TreeProofs.fflat_app. apply leaf_tokens_app. Qed.
Lemma ftoks_branch : forall k ts, ftoks [Branch k ts] = ftoks ts.
Proof. intros. unfold ftoks. cbn. rewrite app_nil_r. reflexivity. Qed.

Ltac triv := intros; cbv beta in *; auto.

Section Logic.
Variable toks : list RegroupModel.otok.
Notation drop := (droppable toks).
Notation M := (ParseModel.M) (only parsing).
Notation has_next := (has_next toks).
Notation finished := (finished toks).
Notation at_ := (at_ toks).
Notation at0 := (at0 toks).
Notation kind_at := (kind_at toks).
Notation tok_at := (tok_at toks).
Notation advance := (advance toks).

(** *** The tokens a lexer has left *)
Definition olist {A} (o : option A) : list A := match o with Some i => [i] | None => [] end.
Lemma olist_map : forall A (l : list A), flat_map olist (map Some l) = l.
Proof. induction l as [|x l IH]; [reflexivity|]. cbn. f_equal. exact IH. Qed.
Definition blank (i : nat) : Prop := exists t, nth_error toks i = Some t /\ okind t = kWhitespace.
(** growing ids; only blanks are left out between two of them *)
Definition gapped (js : list nat) : Prop :=
  StronglySorted lt js /\ Forall (fun i => i < length toks) js /\
  forall x a b, In a js -> In b js -> a < x < b -> In x js \/ blank x.
Lemma gapped_nil : gapped [].
Proof. split; [constructor|]. split; [constructor|]. intros x a b []. Qed.
Lemma ss_app_inv : forall (a b : list nat), StronglySorted lt (a ++ b) ->
  StronglySorted lt a /\ StronglySorted lt b /\ forall x y, In x a -> In y b -> x < y.
Proof.
  induction a as [|h a IH]; intros b S; [split; [constructor|split; [exact S|intros x y []]]|].
  cbn in S. apply StronglySorted_inv in S as [S F]. destruct (IH b S) as (Sa & Sb & L). rewrite Forall_app in F. destruct F as [Fa Fb].
  split; [constructor; auto|]. split; [exact Sb|]. intros x y [<-|Ix] Iy; [|apply L; auto].
  rewrite Forall_forall in Fb. apply Fb; auto.
Qed.
Lemma gapped_app : forall a b, gapped (a ++ b) -> gapped a /\ gapped b.
Proof.
  intros a b (S & F & G). destruct (ss_app_inv _ _ S) as (Sa & Sb & L). rewrite Forall_app in F. destruct F as [Fa Fb].
  split; (split; [auto|]; split; [auto|]); intros x u v Iu Iv H.
  - destruct (G x u v) as [I|W]; [apply in_or_app; auto|apply in_or_app; auto|exact H| |auto].
    apply in_app_or in I as [I|I]; [auto|]. pose proof (L v x Iv I). lia.
  - destruct (G x u v) as [I|W]; [apply in_or_app; auto|apply in_or_app; auto|exact H| |auto].
    apply in_app_or in I as [I|I]; [|auto]. pose proof (L x u I Iu). lia.
Qed.
Lemma gapped_seq : forall m a, a + m <= length toks -> gapped (seq a m).
Proof.
  intros m a H. split; [|split].
  - revert a H. induction m as [|m IH]; intros a H; cbn; [constructor|]. constructor; [apply IH; lia|].
    apply Forall_forall. intros x I. apply in_seq in I. lia.
  - apply Forall_forall. intros x I. apply in_seq in I. lia.
  - intros x u v Iu Iv X. left. apply in_seq in Iu, Iv. apply in_seq. lia.
Qed.

Definition okl (l : lx) : Prop :=
  match lsub l with
  | None => match lpos l with None => True | Some p => p < length toks end
  | Some (sp, ids) => exists js, ids = map Some js /\ gapped js /\
      match lpos l with None => True | Some p => nth_error js sp = Some p end
  end.
Definition lids (l : lx) : option (list (option nat)) := option_map snd (lsub l).
Definition rest (l : lx) : list nat :=
  match lpos l with
  | None => []
  | Some p => match lsub l with None => seq p (length toks - p) | Some (sp, ids) => flat_map olist (skipn sp ids) end
  end.

Lemma skipn_map' : forall A B (f : A -> B) n l, skipn n (map f l) = map f (skipn n l).
Proof. induction n as [|n IH]; intros [|x l]; cbn; auto. Qed.
Lemma nth_skipn : forall A n (l : list A) x, nth_error l n = Some x -> skipn n l = x :: skipn (S n) l.
Proof. induction n as [|n IH]; intros [|y l] x E; try discriminate; cbn in *; [injection E as ->; reflexivity|apply IH; exact E]. Qed.
Lemma rest_gapped : forall l, okl l -> gapped (rest l).
Proof.
  intros [[p|] [[sp ids]|] la]; unfold okl, rest; cbn; intros O; try apply gapped_nil.
  - destruct O as (js & -> & G & E). rewrite skipn_map', olist_map. rewrite <- (firstn_skipn sp js) in G. apply (gapped_app _ _ G).
  - apply gapped_seq. lia.
Qed.
Lemma rest_range : forall l, okl l -> Forall (fun i => i < length toks) (rest l).
Proof. intros l O. apply (rest_gapped l O). Qed.
Lemma has_next_rest : forall l off, okl l -> has_next l off = (off <? length (rest l)).
Proof.
  intros [[p|] [[sp ids]|] la] off; unfold okl, rest, ParseModel.has_next; cbn [lpos lsub]; intros O.
  - destruct O as (js & -> & G & E). rewrite skipn_map', olist_map, skipn_length, map_length. apply eq_true_iff_eq. rewrite !Nat.ltb_lt. lia.
  - rewrite seq_length. apply eq_true_iff_eq. rewrite !Nat.ltb_lt. lia.
  - reflexivity.
  - reflexivity.
Qed.
Lemma finished_rest : forall l, okl l -> finished l = match rest l with [] => true | _ => false end.
Proof. intros l O. unfold ParseModel.finished. rewrite has_next_rest by auto. destruct (rest l); reflexivity. Qed.
Lemma rest_pos : forall l, okl l -> lpos l = hd_error (rest l).
Proof.
  intros [[p|] [[sp ids]|] la]; unfold okl, rest; cbn [lpos lsub]; intros O; auto.
  - destruct O as (js & -> & G & E). rewrite skipn_map', olist_map, (nth_skipn _ _ _ _ E). reflexivity.
  - replace (length toks - p) with (S (length toks - S p)) by lia. reflexivity.
Qed.
Lemma pos_rest : forall l i r, okl l -> rest l = i :: r -> lpos l = Some i.
Proof. intros l i r O E. rewrite rest_pos, E by exact O. reflexivity. Qed.
Lemma rest_next : forall l i j r, okl l -> rest l = i :: j :: r -> j = S i \/ blank (S i).
Proof.
  intros l i j r O E. pose proof (rest_gapped l O) as (S & F & G). rewrite E in *.
  apply StronglySorted_inv in S as [S F1]. apply StronglySorted_inv in S as [S F2].
  pose proof (Forall_inv F1) as H. destruct (Nat.eq_dec j (Datatypes.S i)) as [->|N]; [auto|].
  destruct (G (Datatypes.S i) i j) as [I|W]; [cbn; auto|cbn; auto|lia| |auto].
  destruct I as [I|[I|I]]; [lia|lia|]. rewrite Forall_forall in F2. pose proof (F2 _ I). lia.
Qed.
Lemma advance_rest : forall l, okl l -> okl (advance l) /\ rest (advance l) = tl (rest l) /\ lids (advance l) = lids l.
Proof.
  intros l O. unfold ParseModel.advance. rewrite !has_next_rest by auto.
  destruct l as [[p|] [[sp ids]|] la]; unfold okl, rest, lids in *; cbn [lpos lsub llast option_map snd] in *.
  - destruct O as (js & -> & G & E). rewrite skipn_map', olist_map, (nth_skipn _ _ _ _ E). cbn [length tl].
    destruct (Nat.ltb_spec 1 (S (length (skipn (S sp) js)))) as [H|H].
    + cbn [lpos lsub option_map snd]. destruct (nth_error js (S sp)) as [q|] eqn:Eq.
      2:{ apply nth_error_None in Eq. rewrite skipn_length in H. lia. }
      assert (En : nth (S sp) (map Some js) None = Some q).
      { rewrite (nth_error_nth (map Some js) (S sp) (x := Some q)); [reflexivity|]. rewrite nth_error_map, Eq. reflexivity. }
      rewrite En. split; [exists js; auto|]. rewrite skipn_map', olist_map. auto.
    + cbn [lpos lsub option_map snd]. split; [exists js; auto|]. split; [|reflexivity].
      destruct (skipn (S sp) js); [reflexivity|cbn in H; lia].
  - rewrite seq_length. destruct (Nat.ltb_spec 1 (length toks - p)) as [H|H]; cbn [lpos lsub option_map snd].
    + split; [lia|]. split; [|reflexivity]. replace (length toks - p) with (S (length toks - S p)) by lia. reflexivity.
    + split; [exact I|]. split; [|reflexivity]. destruct (length toks - p) as [|[|x]] eqn:E; try lia; reflexivity.
  - destruct O as (js & -> & G & _). cbn. split; [exists js; auto|auto].
  - cbn. auto.
Qed.

(** the kind of the first token *)
Definition head_is (f : tk -> bool) (l : lx) : Prop :=
  exists i r t, rest l = i :: r /\ nth_error toks i = Some t /\ f (okind t) = true.
Lemma at_head : forall f l, okl l -> at_ 0 f l = true -> head_is f l.
Proof.
  intros f l O H. unfold ParseModel.at_ in H. apply andb_true_iff in H as [N H]. rewrite has_next_rest in N by auto.
  destruct (rest l) as [|i r] eqn:E; [discriminate|]. unfold ParseModel.kind_at, ParseModel.tok_at in H.
  rewrite (pos_rest _ _ _ O E), Nat.add_0_r in H. destruct (nth_error toks i) as [t|] eqn:Et; [|discriminate].
  exists i, r, t. auto.
Qed.
Lemma at_head_iff : forall f l, okl l -> (at_ 0 f l = true <-> head_is f l).
Proof.
  intros f l O. split; [apply at_head; exact O|]. intros (i & r & t & E & Et & F). unfold ParseModel.at_.
  rewrite has_next_rest, E by auto. unfold ParseModel.kind_at, ParseModel.tok_at. rewrite (pos_rest _ _ _ O E), Nat.add_0_r, Et. exact F.
Qed.
Lemma at_next : forall f l, okl l -> f kWhitespace = false -> at_ 1 f l = true ->
  exists i j r t, rest l = i :: j :: r /\ nth_error toks j = Some t /\ f (okind t) = true.
Proof.
  intros f l O W H. unfold ParseModel.at_ in H. apply andb_true_iff in H as [N H]. rewrite has_next_rest in N by auto.
  destruct (rest l) as [|i [|j r]] eqn:E; try discriminate. unfold ParseModel.kind_at, ParseModel.tok_at in H.
  rewrite (pos_rest _ _ _ O E), Nat.add_1_r in H.
  destruct (nth_error toks (S i)) as [t|] eqn:Et; [|discriminate]. cbn [option_map] in H.
  destruct (rest_next _ _ _ _ O E) as [->|(t' & Et' & K)]; [exists i, (S i), r, t; auto|].
  rewrite Et in Et'. injection Et' as <-. rewrite K, W in H. discriminate.
Qed.
Lemma head_impl : forall f g l, (forall k, f k = true -> g k = true) -> head_is f l -> head_is g l.
Proof. intros f g l H (i & r & t & E & Et & F). exists i, r, t. auto. Qed.

(** *** Specifications *)
Definition spec {A} (d : list nat) (P : lx -> Prop) (m : M A) (D : A -> list nat) (Q : A -> lx -> Prop) : Prop :=
  forall l g r l' g', okl l -> P l -> m l g = Ok (r, l', g') ->
    okl l' /\ lids l' = lids l /\ pending g' = pending g /\
    exists c ts, rest l = c ++ rest l' /\ nodes g' = nodes g ++ fflat ts /\
      match r with
      | Some a => keeps drop (d ++ c) (ftoks ts ++ map Some (D a)) /\ Q a l'
      | None => keeps drop (d ++ c) (ftoks ts)
      end.
Notation adds m := (spec [] (fun _ => True) m (fun _ => []) (fun _ _ => True)).
Notation adds_if P m := (spec [] P m (fun _ => []) (fun _ _ => True)).

Lemma spec_weaken : forall A d (P P' : lx -> Prop) (m : M A) D (Q Q' : A -> lx -> Prop),
  spec d P m D Q -> (forall l, okl l -> P' l -> P l) -> (forall a l, okl l -> Q a l -> Q' a l) -> spec d P' m D Q'.
Proof.
  intros A d P P' m D Q Q' S HP HQ l g r l' g' O p E. destruct (S l g r l' g' O (HP l O p) E) as (O' & I & B & c & ts & R & N & K).
  split; [exact O'|]. split; [exact I|]. split; [exact B|]. exists c, ts. split; [exact R|]. split; [exact N|].
  destruct r; [|exact K]. destruct K as [K q]. split; [exact K|]. apply HQ; auto.
Qed.
Lemma adds_adds_if : forall A P (m : M A), adds m -> adds_if P m.
Proof. intros A P m H. eapply spec_weaken; [exact H| |]; triv. Qed.

(** a debt [d] outstanding before a step that does not know of it *)
Lemma spec_ret : forall A (a : A) d P, spec d P (ret a) (fun _ => d) (fun b l => b = a /\ P l).
Proof.
  intros A a d P l g r l' g' O p E. injection E as <- <- <-. split; [exact O|]. split; [reflexivity|]. split; [reflexivity|].
  exists [], []. rewrite !app_nil_r. split; [reflexivity|]. split; [reflexivity|]. split; [apply keeps_all|auto].
Qed.
Lemma adds_ret : forall A (a : A) P, adds_if P (ret a).
Proof. intros A a P. eapply spec_weaken; [apply (spec_ret A a [] P)| |]; triv. Qed.
Lemma spec_bad : forall A P D Q, spec [] P (bad (A:=A)) D Q.
Proof.
  intros A P D Q l g r l' g' O p E. injection E as <- <- <-. split; [exact O|]. split; [reflexivity|]. split; [reflexivity|].
  exists [], []. rewrite !app_nil_r. split; [reflexivity|]. split; [reflexivity|constructor].
Qed.
Lemma spec_crash : forall A d P D Q, spec d P (crash (A:=A)) D Q.
Proof. intros A d P D Q l g r l' g' O p E. discriminate. Qed.
Lemma spec_spent : forall A d P D Q, spec d P (spent (A:=A)) D Q.
Proof. intros A d P D Q l g r l' g' O p E. discriminate. Qed.
Lemma spec_bind : forall A B d P (m : M A) D Q (k : A -> M B) D' Q',
  spec d P m D Q -> (forall a, spec (D a) (Q a) (k a) D' Q') -> spec d P (bind m k) D' Q'.
Proof.
  intros A B d P m D Q k D' Q' Hm Hk l g r l' g' O p E. unfold bind in E.
  destruct (m l g) as [[[[a|] l1] g1]| | |] eqn:Em; try discriminate.
  - destruct (Hm _ _ _ _ _ O p Em) as (O1 & I1 & B1 & c1 & t1 & R1 & N1 & K1 & q1).
    destruct (Hk a _ _ _ _ _ O1 q1 E) as (O2 & I2 & B2 & c2 & t2 & R2 & N2 & K2).
    split; [exact O2|]. split; [congruence|]. split; [congruence|]. exists (c1 ++ c2), (t1 ++ t2).
    split; [rewrite R1, R2, app_assoc; reflexivity|]. split; [rewrite N2, N1, TreeProofs.fflat_app, app_assoc; reflexivity|].
    destruct (keeps_split _ _ _ K1 _ _ eq_refl) as (x1 & x2 & Ex & Ka & Kb). rewrite app_assoc, Ex, ftoks_app.
    destruct r as [b|]; rewrite <- !app_assoc.
    + destruct K2 as [K2 q2]. split; [|exact q2]. apply keeps_app; [exact Ka|]. exact (keeps_trans _ _ _ K2 _ _ _ eq_refl Kb).
    + apply keeps_app; [exact Ka|]. exact (keeps_trans _ _ _ K2 _ _ _ eq_refl Kb).
  - injection E as <- <- <-. destruct (Hm _ _ _ _ _ O p Em) as (O1 & I1 & B1 & c1 & t1 & R1 & N1 & K1).
    split; [exact O1|]. split; [exact I1|]. split; [exact B1|]. exists c1, t1. auto.
Qed.
Lemma adds_bind : forall A B P (m : M A) (k : A -> M B), adds_if P m -> (forall a, adds (k a)) -> adds_if P (bind m k).
Proof. intros A B P m k Hm Hk. eapply spec_bind; [exact Hm|]. intros a. exact (Hk a). Qed.
Lemma spec_test : forall A d P c (a b : M A) D Q,
  spec d (fun l => P l /\ c l = true) a D Q -> spec d (fun l => P l /\ c l = false) b D Q -> spec d P (test c a b) D Q.
Proof.
  intros A d P c a b D Q Ha Hb l g r l' g' O p E. unfold test in E. destruct (c l) eqn:Ec.
  - exact (Ha _ _ _ _ _ O (conj p Ec) E).
  - exact (Hb _ _ _ _ _ O (conj p Ec) E).
Qed.
Lemma spec_ask : forall A (f : lx -> A) d P, spec d P (ask f) (fun _ => d) (fun a l => a = f l /\ P l).
Proof.
  intros A f d P l g r l' g' O p E. injection E as <- <- <-. split; [exact O|]. split; [reflexivity|]. split; [reflexivity|].
  exists [], []. rewrite !app_nil_r. split; [reflexivity|]. split; [reflexivity|]. split; [apply keeps_all|auto].
Qed.
Lemma spec_kind : forall off d P, spec d P (kind_ toks off) (fun _ => d) (fun k l => kind_at l off = Some k /\ P l).
Proof.
  intros off d P l g r l' g' O p E. unfold kind_ in E. destruct (kind_at l off) as [k|] eqn:Ek; [|discriminate]. injection E as <- <- <-.
  split; [exact O|]. split; [reflexivity|]. split; [reflexivity|].
  exists [], []. rewrite !app_nil_r. split; [reflexivity|]. split; [reflexivity|]. split; [apply keeps_all|auto].
Qed.
Lemma kind_at_head : forall l k, okl l -> kind_at l 0 = Some k -> head_is (is k) l.
Proof.
  intros l k O H. unfold ParseModel.kind_at, ParseModel.tok_at in H. rewrite rest_pos in H by exact O.
  destruct (rest l) as [|i r] eqn:E; [discriminate|]. cbn [hd_error] in H. rewrite Nat.add_0_r in H.
  destruct (nth_error toks i) as [t|] eqn:Et; [|discriminate]. injection H as <-. exists i, r, t.
  split; [exact E|]. split; [exact Et|apply is_refl].
Qed.

(** one token of a given kind is passed *)
Definition head_drops (l : lx) : Prop := exists i r, rest l = i :: r /\ drop i.
Lemma head_structural : forall l, head_is structural l -> head_drops l.
Proof. intros l (i & r & t & Er & Et & S). exists i, r. split; [exact Er|]. left. exists t. auto. Qed.
Lemma spec_next_hist : forall P : lx -> Prop, (forall l, okl l -> P l -> head_drops l) ->
  spec [] P (next_ toks) (fun _ => []) (fun _ l' => exists l, okl l /\ P l /\ rest l' = tl (rest l)).
Proof.
  intros P H l g r l' g' O p E. injection E as <- <- <-. destruct (advance_rest l O) as (O1 & R1 & I1).
  split; [exact O1|]. split; [exact I1|]. split; [reflexivity|]. destruct (H l O p) as (i & r & Er & S).
  exists [i], []. split; [rewrite R1, Er; reflexivity|]. split; [symmetry; apply app_nil_r|]. split; [|exists l; auto].
  cbn. apply keeps_drop; [exact S|constructor].
Qed.
Lemma spec_pop_hist : forall P : lx -> Prop, (forall l, okl l -> P l -> head_drops l) ->
  spec [] P (pop_ toks) (fun _ => []) (fun _ l' => exists l, okl l /\ P l /\ rest l' = tl (rest l)).
Proof.
  intros P H l g r l' g' O p E. injection E as <- <- <-. destruct (advance_rest l O) as (O1 & R1 & I1).
  split; [exact O1|]. split; [exact I1|]. split; [reflexivity|]. destruct (H l O p) as (i & r & Er & S).
  exists [i], []. split; [rewrite R1, Er; reflexivity|]. split; [symmetry; apply app_nil_r|]. split; [|exists l; auto].
  cbn. apply keeps_drop; [exact S|constructor].
Qed.
Lemma spec_next : forall P : lx -> Prop, (forall l, okl l -> P l -> head_is structural l) -> adds_if P (next_ toks).
Proof.
  intros P H. eapply spec_weaken; [apply (spec_next_hist P)| |]; triv. apply head_structural. auto.
Qed.
Lemma spec_next_end : forall P : lx -> Prop, (forall l, okl l -> P l -> head_is structural l \/ rest l = []) -> adds_if P (next_ toks).
Proof.
  intros P H l g r l' g' O p E. destruct (H l O p) as [S|S]; [exact (spec_next (head_is structural) (fun _ _ x => x) _ _ _ _ _ O S E)|].
  injection E as <- <- <-. destruct (advance_rest l O) as (O1 & R1 & I1).
  split; [exact O1|]. split; [exact I1|]. split; [reflexivity|]. exists [], []. rewrite R1, S. split; [reflexivity|].
  split; [symmetry; apply app_nil_r|]. split; [constructor|exact I].
Qed.
Lemma pop_rest : forall l, okl l -> rest l = olist (lpos l) ++ rest (advance l).
Proof.
  intros l O. destruct (advance_rest l O) as (O1 & R1 & I1). rewrite R1, rest_pos by exact O. destruct (rest l); reflexivity.
Qed.
Lemma spec_pop : forall d P, spec d P (pop_ toks) (fun o => d ++ olist o)
  (fun o l' => exists l, okl l /\ P l /\ o = hd_error (rest l) /\ rest l' = tl (rest l)).
Proof.
  intros d P l g r l' g' O p E. injection E as <- <- <-. destruct (advance_rest l O) as (O1 & R1 & I1).
  split; [exact O1|]. split; [exact I1|]. split; [reflexivity|]. exists (olist (lpos l)), []. split; [apply pop_rest; exact O|].
  split; [symmetry; apply app_nil_r|]. split; [apply keeps_all|]. exists l. split; [exact O|]. split; [exact p|].
  split; [apply rest_pos; exact O|exact R1].
Qed.

(** trees *)
Lemma spec_push_node : forall t d P, TreeProofs.flat t = [TreeSpec.node_of t] -> ftoks [t] = [] ->
  spec d P (push (TreeSpec.node_of t)) (fun _ => d) (fun _ => P).
Proof.
  intros t d P F T l g r l' g' O p E. injection E as <- <- <-. split; [exact O|]. split; [reflexivity|]. split; [reflexivity|].
  exists [], [t]. split; [reflexivity|]. split; [cbn; rewrite F, ?app_nil_r; reflexivity|]. rewrite T, app_nil_r. split; [apply keeps_all|exact p].
Qed.
Lemma spec_empty : forall d P, spec d P empty_ (fun _ => d) (fun _ => P).
Proof. intros. apply (spec_push_node (MonoLeaf nEmpty MNone)); reflexivity. Qed.
Lemma spec_error : forall d P, spec d P (error_ toks) (fun _ => d) (fun _ => P).
Proof.
  intros d P l g r l' g' O p E. apply (spec_push_node (MonoLeaf nErrorInfoToken MErr) d P eq_refl eq_refl l g); auto.
  unfold error_ in E. destruct (if finished l then llast l else lpos l) as [i|]; [destruct (has_loc toks i); [|discriminate]|]; exact E.
Qed.
Lemma spec_fail : forall A P D Q, spec [] P (fail_ toks (A:=A)) D Q.
Proof. intros. eapply spec_bind; [apply spec_error|]. intros a. apply spec_bad. Qed.
Lemma spec_tok : forall k o P, spec (olist o) P (tok_ k o) (fun _ => []) (fun _ => P).
Proof.
  intros k o P l g r l' g' O p E. injection E as <- <- <-. split; [exact O|]. split; [reflexivity|]. split; [reflexivity|].
  exists [], [Leaf k o]. split; [reflexivity|]. split; [reflexivity|]. split; [|exact p]. destruct o; repeat constructor.
Qed.
Lemma take_adds : forall k P, adds_if P (take toks k).
Proof.
  intros k P. eapply spec_bind; [apply spec_pop|]. intros o. eapply spec_weaken; [apply (spec_tok k o (fun _ => True))| |]; triv.
Qed.
Lemma spec_take_hist : forall k P, spec [] P (take toks k) (fun _ => []) (fun _ l' => exists l, okl l /\ P l /\ rest l' = tl (rest l)).
Proof.
  intros k P. eapply spec_bind; [apply spec_pop|]. intros o.
  eapply spec_weaken; [apply (spec_tok k o (fun l' => exists l, okl l /\ P l /\ rest l' = tl (rest l)))| |]; triv.
  destruct H0 as (l0 & O0 & P0 & _ & R). exists l0. auto.
Qed.
(** taking a token when the second one is known *)
Lemma spec_take2 : forall k f, spec [] (fun l => exists i j r t, rest l = i :: j :: r /\ nth_error toks j = Some t /\ f (okind t) = true)
  (take toks k) (fun _ => []) (fun _ l => head_is f l).
Proof.
  intros k f. eapply spec_bind; [apply spec_pop|]. intros o. eapply spec_weaken; [apply (spec_tok k o)|intros l O H; exact H|].
  cbv beta. intros _ l' O' (l & O & (i & j & r & t & E & Et & F) & Eo & R). rewrite E in R. exists j, r, t. auto.
Qed.

(** *** Derived steps *)
Lemma spec_expect : forall f P, spec [] P (expect toks f) (fun _ => []) (fun _ l => head_is f l /\ P l).
Proof.
  intros f P. unfold expect. apply spec_test; [|apply spec_fail]. intros l g r l' g' O [p H] E. injection E as <- <- <-.
  split; [exact O|]. split; [reflexivity|]. split; [reflexivity|]. exists [], []. split; [reflexivity|]. split; [symmetry; apply app_nil_r|].
  split; [constructor|]. split; [apply at_head; auto|exact p].
Qed.
Lemma try_skip_adds : forall f P, (forall k, f k = true -> structural k = true) -> adds_if P (try_skip toks f).
Proof.
  intros f P H. eapply spec_bind; [apply spec_expect|]. intros ?; cbv beta. apply spec_next. intros l _ [h _]. exact (head_impl _ _ _ H h).
Qed.
Lemma try_take_adds : forall k f P, adds_if P (try_take toks k f).
Proof. intros k f P. eapply spec_bind; [apply spec_expect|]. intros ?; cbv beta. apply take_adds. Qed.
Lemma sub_parse_adds : forall A d P (m : M A) D Q, spec d P m D Q -> spec d P (sub_parse toks m) D Q.
Proof.
  intros A d P m D Q H l g r l' g' O p E. unfold sub_parse in E. destruct (m l g) as [[[[a|] l1] g1]| | |] eqn:Em; try discriminate.
  - injection E as <- <- <-. exact (H _ _ _ _ _ O p Em).
  - destruct (H _ _ _ _ _ O p Em) as (O1 & I1 & B1 & c1 & t1 & R1 & N1 & K1).
    destruct (spec_fail A (fun _ => True) D Q _ _ _ _ _ O1 I E) as (O2 & I2 & B2 & c2 & t2 & R2 & N2 & K2).
    split; [exact O2|]. split; [congruence|]. split; [congruence|]. exists (c1 ++ c2), (t1 ++ t2).
    split; [rewrite R1, R2, app_assoc; reflexivity|]. split; [rewrite N2, N1, TreeProofs.fflat_app, app_assoc; reflexivity|].
    rewrite app_assoc, ftoks_app. destruct r as [a|].
    + exfalso. unfold fail_, bind, error_ in E. destruct (if finished l1 then llast l1 else lpos l1) as [i|]; [destruct (has_loc toks i)|]; discriminate.
    + apply keeps_app; auto.
Qed.
Lemma attempt_adds : forall A P (m : M A), adds_if P m -> adds_if P (attempt m).
Proof.
  intros A P m H l g r l' g' O p E. unfold attempt in E. destruct (m l g) as [[[[a|] l1] g1]| | |] eqn:Em; try discriminate;
    injection E as <- <- <-; destruct (H _ _ _ _ _ O p Em) as (O1 & I1 & B1 & c1 & t1 & R1 & N1 & K1);
    (split; [exact O1|]; split; [exact I1|]; split; [exact B1|]; exists c1, t1; split; [exact R1|]; split; [exact N1|]).
  - destruct K1 as [K1 _]. auto.
  - rewrite app_nil_r. auto.
Qed.
Lemma ignore_adds : forall A P (m : M A), adds_if P m -> adds_if P (ignore m).
Proof. intros A P m H. apply adds_bind; [apply attempt_adds; exact H|]. intros a. apply adds_ret. Qed.

Lemma start_tree_eq : forall (g : grp) k,
  fst (TreeModel.start_tree g (TreeModel.mkNode k (TreeModel.Ext 0))) =
  TreeModel.mkGroup (nodes g ++ [TreeModel.mkNode k (TreeModel.Ext 0)]) (length (nodes g) :: pending g).
Proof. reflexivity. Qed.
Lemma spec_guard : forall A P k (m : M A) D Q, spec [] P m D Q -> spec [] P (guard k m) D Q.
Proof.
  intros A P k m D Q H l g r l' g' O p E. unfold guard in E. rewrite start_tree_eq in E.
  destruct (m l _) as [[[r1 l1] g1]| | |] eqn:Em; try discriminate.
  destruct (H _ _ _ _ _ O p Em) as (O1 & I1 & B1 & c1 & t1 & R1 & N1 & K1). cbn [TreeModel.nodes TreeModel.pending] in *.
  destruct g1 as [ns1 pd1]. cbn [TreeModel.nodes TreeModel.pending] in *. subst ns1 pd1. rewrite <- app_assoc in E. cbn [app] in E.
  rewrite TreeProofs.end_tree_closes in E. cbn [obind TreeModel.pending] in E. rewrite Nat.eqb_refl in E. injection E as <- <- <-.
  split; [exact O1|]. split; [exact I1|]. split; [reflexivity|]. exists c1, [Branch k t1]. split; [exact R1|]. split.
  - cbn [TreeModel.nodes]. rewrite TreeProofs.fflat_length. unfold TreeProofs.fflat. cbn. rewrite app_nil_r. reflexivity.
  - rewrite ftoks_branch. exact K1.
Qed.
Lemma spec_while : forall n P c (body : M unit),
  spec [] (fun l => P l /\ c l = true) body (fun _ => []) (fun _ => P) ->
  spec [] P (while_ n c body) (fun _ => []) (fun _ l => P l /\ c l = false).
Proof.
  induction n as [|n IH]; intros P c body H; cbn [while_]; [apply spec_spent|]. apply spec_test.
  - eapply spec_bind; [exact H|]. intros ?; cbv beta. apply IH. exact H.
  - eapply spec_weaken; [apply spec_ret|intros l O x; exact x|]. cbv beta. intros _ l O [_ x]. exact x.
Qed.
Lemma while_adds : forall n c body P, adds_if (fun l => c l = true) body -> adds_if P (while_ n c body).
Proof.
  intros n c body P H. eapply spec_weaken with (P := fun _ => True); [apply spec_while|triv|triv].
  eapply spec_weaken; [exact H|intros l O [_ x]; exact x|triv].
Qed.

(** *** Nested lexers *)
Definition ids_ok (ids : list (option nat)) : Prop := ids = map Some (flat_map olist ids) /\ gapped (flat_map olist ids).
Lemma ids_ok_seg : forall l js r, okl l -> rest l = js ++ r -> ids_ok (map Some js).
Proof.
  intros l js r O E. unfold ids_ok. rewrite olist_map. split; [reflexivity|]. pose proof (rest_gapped l O) as G. rewrite E in G.
  apply (gapped_app _ _ G).
Qed.
Lemma collect_run : forall n stop l g r l' g', okl l -> collect toks n stop l g = Ok (r, l', g') ->
  okl l' /\ lids l' = lids l /\ g' = g /\ (rest l' = [] \/ stop l' = true) /\
  exists js, r = Some (map Some js) /\ rest l = js ++ rest l'.
Proof.
  induction n as [|n IH]; intros stop l g r l' g' O E; [discriminate|]. cbn [collect] in E. unfold test in E.
  unfold can_search in E. rewrite finished_rest in E by exact O. destruct (rest l) as [|i q] eqn:Er; cbn [negb andb] in E.
  - injection E as <- <- <-. split; [exact O|]. split; [reflexivity|]. split; [reflexivity|]. split; [auto|]. exists []. rewrite Er. auto.
  - destruct (stop l) eqn:Es; cbn [negb] in E.
    + injection E as <- <- <-. split; [exact O|]. split; [reflexivity|]. split; [reflexivity|]. split; [auto|]. exists []. rewrite Er. auto.
    + unfold bind, pop_ in E. destruct (advance_rest l O) as (O1 & R1 & I1).
      destruct (collect toks n stop (advance l) g) as [[[r1 l1] g1]| | |] eqn:Ec; try discriminate.
      destruct (IH _ _ _ _ _ _ O1 Ec) as (O2 & I2 & -> & St & js & -> & R2). injection E as <- <- <-.
      split; [exact O2|]. split; [congruence|]. split; [reflexivity|]. split; [exact St|]. exists (i :: js).
      rewrite (pos_rest _ _ _ O Er). split; [reflexivity|]. rewrite Er in R1. cbn [tl] in R1. rewrite <- R1, R2. reflexivity.
Qed.
Lemma collect_until_run : forall n stop l g r l' g', (forall l, okl l -> stop l = true -> rest l <> []) ->
  okl l -> collect_until toks n stop l g = Ok (r, l', g') ->
  okl l' /\ lids l' = lids l /\ g' = g /\ exists js, r = Some (map Some js) /\ rest l = js ++ rest l'.
Proof.
  induction n as [|n IH]; intros stop l g r l' g' H O E; [discriminate|]. cbn [collect_until] in E. unfold test in E.
  destruct (stop l) eqn:Es.
  - injection E as <- <- <-. split; [exact O|]. split; [reflexivity|]. split; [reflexivity|]. exists []. auto.
  - unfold bind, pop_ in E. destruct (advance_rest l O) as (O1 & R1 & I1).
    destruct (collect_until toks n stop (advance l) g) as [[[r1 l1] g1]| | |] eqn:Ec; try discriminate.
    destruct (rest l) as [|i q] eqn:Er.
    + exfalso. clear IH E. revert Ec. cbn [tl] in R1. clear - H O1 R1. revert r1 l1 g1.
      generalize dependent (advance l). clear l. induction n as [|n IH]; intros l O R r1 l1 g1 E; [discriminate|].
      cbn [collect_until] in E. unfold test in E. destruct (stop l) eqn:Es; [exact (H l O Es R)|].
      unfold bind, pop_ in E. destruct (collect_until toks n stop (advance l) g) as [[[r2 l2] g2]| | |] eqn:Ec; try discriminate.
      destruct (advance_rest l O) as (O1 & R1 & I1). rewrite R in R1. exact (IH _ O1 R1 _ _ _ Ec).
    + destruct (IH _ _ _ _ _ _ H O1 Ec) as (O2 & I2 & -> & js & -> & R2). injection E as <- <- <-.
      split; [exact O2|]. split; [congruence|]. split; [reflexivity|]. exists (i :: js).
      rewrite (pos_rest _ _ _ O Er). split; [reflexivity|]. cbn [tl] in R1. rewrite <- R1, R2. reflexivity.
Qed.
(** what fills a nested lexer leaves the debt of its tokens *)
Definition fills (P : lx -> Prop) (m : M (list (option nat))) : Prop :=
  spec [] P m (fun ids => flat_map olist ids) (fun ids _ => ids_ok ids).
Lemma collect_fills : forall n stop P, fills P (collect toks n stop).
Proof.
  intros n stop P l g r l' g' O p E. destruct (collect_run _ _ _ _ _ _ _ O E) as (O1 & I1 & -> & St & js & -> & R).
  split; [exact O1|]. split; [exact I1|]. split; [reflexivity|]. exists js, []. split; [exact R|]. split; [symmetry; apply app_nil_r|].
  rewrite olist_map. split; [apply keeps_all|]. exact (ids_ok_seg _ _ _ O R).
Qed.
Lemma collect_until_fills : forall n stop P, (forall l, okl l -> stop l = true -> rest l <> []) -> fills P (collect_until toks n stop).
Proof.
  intros n stop P H l g r l' g' O p E. destruct (collect_until_run _ _ _ _ _ _ _ H O E) as (O1 & I1 & -> & js & -> & R).
  split; [exact O1|]. split; [exact I1|]. split; [reflexivity|]. exists js, []. split; [exact R|]. split; [symmetry; apply app_nil_r|].
  rewrite olist_map. split; [apply keeps_all|]. exact (ids_ok_seg _ _ _ O R).
Qed.

(** a parser that always takes all of its lexer *)
Definition eats (m : M unit) : Prop :=
  spec [] (fun _ => True) m (fun _ => []) (fun _ l => rest l = []) /\ forall l g l' g', okl l -> m l g <> Ok (None, l', g').
Lemma eats_adds : forall m, eats m -> adds m.
Proof. intros m [H _]. eapply spec_weaken; [exact H| |]; triv. Qed.
Lemma sub_parse_eats : forall m, eats m -> eats (sub_parse toks m).
Proof.
  intros m [H F]. split; [apply sub_parse_adds; exact H|]. intros l g l' g' O E. unfold sub_parse in E.
  destruct (m l g) as [[[[a|] l1] g1]| | |] eqn:Em; try discriminate. exact (F _ _ _ _ O Em).
Qed.
Lemma spec_run_sub : forall ids m, eats m -> spec (flat_map olist ids) (fun _ => ids_ok ids) (run_sub ids m) (fun _ => []) (fun _ _ => True).
Proof.
  intros ids m [H F] l g r l' g' O [Ei G] E. unfold run_sub in E. destruct (m (sub_lexer ids) g) as [[[r1 l1] g1]| | |] eqn:Em; try discriminate.
  injection E as <- <- <-.
  assert (Os : okl (sub_lexer ids) /\ rest (sub_lexer ids) = flat_map olist ids).
  { remember (flat_map olist ids) as js eqn:Ej. clear Ej. subst ids. unfold okl, rest, sub_lexer. cbn [lpos lsub]. destruct js as [|j js].
    - cbn. split; [|reflexivity]. exists []. auto.
    - cbn [map hd]. split; [exists (j :: js); auto|]. cbn [skipn]. change (Some j :: map Some js) with (map Some (j :: js)). apply olist_map. }
  destruct Os as [Os Rs]. destruct (H _ _ _ _ _ Os I Em) as (O1 & I1 & B1 & c & ts & R & N & K).
  split; [exact O|]. split; [reflexivity|]. split; [exact B1|]. exists [], ts. split; [reflexivity|]. split; [exact N|].
  destruct r1 as [u|]; [|exfalso; exact (F _ _ _ _ Os Em)]. destruct K as [K R0]. rewrite R0, app_nil_r in R. rewrite app_nil_r, <- Rs, R.
  split; [exact K|exact I].
Qed.
Lemma spec_in_sub : forall ids m, eats m -> spec (flat_map olist ids) (fun _ => ids_ok ids) (in_sub ids m) (fun _ => []) (fun _ _ => True).
Proof. intros [|i ids] m H; [apply spec_crash|]. exact (spec_run_sub (i :: ids) m H). Qed.
Lemma spec_par_or_empty : forall ids m, eats m -> spec (flat_map olist ids) (fun _ => ids_ok ids) (par_or_empty toks m ids) (fun _ => []) (fun _ _ => True).
Proof.
  intros [|i ids] m H.
  - eapply spec_weaken; [apply (spec_empty [] (fun _ => True))| |]; triv.
  - exact (spec_in_sub (i :: ids) _ (sub_parse_eats _ H)).
Qed.
Lemma fills_bind : forall P (m : M (list (option nat))) B (k : list (option nat) -> M B), fills P m ->
  (forall ids, spec (flat_map olist ids) (fun _ => ids_ok ids) (k ids) (fun _ => []) (fun _ _ => True)) -> adds_if P (bind m k).
Proof. intros P m B k H Hk. eapply spec_bind; [exact H|]. intros ids. eapply spec_weaken; [apply Hk| |]; triv. Qed.
Lemma spec_then : forall B (ids : list (option nat)) (m : M unit) (k : M B),
  spec (flat_map olist ids) (fun _ => ids_ok ids) m (fun _ => []) (fun _ _ => True) -> adds k ->
  spec (flat_map olist ids) (fun _ => ids_ok ids) (m ;; k) (fun _ => []) (fun _ _ => True).
Proof. intros B ids m k H Hk. eapply spec_bind; [exact H|]. intros []. exact Hk. Qed.

End Logic.
