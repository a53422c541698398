(** Proofs for C125. *)
From Coq Require Import String.
From Verif Require Import Base StrModel ConvModel ColModel ColSpec.
From Verif Require TimeSpec TimeProofs ConvProofs.
Local Open Scope Z_scope.

Lemma take_stop p a r : Forall (fun c => p c = true) a -> match r with c :: _ => p c = false | [] => True end ->
  take p (a ++ r) = (a, r).
Proof.
  intros F S. induction F as [|c a C F IH]; cbn [app take].
  - destruct r as [|c r]; [reflexivity|]. cbn [take]. now rewrite S.
  - now rewrite C, IH.
Qed.
Lemma bracketed_ok d a r : a <> [] -> Forall (fun c => 0 <= c <= 127 /\ c <> d) a -> bracketed d (a ++ d :: r) = Some (a, r).
Proof.
  intros N F. unfold bracketed. rewrite take_stop.
  - destruct a; [congruence|]. now rewrite Z.eqb_refl.
  - eapply Forall_impl; [|exact F]. intros c [C1 C2]. unfold ascii_but. apply Z.eqb_neq in C2. rewrite C2. lia.
  - unfold ascii_but. rewrite Z.eqb_refl. now rewrite Bool.andb_false_r.
Qed.

(** What may follow a part *)
Definition head_not (P : Z -> bool) (r : str) : Prop := match r with c :: _ => P c = false | [] => True end.
Lemma width_ok w s r : width_text w s -> head_not digit r -> read_width (s ++ r) = Some (w, r).
Proof.
  intros W H. unfold read_width. destruct W as [|s n (N & F & E) L].
  - cbn [app]. destruct r as [|c r]; [reflexivity|]. cbn [take]. cbn in H. now rewrite H.
  - rewrite take_stop; [|eapply Forall_impl; [|exact F]; intros c C; cbv beta in *; unfold digit; apply andb_true_intro; split; apply Z.leb_le; lia|exact H].
    destruct s as [|c s]; [congruence|]. rewrite <- E. replace (n <=? 2147483647) with true by lia. reflexivity.
Qed.
Definition after_field (c : Z) : bool := wordc c || (c =? 40).
Lemma letter_iff c : alpha c = true <-> letter c.
Proof. unfold alpha, letter. lia. Qed.
Lemma word_iff c : wordc c = true <-> word_char c.
Proof. unfold wordc, word_char, digit. rewrite !Bool.orb_true_iff, letter_iff, Bool.andb_true_iff, !Z.leb_le, Z.eqb_eq. tauto. Qed.
Lemma name_take p : name p -> Forall (fun c => wordc c = true) p /\ exists c r, p = c :: r /\ alpha c = true.
Proof.
  intros (c & r & -> & C & F). split; [|exists c, r; split; [reflexivity|now apply letter_iff]].
  constructor; [apply word_iff; now left|]. eapply Forall_impl; [|exact F]. intros d. apply word_iff.
Qed.
Lemma field_ok p t s r : field_text p t s -> head_not after_field r -> read_field (s ++ r) = Some (p, t, r).
Proof.
  intros W H. destruct W as [|p N|p t N T].
  - cbn [app]. destruct r as [|c r]; [reflexivity|]. cbn [read_field]. cbn in H. unfold after_field, wordc in H.
    replace (alpha c) with false by (destruct (alpha c); [discriminate H|reflexivity]). reflexivity.
  - destruct (name_take p N) as [F (c & q & E & A)].
    assert (K : take wordc (p ++ r) = (p, r)).
    { apply take_stop; [exact F|]. destruct r as [|d r]; [exact I|]. cbn in H. unfold after_field in H. now apply Bool.orb_false_iff in H. }
    unfold read_field. destruct (p ++ r) as [|d m] eqn:E2; [subst p; discriminate E2|].
    assert (d = c) by (subst p; cbn in E2; congruence). subst d. rewrite A, K.
    destruct r as [|d r]; [reflexivity|]. cbn in H. unfold after_field in H. apply Bool.orb_false_iff in H as [_ H].
    assert (D : d <> 40) by lia. destruct d as [|d|d]; try reflexivity.
    do 6 (destruct d as [d|d|]; try reflexivity). congruence.
  - destruct (name_take p N) as [F (c & q & E & A)]. destruct T as [T1 T2].
    assert (K : take wordc ((p ++ lit "(" ++ t ++ lit ")") ++ r) = (p, 40 :: t ++ 41 :: r)).
    { rewrite <- !app_assoc. apply take_stop; [exact F|reflexivity]. }
    unfold read_field. destruct ((p ++ lit "(" ++ t ++ lit ")") ++ r) as [|d m] eqn:E2; [subst p; discriminate E2|].
    assert (d = c) by (subst p; cbn in E2; congruence). subst d. rewrite A, K.
    rewrite bracketed_ok by assumption. reflexivity.
Qed.
Lemma summary_ok a s r : summary_text known a s -> head_not (fun c => c =? 123) r -> read_summary (s ++ r) = Some (a, r).
Proof.
  intros W H. destruct W as [|w a I].
  - cbn [app]. destruct r as [|d r]; [reflexivity|]. cbn in H. unfold read_summary.
    assert (D : d <> 123) by lia. destruct d as [|d|d]; try reflexivity.
    do 7 (destruct d as [d|d|]; try reflexivity). congruence.
  - change ((lit "{" ++ lit w ++ lit "}") ++ r) with (123 :: (lit w ++ [125]) ++ r). rewrite <- app_assoc. cbn [read_summary app].
    unfold known in I.
    repeat (destruct I as [I|I]; [injection I as <- <-; reflexivity|]). destruct I.
Qed.
Lemma seen r : match r with c :: _ => spacec c = true | [] => True end ->
  head_not digit r /\ head_not after_field r /\ head_not (fun c => c =? 123) r.
Proof.
  destruct r as [|c r]; [cbn; auto|]. intros S. unfold spacec in S. cbn [head_not]. unfold after_field, wordc, alpha, digit.
  repeat split; lia.
Qed.
Lemma head_app P s r : (s = [] -> head_not P r) -> (forall c m, s = c :: m -> P c = false) -> head_not P (s ++ r).
Proof. destruct s as [|c m]; intros A B; [now apply A|]. cbn. now apply (B c m). Qed.
Lemma summary_head names a s : summary_text names a s -> forall c m, s = c :: m -> c = 123.
Proof. destruct 1; intros c m E; [discriminate E|]. injection E as <- _. reflexivity. Qed.
Lemma column_ok c s r : column_text known c s -> match r with c :: _ => spacec c = true | [] => True end ->
  read_column (s ++ r) = Some (c, r).
Proof.
  intros W S. destruct (seen r S) as (H1 & H2 & H3). destruct W as [w ws p t fs a ss W F A].
  change (read_column (37 :: (ws ++ fs ++ ss) ++ r) = Some (Column w p t a, r)). cbn [read_column].
  rewrite <- !app_assoc.
  rewrite (width_ok w ws); [|exact W|].
  - rewrite (field_ok p t fs); [|exact F|].
    + now rewrite (summary_ok a ss).
    + apply head_app; [auto|]. intros d m E. apply (summary_head _ _ _ A) in E. subst d. reflexivity.
  - apply head_app.
    + intros ->. apply head_app; [auto|]. intros d m E. apply (summary_head _ _ _ A) in E. subst d. reflexivity.
    + intros d m E. destruct F as [|q N|q u N T]; [discriminate E| |];
        destruct N as (e & n & -> & L & _); cbn in E; injection E as <- _; unfold letter in L; unfold digit; lia.
Qed.
Lemma list_ok l s : view_text known l s -> forall n, (length s < n)%nat -> read_list n s = Some l.
Proof.
  induction 1 as [c s C|c s g l r C G V IH]; intros n N; (destruct n as [|n]; [lia|]); cbn [read_list].
  - rewrite <- (app_nil_r s). now rewrite (column_ok c s []).
  - assert (spacec g = true) by (unfold spacec, gap in *; lia).
    rewrite (column_ok c s (g :: r)) by assumption. rewrite H. rewrite app_length in N. cbn in N.
    rewrite IH by lia. reflexivity.
Qed.

(** The ends of a line *)
Lemma column_ends names c s : column_text names c s ->
  (exists m, s = 37 :: m) /\ forall d, exists e m, d :: s = m ++ [e] /\ e <> 32.
Proof.
  intros W. destruct W as [w ws p t fs a ss W F A]. split; [eexists; reflexivity|]. intros d.
  assert (K : forall u v : str, (exists e m, v = m ++ [e] /\ e <> 32) -> exists e m, u ++ v = m ++ [e] /\ e <> 32).
  { intros u v (e & m & -> & E). exists e, (u ++ m). split; [now rewrite app_assoc|exact E]. }
  destruct A as [|n a I].
  2: { change (d :: lit "%" ++ ws ++ fs ++ lit "{" ++ lit n ++ lit "}") with ([d; 37] ++ ws ++ fs ++ [123] ++ lit n ++ [125]).
       do 5 apply K. exists 125, []. split; [reflexivity|lia]. }
  rewrite app_nil_r. destruct F as [|q N|q u N T].
  - rewrite app_nil_r. destruct W as [|s n (N & F & _) _].
    + exists 37, [d]. split; [reflexivity|lia].
    + destruct (exists_last N) as (m & e & ->). exists e, ([d; 37] ++ m). split; [reflexivity|].
      apply Forall_app in F as [_ F]. inversion F; subst. lia.
  - change (d :: lit "%" ++ ws ++ q) with ([d; 37] ++ ws ++ q). do 2 apply K.
    destruct (name_take q N) as [F (c & r & E & _)].
    assert (NE : q <> []) by (subst q; discriminate).
    destruct (exists_last NE) as (m & e & E'). rewrite E' in F |- *. exists e, m. split; [reflexivity|].
    apply Forall_app in F as [_ F]. inversion F as [|? ? F1 _]; subst. intros ->. discriminate F1.
  - change (d :: lit "%" ++ ws ++ q ++ lit "(" ++ u ++ lit ")") with ([d; 37] ++ ws ++ q ++ [40] ++ u ++ [41]).
    do 5 apply K. exists 41, []. split; [reflexivity|lia].
Qed.
Lemma view_ends names l s : view_text names l s ->
  (exists m, s = 37 :: m) /\ forall d, exists e m, d :: s = m ++ [e] /\ e <> 32.
Proof.
  induction 1 as [c s C|c s g l r C G V [_ IH]]; [now apply (column_ends names c)|].
  destruct (column_ends names c s C) as [(m & ->) _]. split; [eexists; reflexivity|]. intros d.
  destruct (IH g) as (e & q & E & NE). exists e, (d :: (37 :: m) ++ q). split; [|exact NE].
  rewrite E. cbn [app]. now rewrite <- app_assoc.
Qed.
Lemma view_trim names l s a b : view_text names l s -> Forall (eq 32) a -> Forall (eq 32) b -> strip_space (a ++ s ++ b) = s.
Proof.
  intros V A B. destruct (view_ends names l s V) as [(m & E) L]. apply ConvProofs.strip_trims.
  exists a, b. split; [reflexivity|].
  split; [eapply Forall_impl; [|exact A]; intros x <-; now left|].
  split; [eapply Forall_impl; [|exact B]; intros x <-; now left|].
  split; [exists 37, m; split; [exact E|intros [X|[]]; discriminate X]|].
  destruct (L 0) as (e & q & E' & NE). destruct q as [|x q].
  - subst s. discriminate E'.
  - injection E' as _ E'. exists e, q. split; [exact E'|]. intros [X|[]]. congruence.
Qed.
Lemma read_ok l s a b : view_text known l s -> Forall (eq 32) a -> Forall (eq 32) b -> read_view (a ++ s ++ b) = Some l.
Proof. intros V A B. unfold read_view. rewrite (view_trim known l s a b) by assumption. apply list_ok; [exact V|lia]. Qed.

(** Writing *)
Lemma write_text c : plain_column c -> csum c = None -> column_text known c (write_column c).
Proof.
  destruct c as [w p t a]. intros (W & P & T) S. cbn in *. subst a. unfold write_column. cbn [cwidth cprop ctitle csum opt].
  rewrite app_nil_r.
  replace (37 :: opt TimeModel.decimal w ++ opt (fun p => p) p ++ opt (fun t => lit "(" ++ t ++ lit ")") t)
    with (lit "%" ++ opt TimeModel.decimal w ++ (opt (fun p => p) p ++ opt (fun t => lit "(" ++ t ++ lit ")") t) ++ []) by (rewrite app_nil_r; reflexivity).
  constructor.
  - destruct w as [n|]; cbn; [|constructor]. destruct (W n eq_refl). constructor; [now apply TimeProofs.decimal_spec|lia].
  - destruct p as [p|], t as [t|]; cbn.
    + apply titled; [now apply P|now apply T].
    + rewrite app_nil_r. constructor. now apply P.
    + destruct (T t eq_refl) as [_ X]. congruence.
    + constructor.
  - constructor.
Qed.
Lemma write_view_text l : l <> [] -> Forall plain_column l -> Forall (fun c => csum c = None) l ->
  exists s, write_view l = 32 :: s /\ view_text known l s.
Proof.
  intros N F S. induction F as [|c l C F IH]; [congruence|]. inversion S as [|? ? S1 S2]; subst.
  destruct l as [|c' l].
  - exists (write_column c). split; [cbn; now rewrite app_nil_r|]. constructor. now apply write_text.
  - destruct IH as (s & E & V); [discriminate|exact S2|]. exists (write_column c ++ 32 :: s). split.
    + unfold write_view in *. cbn [flat_map] in *. rewrite E. reflexivity.
    + constructor; [now apply write_text|now right|exact V].
Qed.
