(** Proofs for C45 and C60. *)
From Coq Require Import List Bool Arith Lia.
From Verif Require Import Base ParaModel ParaSpec.
Import ListNotations.
Local Open Scope nat_scope.

Lemma kind_eqb_eq : forall a b, kind_eqb a b = true <-> a = b.
Proof. intros [] []; cbn; split; congruence. Qed.

Lemma lead_cons_inv : forall x l, lead (x :: l) -> marker x \/ nkind x = KBigIdent.
Proof. intros x l H. inversion H; subst; auto. Qed.

Lemma big_not_marker : forall x, nkind x = KBigIdent -> ~ marker x.
Proof. intros x E [H|[H _]]; [|congruence]. rewrite E in H. cbn in H. repeat (destruct H as [H|H]; try discriminate H). exact H. Qed.
Lemma colon_not_lead : forall y, is_colon y -> ~ marker y /\ nkind y <> KBigIdent.
Proof.
  intros y [K _]. split; [|congruence]. intros [H|[H _]]; [|congruence].
  rewrite K in H. cbn in H. repeat (destruct H as [H|H]; try discriminate H). exact H.
Qed.

(** What is kept of the part after the lead. *)
Definition tail_of (b : list node) : list node :=
  match b with x :: r => if kind_eqb (nkind x) KLink then r else b | [] => [] end.

Lemma whole_marker : forall x a b, marker x -> whole_lead a b -> whole_lead (x :: a) b.
Proof.
  intros x a b M [L W]. split; [now apply lead_marker|]. intros c d E H. apply (W c d E). cbn in H. inversion H; subst; auto.
  exfalso. eapply big_not_marker; eassumption.
Qed.
Lemma whole_colon : forall x y a b, nkind x = KBigIdent -> is_colon y -> whole_lead a b -> whole_lead (x :: y :: a) b.
Proof.
  intros x y a b K C [L W]. split; [now apply lead_colon|]. intros c d E H. apply (W c d E). cbn in H. inversion H; subst.
  - exfalso. eapply big_not_marker; eassumption.
  - exfalso. match goal with H : lead (y :: _) |- _ => apply lead_cons_inv in H end. apply colon_not_lead in C. tauto.
  - assumption.
Qed.
Lemma whole_word : forall x a b, nkind x = KBigIdent -> (forall y l, a ++ b = y :: l -> ~ is_colon y) -> whole_lead a b -> whole_lead (x :: a) b.
Proof.
  intros x a b K N [L W]. split; [now apply lead_word|]. intros c d E H. apply (W c d E). cbn in H.
  remember (a ++ c) as ac eqn:Ea. inversion H as [|? ? M|? ? B|? y l B C L' [Ex El]].
  - exfalso. eapply big_not_marker; eassumption.
  - assumption.
  - exfalso. apply (N y (l ++ d)); [|exact C]. rewrite E, app_assoc, <- Ea, <- El. reflexivity.
Qed.
Lemma whole_stop : forall x r, ordinary x -> whole_lead [] (x :: r).
Proof.
  intros x r [N B]. split; [constructor|]. intros c d E L. destruct c as [|y c]; [reflexivity|]. cbn in E. injection E as <- E.
  destruct (lead_cons_inv _ _ L); contradiction.
Qed.
Lemma whole_nil : whole_lead [] [].
Proof. split; [constructor|]. intros [|] d E; [reflexivity|discriminate]. Qed.

Lemma body_spec : forall n l, length l <= n -> exists a b, l = a ++ b /\ whole_lead a b /\ body l = tail_of b.
Proof.
  unfold body. induction n as [|n IH]; intros l Hn.
  { destruct l; [|cbn in Hn; lia]. exists [], []. split; [reflexivity|]. split; [apply whole_nil|reflexivity]. }
  destruct l as [|x l]; [exists [], []; split; [reflexivity|]; split; [apply whole_nil|reflexivity]|]. cbn [length] in Hn.
  cbn [body_loop].
  assert (M : marker x -> exists a b, x :: l = a ++ b /\ whole_lead a b /\ body_loop false l = tail_of b).
  { intros H. destruct (IH l) as (a & b & E & L & B); [lia|]. exists (x :: a), b. subst l.
    split; [reflexivity|]. split; [now apply whole_marker|]. exact B. }
  assert (Od : ordinary x -> forall l0, tail_of (x :: l) = l0 -> exists a b, x :: l = a ++ b /\ whole_lead a b /\ l0 = tail_of b).
  { intros H l0 E. exists [], (x :: l). split; [reflexivity|]. split; [now apply whole_stop|]. now symmetry. }
  destruct (nkind x) eqn:K; cbn [lead_kind].
  - (* BigIdent *)
    destruct l as [|y l].
    + exists [x], []. cbn. split; [reflexivity|]. split; [|reflexivity]. apply whole_word; [exact K|discriminate|apply whole_nil].
    + destruct (kind_eqb (nkind y) KPunctuation && colon y) eqn:C.
      * apply andb_true_iff in C. destruct C as [C1 C2]. apply kind_eqb_eq in C1. cbn [body_loop].
        destruct (IH l) as (a & b & E & L & B); [cbn in Hn; lia|]. exists (x :: y :: a), b. subst l.
        split; [reflexivity|]. split; [now apply whole_colon|]. exact B.
      * destruct (IH (y :: l)) as (a & b & E & L & B); [lia|]. exists (x :: a), b.
        split; [now rewrite E|]. split; [|exact B]. apply whole_word; [exact K| |exact L].
        intros z r Ez [C1 C2]. rewrite <- E in Ez. injection Ez as <- _. rewrite C1, C2 in C. discriminate.
  - apply Od.
    + split; [|congruence]. intros [H|[H _]]; [|congruence]. rewrite K in H. cbn in H. intuition discriminate.
    + unfold tail_of. now rewrite K.
  - destruct (footnote x) eqn:F.
    + apply M. right. now split.
    + apply Od.
      * split; [|congruence]. intros [H|[_ H]]; [|congruence]. rewrite K in H. cbn in H. intuition discriminate.
      * unfold tail_of. now rewrite K.
  - apply M. left. rewrite K. cbn. auto.
  - apply M. left. rewrite K. cbn. auto.
  - apply M. left. rewrite K. cbn. auto.
  - apply M. left. rewrite K. cbn. auto.
  - apply Od.
    + split; [|congruence]. intros [H|[H _]]; [|congruence]. rewrite K in H. cbn in H. intuition discriminate.
    + unfold tail_of. now rewrite K.
Qed.

Lemma app_split : forall {A} (a b a' b' : list A), a ++ b = a' ++ b' ->
  (exists c, a' = a ++ c /\ b = c ++ b') \/ (exists c, a = a' ++ c /\ b' = c ++ b).
Proof.
  induction a as [|x a IH]; intros b a' b' E; [left; exists a'; cbn in *; auto|].
  destruct a' as [|y a']; cbn in E; [right; exists (x :: a); split; auto; now rewrite <- E|].
  injection E as <- E. destruct (IH _ _ _ E) as [(c & -> & ->)|(c & -> & ->)]; [left|right]; exists c; auto.
Qed.
Lemma whole_unique : forall a b a' b', whole_lead a b -> whole_lead a' b' -> a ++ b = a' ++ b' -> a = a' /\ b = b'.
Proof.
  intros a b a' b' [L W] [L' W'] E. destruct (app_split _ _ _ _ E) as [(c & -> & ->)|(c & -> & ->)].
  - rewrite (W c b' eq_refl L'). rewrite app_nil_r. auto.
  - rewrite (W' c b eq_refl L). rewrite app_nil_r. auto.
Qed.
Lemma body_whole : forall a b, whole_lead a b -> body (a ++ b) = tail_of b.
Proof.
  intros a b W. destruct (body_spec (length (a ++ b)) (a ++ b) (le_n _)) as (a' & b' & E & W' & B).
  destruct (whole_unique _ _ _ _ W W' E) as [-> ->]. exact B.
Qed.

Lemma lead_app : forall a c, lead a -> lead c -> lead (a ++ c).
Proof. induction 1; intros Lc; cbn; [exact Lc|apply lead_marker; auto|apply lead_word; auto|apply lead_colon; auto]. Qed.
Lemma whole_ordinary : forall a x r, whole_lead a (x :: r) -> ordinary x.
Proof.
  intros a x r [L W]. split; intros M.
  - assert (C : [x] = []) by (apply (W [x] r eq_refl), lead_app; auto; apply lead_marker; auto; constructor). discriminate C.
  - assert (C : [x] = []) by (apply (W [x] r eq_refl), lead_app; auto; apply lead_word; auto; constructor). discriminate C.
Qed.
Lemma whole_exists : forall l, exists a b, l = a ++ b /\ whole_lead a b.
Proof. intros l. destruct (body_spec (length l) l (le_n _)) as (a & b & E & W & _). eauto. Qed.

Lemma lead_kind_in : forall k, lead_kind k = true <-> In k [KBigIdent; KHashTag; KTime; KRadioTarget; KSpace].
Proof. intros []; cbn; intuition (try discriminate). Qed.
Lemma lead_nodes_filter : forall k a b, In k [KBigIdent; KHashTag; KTime] -> simple_lead a b ->
  lead_nodes k (a ++ b) = filter (fun x => kind_eqb (nkind x) k) a.
Proof.
  intros k a b Hk [A B]. induction a as [|x a IH]; cbn [app lead_nodes filter].
  - destruct b as [|y b]; [reflexivity|]. cbn [lead_nodes]. destruct (kind_eqb (nkind y) k) eqn:E.
    + apply kind_eqb_eq in E. exfalso. apply B. rewrite E. cbn in *. intuition.
    + destruct (lead_kind (nkind y)) eqn:L; [|reflexivity]. apply lead_kind_in in L. contradiction.
  - rewrite IH by (intros y Hy; apply A; now right). destruct (kind_eqb (nkind x) k); [reflexivity|].
    destruct (lead_kind (nkind x)) eqn:L; [reflexivity|]. exfalso.
    assert (Hx : In (nkind x) [KBigIdent; KHashTag; KTime; KRadioTarget; KSpace]) by (apply A; now left).
    apply lead_kind_in in Hx. congruence.
Qed.
Lemma simple_exists : forall l, exists a b, l = a ++ b /\ simple_lead a b.
Proof.
  induction l as [|x l IH].
  - exists [], []. repeat split. intros x [].
  - destruct (lead_kind (nkind x)) eqn:L.
    + destruct IH as (a & b & -> & A & B). exists (x :: a), b. split; [reflexivity|]. split; [|exact B].
      intros y [<-|Hy]; [now apply lead_kind_in|auto].
    + exists [], (x :: l). split; [reflexivity|]. split; [intros y []|]. intros H. apply lead_kind_in in H. congruence.
Qed.
(** The simple lead is a beginning of the whole lead. *)
Lemma simple_is_lead : forall a, (forall x, In x a -> In (nkind x) [KBigIdent; KHashTag; KTime; KRadioTarget; KSpace]) -> lead a.
Proof.
  induction a as [|x a IH]; intros A; [constructor|].
  assert (La : lead a) by (apply IH; intros y Hy; apply A; now right).
  specialize (A x (or_introl eq_refl)). destruct (nkind x) eqn:K; cbn in A; try (intuition discriminate).
  - now apply lead_word.
  - apply lead_marker; auto. left. rewrite K. cbn. auto.
  - apply lead_marker; auto. left. rewrite K. cbn. auto.
  - apply lead_marker; auto. left. rewrite K. cbn. auto.
  - apply lead_marker; auto. left. rewrite K. cbn. auto.
Qed.
Lemma simple_prefix : forall l s r, l = s ++ r -> simple_lead s r -> exists c, body l = skipn (length s + c) l.
Proof.
  intros l s r E [A _]. destruct (whole_exists l) as (a & b & E' & W). pose proof (simple_is_lead _ A) as Ls.
  assert (P : exists c, a = s ++ c).
  { subst l. destruct (app_split _ _ _ _ E') as [(c & -> & _)|(c & -> & Eb)]; [now exists c|].
    destruct W as [_ W]. rewrite (W c r Eb Ls). rewrite app_nil_r. exists []. now rewrite app_nil_r. }
  destruct P as [c ->]. rewrite E', (body_whole _ _ W).
  assert (T : exists k, tail_of b = skipn k b).
  { destruct b as [|x b]; [now exists 0|]. cbn. destruct (kind_eqb (nkind x) KLink); [now exists 1|now exists 0]. }
  destruct T as [k ->]. exists (length c + k). rewrite skipn_app, app_length.
  replace (skipn (length s + (length c + k)) (s ++ c)) with (@nil node).
  2:{ symmetry. apply skipn_all2. rewrite app_length. lia. }
  cbn. f_equal. lia.
Qed.

Lemma in_planned : forall want k t p, In p (planned want k t) <-> want k = true /\ exists x, t = Some x /\ p = Period k x None.
Proof.
  intros want k t p. unfold planned. destruct (want k); [|cbn; split; [tauto|intros [C _]; discriminate]].
  destruct t as [t|]; cbn; split.
  - intros [<-|[]]. split; eauto.
  - intros [_ (x & E & ->)]. injection E as ->. now left.
  - intros [].
  - intros [_ (x & E & _)]. discriminate.
Qed.
Lemma in_periods : forall want h p, In p (periods want h) <->
  has_period h p /\ (want (pk p) = true \/ pk p = Titled \/ pk p = Created).
Proof.
  intros want h p. unfold periods. rewrite !in_app_iff, !in_planned.
  assert (T : In p (flat_map title_period (title h)) <-> has_period h p /\ pk p = Titled).
  { rewrite in_flat_map. split.
    - intros ([t|a b|] & Hx & Hp); cbn in Hp; try contradiction; destruct Hp as [<-|[]]; split; try reflexivity; now constructor.
    - intros [H K]. inversion H; subst; try discriminate K; [exists (TTime t)|exists (TRange a b)]; cbn; auto. }
  assert (Cl : In p (flat_map clock_period (logbook h)) <-> has_period h p /\ pk p = Clocked).
  { rewrite in_flat_map. split.
    - intros ([a b|] & Hx & Hp); cbn in Hp; try contradiction; destruct Hp as [<-|[]]; split; try reflexivity; now constructor.
    - intros [H K]. inversion H; subst; try discriminate K. exists (LClock a b); cbn; auto. }
  assert (Cr : In p (flat_map created_period (tprops h)) <-> has_period h p /\ pk p = Created).
  { rewrite in_flat_map. split.
    - intros ([t|] & Hx & Hp); cbn in Hp; try contradiction; destruct Hp as [<-|[]]; split; try reflexivity; now constructor.
    - intros [H K]. inversion H; subst; try discriminate K. exists (PCreated t); cbn; auto. }
  rewrite T, Cr. clear T Cr. split.
  - intros [[H K]|[[W (t & E & ->)]|[[W (t & E & ->)]|[[W (t & E & ->)]|[H|[H K]]]]]].
    + tauto.
    + split; [now constructor|]. now left.
    + split; [now constructor|]. now left.
    + split; [now constructor|]. now left.
    + destruct (want Clocked) eqn:W; [|destruct H]. apply Cl in H. destruct H as [H K]. rewrite K. tauto.
    + tauto.
  - intros [H W]. destruct (pk p) eqn:K.
    + tauto.
    + destruct W as [W|[W|W]]; try discriminate W. right. left. split; [exact W|]. inversion H; subst; try discriminate K. eauto.
    + destruct W as [W|[W|W]]; try discriminate W. right. right. left. split; [exact W|]. inversion H; subst; try discriminate K. eauto.
    + destruct W as [W|[W|W]]; try discriminate W. right. right. right. left. split; [exact W|]. inversion H; subst; try discriminate K. eauto.
    + destruct W as [W|[W|W]]; try discriminate W. right. right. right. right. left. rewrite W. apply Cl. now split.
    + tauto.
    + inversion H; subst; discriminate K.
Qed.

Lemma titles_flat : forall l, titles l (flat_map title_period l).
Proof. induction l as [|[] l IH]; cbn; constructor; auto. Qed.
Lemma clocks_flat : forall l, clocks l (flat_map clock_period l).
Proof. induction l as [|[] l IH]; cbn; constructor; auto. Qed.
Lemma of_kind_app : forall k a b, of_kind k (a ++ b) = of_kind k a ++ of_kind k b.
Proof. intros k a b. unfold of_kind. apply filter_app. Qed.
Lemma of_kind_titles : forall k l, of_kind k (flat_map title_period l) = if match k with Titled => true | _ => false end then flat_map title_period l else [].
Proof. intros k l. unfold of_kind. induction l as [|[] l IH]; destruct k; cbn in *; try exact IH; try reflexivity; now f_equal. Qed.
Lemma of_kind_clocks : forall k l, of_kind k (flat_map clock_period l) = if match k with Clocked => true | _ => false end then flat_map clock_period l else [].
Proof. intros k l. unfold of_kind. induction l as [|[] l IH]; destruct k; cbn in *; try exact IH; try reflexivity; now f_equal. Qed.
Lemma of_kind_created : forall k l, of_kind k (flat_map created_period l) = if match k with Created => true | _ => false end then flat_map created_period l else [].
Proof. intros k l. unfold of_kind. induction l as [|[] l IH]; destruct k; cbn in *; try exact IH; try reflexivity; now f_equal. Qed.
Lemma of_kind_planned : forall want k k' t, k <> k' -> of_kind k (planned want k' t) = [].
Proof. intros want k k' t N. unfold planned. destruct (want k'); [|reflexivity]. destruct t; [|reflexivity]. cbn. destruct k, k'; try reflexivity; congruence. Qed.
Lemma planned_self : forall want k t, k <> Titled -> of_kind k (planned want k t) = planned want k t.
Proof. intros want k t N. unfold planned. destruct (want k); [|reflexivity]. destruct t; [|reflexivity]. cbn. destruct k; reflexivity. Qed.
Lemma of_kind_titled : forall want h, titles (title h) (of_kind Titled (periods want h)).
Proof.
  intros want h. unfold periods. rewrite !of_kind_app, of_kind_titles, !of_kind_planned, of_kind_created by discriminate.
  destruct (want Clocked); rewrite ?of_kind_clocks; cbn; rewrite app_nil_r; apply titles_flat.
Qed.
Lemma of_kind_clocked : forall want h, want Clocked = true -> clocks (logbook h) (of_kind Clocked (periods want h)).
Proof.
  intros want h W. unfold periods. rewrite W. rewrite !of_kind_app, of_kind_titles, !of_kind_planned, of_kind_created, of_kind_clocks by discriminate.
  cbn. rewrite app_nil_r. apply clocks_flat.
Qed.
Lemma planned_length : forall want k t, length (planned want k t) <= 1.
Proof. intros. unfold planned. destruct (want k); [destruct t|]; cbn; lia. Qed.
Lemma of_kind_single : forall want h k, In k [Deadline; Scheduled; Closed] -> length (of_kind k (periods want h)) <= 1.
Proof.
  intros want h k H. unfold periods. rewrite !of_kind_app, of_kind_titles, of_kind_created.
  assert (E : of_kind k (if want Clocked then flat_map clock_period (logbook h) else []) = []).
  { destruct (want Clocked); [|reflexivity]. rewrite of_kind_clocks. cbn in H. destruct H as [<-|[<-|[<-|[]]]]; reflexivity. }
  rewrite E. cbn in H. destruct H as [<-|[<-|[<-|[]]]]; cbn [app];
    rewrite planned_self by discriminate; rewrite !of_kind_planned by discriminate; cbn [app]; rewrite ?app_nil_r; apply planned_length.
Qed.
