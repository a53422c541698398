From Coq Require Import String.
From Coq Require Import Sorted.
From Verif Require Import Base StrModel TokKind TokModel TokSpec TokProofs RegroupModel RegroupSpec RecombSpec RegroupProofs.
From Verif Require TokKinds.
Local Open Scope nat_scope.

Lemma rc_app : forall a b c d, recombined a b -> recombined c d -> recombined (a ++ c) (b ++ d).
Proof.
  induction 1; intros X; cbn [app]; auto.
  - constructor; auto.
  - rewrite <- !app_assoc. apply rc_command; auto.
  - apply rc_close; auto.
  - rewrite <- app_assoc. apply rc_quoted; auto.
  - apply rc_eof; auto.
Qed.

(** One step: what is taken from the input and what is added to the output *)
Definition step (s s' : rs) : Prop := exists x o, rest s = x ++ rest s' /\ done s' = done s ++ o /\ x <> [] /\ recombined x o.
Definition steps (s s' : rs) : Prop := exists x o, rest s = x ++ rest s' /\ done s' = done s ++ o /\ recombined x o.

Lemma emit_step : forall f s s' t r, rest s = t :: r -> emit f s = Ok s' -> recombined [t] (f t) -> step s s'.
Proof.
  intros f s s' t r R H C. unfold emit in H. rewrite R in H. injection H as <-. exists [t], (f t). rewrite R. repeat split; auto. discriminate.
Qed.
Lemma one : forall t t', okind t <> kLineCommand -> turned t t' -> recombined [t] [t'].
Proof. intros. constructor; auto. constructor. Qed.
Lemma pop_line_spec : forall r p d, exists l, r = l ++ rest (pop_line r p d) /\ done (pop_line r p d) = d ++ l /\ in_line_ l /\
  (forall t r', rest (pop_line r p d) = t :: r' -> line_end (okind t) = true).
Proof.
  induction r as [|t r IH]; intros p d; cbn [pop_line].
  - exists []. cbn. rewrite app_nil_r. split; [auto|]. split; [auto|]. split; [constructor|discriminate].
  - destruct (line_end (okind t)) eqn:E.
    + exists []. cbn. rewrite app_nil_r. split; [auto|]. split; [auto|]. split; [constructor|]. intros u r' Q. injection Q as <- <-. auto.
    + destruct (IH (Some t) (d ++ [t])) as (l & A & B & C & D). exists (t :: l). cbn [app]. rewrite <- A. split; [auto|]. split; [|split; [|auto]].
      * rewrite B, <- app_assoc. reflexivity.
      * constructor; auto.
Qed.
Lemma skip_space_spec : forall r p d, exists l, r = l ++ rest (skip_space r p d) /\ done (skip_space r p d) = d /\
  Forall (fun t => okind t = kWhitespace) l.
Proof.
  induction r as [|t r IH]; intros p d; cbn [skip_space].
  - exists []. auto.
  - destruct (okind t) eqn:E; try (exists []; auto; fail).
    destruct (IH (Some t) d) as (l & A & B & C). exists (t :: l). cbn. rewrite <- A. repeat split; auto.
Qed.
Lemma quote_spec : forall r a b, quote_run r = Ok (a, b) -> r = a ++ b /\ Forall (fun u => okind u = kWhitespace \/ okind u = kCmdRawArg) a.
Proof.
  induction r as [|t r IH]; intros a b H; cbn in H; [discriminate|]. destruct (arg_part (okind t)) eqn:K.
  - assert (A : okind t = kWhitespace \/ okind t = kCmdRawArg) by (destruct (okind t); try discriminate; auto).
    destruct (ends_quote (otext t)).
    + injection H as <- <-. auto.
    + apply omap_inv in H. destruct H as ([a' b'] & E & Q). injection Q as -> ->. destruct (IH _ _ E) as [-> F]. auto.
  - injection H as <- <-. auto.
Qed.
Lemma last_nth : forall {A} (l : list A) d, exists x, d :: l = x ++ [last (d :: l) d].
Proof. intros A l d. exists (removelast (d :: l)). apply app_removelast_last. discriminate. Qed.
Lemma ends_quote_inv : forall s, ends_quote s = true -> exists r, s = r ++ [34%Z].
Proof.
  intros s H. unfold ends_quote in H. destruct (rev s) as [|c r] eqn:E; [discriminate|]. apply Z.eqb_eq in H. subst c.
  exists (rev r). rewrite <- (rev_involutive s), E. reflexivity.
Qed.
Lemma raw_arg_step : forall s s' t r, rest s = t :: r -> okind t = kCmdRawArg -> raw_arg s = Ok s' -> step s s'.
Proof.
  intros s s' t r R K H. unfold raw_arg in H. rewrite R in H. destruct (starts_quote (otext t) && negb (ends_quote (otext t))) eqn:Q.
  - apply omap_inv in H. destruct H as ([a b] & E & ->). apply quote_spec in E. destruct E as [-> F].
    apply andb_true_iff in Q. destruct Q as [Q1 Q2]. exists (t :: a). cbn [rest done].
    destruct (ends_quote (otext (last (t :: a) t))) eqn:L.
    + exists [OTok (okind t) (concat (map otext (t :: a))) (opos t)]. split; [exact R|]. split; [auto|]. split; [discriminate|].
      rewrite K. rewrite <- (app_nil_r a) at 1. change (t :: a ++ []) with (t :: a ++ []). apply rc_quoted; auto; [| |constructor].
      * destruct (otext t) as [|c x]; [discriminate|]. cbn in Q1. apply Z.eqb_eq in Q1. subst c. eauto.
      * apply ends_quote_inv in L. destruct L as (x & L). destruct (last_nth a t) as (y & Y). set (z := last (t :: a) t) in *. rewrite Y.
        rewrite map_app, concat_app. cbn [map concat]. rewrite app_nil_r, L. exists (concat (map otext y) ++ x). now rewrite app_assoc.
    + exists (t :: a). split; [exact R|]. split; [auto|]. split; [discriminate|].
      assert (P : forall l, Forall (fun u => okind u = kWhitespace \/ okind u = kCmdRawArg) l -> recombined l l).
      { induction 1 as [|u l U _ IH]; constructor; auto.
        - split; [auto|]. destruct U as [-> | ->]; auto.
        - destruct U as [-> | ->]; discriminate. }
      apply P. constructor; auto.
  - unfold pop in H. eapply emit_step; eauto. apply one; [congruence|]. split; [auto|]. now rewrite K.
Qed.

Lemma strip_text : forall f g (s : str), exists u v, s = u ++ rev (skipn (run_len f (rev (skipn (run_len g s) s))) (rev (skipn (run_len g s) s))) ++ v /\
  Forall (fun c => g c = true) u /\ Forall (fun c => f c = true) v.
Proof.
  assert (R : forall h (x : str), exists a b, x = a ++ b /\ skipn (run_len h x) x = b /\ Forall (fun c => h c = true) a).
  { intros h x. destruct (run_split h (run_len h x) x (le_n _)) as (a & b & A & B & _ & C). eauto. }
  intros f g s. destruct (R g s) as (a & b & A & B & C). rewrite B. destruct (R f (rev b)) as (c & d & D & E & F). rewrite E.
  exists a, (rev c). rewrite A. split; [|split; [auto|now apply Forall_rev]]. f_equal. rewrite <- (rev_involutive b), D, rev_app_distr. reflexivity.
Qed.
Lemma attr_named : forall t, okind t = kCmdAttr -> named t (OTok kCmdAttr (attr_text (otext t)) (opos t)).
Proof.
  intros t K. unfold named. rewrite K. cbn [okind opos otext]. split; [auto|]. split; [auto|]. unfold attr_text.
  destruct (strip_text (one_of [c_sp; c_colon]) (Z.eqb c_us) (skipn 4 (otext t))) as (u & v & A & B & C).
  exists (firstn 4 (otext t) ++ u), v. split; [|split].
  - unfold cut. rewrite <- app_assoc. rewrite <- A. now rewrite firstn_skipn.
  - right. exists u. split; [auto|]. eapply Forall_impl; [|exact B]. intros c E. cbv beta in E. apply Z.eqb_eq in E. auto.
  - eapply Forall_impl; [|exact C]. intros c E. cbv beta in E. unfold one_of in E. cbn in E.
    lia.
Qed.

Lemma emit_inv : forall f s s', emit f s = Ok s' -> exists t r, rest s = t :: r /\ s' = Rs (Some t) r (done s ++ f t).
Proof. intros f s s' H. unfold emit in H. destruct (rest s) as [|t r]; [discriminate|]. injection H as <-. eauto. Qed.

Lemma rebuild : forall t, OTok (okind t) (otext t) (opos t) = t.
Proof. now intros []. Qed.
Lemma begin_content_spec : forall s, exists e, rest s = e ++ rest (begin_content s) /\
  done (begin_content s) = done s ++ [OTok kCmdContentBegin [] None] /\ (e = [] \/ exists t, e = [t] /\ line_end (okind t) = true).
Proof.
  intros s. unfold begin_content. destruct (rest s) as [|e r] eqn:R; [exists []; auto|]. destruct (line_end (okind e)) eqn:E.
  - exists [e]. repeat split; eauto.
  - exists []. auto.
Qed.
Lemma starts_firstn : forall p s, starts_with s p = true -> firstn (length p) s = p.
Proof.
  induction p as [|c p IH]; intros s H; [reflexivity|]. destruct s as [|d s]; [discriminate|]. cbn in H. apply andb_true_iff in H.
  destruct H as [H1 H2]. apply Z.eqb_eq in H1. subst d. cbn. now rewrite IH.
Qed.
Lemma drop_prefix_cut : forall s p, exists a, s = a ++ drop_prefix s p /\ (a = [] \/ a = p).
Proof.
  intros s p. unfold drop_prefix. destruct (starts_with s p) eqn:E; [|exists []; auto]. exists (firstn (length p) s).
  split; [now rewrite firstn_skipn|]. right. now apply starts_firstn.
Qed.
Lemma drop_suffix_cut : forall s p, exists b, s = drop_suffix s p ++ b /\ (b = [] \/ b = p).
Proof.
  intros s p. unfold drop_suffix. destruct (ends_with s p) eqn:E; [|exists []; rewrite app_nil_r; auto].
  exists (skipn (length s - length p) s). split; [now rewrite firstn_skipn|]. right.
  apply andb_true_iff in E. destruct E as [E1 E2]. apply Nat.leb_le in E1. apply starts_firstn in E2. rewrite <- E2 at 2.
  symmetry. apply firstn_all2. rewrite skipn_length. lia.
Qed.
Lemma command_step : forall fuel s s' t r, (forall s s', map_text fuel s = Ok s' -> steps s s') -> rest s = t :: r -> okind t = kLineCommand ->
  map_token (S fuel) s = Ok s' -> step s s'.
Proof.
  intros fuel s s' t r IH R K H. cbn [map_token] in H. rewrite R, K in H. cbv beta iota in H. unfold next_tok in H. rewrite R in H.
  destruct r as [|n r]; [discriminate|]. apply obind_inv in H. destruct H as (s1 & A & H). apply obind_inv in H. destruct H as (s2 & B & C).
  unfold then_ in A. apply obind_inv in A. destruct A as (s0 & A0 & A). apply emit_inv in A0. destruct A0 as (t' & r' & R0 & ->).
  rewrite R in R0. injection R0 as <- <-.
  assert (N : exists n', s1 = Rs (Some n) r (done s ++ [OTok kCmdPrefix (otext t) (opos t); n']) /\ named n n').
  { destruct (okind n) eqn:KN; cbn [put_name] in A; apply emit_inv in A; destruct A as (u & r' & R0 & ->); cbn [rest done] in *;
      injection R0 as <- <-; rewrite <- app_assoc; cbn [app]; (eexists; split; [reflexivity|]);
      try (unfold named; rewrite KN, <- KN; apply rebuild). now apply attr_named. }
  destruct N as (n' & -> & N).
  assert (FIN : forall k x x' s3, okind n = k -> r = x ++ rest s3 -> done s3 = done s ++ [OTok kCmdPrefix (otext t) (opos t); n'] ++ x' -> arguments k x x' -> step s s3).
  { intros k x x' s3 KN E1 E2 AR. exists (t :: n :: x ++ []), (OTok kCmdPrefix (otext t) (opos t) :: n' :: x' ++ []). rewrite R, E1, E2.
    cbn [app]. rewrite !app_nil_r. split; [reflexivity|]. split; [reflexivity|]. split; [discriminate|].
    rewrite <- (app_nil_r x), <- (app_nil_r x'). apply rc_command; auto; [now rewrite KN|constructor]. }
  destruct (okind n) eqn:KN; cbn [rest RegroupModel.prev done] in *;
    try (injection B as <-; injection C as <-; apply (FIN _ [] [] _ eq_refl); [reflexivity|cbn [done]; now rewrite app_nil_r|apply args_none; discriminate]).
  - (* example *) injection B as <-. injection C as <-.
    destruct (pop_line_spec r (Some n) (done s ++ [OTok kCmdPrefix (otext t) (opos t); n'])) as (l & P1 & P2 & P3 & _).
    eapply (FIN _ l l _ eq_refl); [exact P1|rewrite P2, <- app_assoc; reflexivity|]. apply args_kept; [cbn; tauto|auto].
  - injection B as <-. injection C as <-.
    destruct (pop_line_spec r (Some n) (done s ++ [OTok kCmdPrefix (otext t) (opos t); n'])) as (l & P1 & P2 & P3 & _).
    eapply (FIN _ l l _ eq_refl); [exact P1|rewrite P2, <- app_assoc; reflexivity|]. apply args_kept; [cbn; tauto|auto].
  - injection B as <-. injection C as <-.
    destruct (pop_line_spec r (Some n) (done s ++ [OTok kCmdPrefix (otext t) (opos t); n'])) as (l & P1 & P2 & P3 & _).
    eapply (FIN _ l l _ eq_refl); [exact P1|rewrite P2, <- app_assoc; reflexivity|]. apply args_kept; [cbn; tauto|auto].
  - injection C as <-. apply obind_inv in B. destruct B as (s3 & B1 & B2). apply emit_inv in B1. destruct B1 as (v & r' & E & ->).
    cbn [rest done] in E, B2. subst r. apply IH in B2. destruct B2 as (y & p & Y1 & Y2 & Y3). cbn [rest done] in *. subst r'.
    exists (t :: n :: [v] ++ y), (OTok kCmdPrefix (otext t) (opos t) :: n' :: [OTok kCmdRawArg (otext v) (opos v)] ++ p).
    rewrite R, Y2, <- !app_assoc. cbn [app]. split; [auto|]. split; [auto|]. split; [discriminate|].
    apply (rc_command t n n' [v] [OTok kCmdRawArg (otext v) (opos v)]); auto. rewrite KN. now apply args_property.
  - injection B as <-. injection C as <-.
    destruct (pop_line_spec r (Some n) (done s ++ [OTok kCmdPrefix (otext t) (opos t); n'])) as (l & P1 & P2 & P3 & _).
    set (s4 := pop_line _ _ _) in *. destruct (begin_content_spec s4) as (e & Q1 & Q2 & Q3).
    eapply (FIN _ (l ++ e) (l ++ [OTok kCmdContentBegin [] None]) _ eq_refl); [rewrite <- app_assoc, <- Q1; exact P1| |].
    + rewrite Q2, P2, <- !app_assoc. reflexivity.
    + now apply args_source.
  - injection B as <-. injection C as <-.
    destruct (skip_space_spec r (Some n) (done s ++ [OTok kCmdPrefix (otext t) (opos t); n'])) as (l & P1 & P2 & P3).
    eapply (FIN _ l [] _ eq_refl); [exact P1|rewrite P2; reflexivity|]. now apply args_title.
Qed.
Lemma map_steps : forall fuel,
  (forall s s', map_token fuel s = Ok s' -> step s s') /\ (forall s s', map_text fuel s = Ok s' -> steps s s').
Proof.
  induction fuel as [|fuel [IH1 IH2]]; [split; discriminate|]. split.
  - intros s s' H. pose proof H as HH. cbn [map_token] in H. destruct (rest s) as [|t r] eqn:R; [discriminate|].
    assert (TEXT : forall k f, okind t = k -> put_text k f s = Ok s' -> k <> kLineCommand ->
      turned t (OTok k (f (otext t)) (opos t)) -> step s s').
    { intros k f K E NL T. eapply emit_step; [exact R|exact E|]. apply one; [congruence|auto]. }
    assert (POP : (forall t', opos t' = opos t -> t' = t -> turned t t') -> okind t <> kLineCommand -> pop s = Ok s' -> step s s').
    { intros T NL E. eapply emit_step; [exact R|exact E|]. apply one; auto. }
    assert (PRE : forall k, okind t = k -> In k [kCmdExampleEnd; kCmdExportEnd; kCmdSrcEnd] -> prefixed k s = Ok s' -> step s s').
    { intros k K I E. eapply emit_step; [exact R|exact E|]. cbv beta. rewrite <- K in I |- *. rewrite rebuild.
      apply rc_close; [exact I|constructor]. }
    assert (MARK : forall ks, markup_kinds (okind t) = Some ks ->
      pop_as (markup_kind (okind t) ks (empty_at (RegroupModel.prev s)) (empty_at (next_tok s))) s = Ok s' -> step s s').
    { intros ks K E. eapply emit_step; [exact R|exact E|]. apply one.
      - intros Q. rewrite Q in K. discriminate.
      - split; [reflexivity|]. clear - K. generalize (empty_at (RegroupModel.prev s)), (empty_at (next_tok s)). intros p n.
        destruct (okind t); try discriminate; cbn in K; injection K as <-; (split; [reflexivity|]);
          destruct p, n; cbn; tauto. }
    destruct (okind t) eqn:K;
      try (eapply POP; [intros t' P Q; split; [exact P|rewrite K; exact Q]|discriminate|exact H]);
      try (eapply MARK; [reflexivity|exact H]); try (eapply PRE; [reflexivity|cbn; tauto|exact H]).
    all: cbv beta iota in H.
    + apply (TEXT kAt (skipn 1)); auto; [discriminate|]. split; [auto|]. rewrite K. split; [auto|]. cbn [otext].
      exists (firstn 1 (otext t)). unfold cut. rewrite app_nil_r, firstn_skipn. split; [auto|]. apply firstn_length.
    + apply (raw_arg_step _ _ _ _ R K H).
    + apply (TEXT kColonExampleLine (fun x => if 1 <? length x then skipn 2 x else [])); auto; [discriminate|]. split; [auto|]. rewrite K. split; [auto|]. cbn [otext].
      exists (firstn 2 (otext t)). unfold cut. split; [|apply firstn_length]. rewrite app_nil_r. destruct (1 <? length (otext t)) eqn:L.
      * now rewrite firstn_skipn.
      * apply Nat.ltb_ge in L. rewrite app_nil_r. symmetry. apply firstn_all2. lia.
    + eapply emit_step; [exact R|exact H|]. apply rc_eof; [auto|constructor].
    + apply (TEXT kEscaped (skipn 1)); auto; [discriminate|]. split; [auto|]. rewrite K. split; [auto|]. cbn [otext].
      exists (firstn 1 (otext t)). unfold cut. rewrite app_nil_r, firstn_skipn. split; [auto|]. apply firstn_length.
    + apply (TEXT kFootnoteLinked (fun x => drop_suffix (drop_prefix x (lit "[fn:")) (lit "]"))); auto; [discriminate|]. split; [auto|]. rewrite K. split; [auto|]. cbn [otext].
      destruct (drop_prefix_cut (otext t) (lit "[fn:")) as (a & A & A'). destruct (drop_suffix_cut (drop_prefix (otext t) (lit "[fn:")) (lit "]")) as (b & B & B').
      exists a, b. split; [|auto]. unfold cut. now rewrite <- B.
    + apply (command_step _ _ _ _ _ IH2 R K HH).
    + apply (TEXT kPlaceholder (fun x => substr x 1 (length x - 2))); auto; [discriminate|]. split; [auto|]. rewrite K. split; [auto|]. cbn [otext].
      exists (firstn 1 (otext t)), (skipn (length (otext t) - 2) (skipn 1 (otext t))). unfold cut, substr. rewrite firstn_skipn, firstn_skipn.
      split; [auto|]. rewrite firstn_length, !skipn_length. lia.
    + destruct (length (otext t) <? 4) eqn:L; [discriminate|]. apply Nat.ltb_ge in L. apply (TEXT kTextSrcBegin (skipn 4)); auto; [discriminate|].
      split; [auto|]. rewrite K. split; [auto|]. cbn [otext].
      exists (firstn 4 (otext t)). unfold cut. rewrite app_nil_r, firstn_skipn. split; [auto|]. apply firstn_length_le. auto.
    + eapply emit_step; [exact R|exact H|]. apply one; [congruence|]. split; [auto|]. rewrite K. split; [auto|]. cbn [okind].
      destruct (is_big (otext t)) eqn:B; [right|auto]. split; [auto|]. unfold is_big in B. rewrite forallb_forall in B. apply Forall_forall.
      intros c I. specialize (B c I). apply orb_true_iff in B. destruct B as [B|B]; [auto|]. right. apply Z.eqb_eq in B. auto.
  - intros s s' H. cbn [map_text] in H. destruct (rest s) as [|t r] eqn:R; [discriminate|]. destruct (line_end (okind t)).
    + injection H as <-. exists [], []. rewrite app_nil_r. repeat split; auto. constructor.
    + apply obind_inv in H. destruct H as (s1 & A & B). apply IH1 in A. apply IH2 in B.
      destruct A as (x & o & A1 & A2 & _ & A3). destruct B as (y & p & B1 & B2 & B3). exists (x ++ y), (o ++ p).
      rewrite A1, B1, B2, A2, <- !app_assoc. repeat split; auto. apply rc_app; auto.
Qed.

Lemma recombine_steps : forall fuel s s', recombine_loop fuel s = Ok s' -> steps s s' /\ rest s' = [].
Proof.
  induction fuel; intros s s' H; cbn [recombine_loop] in H; [discriminate|]. destruct (rest s) as [|t r] eqn:R.
  - injection H as <-. split; [|auto]. exists [], []. rewrite app_nil_r. repeat split; auto. constructor.
  - apply obind_inv in H. destruct H as (s1 & A & B). rewrite <- R in A. destruct (length (rest s1) =? length (t :: r)); [discriminate|].
    apply map_steps in A. destruct (IHfuel _ _ B) as [(y & p & B1 & B2 & B3) E]. destruct A as (x & o & A1 & A2 & _ & A3). split; [|auto].
    exists (x ++ y), (o ++ p). rewrite A1, B1, B2, A2, <- !app_assoc. repeat split; auto. apply rc_app; auto.
Qed.
Lemma recombine_spec : forall l o, recombine l = Ok o -> recombined (map otok_of l) o.
Proof.
  intros l o H. unfold recombine in H. apply omap_inv in H. destruct H as (s' & E & ->). apply recombine_steps in E.
  destruct E as ((x & o & A & B & C) & D). cbn [rest done] in *. rewrite D, app_nil_r in A. rewrite A, B. exact C.
Qed.

(** ** Positions *)
Lemma pos_app : forall a b, positions (a ++ b) = positions a ++ positions b.
Proof. intros. apply flat_map_app. Qed.
Lemma pos_cons : forall t b, positions (t :: b) = positions [t] ++ positions b.
Proof. intros. cbn. now rewrite app_nil_r. Qed.
Lemma turned_pos : forall t t', turned t t' -> positions [t'] = positions [t].
Proof. intros t t' [H _]. cbn. now rewrite H. Qed.
Lemma named_pos : forall t t', named t t' -> positions [t'] = positions [t].
Proof. intros t t' H. unfold named in H. destruct (okind t); try (now subst). destruct H as (_ & H & _). cbn. now rewrite H. Qed.
Definition below (a b : list nat) : Prop := incl b a /\ (StronglySorted le a -> StronglySorted le b).
Lemma ss_app_inv : forall a b, StronglySorted le (a ++ b) -> StronglySorted le a /\ StronglySorted le b /\ forall x y, In x a -> In y b -> x <= y.
Proof.
  induction a as [|x a IH]; intros b H; cbn in H; [split; [constructor|split; [auto|intros ? ? []]]|]. inversion H as [|? ? S F]; subst.
  destruct (IH _ S) as (A & B & C). rewrite Forall_forall in F. split; [constructor; [auto|apply Forall_forall; intros; apply F, in_app_iff; auto]|].
  split; [auto|]. intros u v [<-|U] V; [apply F, in_app_iff; auto|auto].
Qed.
Lemma ss_app : forall a b, StronglySorted le a -> StronglySorted le b -> (forall x y, In x a -> In y b -> x <= y) -> StronglySorted le (a ++ b).
Proof.
  induction a as [|x a IH]; intros b A B C; cbn; [auto|]. inversion A as [|? ? S F]; subst. constructor.
  - apply IH; auto. intros; apply C; cbn; auto.
  - apply Forall_app. split; [auto|]. apply Forall_forall. intros y Y. apply C; cbn; auto.
Qed.
Lemma below_app : forall a b c d, below a b -> below c d -> below (a ++ c) (b ++ d).
Proof.
  intros a b c d [A A'] [C C']. split.
  - intros x I. apply in_app_iff in I. apply in_app_iff. destruct I; auto.
  - intros S. apply ss_app_inv in S. destruct S as (S1 & S2 & S3). apply ss_app; auto.
Qed.
Lemma below_refl : forall a, below a a. Proof. split; auto. apply incl_refl. Qed.
Lemma below_nil : forall a, below a []. Proof. split; [intros ? []|constructor]. Qed.
Lemma arguments_pos : forall k x x', arguments k x x' -> below (positions x) (positions x').
Proof.
  destruct 1; try apply below_refl; try apply below_nil.
  rewrite !pos_app. apply below_app; [apply below_refl|]. cbn. apply below_nil.
Qed.
Lemma recombined_pos : forall a b, recombined a b -> below (positions a) (positions b).
Proof.
  induction 1 as [|t t' a b T N _ IH|t n n' x x' a b K N A _ IH|t a b K _ IH|t ts a b K F S E _ IH|t a b K _ IH].
  - apply below_refl.
  - rewrite (pos_cons t), (pos_cons t'), (turned_pos _ _ T). apply below_app; [apply below_refl|auto].
  - rewrite (pos_cons t), (pos_cons n), pos_app, (pos_cons (OTok _ _ _)), (pos_cons n'), pos_app, (named_pos _ _ N).
    repeat (apply below_app; [try apply below_refl|]); auto; [eapply arguments_pos; eauto].
  - rewrite (pos_cons t), (pos_cons (OTok _ _ _)), (pos_cons t b), app_assoc. apply below_app; [|auto]. cbn. destruct (opos t); [|apply below_refl].
    cbn. split; [intros y; cbn; tauto|]. intros _. repeat constructor.
  - rewrite (pos_cons t), pos_app, (pos_cons (OTok _ _ _)). apply below_app; [apply below_refl|]. apply (below_app _ []); [apply below_nil|auto].
  - rewrite (pos_cons t). apply (below_app _ []); [apply below_nil|auto].
Qed.
Lemma laid_out_bound : forall ts p, laid_out p ts -> StronglySorted le (map tpos ts) /\ Forall (le p) (map tpos ts).
Proof.
  induction ts as [|t ts IH]; intros p H; cbn in *; [split; constructor|]. destruct H as [<- H]. apply IH in H. destruct H as [A B].
  assert (F : Forall (le (tpos t)) (map tpos ts)) by (eapply Forall_impl; [|exact B]; intros; cbv beta in *; lia).
  split; constructor; auto.
Qed.
Lemma kept_pos : forall ts us, Forall2 kept ts us -> map tpos us = map tpos ts.
Proof. induction 1 as [|t u ts us K _ IH]; [auto|]. cbn. rewrite IH. f_equal. now destruct K. Qed.
Lemma items_pos : forall l, positions (map otok_of l) = map tpos (base_tokens l).
Proof. induction l as [|[t|k] l IH]; cbn; [auto| |auto]. f_equal. exact IH. Qed.
Lemma convert_inv : forall ts o, convert_tokens ts = Ok o -> exists l, regroup ts = Ok l /\ recombined (map otok_of l) o.
Proof. intros ts o H. apply obind_inv in H. destruct H as (l & A & B). exists l. split; [auto|]. now apply recombine_spec. Qed.
Lemma convert_sorted : forall txt fuel ts o, tokenize txt fuel = Ok ts -> convert_tokens ts = Ok o ->
  StronglySorted le (positions o) /\ incl (positions o) (map tpos ts).
Proof.
  intros txt fuel ts o T H. apply convert_inv in H. destruct H as (l & R & C). apply recombined_pos in C. rewrite items_pos, (kept_pos _ _ (regroup_kept _ _ R)) in C.
  destruct C as [A B]. split; [|auto]. apply B. destruct (tokenize_spec _ _ _ T) as (_ & L & _). now apply laid_out_bound in L.
Qed.

(** ** Words *)
Lemma word_kept : forall a b, recombined a b -> forall t, In t a -> okind t = kWord ->
  exists t', In t' b /\ otext t' = otext t /\ opos t' = opos t /\ In (okind t') [kWord; kBigIdent; kCmdRawArg].
Proof.
  induction 1 as [|t t' a b T N _ IH|t n n' x x' a b K N A _ IH|t a b K _ IH|t ts a b K F S E _ IH|t a b K _ IH]; intros u I U.
  - destruct I.
  - destruct I as [<-|I].
    + exists t'. destruct T as [P T]. rewrite U in T. destruct T as [T T']. cbn. intuition.
    + destruct (IH u I U) as (v & V & W). exists v. cbn. auto.
  - destruct I as [<-|[<-|I]]; [congruence| |].
    + exists n'. unfold named in N. rewrite U in N. subst n'. cbn. rewrite U. auto 6.
    + apply in_app_iff in I. destruct I as [I|I].
      * assert (Q : exists v, In v x' /\ otext v = otext u /\ opos v = opos u /\ In (okind v) [kWord; kBigIdent; kCmdRawArg]).
        { destruct A as [| l Q F | l Q F | v Q | l e Q F E].
          - destruct I.
          - rewrite Forall_forall in F. specialize (F _ I). congruence.
          - exists u. rewrite U. split; [exact I|]. cbn. auto.
          - destruct I as [<-|[]]. eexists. split; [left; reflexivity|]. cbn. auto 6.
          - apply in_app_iff in I. destruct I as [I|I].
            + exists u. rewrite U. split; [apply in_app_iff; auto|cbn; auto].
            + destruct E as [->|(v & -> & E)]; [destruct I|]. destruct I as [<-|[]]. rewrite U in E. discriminate. }
        destruct Q as (v & V & W). exists v. split; [|auto]. right. right. apply in_app_iff. auto.
      * destruct (IH u I U) as (v & V & W). exists v. split; [|auto]. right. right. apply in_app_iff. auto.
  - destruct I as [<-|I]; [rewrite U in K; cbn in K; intuition discriminate|]. destruct (IH u I U) as (v & V & W). exists v. cbn. auto.
  - destruct I as [<-|I]; [congruence|]. apply in_app_iff in I. destruct I as [I|I].
    + rewrite Forall_forall in F. specialize (F _ I). destruct F; congruence.
    + destruct (IH u I U) as (v & V & W). exists v. cbn. auto.
  - destruct I as [<-|I]; [congruence|]. eauto.
Qed.
Lemma in_base : forall l t, In t (base_tokens l) -> In (otok_of (Base t)) (map otok_of l).
Proof. induction l as [|[u|k] l IH]; intros t I; cbn in *; [auto| |auto]. destruct I as [<-|I]; auto. Qed.
Lemma kept_in : forall ts us, Forall2 kept ts us -> forall t, In t ts -> exists u, In u us /\ kept t u.
Proof. induction 1 as [|t u ts us K _ IH]; intros v I; [destruct I|]. destruct I as [<-|I]; [eexists; cbn; eauto|]. destruct (IH v I) as (w & W & X). exists w. cbn. auto. Qed.
Lemma words_survive : forall txt fuel ts o t, tokenize txt fuel = Ok ts -> convert_tokens ts = Ok o -> In t ts -> kind t = kWord ->
  exists t', In t' o /\ otext t' = text t /\ opos t' = Some (tpos t) /\ In (okind t') [kWord; kBigIdent; kCmdRawArg].
Proof.
  intros txt fuel ts o t T H I K. apply convert_inv in H. destruct H as (l & R & C). apply regroup_kept in R.
  destruct (kept_in _ _ R _ I) as (u & U & KU).
  assert (Q : u = t).
  { inversion KU as [|k a b p c ln0 M]; subst; [auto|]. cbn [kind] in K. subst k. destruct M as [M|M]; [discriminate|].
    destruct a as [|c0 a]; [auto|]. exfalso. inversion M; subst. destruct (TokKinds.tokenize_kinds _ _ _ T) as (G & _ & _).
    rewrite Forall_forall in G. destruct (G _ I) as (G1 & _). destruct G1 as (c' & r & E & F). cbn [text] in E. injection E as <- <-. vm_compute in F. discriminate F. }
  subst u. apply in_base in U. destruct (word_kept _ _ C _ U K) as (t' & V & W). exists t'. auto.
Qed.
