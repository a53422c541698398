(** Proofs for C120, part four: what is read can be written. *)
From Coq Require Import String Lia.
From Verif Require Import Base StrModel StrSpec StrProofs AttrModel TokModel TimeModel PropModel PropSpec PropProofs PropRead PropWrite.
From Verif Require JsonModel ConvModel ConvSpec ConvProofs ConvTexts AttrProofs Utf8Proofs TokRun TimeSpec TimeProofs.
Local Open Scope Z_scope.

Lemma line_parts : forall l k tok v, property_line l = Some (k, tok, v) -> l = tok ++ v.
Proof.
  intros l k tok v H. unfold property_line in H.
  repeat match type of H with match ?x with _ => _ end = _ => destruct x end; try discriminate; injection H as <- <- <-; symmetry; apply firstn_skipn.
Qed.
Lemma sub_line : forall s t, (forall c, In c t -> In c s) -> one_line s -> one_line t.
Proof. intros s t H O I. apply O. now apply H. Qed.
Lemma split_in : forall d s ts, split_at d s ts -> forall x c, In x ts -> In c x -> In c s.
Proof.
  intros d s ts H. induction H as [s N|a b ts F H IH]; intros x c I J.
  - destruct I as [<-|[]]. exact J.
  - destruct I as [<-|I]; [apply in_or_app; now left|]. apply in_or_app. right. apply in_or_app. right. eapply IH; eassumption.
Qed.
Lemma split_free : forall c s ts, split_at [c] s ts -> ts <> [] /\ Forall (fun x => ~ In c x) ts.
Proof.
  intros c s ts H. induction H as [s N|a b ts F H [N IH]].
  - split; [discriminate|]. constructor; [|constructor]. intros I. apply in_split in I. destruct I as (p & q & ->). apply N. exists (length p), p, q. auto.
  - split; [discriminate|]. constructor; [|exact IH]. intros I. apply in_split in I. destruct I as (p & q & ->). destruct F as [_ F]. apply (F (length p)); [rewrite app_length; cbn [length]; lia|].
    exists p, (q ++ [c] ++ b). split; [|reflexivity]. rewrite <- app_assoc. reflexivity.
Qed.
Lemma split_head : forall c s ts, split_at [c] s ts -> forall d m, hd [] ts = d :: m -> exists m', s = d :: m'.
Proof. intros c s ts H d m E. destruct H as [s N|a b ts F H]; cbn [hd] in E; subst; eauto. eexists. reflexivity. Qed.
Lemma strip_head : forall s d m, ConvModel.strip_space s = d :: m -> (exists m', s = 32 :: m') \/ exists m', s = d :: m'.
Proof.
  intros s d m E. unfold ConvModel.strip_space in E. destruct (strip_spec s (ConvModel.chars [32]) (ConvModel.chars [32])) as (a & b & Es & Fa & _). rewrite E in Es. destruct a as [|e a].
  - right. exists (m ++ b). exact Es.
  - left. pose proof (Forall_inv Fa) as He. exists (a ++ (d :: m) ++ b). rewrite Es at 1. cbn [app]. f_equal.
    unfold ConvModel.chars in He. cbn in He. destruct (Z.eqb_spec e 32); [assumption|discriminate].
Qed.

Lemma path_read : forall s path, one_line s -> subtree_path (ConvModel.strip_space s) = Ok path ->
  path <> [] /\ Forall (fun x => clean x /\ ~ In 47 x) path /\ (forall m, hd [] path <> 42 :: m).
Proof.
  intros s path O H. unfold subtree_path in H. set (u := strip _ _ _) in H. destruct (split_by_inv u "/") as (ts & E & Q); [discriminate|]. rewrite E in H. cbn [omap obind] in H. injection H as <-.
  change (lit "/") with [47] in Q. destruct (split_free _ _ _ Q) as [N F].
  assert (Ou : one_line u). { apply (sub_line s); [|exact O]. intros c I. apply strip_in in I. apply strip_in in I. exact I. }
  split; [destruct ts; [congruence|discriminate]|]. split.
  - apply Forall_forall. intros x I. apply in_map_iff in I. destruct I as (y & <- & I). split.
    + apply strip_clean. apply (sub_line u); [|exact Ou]. intros c J. eapply split_in; eassumption.
    + intros J. apply strip_in in J. rewrite Forall_forall in F. exact (F y I J).
  - intros m E1. destruct ts as [|y ts]; [congruence|]. cbn [map hd] in E1.
    assert (B : forall m, u <> 42 :: m /\ u <> 32 :: m).
    { intros w. subst u. match goal with |- context [strip ?x ?a ?b] => destruct (strip_spec x a b) as (p & q & _ & _ & _ & A & _) end.
      split; intros X; rewrite X in A; [specialize (A 42 (w ++ q) eq_refl)|specialize (A 32 (w ++ q) eq_refl)]; discriminate A. }
    apply strip_head in E1. destruct E1 as [(m' & E1)|(m' & E1)]; destruct (split_head _ _ _ Q _ _ E1) as (m2 & X); exact (proj1 (B m2) X) || exact (proj2 (B m2) X).
Qed.
Lemma radio_words : forall s ws, one_line s -> split_char (ConvModel.strip_space s) 32 = Ok ws ->
  Forall (fun w => ~ In 32 w /\ one_line w) ws /\ (ws = [] \/ (hd [] ws <> [] /\ last ws [] <> [])).
Proof.
  intros s ws O H. pose proof (strip_clean s O) as [T Ou]. set (u := ConvModel.strip_space s) in *. clearbody u. clear O s.
  destruct (list_eq_dec Z.eq_dec u []) as [->|Nu]; [cbn in H; injection H as <-; split; [constructor|now left]|].
  destruct (split_char_spec u 32) as (ts & E & Ft & _ & _ & G). rewrite E in H. injection H as ->.
  destruct (exists_last Nu) as (z & d & Ed). assert (Nd : d <> 32) by (intros ->; exact (proj2 T z Ed)).
  assert (J : u = join [32] ws) by (apply G; [exact Nu|rewrite Ed, last_last; exact Nd]).
  split.
  - apply Forall_forall. intros w I. rewrite Forall_forall in Ft. split; [exact (Ft w I)|]. apply (sub_line u); [|exact Ou]. intros c X. rewrite J.
    apply (split_in [32] _ ws) with (x := w); auto. apply ConvTexts.split_joined; [intros ->; destruct I|apply Forall_forall; exact Ft].
  - right. split.
    + intros X. destruct ws as [|x r]; [rewrite J in Nu; now apply Nu|]. cbn [hd] in X. subst x. rewrite join_cons in J. cbn [app] in J. destruct r as [|y r]; [now apply Nu|]. cbn in J. exact (proj1 T _ J).
    + intros X. destruct ws as [|x0 r0] using rev_ind; [rewrite J in Nu; now apply Nu|]. clear IHr0. rewrite last_last in X. subst x0. destruct r0 as [|y r]; [now apply Nu|].
      rewrite join_snoc in J by discriminate. rewrite app_nil_r in J. exact (proj2 T _ J).
Qed.

Section Lines.
Variable paragraph : str -> list item.
Variable arguments : str -> group.
Variable json_of : str -> outcome JsonModel.json.
Variable attrs_text : group -> str.
Notation read_line := (read_line paragraph arguments json_of).
Notation write := (write attrs_text).
Notation writable := (writable paragraph arguments json_of attrs_text).

Lemma text_line : forall l k tok v s, property_line l = Some (k, tok, v) -> one_line l -> text_of (values_of paragraph arguments k v) = Ok s -> one_line s.
Proof.
  intros l k tok v s P O H. apply line_parts in P. subst l. destruct k; cbn [values_of text_of] in H; try discriminate.
  - destruct (positional _); [|discriminate]. destruct (named _); [|discriminate]. injection H as <-. intros [].
  - injection H as <-. apply (sub_line (tok ++ v)); [|exact O]. intros c I. apply in_or_app. now right.
Qed.
Lemma again : forall l p, one_line l -> read_line l = Some (Ok (RProp p)) -> settled p -> writable p.
Proof.
  intros l p O H S. unfold PropModel.read_line in H. destruct (property_line l) as [[[k tok] v]|] eqn:P; [|discriminate]. injection H as H.
  apply read_seen in H. destruct p; try contradiction; cbn [seen] in H; cbn [PropSpec.writable]; auto.
  - destruct H as (s & T & ->). apply strip_clean. eapply text_line; eassumption.
  - destruct H as (s & T & H). apply path_read in H; [exact H|]. eapply text_line; eassumption.
  - destruct H as (s & T & ->). apply strip_clean. eapply text_line; eassumption.
  - destruct H as (s & T & ->). apply strip_clean. eapply text_line; eassumption.
  - destruct H as (s & T & H). apply radio_words in H; [exact H|]. eapply text_line; eassumption.
  - destruct H as (s & E & N & R & ->). destruct k; try discriminate. cbn [values_of] in E. injection E as <-. split.
    + destruct (literal_inv l tok v P) as (j & a & I & Sp & _ & [[-> _]|(b & J & ->)]).
      * rewrite basename_of in N by now apply ident_ends. subst name. now apply plain_one.
      * replace (repeat 32 j ++ 58 :: a ++ 58 :: b ++ [58]) with (repeat 32 j ++ 58 :: (a ++ 58 :: b) ++ [58]) in N by (rewrite <- app_assoc; reflexivity).
        rewrite basename_of in N by now apply ends_two. subst name. now apply plain_two.
    + apply strip_clean. apply (text_line l KLiteral tok v v P O). reflexivity.
  - destruct H as (s & T & ->). apply strip_clean. eapply text_line; eassumption.
Qed.
(** Kinds that no line is read as *)
Lemma never : forall l p n v, read_line l = Some (Ok (RProp p)) -> unread p n v -> exists r s, p = PCookie r s.
Proof.
  intros l p n v H U. unfold PropModel.read_line in H. destruct (property_line l) as [[[k tok] w]|]; [|discriminate]. injection H as H. apply read_seen in H. destruct U; cbn [seen] in H; try contradiction; eauto.
Qed.
End Lines.
