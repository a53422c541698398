(** Proofs for AttachProps.v *)
From Coq Require Import String Lia.
From Verif Require Import Base StrModel ConvModel AttachModel AttachSpec.
From Verif Require AttrModel AttrProofs OptProofs.
Local Open Scope nat_scope.

Lemma norm_letters s : normalize s = letters s.
Proof. exact (OptProofs.norm_letters s). Qed.
Lemma eqs_iff a b : eqs a b = true <-> a = b.
Proof. apply AttrProofs.str_eqb_eq. Qed.
Lemma eqs_refl a : eqs a a = true.
Proof. now apply eqs_iff. Qed.
Lemma lower_alnum c : alnum c = true -> alnum (lower_of c) = true /\ lower_of (lower_of c) = lower_of c.
Proof.
  unfold alnum, lower_of. intros H. destruct ((65 <=? c) && (c <=? 90))%Z eqn:U; [|rewrite U; auto].
  replace ((65 <=? c + 32) && (c + 32 <=? 90))%Z with false by lia. split; [lia|reflexivity].
Qed.
Lemma letters_app a b : letters (a ++ b) = letters a ++ letters b.
Proof. unfold letters. now rewrite filter_app, map_app. Qed.
Lemma letters_twice s : letters (letters s) = letters s.
Proof.
  unfold letters. induction s as [|c s IH]; [reflexivity|]. cbn [filter]. destruct (alnum c) eqn:A; [|exact IH].
  destruct (lower_alnum c A) as [B C]. cbn [map filter]. rewrite B. cbn [map]. now rewrite C, IH.
Qed.
Lemma kind_is k s : is_a k s = true <-> skind s = k.
Proof. unfold is_a, osk_eqb. destruct (osk_dec (skind s) k); split; congruence. Qed.
Lemma kind_not k s : is_a k s = false <-> skind s <> k.
Proof. unfold is_a, osk_eqb. destruct (osk_dec (skind s) k); split; congruence. Qed.
Lemma picks_filter {A} (P : A -> Prop) (f : A -> bool) l : (forall x, In x l -> (f x = true <-> P x)) -> picks P l (filter f l).
Proof.
  induction l as [|x l IH]; intros H; [constructor|]. cbn [filter]. pose proof (H x (or_introl eq_refl)) as [Y N].
  destruct (f x); [apply picks_yes|apply picks_no]; auto.
  - apply IH. intros y I. apply H. now right.
  - intros X. apply N in X. discriminate.
  - apply IH. intros y I. apply H. now right.
Qed.

(** What is chosen. *)
Lemma chosen_caption k x : alike k (lit "caption") -> (chosen k x = true <-> caption x).
Proof.
  intros K. unfold chosen. rewrite !norm_letters, letters_twice. unfold alike in K. rewrite K. unfold caption.
  destruct (is_a oCmdAttr x) eqn:E.
  - apply kind_is in E. rewrite E. split; [|discriminate]. intros H. apply Bool.orb_true_iff in H as [H|H].
    + apply Bool.andb_true_iff in H as [H _]. vm_compute in H. discriminate H.
    + rewrite letters_app in H. apply eqs_iff in H. vm_compute in H. discriminate H.
  - change (eqs (letters (lit "caption")) (lit "caption")) with true.
    change (eqs (letters (lit "caption")) (lit "name")) with false. rewrite Bool.andb_true_r, Bool.andb_false_r.
    rewrite <- kind_is. destruct (is_a oCmdCaption x); split; auto.
Qed.
Lemma chosen_name k x : alike k (lit "name") -> (chosen k x = true <-> naming x).
Proof.
  intros K. unfold chosen. rewrite !norm_letters, letters_twice. unfold alike in K. rewrite K. unfold naming.
  destruct (is_a oCmdAttr x) eqn:E.
  - apply kind_is in E. rewrite E. split; [|discriminate]. intros H. apply Bool.orb_true_iff in H as [H|H].
    + apply Bool.andb_true_iff in H as [H _]. vm_compute in H. discriminate H.
    + rewrite letters_app in H. apply eqs_iff in H. vm_compute in H. discriminate H.
  - change (eqs (letters (lit "name")) (lit "caption")) with false.
    change (eqs (letters (lit "name")) (lit "name")) with true. rewrite Bool.andb_true_r, Bool.andb_false_r.
    rewrite <- kind_is. destruct (is_a oCmdName x); split; auto.
Qed.
Lemma letters_attr t : letters (lit "attr_" ++ t) = lit "attr" ++ letters t.
Proof. rewrite letters_app. reflexivity. Qed.
Lemma chosen_attr k t x : alike k (lit "attr_" ++ t) -> well_made x -> usual x -> (chosen k x = true <-> attrs_for t x).
Proof.
  intros K W U. unfold chosen. rewrite !norm_letters, letters_twice. unfold alike in K. rewrite K, letters_attr.
  destruct W as [t' l|p|s|k' d f subs att A B C].
  - change (is_a oCmdAttr (Sem oCmdAttr (D [t'] [] [l] []) [] [] [])) with true. cbv iota.
    change (target_of (Sem oCmdAttr (D [t'] [] [l] []) [] [] [])) with t'. rewrite ?norm_letters, ?letters_attr.
    unfold attrs_for. split.
    + intros H. apply Bool.orb_true_iff in H as [H|H].
      * exfalso. apply Bool.andb_true_iff in H as [_ H]. apply eqs_iff in H. exact (U t' l eq_refl _ H).
      * apply eqs_iff in H. apply app_inv_head in H. exists t', l. auto.
    + intros (t2 & l2 & E & X). injection E as <- <-. unfold alike in X. rewrite X. apply Bool.orb_true_iff. right. apply eqs_refl.
  - split; [|intros (t2 & l2 & E & _); discriminate E]. intros H. exfalso.
    destruct (eqs (lit "attr" ++ letters t) (lit "caption")) eqn:E; [apply eqs_iff in E; vm_compute in E; discriminate E|]. cbn in H. discriminate H.
  - split; [|intros (t2 & l2 & E & _); discriminate E]. intros H. exfalso.
    destruct (eqs (lit "attr" ++ letters t) (lit "name")) eqn:E; [apply eqs_iff in E; vm_compute in E; discriminate E|]. cbn in H. discriminate H.
  - split; [|intros (t2 & l2 & E & _); injection E; congruence]. intros H. exfalso.
    rewrite (proj2 (kind_not oCmdAttr (Sem k' d f subs att)) A), (proj2 (kind_not oCmdCaption (Sem k' d f subs att)) B),
      (proj2 (kind_not oCmdName (Sem k' d f subs att)) C) in H. discriminate H.
Qed.
Lemma chosen_kinds k x : chosen k x = true -> skind x = oCmdAttr \/ skind x = oCmdCaption \/ skind x = oCmdName.
Proof.
  unfold chosen. destruct (is_a oCmdAttr x) eqn:A; [apply kind_is in A; auto|]. destruct (is_a oCmdCaption x) eqn:B; [apply kind_is in B; auto|].
  destruct (is_a oCmdName x) eqn:C; [apply kind_is in C; auto|]. cbn. discriminate.
Qed.

Lemma captions_read : forall l, Forall well_made l ->
  exists ps, caption_texts l ps /\ map (fun c => field_of FText (sfields c)) (filter (chosen (lit "caption")) l) = map Some ps.
Proof.
  induction 1 as [|x l W F (ps & C & E)]; [exists []; split; [constructor|reflexivity]|]. cbn [filter].
  destruct (chosen (lit "caption") x) eqn:H.
  - apply (chosen_caption (lit "caption") x eq_refl) in H. unfold caption in H.
    destruct W as [t' l'|p|s|k' d f subs att A B D0]; try discriminate; [|cbn in H; congruence].
    exists (p :: ps). split; [now constructor|]. cbn [map]. rewrite E. reflexivity.
  - exists ps. split; [|exact E]. apply ct_skip; [|exact C]. intros X.
    apply (chosen_caption (lit "caption") x eq_refl) in X. congruence.
Qed.
Lemma names_read : forall l, Forall well_made l ->
  names_given l (map target_of (filter (chosen (lit "name")) l)).
Proof.
  induction 1 as [|x l W F C]; [constructor|]. cbn [filter]. destruct (chosen (lit "name") x) eqn:H.
  - apply (chosen_name (lit "name") x eq_refl) in H. unfold naming in H.
    destruct W as [t' l'|p|s|k' d f subs att A B D0]; try discriminate; [|cbn in H; congruence].
    cbn [map]. exact (ng_cons s _ _ C).
  - apply ng_skip; [|exact C]. intros X. apply (chosen_name (lit "name") x eq_refl) in X. congruence.
Qed.
Lemma key_iff k a : has_key k a = true <-> keyed k a.
Proof.
  unfold has_key, keyed, alike. destruct (an a) as [n|].
  - rewrite eqs_iff, !norm_letters. split; [eauto|]. intros (m & E & X). injection E as <-. exact X.
  - split; [discriminate|]. intros (m & E & _). discriminate.
Qed.
Lemma attrs_read k : forall l, Forall well_made l -> Forall usual l ->
  attrs_given (lit "list") k l (flat_map (fun x => filter (has_key k) (line_attrs x)) (filter (chosen (lit "attr_list")) l)).
Proof.
  induction 1 as [|x l W F IH]; intros U; [constructor|]. inversion U as [|y m U1 U2]; subst. specialize (IH U2). cbn [filter].
  destruct (chosen (lit "attr_list") x) eqn:H.
  - apply (chosen_attr (lit "attr_list") (lit "list") x eq_refl W U1) in H. destruct H as (t & a & -> & T).
    cbn [flat_map]. apply ag_line; [exact T| |exact IH]. apply picks_filter. intros; apply key_iff.
  - pose proof W as W'. destruct W' as [t' l'|p|s|k' d f subs att A B C]; try (apply ag_skip; [cbn; congruence|exact IH]).
    apply ag_other; [|exact IH]. intros T. 
    rewrite (proj2 (chosen_attr (lit "attr_list") (lit "list") _ eq_refl W U1)) in H; [discriminate|]. exists t', l'. auto.
Qed.
Lemma field_some f l : (f = FText \/ f = FHeader) -> (field_of f l <> None <-> exists x, In (f, x) l).
Proof.
  intros K. induction l as [|[g x] l IH].
  - split; [intros H; now destruct H|intros (x & [])].
  - split.
    + intros H. destruct K as [->| ->]; destruct g; cbn [field_of] in H;
        first [exists x; left; reflexivity | apply IH in H as (y & I); exists y; right; exact I].
    + intros (y & [E|I]).
      * injection E as -> ->. destruct K as [->| ->]; cbn; discriminate.
      * assert (X : field_of f l <> None) by (apply IH; eauto). destruct K as [->| ->]; destruct g; cbn [field_of]; auto; discriminate.
Qed.
Lemma made_well toks ok n conv a s :
  cmd_attr toks ok n a = Done s \/ cmd_caption conv a = Done s \/ cmd_name toks ok n a = Done s -> well_made s.
Proof.
  intros [H|[H|H]]; unfold cmd_attr, cmd_caption, cmd_name, rbind in H;
    repeat match type of H with match ?m with _ => _ end = _ => destruct m; try discriminate end;
    injection H as <-; constructor.
Qed.
