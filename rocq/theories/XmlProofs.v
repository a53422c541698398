(** Proofs for C127. *)
From Coq Require Import String.
From Verif Require Import Base StrModel AttrModel XmlModel XmlSpec.
Local Open Scope Z_scope.

Lemma escape_means t : means false (escape t) t.
Proof.
  induction t as [|c t IH]; [constructor|]. unfold escape in *. cbn [flat_map]. unfold escape_char at 1.
  destruct (c =? 38) eqn:E1; [apply Z.eqb_eq in E1; subst c; now apply means_amp|].
  destruct (c =? 60) eqn:E2; [apply Z.eqb_eq in E2; subst c; now apply means_lt|].
  destruct (c =? 62) eqn:E3; [apply Z.eqb_eq in E3; subst c; now apply means_gt|].
  apply Z.eqb_neq in E1, E2. apply means_char; [exact E1|exact E2|discriminate|exact IH].
Qed.
Lemma attr_means t : means true (escape_attr t) t.
Proof.
  induction t as [|c t IH]; [constructor|]. unfold escape_attr in *. cbn [flat_map]. unfold attr_char at 1.
  destruct (c =? 38) eqn:E1; [apply Z.eqb_eq in E1; subst c; now apply means_amp|].
  destruct (c =? 60) eqn:E2; [apply Z.eqb_eq in E2; subst c; now apply means_lt|].
  destruct (c =? 62) eqn:E3; [apply Z.eqb_eq in E3; subst c; now apply means_gt|].
  destruct (c =? 34) eqn:E4; [apply Z.eqb_eq in E4; subst c; now apply means_quot|].
  destruct (c =? 39) eqn:E5; [apply Z.eqb_eq in E5; subst c; now apply means_apos|].
  apply Z.eqb_neq in E1, E2, E4. apply means_char; [exact E1|exact E2|intros _; exact E4|exact IH].
Qed.
Lemma means_one q s t : means q s t -> forall u, means q s u -> t = u.
Proof.
  induction 1 as [|s t H IH|s t H IH|s t H IH|s t H IH|s t H IH|c s t N1 N2 N3 H IH]; intros u U.
  - now inversion U.
  - inversion U; subst; try congruence; f_equal; auto.
  - inversion U; subst; try congruence; f_equal; auto.
  - inversion U; subst; try congruence; f_equal; auto.
  - inversion U; subst; try congruence; f_equal; auto.
  - inversion U; subst; try congruence; f_equal; auto.
  - inversion U; subst; try congruence; f_equal; auto.
Qed.

(** ** Comments *)
Definition no_dd (s : str) : Prop := without (lit "--") s.
Lemma no_dd_cons c s : no_dd s -> (c <> 45 \/ forall r, s <> 45 :: r) -> no_dd (c :: s).
Proof.
  intros N H [|x a] b E.
  - injection E as -> E. destruct H as [H|H]; [congruence|]. exact (H _ E).
  - injection E as _ E. exact (N a b E).
Qed.
Lemma comment_safe s : forall d, no_dd (escape_comment d s ++ lit "-") /\ (d = true -> forall r, escape_comment d s ++ lit "-" <> 45 :: r).
Proof.
  induction s as [|c s IH]; intros d.
  - destruct d; cbn [escape_comment app]; (split; [|intros D r; discriminate]).
    + repeat (apply no_dd_cons; [|first [left; discriminate | right; discriminate]]).
      intros [|x a] b E; discriminate E.
    + intros [|x [|y a]] b E; discriminate E.
  - cbn [escape_comment]. destruct (c =? 45) eqn:C.
    + destruct d.
      * destruct (IH false) as [N _]. split; [|intros _ r; discriminate].
        change ((lit "&#45;" ++ escape_comment false s) ++ lit "-") with (38 :: 35 :: 52 :: 53 :: 59 :: (escape_comment false s ++ lit "-")).
        repeat (apply no_dd_cons; [|left; discriminate]). exact N.
      * destruct (IH true) as [N F]. split; [|discriminate]. cbn [app]. apply no_dd_cons; [exact N|right; exact (F eq_refl)].
    + apply Z.eqb_neq in C. destruct (IH false) as [N _]. cbn [app]. split.
      * apply no_dd_cons; [exact N|now left].
      * intros _ r E. injection E as E _. congruence.
Qed.
Lemma without_app p s t : without p (s ++ t) -> without p s.
Proof. intros W a b E. apply (W a (b ++ t)). rewrite E, <- !app_assoc. reflexivity. Qed.
Lemma comment_kept s : forall d, (s = [] -> d = false) -> (forall a, s <> a ++ [45]) -> dashes (escape_comment d s) s.
Proof.
  induction s as [|c s IH]; intros d D N.
  - rewrite (D eq_refl). constructor.
  - assert (N' : forall a, s <> a ++ [45]) by (intros a E; apply (N (c :: a)); rewrite E; reflexivity).
    cbn [escape_comment]. destruct (c =? 45) eqn:C.
    + apply Z.eqb_eq in C. subst c. destruct d.
      * apply dashes_ref. now apply IH.
      * apply dashes_char. apply IH; [|exact N']. intros ->. exfalso. exact (N [] eq_refl).
    + apply dashes_char. now apply IH.
Qed.

(** ** Nodes *)
Lemma blank_pad d i : blank (pad d i).
Proof. unfold blank, pad. apply Forall_forall. intros c C. apply repeat_spec in C. now left. Qed.
Lemma blank_brk i : blank (brk i).
Proof. destruct i; [constructor|]. constructor; [now right|constructor]. Qed.
Lemma attrs_ok l : Forall (fun a => name (fst a)) l -> attrs_text l (flat_map write_attr l).
Proof.
  induction 1 as [|[k v] l K F IH]; [constructor|]. cbn [flat_map]. unfold write_attr at 1. cbn [fst snd] in *.
  replace ((32 :: k ++ lit "=""" ++ escape_attr v ++ lit """") ++ flat_map write_attr l)
    with ([32] ++ k ++ lit "=""" ++ escape_attr v ++ lit """" ++ flat_map write_attr l)
    by (cbn [app]; rewrite <- !app_assoc; reflexivity).
  constructor; [exact K|apply attr_means|exact IH].
Qed.
Lemma node_rec (P : node -> Prop) :
  (forall t, P (Comment t)) -> (forall t, P (CData t)) -> (forall t, P (Raw t)) ->
  (forall tag attrs t l, Forall P l -> P (Element tag attrs t l)) -> forall n, P n.
Proof.
  intros H1 H2 H3 H4. fix IH 1. intros [tag attrs t l|t|t|t]; [|apply H1|apply H2|apply H3].
  apply H4. induction l as [|x l IHl]; constructor; [apply IH|exact IHl].
Qed.
Lemma serialize_ok indent : forall n, proper n -> forall depth, node_text n (serialize indent depth n).
Proof.
  refine (node_rec _ _ _ _ _).
  - intros t P d. inversion P as [? N| |]; subst. destruct (comment_safe t false) as [S _]. cbn [serialize].
    constructor; [apply blank_pad|repeat constructor; now right|exact (without_app _ _ _ S)|exact S|].
    now apply comment_kept.
  - intros t P d. inversion P; subst. cbn [serialize]. constructor; [apply blank_pad|repeat constructor; now right|assumption].
  - intros t P. inversion P.
  - intros tag attrs t l IH P d. inversion P as [| |? ? ? ? T A L]; subst. cbn [serialize].
    assert (Q : nodes_text l (flat_map (serialize indent (S d)) l)).
    { clear P. induction l as [|n l IHl]; [constructor|]. inversion IH; subst. inversion L; subst. cbn [flat_map].
      constructor; [auto|]. now apply IHl. }
    unfold write_element. destruct l as [|n l].
    + destruct t as [|c t].
      * apply empty_text; [apply blank_pad|apply blank_brk|exact T|now apply attrs_ok].
      * apply plain_text; [apply blank_pad|apply blank_brk|exact T|now apply attrs_ok|apply escape_means].
    + assert (X : forall t' c e d', blank c -> blank d' -> means false e t' ->
        node_text (Element tag attrs t' (n :: l))
          (pad d indent ++ [60] ++ tag ++ flat_map write_attr attrs ++ [62] ++ c ++ e ++ d' ++ flat_map (serialize indent (S d)) (n :: l)
             ++ pad d indent ++ lit "</" ++ tag ++ [62] ++ brk indent)).
      { intros t' c e d' C D E. apply (element_text (pad d indent) (brk indent) c d' (pad d indent));
          auto using blank_pad, blank_brk, attrs_ok; discriminate. }
      destruct t as [|c t].
      * specialize (X [] (brk indent) [] [] (blank_brk indent) (Forall_nil _) (means_nil _)). exact X.
      * specialize (X (c :: t) (brk indent ++ pad (S d) indent) (escape (c :: t)) (brk indent)
          (proj2 (Forall_app _ _ _) (conj (blank_brk indent) (blank_pad _ _))) (blank_brk indent) (escape_means _)).
        rewrite <- !app_assoc in X. rewrite <- !app_assoc. exact X.
Qed.
