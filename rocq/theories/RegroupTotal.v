(** The tokens of the base lexer can be regrouped. *)
From Coq Require Import String.
From Verif Require Import Base StrModel TokKind TokModel TokSpec TokProofs TokKinds RegroupModel RegroupSpec RegroupProofs.
Local Open Scope nat_scope.

(** ** Lines *)
Lemma cmds_cut : forall a t r, cmds (a ++ t :: r) -> line_end (kind t) = true -> cmds (a ++ [t]) /\ cmds r.
Proof.
  induction a as [|x a IH]; intros t r C E; cbn [app] in *.
  - destruct C as [_ C]. split; [|auto]. cbn. split; [|auto]. intros K. rewrite K in E. discriminate.
  - destruct C as [X C]. destruct (IH _ _ C E) as [A B]. split; [|auto]. split; [|auto].
    intros K. destruct (X K) as (u & r' & Q & N). destruct a as [|y a]; cbn [app] in *.
    + injection Q as <- <-. exists t, []. auto.
    + injection Q as <- <-. exists y, (a ++ [t]). auto.
Qed.
Lemma line_kind_ok : forall t r, cmds (t :: r) -> exists k, line_kind t r = Ok k.
Proof.
  assert (LC : forall t r, kind t = kLineCommand -> cmds (t :: r) -> exists k, line_command_kind r = Ok k).
  { intros t r K [X _]. destruct (X K) as (u & r' & -> & N). cbn. destruct (which_block_line (kind u)); [eauto|congruence]. }
  intros t r C. unfold line_kind. destruct (kind t) eqn:K; eauto. unfold leading_space_kind.
  destruct r as [|u r]; [eauto|]. destruct C as [_ C]. destruct (kind u) eqn:K'; eauto.
Qed.
Lemma mk_line_ok : forall ts, cmds ts -> exists l, mk_line ts = Ok l.
Proof.
  intros [|t r] C; [cbn; eauto|]. cbn [mk_line]. destruct (line_kind_ok t r C) as (k & ->). cbn. eauto.
Qed.
Lemma to_lines_ok : forall ts start, cmds (start ++ ts) -> exists ls, to_lines start ts = Ok ls.
Proof.
  induction ts as [|t ts IH]; intros start C; cbn [to_lines].
  - rewrite app_nil_r in C. destruct start; [eauto|]. destruct (mk_line_ok _ C) as (l & ->). cbn. eauto.
  - destruct (line_end (kind t)) eqn:E.
    + destruct (cmds_cut _ _ _ C E) as [A B]. destruct (mk_line_ok _ A) as (l & ->). cbn [obind].
      destruct (IH [] B) as (ls & ->). cbn. eauto.
    + apply IH. now rewrite <- app_assoc.
Qed.

(** The last token of a line is not the marker of a list item. *)
Definition ended (ts : list token) : Prop := forall x t, ts = x ++ [t] -> leading_kind (kind t) = false.
Lemma ended_end : forall a t, line_end (kind t) = true -> ended (a ++ [t]).
Proof. intros a t E x u Q. apply app_inj_tail in Q. destruct Q as [_ <-]. now destruct (kind t). Qed.
Lemma ended_tail : forall t r, r <> [] -> ended (t :: r) -> ended r.
Proof. intros t r N E x u ->. apply (E (t :: x) u). reflexivity. Qed.
Definition lended (l : lin) : Prop := ended (ltoks l).
Lemma to_lines_ended : forall ts start ls, ended (start ++ ts) -> to_lines start ts = Ok ls -> Forall lended ls.
Proof.
  induction ts as [|t ts IH]; intros start ls E H; cbn [to_lines] in H.
  - rewrite app_nil_r in E. destruct start; [injection H as <-; auto|]. apply omap_inv in H. destruct H as (l & M & ->).
    apply mk_line_toks in M. constructor; [|auto]. unfold lended. now rewrite M.
  - destruct (line_end (kind t)) eqn:K.
    + apply obind_inv in H. destruct H as (l & M & H). apply omap_inv in H. destruct H as (ls' & T & ->).
      apply mk_line_toks in M. constructor; [unfold lended; rewrite M; now apply ended_end|]. eapply (IH []); [|exact T].
      intros x u Q. cbn [app] in Q. subst ts. apply (E (start ++ t :: x) u). now rewrite <- app_assoc.
    + eapply IH; [|exact H]. now rewrite <- app_assoc.
Qed.
Lemma add_line_ok : forall ig ts first, ended ts -> exists l, add_line ig first ts = Ok l.
Proof.
  intros ig ts. remember (length ts) as n. revert ts Heqn. induction n as [n IH] using lt_wf_ind. intros ts Hn first E.
  destruct ts as [|t r]; [cbn; eauto|].
  assert (ONE : forall b, exists l, omap (cons (Base t)) (add_line ig b r) = Ok l).
  { intros b. destruct (IH (length r) ltac:(subst; cbn; lia) r eq_refl b) as (l & ->); [|cbn; eauto].
    destruct r; [intros ? ? Q; destruct x; discriminate|]. eapply ended_tail; [|exact E]. discriminate. }
  assert (TWO : forall w r', r = w :: r' -> exists l, omap (fun l => Base t :: Base w :: l) (add_line ig false r') = Ok l).
  { intros w r' ->. destruct (IH (length r') ltac:(subst; cbn; lia) r' eq_refl false) as (l & ->); [|cbn; eauto].
    destruct r'; [intros ? ? Q; destruct x; discriminate|]. eapply ended_tail; [|eapply ended_tail; [|exact E]]; discriminate. }
  cbn [add_line]. destruct (dash_kind (kind t)).
  - destruct r as [|w r']; [eauto|]. destruct (first && is_ws w && ig); eauto.
  - destruct (leading_kind (kind t)) eqn:L; [|eauto]. destruct r as [|w r'].
    + specialize (E [] t eq_refl). congruence.
    + destruct (is_ws w); eauto.
Qed.
Lemma add_lines_ok : forall ig ls, Forall lended ls -> exists l, add_lines ig ls = Ok l.
Proof.
  induction 1 as [|l ls E _ (x & IH)]; cbn [add_lines]; [eauto|]. destruct (add_line_ok ig _ true E) as (y & ->). rewrite IH. cbn. eauto.
Qed.

(** ** Lines of source blocks *)
(** A line of a source block, and the state in which the lines are *)
Definition inside (l : lin) : Prop := lk l = LLine /\ exists t r, ltoks l = t :: r /\ content (kind t) || angle (kind t) = true.
Definition content_first (l : lin) : bool := match ltoks l with t :: _ => content (kind t) | [] => false end.
Fixpoint vlines (q : bool) (ls : list lin) : Prop :=
  match ls with
  | [] => True
  | l :: r =>
      if q then inside l /\ vlines true r \/ lk l = LClose /\ (vlines true r \/ vlines false r)
      else if content_first l then inside l /\ vlines true r else vlines true r \/ vlines false r
  end.
Lemma vlines_any : forall ls q, vlines q ls -> vlines true ls \/ vlines false ls.
Proof. intros ls []; auto. Qed.

(** What a line does to the state *)
Lemma vrun_line : forall a t r q q', vrun q (a ++ t :: r) = Some q' -> line_end (kind t) = true ->
  exists p, vrun q (a ++ [t]) = Some p /\ vrun p r = Some q' /\ p <> VMid /\ (p = VOut -> q = VOut \/ exists u, In u a /\ closing (kind u) = true).
Proof.
  assert (CL : forall a q p, vrun q a = Some p -> p = VOut -> q = VOut \/ exists u, In u a /\ closing (kind u) = true).
  { induction a as [|x a IH]; intros q p H P; cbn in H; [left; congruence|]. destruct (vstep q (kind x)) as [q1|] eqn:E; [|discriminate].
    destruct (IH _ _ H P) as [->|(u & I & C)]; [|right; exists u; split; [right|]; auto].
    destruct q; cbn in E; auto; right; exists x; (split; [now left|]).
    - destruct (content (kind x) || angle (kind x)); [discriminate|]. destruct (closing (kind x)); [auto|discriminate].
    - destruct (content (kind x) || angle (kind x)); [discriminate|]. destruct (kind x); discriminate. }
  intros a t r q q' H E. change (t :: r) with ([t] ++ r) in H. rewrite app_assoc in H. rewrite vrun_app in H.
  destruct (vrun q (a ++ [t])) as [p|] eqn:R; [|discriminate]. exists p. split; [auto|]. split; [auto|]. split.
  - intros ->. rewrite vrun_app in R. destruct (vrun q a) as [p'|]; [|discriminate]. cbn in R. destruct p'; cbn in R; destruct (kind t); discriminate.
  - intros P. destruct (CL _ _ _ R P) as [?|(u & I & C)]; [auto|]. right. exists u. split; [|auto]. apply in_app_or in I. destruct I as [I|[<-|[]]]; [auto|].
    destruct (kind t); discriminate.
Qed.
(** Within a line of a source block nothing closes the block. *)
Lemma vrun_mid : forall a p, vrun VMid a = Some p -> Forall (fun t => line_end (kind t) = false) a -> p = VMid.
Proof.
  induction a as [|x a IH]; intros p H F; cbn in H; [congruence|]. inversion F; subst. destruct (content (kind x) || angle (kind x)); [auto|].
  destruct (kind x); discriminate.
Qed.
Lemma vrun_inside : forall t a e q p, Forall (fun t => line_end (kind t) = false) (t :: a) -> line_end (kind e) = true ->
  (q = VOut /\ content (kind t) = true \/ q = VIn /\ content (kind t) || angle (kind t) = true) -> vrun q (t :: a ++ [e]) = Some p -> p = VIn.
Proof.
  intros t a e q p F E Q H. inversion F as [|? ? _ F']; subst. cbn [vrun] in H.
  assert (S : vstep q (kind t) = Some VMid). { destruct Q as [[-> C]|[-> C]]; cbn; rewrite C; reflexivity. }
  rewrite S, vrun_app in H. destruct (vrun VMid a) as [p'|] eqn:R; [|discriminate]. apply vrun_mid in R; [|auto]. subst p'.
  cbn in H. destruct (kind e); try discriminate. now injection H as <-.
Qed.

Lemma mk_inside : forall t r l, mk_line (t :: r) = Ok l -> content (kind t) || angle (kind t) = true -> inside l.
Proof.
  intros t r l M C. pose proof (mk_line_toks _ _ M) as T. split; [|exists t, r; auto]. cbn [mk_line] in M. apply omap_inv in M.
  destruct M as (k & M & ->). cbn. unfold line_kind in M. destruct (kind t); try discriminate C; now injection M as <-.
Qed.
Lemma mk_close : forall t r l, mk_line (t :: r) = Ok l -> closing (kind t) = true -> lk l = LClose.
Proof.
  intros t r l M C. cbn [mk_line] in M. apply omap_inv in M. destruct M as (k & M & ->). cbn. unfold line_kind in M.
  destruct (kind t); try discriminate C; now injection M as <-.
Qed.
Definition inb (q : vst) : bool := match q with VOut => false | _ => true end.

Lemma to_lines_v : forall ts start ls q p, Forall (fun t => line_end (kind t) = false) start -> q <> VMid ->
  to_lines start ts = Ok ls -> vrun q (start ++ ts) = Some p -> vlines (inb q) ls.
Proof.
  assert (ST : forall t r q p l (rest : list lin), q <> VMid -> mk_line (t :: r) = Ok l -> vrun q (t :: r) = Some p ->
    (content (kind t) || angle (kind t) = true -> q = VIn \/ content (kind t) = true -> vlines true rest) ->
    (vlines true rest \/ vlines false rest) -> vlines (inb q) (l :: rest)).
  { intros t r q p l rest NQ M V A C. cbn [vrun] in V. destruct (vstep q (kind t)) as [q1|] eqn:S; [|discriminate].
    destruct q; [| |congruence]; cbn [inb vlines].
    - unfold content_first. rewrite (mk_line_toks _ _ M). destruct (content (kind t)) eqn:K; [|auto].
      split; [eapply mk_inside; [exact M|now rewrite K]|]. apply A; auto.
    - cbn in S. destruct (content (kind t) || angle (kind t)) eqn:K.
      + left. split; [eapply mk_inside; eauto|]. apply A; auto.
      + destruct (closing (kind t)) eqn:K'; [|discriminate]. right. split; [eapply mk_close; eauto|]. auto. }
  induction ts as [|t ts IH]; intros start ls q p F NQ H V; cbn [to_lines] in H.
  - rewrite app_nil_r in V. destruct start as [|x a]; [injection H as <-; exact I|]. apply omap_inv in H. destruct H as (l & M & ->).
    eapply ST; eauto; intros; cbn; auto.
  - destruct (line_end (kind t)) eqn:E.
    + apply obind_inv in H. destruct H as (l & M & H). apply omap_inv in H. destruct H as (ls' & T & ->).
      destruct (vrun_line _ _ _ _ _ V E) as (p1 & V1 & V2 & NM & _).
      assert (R := IH [] ls' p1 p (Forall_nil _) NM T V2). destruct start as [|x a]; cbn [app] in *.
      * eapply ST; eauto.
        -- intros K. destruct (kind t); discriminate.
        -- eapply vlines_any; eauto.
      * eapply ST; eauto.
        -- intros K Q. assert (P : p1 = VIn).
           { eapply (vrun_inside x a t q); [exact F|exact E| |exact V1]. destruct q; [left|right|congruence]; split; auto.
             destruct Q as [Q|Q]; [discriminate|auto]. }
           subst p1. exact R.
        -- eapply vlines_any; eauto.
    + eapply IH; [|exact NQ|exact H|rewrite <- app_assoc; exact V]. apply Forall_app. auto.
Qed.

(** ** Groups *)
(** In a source block every group is a leaf with lines of the block; every leaf has a line. *)
Definition source_leaf (g : group) : Prop := match g with Leaf _ ls => Forall inside ls | Nested _ _ _ => False end.
Inductive gok : group -> Prop :=
| gok_leaf : forall k ls, ls <> [] -> gok (Leaf k ls)
| gok_nested : forall b subs e, (is_src (Nested b subs e) = true -> Forall source_leaf subs) -> Forall gok subs -> gok (Nested b subs e).

Lemma take_vlines : forall f ls a b, (forall l, f l = true -> lk l <> LClose) -> take_while f ls = (a, b) ->
  forall q, vlines q ls -> (exists q', vlines q' b) /\ (q = true -> Forall inside a /\ vlines true b).
Proof.
  intros f ls. induction ls as [|l ls IH]; intros a b NC H q V; cbn in H; [injection H as <- <-; split; [eauto|intros ->; auto]|].
  destruct (f l) eqn:E.
  - destruct (take_while f ls) as [x y] eqn:T. injection H as <- <-.
    assert (N : exists q', vlines q' ls /\ (q = true -> q' = true /\ inside l)).
    { cbn [vlines] in V. destruct q.
      - destruct V as [[A B]|[A B]]; [exists true; auto|]. apply NC in E. congruence.
      - destruct (content_first l); [exists true; split; [tauto|discriminate]|]. destruct V as [V|V]; eexists; (split; [exact V|discriminate]). }
    destruct N as (q' & V' & Q). destruct (IH x y NC eq_refl q' V') as [A B]. split; [auto|]. intros ->. destruct (Q eq_refl) as [-> C].
    destruct (B eq_refl). auto.
  - injection H as <- <-. split; [eauto|]. intros ->. auto.
Qed.
Lemma vlines_tail : forall q l r, vlines q (l :: r) -> exists q', vlines q' r.
Proof.
  intros [] l r V; cbn in V.
  - destruct V as [[_ V]|[_ [V|V]]]; eauto.
  - destruct (content_first l); [destruct V; eauto|]. destruct V; eauto.
Qed.
Lemma vlines_content : forall q l r, vlines q (l :: r) -> content_first l = true -> vlines true (l :: r).
Proof. intros [] l r V C; cbn in *; auto. rewrite C in V. auto. Qed.

Lemma nc_text : forall l x, is_text x && (indent l <=? indent x) = true -> lk x <> LClose.
Proof. intros l x X Y. unfold is_text in X. rewrite Y in X. discriminate. Qed.
Lemma nc_indented : forall l x, is_indented x && (indent l <=? indent x) = true -> lk x <> LClose.
Proof. intros l x X Y. unfold is_indented in X. rewrite Y in X. discriminate. Qed.
Lemma nc_property : forall x, is_property x = true -> lk x <> LClose.
Proof. intros x X Y. unfold is_property in X. rewrite Y in X. discriminate. Qed.
Lemma rec_ok : forall fuel,
  (forall l r g rest, rec_group fuel l r = Ok (g, rest) -> forall q, vlines q (l :: r) ->
     gok g /\ (exists q', vlines q' rest) /\ (q = true -> is_close l = false -> source_leaf g /\ vlines true rest)) /\
  (forall r subs e rest, rec_block fuel r = Ok (subs, e, rest) -> forall q, vlines q r ->
     Forall gok subs /\ (exists q', vlines q' rest) /\ (q = true -> Forall source_leaf subs) /\
     (forall k l ls s, subs = Leaf k (l :: ls) :: s -> exists r', r = l :: r')).
Proof.
  induction fuel as [|fuel [IH1 IH2]]; [split; discriminate|]. split.
  - intros l r g rest H q V. cbn [rec_group] in H.
    assert (TX : forall g rest, lk l = LLine \/ lk l = LIndented ->
      (let '(a, b) := take_while (fun x => is_text x && (indent l <=? indent x)) (l :: r) in Ok (Leaf GLine a, b)) = Ok (g, rest) ->
      gok g /\ (exists q', vlines q' rest) /\ (q = true -> is_close l = false -> source_leaf g /\ vlines true rest)).
    { intros g' rest' LK H'. destruct (take_while _ _) as [a b] eqn:E. injection H' as <- <-.
      destruct (take_vlines _ _ _ _ (nc_text l) E _ V) as [A B].
      split; [constructor|split; [auto|intros Q _; apply B; auto]]. cbn [take_while] in E.
      assert (T : is_text l && (indent l <=? indent l) = true) by (unfold is_text; rewrite Nat.leb_refl; now destruct LK as [-> | ->]).
      rewrite T in E. destruct (take_while _ r). injection E as <- <-. discriminate. }
    assert (IN : lk l <> LLine -> q = true -> is_close l = false -> False).
    { intros N -> C. cbn in V. unfold is_close in C. destruct V as [[[V _] _]|[V _]]; [auto|]. rewrite V in C. discriminate. }
    destruct (lk l) eqn:LK.
    + discriminate.
    + apply TX; auto.
    + destruct (take_while _ _) as [a b] eqn:E. injection H as <- <-. split; [now constructor|]. destruct (vlines_tail _ _ _ V) as (q' & V').
      destruct (take_vlines _ _ _ _ (nc_indented l) E _ V') as [A _].
      split; [auto|]. intros Q C. exfalso. apply IN; auto. discriminate.
    + apply omap_inv in H. destruct H as ([[subs e] rest'] & E & H). injection H as -> ->. destruct (vlines_tail _ _ _ V) as (q' & V').
      destruct (IH2 _ _ _ _ E _ V') as (A & B & C & D). split; [|split; [auto|intros Q Z; exfalso; apply IN; auto; discriminate]].
      apply gok_nested; [|exact A]. intros S.
      cbn in S. destruct subs as [|[k [|l1 ls]|] s]; try discriminate. destruct (D _ _ _ _ eq_refl) as (r' & ->).
      destruct (IH2 _ _ _ _ E true) as (_ & _ & X & _); [|auto]. eapply vlines_content; [exact V'|]. unfold content_first.
      destruct (ltoks l1) as [|t ?]; [discriminate|]. now destruct (kind t).
    + injection H as <- <-. split; [now constructor|]. split; [eapply vlines_tail; eauto|]. intros Q C. unfold is_close in C. rewrite LK in C. discriminate.
    + apply TX; auto.
    + destruct (take_while _ _) as [a b] eqn:E. injection H as <- <-.
      destruct (take_vlines _ _ _ _ nc_property E _ V) as [A _].
      split; [constructor|split; [auto|intros Q C; exfalso; apply IN; auto; discriminate]]. cbn [take_while] in E. unfold is_property at 1 in E. rewrite LK in E.
      destruct (take_while _ r). injection E as <- <-. discriminate.
  - intros r subs e rest H q V. cbn [rec_block] in H. destruct r as [|l r'].
    + injection H as <- <- <-. split; [auto|]. split; [exists true; exact I|]. split; [auto|discriminate].
    + destruct (is_close l) eqn:C.
      * injection H as <- <- <-. split; [auto|]. split; [eapply vlines_tail; eauto|]. split; [auto|discriminate].
      * apply obind_inv in H. destruct H as ([g rest1] & E & H). apply omap_inv in H. destruct H as ([[subs' e'] rest'] & E' & H).
        injection H as -> -> ->. destruct (IH1 _ _ _ _ E _ V) as (A1 & (q1 & A2) & A3).
        destruct (IH2 _ _ _ _ E' _ A2) as (B1 & B2 & _ & _). split; [auto|]. split; [auto|]. split.
        -- intros ->. destruct (A3 eq_refl C) as [S V']. destruct (IH2 _ _ _ _ E' _ V') as (_ & _ & X & _). auto.
        -- intros k l1 ls s Q. injection Q as -> ->. exists r'. f_equal. destruct fuel; [discriminate|]. cbn [rec_group] in E.
           assert (TK : forall f x b, take_while f (l :: r') = (x, b) -> forall y z, x = y :: z -> l = y).
           { intros f x b T y z ->. cbn in T. destruct (f l); [|discriminate]. destruct (take_while f r'). now injection T. }
           destruct (lk l); try discriminate.
           ++ destruct (take_while _ _) as [a b] eqn:T in E. injection E as _ -> _. eauto.
           ++ destruct (take_while _ _) as [a b]. now injection E.
           ++ apply omap_inv in E. destruct E as ([[? ?] ?] & _ & E). discriminate.
           ++ now injection E.
           ++ destruct (take_while _ _) as [a b] eqn:T in E. injection E as _ -> _. eauto.
           ++ destruct (take_while _ _) as [a b] eqn:T in E. injection E as _ -> _. eauto.
Qed.
Lemma root_ok : forall fuel ls gs q, root_groups fuel ls = Ok gs -> vlines q ls -> Forall gok gs.
Proof.
  induction fuel; intros ls gs q H V; cbn [root_groups] in H; [discriminate|]. destruct ls as [|l r]; [injection H as <-; auto|].
  apply obind_inv in H. destruct H as ([g rest] & E & H). apply omap_inv in H. destruct H as (gs' & E' & ->).
  destruct (proj1 (rec_ok _) _ _ _ _ E _ V) as (A & (q' & B) & _). constructor; eauto.
Qed.

(** The lines of the groups are the lines or the missing end of a block *)
Lemma rec_lines : forall (P : lin -> Prop), P no_line -> forall fuel,
  (forall l r g rest, rec_group fuel l r = Ok (g, rest) -> Forall P (l :: r) -> Forall P (group_lines g ++ rest)) /\
  (forall r subs e rest, rec_block fuel r = Ok (subs, e, rest) -> Forall P r -> Forall P (all_lines subs ++ [e] ++ rest)).
Proof.
  intros P N. induction fuel as [|fuel [IH1 IH2]]; [split; discriminate|]. split.
  - intros l r g rest H R. cbn [rec_group] in H. destruct (lk l).
    + discriminate.
    + destruct (take_while _ _) as [a b] eqn:E. injection H as <- <-. apply take_while_app in E. now rewrite E in R.
    + destruct (take_while _ _) as [a b] eqn:E. injection H as <- <-. apply take_while_app in E. now rewrite E in R.
    + apply omap_inv in H. destruct H as ([[subs e] rest'] & E & H). injection H as -> ->. inversion R; subst. apply IH2 in E; auto.
      rewrite nested_lines. cbn [app]. rewrite <- app_assoc. constructor; auto.
    + injection H as <- <-. exact R.
    + destruct (take_while _ _) as [a b] eqn:E. injection H as <- <-. apply take_while_app in E. now rewrite E in R.
    + destruct (take_while _ _) as [a b] eqn:E. injection H as <- <-. apply take_while_app in E. now rewrite E in R.
  - intros r subs e rest H R. cbn [rec_block] in H. destruct r as [|l r'].
    + injection H as <- <- <-. repeat constructor; auto.
    + destruct (is_close l); [injection H as <- <- <-; exact R|]. apply obind_inv in H. destruct H as ([g rest1] & E & H).
      apply omap_inv in H. destruct H as ([[subs' e'] rest'] & E' & H). injection H as -> -> ->.
      apply IH1 in E; auto. apply Forall_app in E. destruct E as [E1 E2]. apply IH2 in E'; auto.
      unfold all_lines. cbn [map concat]. rewrite <- app_assoc. apply Forall_app. auto.
Qed.
Lemma root_lines : forall (P : lin -> Prop) fuel ls gs, P no_line -> root_groups fuel ls = Ok gs -> Forall P ls -> Forall P (all_lines gs).
Proof.
  intros P. induction fuel; intros ls gs N H R; cbn [root_groups] in H; [discriminate|]. destruct ls as [|l r]; [injection H as <-; constructor|].
  apply obind_inv in H. destruct H as ([g rest] & E & H). apply omap_inv in H. destruct H as (gs' & E' & ->).
  apply (proj1 (rec_lines P N _)) in E; auto. apply Forall_app in E. destruct E. unfold all_lines. cbn. apply Forall_app. split; auto.
  eapply IHfuel; eauto.
Qed.

(** ** Conversion *)
Lemma run_len_le : forall f s, run_len f s <= length s.
Proof. induction s; cbn; auto. destruct (f a); lia. Qed.
Lemma src_line_ok : forall m l, real l -> inside l -> m <= indent l \/ blank_line l = true \/ ltoks l = [] -> exists x, src_line m l = Ok x.
Proof.
  intros m l R (_ & t & r & T & C) M. unfold src_line. rewrite T. destruct (text t) as [|c tx] eqn:TX; [eauto|]. rewrite <- TX.
  assert (L : m <= length (text t)).
  { destruct M as [M|[M|M]].
    - unfold real in R. rewrite T in R. rewrite R in M. etransitivity; [exact M|]. unfold line_indent.
      destruct (kind t); try discriminate C; try apply run_len_le; lia.
    - unfold blank_line in M. rewrite T in M. destruct r as [|e [|? ?]]; [|rewrite TX in M|]; try discriminate.
      destruct (kind t); discriminate.
    - congruence. }
  apply Nat.ltb_ge in L. rewrite L. eauto.
Qed.
Lemma src_lines_ok : forall m ls, Forall real ls -> Forall inside ls ->
  Forall (fun l => m <= indent l \/ blank_line l = true \/ ltoks l = []) ls -> exists x, src_lines m ls = Ok x.
Proof.
  induction ls as [|l ls IH]; intros R I M; cbn [src_lines]; [eauto|]. inversion R; inversion I; inversion M; subst.
  destruct (src_line_ok m l) as (x & ->); auto. destruct IH as (y & ->); auto. cbn. eauto.
Qed.
Lemma source_leaf_lines : forall subs, Forall source_leaf subs -> leaf_lines subs = Ok (all_lines subs) /\ Forall inside (all_lines subs).
Proof.
  induction 1 as [|g subs G _ [IH1 IH2]]; [split; [reflexivity|constructor]|]. destruct g as [k ls|]; [|destruct G]. cbn [leaf_lines].
  rewrite IH1. split; [reflexivity|]. unfold all_lines in *. cbn. apply Forall_app. auto.
Qed.
Lemma convert_ok : forall gs, Forall gok gs -> Forall (fun g => exists x, convert_group g = Ok x) gs ->
  forall prev ind, exists x, convert prev ind gs = Ok x.
Proof.
  induction gs as [|g gs IH]; intros O H prev ind; cbn [convert]; [eauto|]. inversion O; inversion H; subst.
  assert (I : exists i, group_indent g = Ok i). { destruct g as [k [|l ls]|]; cbn; eauto. inversion H2; congruence. }
  destruct I as (i & ->). cbn [obind]. destruct (markers prev g i ind) as [m ind']. destruct H6 as (y & ->). cbn [obind].
  destruct (IH H3 H7 (Some g) ind') as (z & ->). cbn. eauto.
Qed.

Lemma convert_group_ok : forall g, gok g -> Forall real (group_lines g) -> Forall lended (group_lines g) -> exists x, convert_group g = Ok x.
Proof.
  induction g as [k ls|b subs e IH] using group_ind'; intros G R E; inversion G; subst.
  - apply add_lines_ok. exact E.
  - rewrite nested_lines in *. rewrite convert_group_nested. inversion R as [|? ? _ R']; inversion E as [|? ? Eb E']; subst.
    apply Forall_app in R'. destruct R' as [R' _]. apply Forall_app in E'. destruct E' as [E' Ee]. inversion Ee as [|? ? Ee' _]; subst.
    destruct (add_line_ok false _ true Eb) as (x & ->). destruct (add_line_ok false _ true Ee') as (z & ->). cbn [obind omap].
    assert (Y : exists y, (if is_src (Nested b subs e) then obind (leaf_lines subs) (fun ls => src_lines (min_indent (indent b) ls) ls)
         else convert None [] subs) = Ok y); [|destruct Y as (y & ->); cbn; eauto].
    destruct (is_src _) eqn:S.
    + destruct (source_leaf_lines subs ltac:(auto)) as [L I]. rewrite L. cbn [obind]. apply src_lines_ok; auto. apply min_indent_spec.
    + apply convert_ok; auto. clear - IH R' E' H3. unfold all_lines in *. induction IH as [|g gs G _ IH]; constructor; cbn in *;
        apply Forall_app in R'; apply Forall_app in E'; inversion H3; subst; [apply G|apply IH]; tauto.
Qed.

Lemma last_in_text : forall ts p x t, laid_out p ts -> ts = x ++ [t] -> tpos t + length (text t) = p + length (concat (map text ts)).
Proof.
  induction ts as [|u ts IH]; intros p x t L E; [destruct x; discriminate|]. destruct L as [P L]. destruct x as [|v x].
  - injection E as -> ->. cbn. rewrite app_nil_r. lia.
  - injection E as <- E. rewrite (IH _ _ _ L E). cbn [map concat]. rewrite app_length. lia.
Qed.
Lemma tokenize_regroup : forall txt fuel ts, angles_before_text txt -> tokenize txt fuel = Ok ts -> exists x, regroup ts = Ok x.
Proof.
  intros txt fuel ts A H. destruct (tokenize_kinds _ _ _ H) as (G & C & V). specialize (V A).
  destruct (tokenize_spec _ _ _ H) as (T & L & _).
  assert (E : ended ts).
  { intros x t Q. destruct (leading_kind (kind t)) eqn:K; [|auto]. pose proof (last_in_text _ _ _ _ L Q) as P. rewrite T in P.
    rewrite Forall_forall in G. destruct (G t) as [_ X]; [subst; apply in_or_app; right; now left|]. specialize (X K). cbn in P. lia. }
  destruct (to_lines_ok ts [] C) as (ls & TL). destruct (to_groups_total _ _ _ TL) as (gs & TG). unfold regroup. rewrite TL. cbn [obind]. rewrite TG.
  cbn [obind].
  pose proof (to_lines_v ts [] _ VOut _ (Forall_nil _) ltac:(discriminate) TL V) as VL. cbn [inb] in VL.
  pose proof (to_lines_real _ _ _ TL) as R. pose proof (to_lines_ended ts [] _ E TL) as EL. unfold to_groups in TG.
  pose proof (root_ok _ _ _ _ TG VL) as OK.
  apply (root_lines real _ _ _ ltac:(exact I)) with (1 := TG) in R.
  apply (root_lines lended _ _ _ ltac:(intros [] ? Q; discriminate)) with (1 := TG) in EL.
  apply convert_ok; auto. clear - OK R EL. unfold all_lines in *. induction OK as [|g gs G _ IH]; constructor; cbn in *;
    apply Forall_app in R; apply Forall_app in EL; [apply convert_group_ok|apply IH]; tauto.
Qed.
