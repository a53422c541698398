(** Proofs about the conversion of parse trees. *)
From Coq Require Import String.
From Verif Require Import Base StrModel NodeKind.
From Verif Require StrProofs AttrProofs Utf8Proofs.
From Verif Require RegroupModel TreeSpec ParseModel AttrModel.
From Verif Require Import ConvModel ConvSpec.
Import TreeSpec.
Local Open Scope nat_scope.

Lemma rbind_done : forall {A B} (m : res A) (f : A -> res B) b, rbind m f = Done b -> exists a, m = Done a /\ f a = Done b.
Proof. intros A B [a| | | |] f b H; try discriminate. eauto. Qed.
Lemma each_ok : forall {A B} (f : A -> res B) l ys, Forall2 (fun x y => f x = Done y) l ys -> each f l = Done ys.
Proof. intros A B f l ys H. induction H as [|x y l ys E _ IH]; auto. cbn. rewrite E. cbn. fold (each f l). rewrite IH. reflexivity. Qed.
Lemma each_inv : forall {A B} (f : A -> res B) l ys, each f l = Done ys -> Forall2 (fun x y => f x = Done y) l ys.
Proof.
  intros A B f l. induction l as [|x l IH]; intros ys H; cbn in H.
  - injection H as <-. constructor.
  - fold (each f l) in H. destruct (rbind_done _ _ _ H) as (y & E & H'). destruct (rbind_done _ _ _ H') as (r & E' & H''). injection H'' as <-.
    constructor; auto.
Qed.
Lemma f2_impl : forall {A B} (P Q : A -> B -> Prop) l m, (forall x y, In x l -> In y m -> P x y -> Q x y) -> Forall2 P l m -> Forall2 Q l m.
Proof.
  intros A B P Q l m I H. induction H as [|x y l m E H IH]; constructor.
  - apply I; cbn; auto.
  - apply IH. intros a b Ia Ib. apply I; cbn; auto.
Qed.
Lemma f2_len : forall {A B} (P : A -> B -> Prop) l m, Forall2 P l m -> length l = length m.
Proof. intros A B P l m H. induction H; cbn; auto. Qed.

(** *** Texts *)
Lemma chars_in : forall l c, chars l c = true <-> In c l.
Proof.
  intros l c. unfold chars. rewrite existsb_exists. split.
  - intros (x & I & E). apply Z.eqb_eq in E. subst. exact I.
  - intros I. exists c. split; auto. apply Z.eqb_refl.
Qed.
Lemma chars_notin : forall l c, chars l c = false <-> ~ In c l.
Proof. intros l c. rewrite <- chars_in. destruct (chars l c); split; intros; try discriminate; auto. exfalso. auto. Qed.
(** A prefix of stripped characters is as long as any other. *)
Lemma lead_unique : forall (P : Z -> bool) a b c d m1 m2, Forall (fun x => P x = true) a -> Forall (fun x => P x = true) b ->
  P c = false -> P d = false -> a ++ c :: m1 = b ++ d :: m2 -> a = b /\ c :: m1 = d :: m2.
Proof.
  intros P a. induction a as [|x a IH]; intros [|y b] c d m1 m2 Fa Fb C D E; cbn in E.
  - auto.
  - injection E as -> _. inversion Fb. congruence.
  - injection E as -> _. inversion Fa. congruence.
  - injection E as -> E. inversion Fa. inversion Fb. subst. destruct (IH b c d m1 m2) as [-> ->]; auto.
Qed.
Lemma strip_trims : forall lead trail s t, trims lead trail s t -> strip s (chars lead) (chars trail) = t.
Proof.
  intros lead trail s t (a & b & E & Fa & Fb & (c & m & Et & Nc) & (c' & m' & Et' & Nc')).
  destruct (StrProofs.strip_spec s (chars lead) (chars trail)) as (a' & b' & E' & Fa' & H1 & H2 & H3).
  assert (Fa2 : Forall (fun x => chars lead x = true) a) by (eapply Forall_impl; [|exact Fa]; intros x; apply chars_in).
  assert (Fb2 : Forall (fun x => chars trail x = true) b) by (eapply Forall_impl; [|exact Fb]; intros x; apply chars_in).
  apply chars_notin in Nc, Nc'.
  remember (strip s (chars lead) (chars trail)) as u eqn:Eu. clear Eu. rewrite E in E'. clear E.
  destruct (u ++ b') as [|d m2] eqn:Eub.
  { exfalso. rewrite app_nil_r in E'. subst t. cbn in E'. rewrite <- E', Forall_app in Fa'. destruct Fa' as [_ Fa']. inversion Fa'. congruence. }
  pose proof (H2 d m2 eq_refl) as Hd.
  assert (t ++ b = u ++ b') as E2.
  { rewrite Eub. subst t. cbn in E'. destruct (lead_unique (chars lead) a a' c d (m ++ b) m2 Fa2 Fa' Nc Hd E') as [_ X]. exact X. }
  clear E'. destruct u as [|u0 u' _] using rev_ind.
  { exfalso. cbn in E2. rewrite <- E2, Et', <- app_assoc, Forall_app in H1. destruct H1 as [_ H1]. inversion H1. congruence. }
  pose proof (H3 u' u0 eq_refl) as Hu.
  apply (f_equal (@rev Z)) in E2. rewrite Et', !rev_app_distr in E2. cbn in E2.
  apply Forall_rev in Fb2, H1.
  destruct (lead_unique (chars trail) (rev b) (rev b') c' u0 (rev m') (rev u') Fb2 H1 Nc' Hu E2) as [_ X].
  injection X as -> X. apply (f_equal (@rev Z)) in X. rewrite !rev_involutive in X. subst m'. rewrite Et'. reflexivity.
Qed.
Lemma lstrip_trims : forall lead s t, trims lead [] s t -> lstrip s lead = t.
Proof. intros. unfold lstrip. apply strip_trims. assumption. Qed.
Lemma str_is_eq : forall s w, str_is s w = true <-> s = lit w.
Proof. intros s w. unfold str_is. apply AttrProofs.str_eqb_eq. Qed.
Lemma str_is_neq : forall s w, s <> lit w -> str_is s w = false.
Proof. intros s w H. destruct (str_is s w) eqn:E; auto. apply str_is_eq in E. contradiction. Qed.

Lemma nk_eqb_neq : forall a b, nk_eqb a b = false <-> a <> b.
Proof.
  intros a b. split.
  - intros E ->. rewrite (proj2 (nk_eqb_eq b b) eq_refl) in E. discriminate.
  - intros N. destruct (nk_eqb a b) eqn:E; auto. apply nk_eqb_eq in E. contradiction.
Qed.

(** *** Attached commands *)
Definition cmd (p : nk * sem) : Prop := is_attached (skind (snd p)) = true.
Lemma attached_stmt : forall k, is_attached k = true -> is_stmt k = true.
Proof. intros []; cbn; auto; discriminate. Qed.
Lemma other_not_attached : forall k, is_stmt k = false -> is_attached k = false.
Proof. intros k H. destruct (is_attached k) eqn:E; auto. apply attached_stmt in E. congruence. Qed.

Lemma combine_app_inv : forall (items : list ptree) (ss : list sem) p q, length items = length ss -> combine (map kind_of items) ss = p ++ q ->
  exists i1 i2 s1 s2, items = i1 ++ i2 /\ ss = s1 ++ s2 /\ p = combine (map kind_of i1) s1 /\ q = combine (map kind_of i2) s2 /\
    length i1 = length s1 /\ length i2 = length s2.
Proof.
  intros items. induction items as [|x items IH]; intros [|s ss] p q L E; cbn in L; try lia.
  - cbn in E. symmetry in E. apply app_eq_nil in E. destruct E as [-> ->]. exists [], [], [], []. cbn. repeat split; auto.
  - destruct p as [|[k y] p]; cbn in E.
    + exists [], (x :: items), [], (s :: ss). cbn. repeat split; auto.
    + injection E as <- <- E. destruct (IH ss p q ltac:(lia) E) as (i1 & i2 & s1 & s2 & -> & -> & -> & -> & L1 & L2).
      exists (x :: i1), i2, (s :: s1), s2. cbn. repeat split; auto.
Qed.
Lemma snd_combine : forall (items : list ptree) (ss : list sem), length items = length ss -> map snd (combine (map kind_of items) ss) = ss.
Proof. intros items. induction items as [|x items IH]; intros [|s ss] L; cbn in *; try lia; auto. f_equal. auto. Qed.

Section Gather.
Variable toks : list RegroupModel.otok.
Variable tblfm_ok : str -> bool.
Variable conv : ptree -> res sem.
Notation flat_attached := (flat_attached toks tblfm_ok conv).
Notation formulas := (formulas toks tblfm_ok).
Definition converts (x : ptree) (s : sem) : Prop := conv x = Done s.
(** A formula is converted alike alone and after a statement. *)
Definition agrees (x : ptree) : Prop := kind_of x = nCmdTblfm -> cmd_tblfm toks tblfm_ok x = conv x.

Lemma gather_cmds : forall i1 s1 i2 buf m, Forall2 converts i1 s1 -> Forall cmd (combine (map kind_of i1) s1) ->
  flat_attached (length i1 + m) (i1 ++ i2) buf = flat_attached m i2 (buf ++ s1).
Proof.
  intros i1 s1 i2 buf m H. revert buf. induction H as [|x s i1 s1 E H IH]; intros buf C.
  - cbn. rewrite app_nil_r. reflexivity.
  - cbn in C. inversion C as [|? ? Cx Cr]. subst. cbn [length app Nat.add ConvModel.flat_attached].
    unfold converts in E. rewrite E. cbn [rbind]. unfold cmd in Cx. cbn in Cx. rewrite Cx. rewrite IH by assumption.
    rewrite <- app_assoc. reflexivity.
Qed.
Lemma formulas_ok : forall i1 s1 i2, Forall2 converts i1 s1 -> Forall agrees i1 -> Forall (fun x => kind_of x = nCmdTblfm) i1 ->
  (forall x r, i2 = x :: r -> kind_of x <> nCmdTblfm) -> formulas (i1 ++ i2) = Done (s1, i2).
Proof.
  intros i1 s1 i2 H. induction H as [|x s i1 s1 E H IH]; intros A K N.
  - cbn [app]. destruct i2 as [|x r]; [reflexivity|]. cbn. unfold is_kind. rewrite (proj2 (nk_eqb_neq _ _)); [reflexivity|]. eapply N. reflexivity.
  - inversion A as [|? ? Ax Ar]. inversion K as [|? ? Kx Kr]. subst. cbn. unfold is_kind. rewrite Kx. cbn.
    rewrite (Ax Kx), E. cbn. rewrite IH by auto. reflexivity.
Qed.
Lemma attach_with : forall s cmds forms, sattached s = [] ->
  set_attached (attach s cmds) (sattached (attach s cmds) ++ forms) = with_attached s cmds forms.
Proof.
  intros [k d f subs att] cmds forms E. cbn in E. subst att.
  destruct k; try reflexivity. destruct subs as [|[k' d' f' s' a'] [|y r]]; try reflexivity; destruct k'; reflexivity.
Qed.

Lemma gather_fwd : forall p l, gathered p l -> forall items ss m, p = combine (map kind_of items) ss -> Forall2 converts items ss ->
  Forall agrees items -> Forall (fun s => sattached s = []) ss -> length items <= m -> flat_attached m items [] = Done l.
Proof.
  intros p l H. induction H as [cmds k s forms rest l C St A F N H IH|cmds k s rest l C St H IH|cmds C]; intros items ss m Ep Cv Ag At L.
  - pose proof (f2_len _ _ _ Cv) as Ln.
    destruct (combine_app_inv items ss cmds ((k, s) :: forms ++ rest) Ln (eq_sym Ep)) as (i1 & i2 & s1 & s2 & -> & -> & -> & E2 & L1 & L2).
    destruct i2 as [|x i2]; [discriminate|]. destruct s2 as [|s' s2]; [discriminate|]. cbn in E2. injection E2 as -> <- E2. cbn in L2.
    destruct (combine_app_inv i2 s2 forms rest ltac:(lia) (eq_sym E2)) as (i3 & i4 & s3 & s4 & -> & -> & -> & -> & L3 & L4).
    apply Forall2_app_inv_l in Cv. destruct Cv as (s1' & r' & C1 & C2 & Es).
    assert (s1' = s1 /\ r' = s :: s3 ++ s4) as [-> ->].
    { apply f2_len in C1. assert (length s1' = length s1) by lia. split.
      - apply (f_equal (firstn (length s1))) in Es. rewrite firstn_app, Nat.sub_diag, firstn_all, firstn_O, app_nil_r in Es.
        rewrite firstn_app in Es. replace (length s1 - length s1') with 0 in Es by lia. rewrite firstn_O, app_nil_r, firstn_all2 in Es by lia. auto.
      - apply (f_equal (skipn (length s1))) in Es. rewrite skipn_app, Nat.sub_diag, skipn_all, skipn_O in Es. cbn in Es.
        rewrite skipn_app in Es. replace (length s1 - length s1') with 0 in Es by lia. rewrite skipn_O, skipn_all2 in Es by lia. auto. }
    inversion C2 as [|? ? ? ? Cx C34]. subst. clear Es.
    rewrite app_length in L. cbn [length] in L. rewrite app_length in L.
    replace m with (length i1 + S (m - length i1 - 1)) by lia. rewrite (gather_cmds i1 s1) by assumption. cbn [app].
    cbn [ConvModel.flat_attached]. rewrite Cx. cbn [rbind]. rewrite A, St.
    rewrite !Forall_app in Ag. destruct Ag as [_ Ag]. inversion Ag as [|? ? _ Ag2]. subst. rewrite Forall_app in Ag2. destruct Ag2 as [Ag3 Ag4].
    rewrite !Forall_app in At. destruct At as [_ At]. inversion At as [|? ? As At2]. subst. rewrite Forall_app in At2. destruct At2 as [At3 At4].
    apply Forall2_app_inv_l in C34. destruct C34 as (s3' & s4' & C3 & C4 & Es).
    assert (s3' = s3 /\ s4' = s4) as [-> ->].
    { apply f2_len in C3. assert (length s3' = length s3) by lia. split.
      - apply (f_equal (firstn (length s3))) in Es. rewrite firstn_app, Nat.sub_diag, firstn_all, firstn_O, app_nil_r in Es.
        rewrite firstn_app in Es. replace (length s3 - length s3') with 0 in Es by lia. rewrite firstn_O, app_nil_r, firstn_all2 in Es by lia. auto.
      - apply (f_equal (skipn (length s3))) in Es. rewrite skipn_app, Nat.sub_diag, skipn_all, skipn_O in Es. cbn in Es.
        rewrite skipn_app in Es. replace (length s3 - length s3') with 0 in Es by lia. rewrite skipn_O, skipn_all2 in Es by lia. auto. }
    rewrite (formulas_ok i3 s3 i4); auto.
    2:{ rewrite Forall_forall. intros y Iy. rewrite Forall_forall in F.
        destruct (In_nth_error _ _ Iy) as (j & Ej). assert (exists t, nth_error s3 j = Some t) as (t & Et).
        { destruct (nth_error s3 j) eqn:E; eauto. apply nth_error_None in E. assert (j < length i3) by (apply nth_error_Some; congruence). lia. }
        apply (F (kind_of y, t)). clear - Ej Et. revert s3 j Ej Et. induction i3 as [|z i3 IH]; intros [|u s3] [|j] Ej Et; cbn in *; try discriminate.
        - injection Ej as ->. injection Et as ->. auto.
        - right. eapply IH; eauto. }
    2:{ intros y r ->. destruct s4 as [|s4 r4]; [cbn in L4; lia|]. eapply (N (kind_of y, s4)). cbn. reflexivity. }
    cbn [rbind fst snd]. rewrite (IH i4 s4); auto; [|lia]. cbn [rbind]. rewrite attach_with by assumption.
    rewrite !snd_combine by assumption. reflexivity.
  - pose proof (f2_len _ _ _ Cv) as Ln.
    destruct (combine_app_inv items ss cmds ((k, s) :: rest) Ln (eq_sym Ep)) as (i1 & i2 & s1 & s2 & -> & -> & -> & E2 & L1 & L2).
    destruct i2 as [|x i2]; [discriminate|]. destruct s2 as [|s' s2]; [discriminate|]. cbn in E2. injection E2 as -> <- ->. cbn in L2.
    apply Forall2_app_inv_l in Cv. destruct Cv as (s1' & r' & C1 & C2 & Es).
    assert (s1' = s1 /\ r' = s :: s2) as [-> ->].
    { apply f2_len in C1. assert (length s1' = length s1) by lia. split.
      - apply (f_equal (firstn (length s1))) in Es. rewrite firstn_app, Nat.sub_diag, firstn_all, firstn_O, app_nil_r in Es.
        rewrite firstn_app in Es. replace (length s1 - length s1') with 0 in Es by lia. rewrite firstn_O, app_nil_r, firstn_all2 in Es by lia. auto.
      - apply (f_equal (skipn (length s1))) in Es. rewrite skipn_app, Nat.sub_diag, skipn_all, skipn_O in Es. cbn in Es.
        rewrite skipn_app in Es. replace (length s1 - length s1') with 0 in Es by lia. rewrite skipn_O, skipn_all2 in Es by lia. auto. }
    inversion C2 as [|? ? ? ? Cx C3]. subst. clear Es.
    rewrite app_length in L. cbn [length] in L.
    replace m with (length i1 + S (m - length i1 - 1)) by lia. rewrite (gather_cmds i1 s1) by assumption. cbn [app].
    cbn [ConvModel.flat_attached]. rewrite Cx. cbn [rbind]. rewrite (other_not_attached _ St), St.
    rewrite !Forall_app in Ag. destruct Ag as [_ Ag]. inversion Ag as [|? ? _ Ag2]. subst.
    rewrite !Forall_app in At. destruct At as [_ At]. inversion At as [|? ? As At2]. subst.
    rewrite (IH i2 s2); auto; [|lia]. cbn [rbind]. rewrite snd_combine by assumption. reflexivity.
  - subst. pose proof (f2_len _ _ _ Cv) as Ln. replace m with (length items + (m - length items)) by lia.
    pose proof (gather_cmds items ss [] [] (m - length items) Cv C) as G. rewrite app_nil_r in G. rewrite G. cbn [app].
    rewrite snd_combine by assumption. destruct (m - length items); reflexivity.
Qed.
Lemma gather_ok : forall items ss l, gathered (combine (map kind_of items) ss) l -> Forall2 converts items ss -> Forall agrees items ->
  Forall (fun s => sattached s = []) ss -> attached_all toks tblfm_ok conv items = Done l.
Proof. intros items ss l H C A S. unfold attached_all. eapply gather_fwd; eauto. Qed.
End Gather.

(** Every list of items is gathered in some way. *)
Lemma gathered_some : forall p, exists l, gathered p l.
Proof.
  intros p. remember (length p) as n eqn:En. assert (Hn : length p <= n) by lia. clear En. revert p Hn.
  induction n as [|n IH]; intros p L.
  { destruct p; [|cbn in L; lia]. exists []. apply (gathered_end []). constructor. }
  assert (Sp : exists cmds q, p = cmds ++ q /\ Forall cmd cmds /\ (forall x r, q = x :: r -> is_attached (skind (snd x)) = false)).
  { clear. induction p as [|x p (cmds & q & -> & C & N)].
    - exists [], []. repeat split; auto. discriminate.
    - destruct (is_attached (skind (snd x))) eqn:E.
      + exists (x :: cmds), q. repeat split; auto.
      + exists [], (x :: cmds ++ q). repeat split; auto. intros y r Ey. injection Ey as <- _. exact E. }
  destruct Sp as (cmds & q & -> & C & N). destruct q as [|[k s] q].
  { rewrite app_nil_r. eexists. apply gathered_end. exact C. }
  specialize (N _ _ eq_refl). cbn in N. rewrite app_length in L. cbn in L.
  destruct (is_stmt (skind s)) eqn:E.
  - assert (Sp : exists f r, q = f ++ r /\ Forall (fun x : nk * sem => fst x = nCmdTblfm) f /\ (forall x t, r = x :: t -> fst x <> nCmdTblfm)).
    { clear. induction q as [|x q (f & r & -> & F & Nf)].
      - exists [], []. repeat split; auto. discriminate.
      - destruct (nk_eqb (fst x) nCmdTblfm) eqn:E.
        + apply nk_eqb_eq in E. exists (x :: f), r. repeat split; auto.
        + apply nk_eqb_neq in E. exists [], (x :: f ++ r). repeat split; auto. intros y t Ey. injection Ey as <- _. exact E. }
    destruct Sp as (f & r & -> & F & Nf). rewrite app_length in L. destruct (IH r ltac:(lia)) as (l & G).
    eexists. eapply gathered_statement; eauto.
  - destruct (IH q ltac:(lia)) as (l & G). eexists. eapply gathered_other; eauto.
Qed.
(** And in only one. *)
Lemma cut_unique : forall {A} (P : A -> bool) a x b a' x' b', Forall (fun y => P y = true) a -> Forall (fun y => P y = true) a' -> P x = false -> P x' = false ->
  a ++ x :: b = a' ++ x' :: b' -> a = a' /\ x = x' /\ b = b'.
Proof.
  intros A P a. induction a as [|y a IH]; intros x b [|z a'] x' b' Fa Fa' Px Px' E; cbn in E.
  - injection E as -> ->. auto.
  - injection E as -> _. inversion Fa'. congruence.
  - injection E as -> _. inversion Fa. congruence.
  - injection E as -> E. inversion Fa. inversion Fa'. subst. destruct (IH x b a' x' b') as (-> & -> & ->); auto.
Qed.
Lemma cut_all : forall {A} (P : A -> bool) a x b c, Forall (fun y => P y = true) c -> P x = false -> a ++ x :: b = c -> False.
Proof.
  intros A P a x b c F Px <-. rewrite Forall_app in F. destruct F as [_ F]. inversion F. congruence.
Qed.
Lemma prefix_unique : forall {A} (P : A -> Prop) a b a' b', Forall P a -> Forall P a' -> (forall x r, b = x :: r -> ~ P x) -> (forall x r, b' = x :: r -> ~ P x) ->
  a ++ b = a' ++ b' -> a = a' /\ b = b'.
Proof.
  intros A P a. induction a as [|y a IH]; intros b [|z a'] b' Fa Fa' N N' E; cbn in E.
  - auto.
  - inversion Fa'. subst. exfalso. eapply N; eauto.
  - inversion Fa. subst. exfalso. eapply N'; eauto.
  - injection E as -> E. inversion Fa. inversion Fa'. subst. destruct (IH b a' b') as (-> & ->); auto.
Qed.
Lemma gathered_once : forall p l l', gathered p l -> gathered p l' -> l = l'.
Proof.
  intros p l l' G. revert l'. induction G as [cmds k s forms rest l C St A F N G IH|cmds k s rest l C St G IH|cmds C]; intros l' G'; inversion G' as [cmds' k' s' forms' rest' m C' St' A' F' N' H' E|cmds' k' s' rest' m C' St' H' E|cmds' C' E]; subst.
  - destruct (cut_unique (fun p => is_attached (skind (snd p))) cmds' (k', s') (forms' ++ rest') cmds (k, s) (forms ++ rest) C' C A' A E) as (-> & X & E2). injection X as -> ->.
    destruct (prefix_unique (fun p => fst p = nCmdTblfm) forms' rest' forms rest F' F N' N E2) as (-> & ->). rewrite (IH m H'). reflexivity.
  - destruct (cut_unique (fun p => is_attached (skind (snd p))) cmds' (k', s') rest' cmds (k, s) (forms ++ rest) C' C (other_not_attached _ St') A E) as (_ & X & _). injection X as -> ->. congruence.
  - exfalso. exact (cut_all (fun p : nk * sem => is_attached (skind (snd p))) cmds (k, s) _ _ C' A eq_refl).
  - destruct (cut_unique (fun p => is_attached (skind (snd p))) cmds' (k', s') (forms' ++ rest') cmds (k, s) rest C' C A' (other_not_attached _ St) E) as (_ & X & _). injection X as -> ->. congruence.
  - destruct (cut_unique (fun p => is_attached (skind (snd p))) cmds' (k', s') rest' cmds (k, s) rest C' C (other_not_attached _ St') (other_not_attached _ St) E) as (-> & X & ->). injection X as -> ->.
    rewrite (IH m H'). reflexivity.
  - exfalso. exact (cut_all (fun p : nk * sem => is_attached (skind (snd p))) cmds (k, s) _ _ C' (other_not_attached _ St) eq_refl).
  - exfalso. exact (cut_all (fun p : nk * sem => is_attached (skind (snd p))) cmds' (k', s') _ _ C A' eq_refl).
  - exfalso. exact (cut_all (fun p : nk * sem => is_attached (skind (snd p))) cmds' (k', s') _ _ C (other_not_attached _ St') eq_refl).
  - reflexivity.
Qed.
