(** Proofs for C46 and C61-C63. *)
From Coq Require Import String.
From Verif Require Import Base StrModel Utf8Proofs AttrModel AttrSpec.
Local Open Scope nat_scope.

Lemma str_eqb_eq : forall a b, str_eqb a b = true <-> a = b.
Proof. intros. unfold str_eqb. destruct (str_dec a b); split; congruence. Qed.
Lemma str_eqb_refl : forall a, str_eqb a a = true.
Proof. intros. now apply str_eqb_eq. Qed.
Lemma str_eqb_neq : forall a b, str_eqb a b = false <-> a <> b.
Proof. intros. unfold str_eqb. destruct (str_dec a b); split; congruence. Qed.

Lemma lookup_assign : forall {A} (m : list (str * A)) k v k', lookup (assign m k v) k' = if str_eqb k k' then Some v else lookup m k'.
Proof.
  intros A m k v k'. induction m as [|[a b] m IH]; cbn; [reflexivity|].
  destruct (str_eqb a k) eqn:E; cbn.
  - apply str_eqb_eq in E. subst a. destruct (str_eqb k k'); reflexivity.
  - destruct (str_eqb a k') eqn:E'; [|exact IH]. apply str_eqb_eq in E'. subst a.
    destruct (str_eqb k k') eqn:F; [|reflexivity]. apply str_eqb_eq in F. subst. rewrite str_eqb_refl in E. discriminate.
Qed.
Lemma lookup_app : forall {A} (m m' : list (str * A)) k, lookup (m ++ m') k = match lookup m k with Some v => Some v | None => lookup m' k end.
Proof. intros A m m' k. induction m as [|[a b] m IH]; cbn; [reflexivity|]. destruct (str_eqb a k); auto. Qed.
Lemma lookup_In : forall {A} (m : list (str * A)) k v, lookup m k = Some v -> In (k, v) m.
Proof.
  intros A m k v. induction m as [|[a b] m IH]; cbn; [discriminate|]. destruct (str_eqb a k) eqn:E; [|auto].
  apply str_eqb_eq in E. intros H. injection H as ->. subst. now left.
Qed.
Lemma lookup_None : forall {A} (m : list (str * A)) k, lookup m k = None <-> ~ In k (map fst m).
Proof.
  intros A m k. induction m as [|[a b] m IH]; cbn; [tauto|]. destruct (str_eqb a k) eqn:E.
  - apply str_eqb_eq in E. split; [discriminate|]. tauto.
  - apply str_eqb_neq in E. rewrite IH. tauto.
Qed.
Lemma assign_keys : forall {A} (m : list (str * A)) k v, In k (map fst m) -> map fst (assign m k v) = map fst m.
Proof.
  intros A m k v. induction m as [|[a b] m IH]; cbn; [intros []|]. destruct (str_eqb a k) eqn:E; [reflexivity|].
  apply str_eqb_neq in E. intros [C|H]; [congruence|]. cbn. now rewrite IH.
Qed.
Lemma assign_new : forall {A} (m : list (str * A)) k v, ~ In k (map fst m) -> assign m k v = m ++ [(k, v)].
Proof.
  intros A m k v. induction m as [|[a b] m IH]; cbn; [reflexivity|]. intros N. destruct (str_eqb a k) eqn:E.
  - apply str_eqb_eq in E. tauto.
  - rewrite IH by tauto. reflexivity.
Qed.

(** ** Reading arguments *)
Lemma filter_snoc : forall {A} (f : A -> bool) l x, filter f (l ++ [x]) = filter f l ++ if f x then [x] else [].
Proof. intros. rewrite filter_app. reflexivity. Qed.

Record read (l : list attr) (g : group) : Prop := {
  rd_pos : positional g = filter unnamed l;
  rd_named : forall k, lookup (named g) k = match filter (called k) l with [] => None | x => Some x end;
  rd_nodup : NoDup (map fst (named g));
  rd_norm : forall k, In k (map fst (named g)) -> normalize k = k }.

Lemma read_nil : read [] no_attrs.
Proof. split; cbn; auto; try constructor. tauto. Qed.
Lemma called_eq : forall k n v, called k (Attr (Some n) v) = str_eqb (normalize n) k.
Proof. reflexivity. Qed.
Lemma read_step : forall l g a, read l g -> read (l ++ [a]) (add_argument g a).
Proof.
  intros l g [[n|] v] [P N D Nm]; unfold add_argument; cbn [aname].
  - pose proof (N (normalize n)) as Nn. destruct (lookup (named g) (normalize n)) as [items|] eqn:E.
    + assert (I : In (normalize n) (map fst (named g))).
      { destruct (in_dec str_dec (normalize n) (map fst (named g))) as [H|H]; [exact H|]. apply lookup_None in H. congruence. }
      split; cbn [positional named].
      * rewrite filter_snoc. cbn. now rewrite app_nil_r.
      * intros k. rewrite lookup_assign, filter_snoc, called_eq, N. destruct (str_eqb (normalize n) k) eqn:F.
        -- apply str_eqb_eq in F. subst k. destruct (filter (called (normalize n)) l); [discriminate|]. injection Nn as ->. reflexivity.
        -- now rewrite app_nil_r.
      * now rewrite assign_keys.
      * intros k. rewrite assign_keys by exact I. apply Nm.
    + assert (I : ~ In (normalize n) (map fst (named g))) by now apply lookup_None.
      split; cbn [positional named].
      * rewrite filter_snoc. cbn. now rewrite app_nil_r.
      * intros k. rewrite lookup_app, filter_snoc, called_eq, N. cbn [lookup]. destruct (str_eqb (normalize n) k) eqn:F.
        -- apply str_eqb_eq in F. subst k. destruct (filter (called (normalize n)) l); [reflexivity|discriminate].
        -- rewrite app_nil_r. destruct (filter (called k) l); reflexivity.
      * rewrite map_app. cbn. apply NoDup_Add with (a := normalize n) (l := map fst (named g)); [|now split].
        rewrite <- (app_nil_r (map fst (named g))) at 1. apply Add_app.
      * intros k. rewrite map_app, in_app_iff. cbn. intros [H|[<-|[]]]; [auto|]. apply normalize_idem.
  - split; cbn [positional named].
    + rewrite filter_snoc, P. reflexivity.
    + intros k. rewrite filter_snoc, N. cbn. now rewrite app_nil_r.
    + exact D.
    + exact Nm.
Qed.
Lemma read_fold : forall l l0 g, read l0 g -> read (l0 ++ l) (fold_left add_argument l g).
Proof.
  induction l as [|a l IH]; intros l0 g R; cbn; [now rewrite app_nil_r|].
  replace (l0 ++ a :: l) with ((l0 ++ [a]) ++ l) by (rewrite <- app_assoc; reflexivity). apply IH. now apply read_step.
Qed.
Lemma read_attrs : forall l, read l (attrs_of l).
Proof. intros l. apply (read_fold l [] no_attrs read_nil). Qed.

Lemma str_ltb_lt : forall a b, str_ltb a b = true <-> str_lt a b.
Proof.
  induction a as [|x a IH]; intros [|y b]; cbn.
  - split; [discriminate|]. intros H; inversion H.
  - split; [constructor|reflexivity].
  - split; [discriminate|]. intros H; inversion H.
  - destruct (x <? y)%Z eqn:L.
    + split; [intros _; apply sl_head; lia|reflexivity].
    + destruct (x =? y)%Z eqn:E.
      * apply Z.eqb_eq in E. subst y. rewrite IH. split; [apply sl_tail|]. intros H. inversion H; subst; [lia|assumption].
      * split; [discriminate|]. intros H. inversion H; subst; [lia|]. rewrite Z.eqb_refl in E. discriminate.
Qed.
Lemma str_lt_trans : forall a b c, str_lt a b -> str_lt b c -> str_lt a c.
Proof.
  intros a b c H. revert c. induction H as [y b|x y a b L|x a b H IH]; intros c Hc; inversion Hc; subst; try (now constructor).
  - apply sl_head. lia.
  - apply sl_tail. now apply IH.
Qed.
Lemma str_lt_total : forall a b, a <> b -> str_lt a b \/ str_lt b a.
Proof.
  induction a as [|x a IH]; intros [|y b] N; try congruence.
  - left. constructor.
  - right. constructor.
  - destruct (Z.lt_trichotomy x y) as [L|[->|L]].
    + left. now apply sl_head.
    + destruct (IH b) as [H|H]; [congruence| |]; [left|right]; now apply sl_tail.
    + right. now apply sl_head.
Qed.
Lemma key_insert_perm : forall {A} (x : str * A) l, Permutation (key_insert x l) (x :: l).
Proof.
  intros A x l. induction l as [|y l IH]; cbn; [reflexivity|]. destruct (str_ltb (fst x) (fst y)); [reflexivity|].
  rewrite IH. apply perm_swap.
Qed.
Lemma by_key_perm : forall {A} (l : list (str * A)), Permutation (by_key l) l.
Proof. intros A l. induction l as [|x l IH]; cbn; [reflexivity|]. unfold by_key in *. cbn. rewrite key_insert_perm. now constructor. Qed.
Lemma key_insert_sorted : forall {A} (x : str * A) l, StronglySorted str_lt (map fst l) -> ~ In (fst x) (map fst l) -> StronglySorted str_lt (map fst (key_insert x l)).
Proof.
  intros A x l. induction l as [|y l IH]; cbn; intros H N; [repeat constructor|].
  inversion H as [|? ? S1 S2]; subst. destruct (str_ltb (fst x) (fst y)) eqn:E.
  - apply str_ltb_lt in E. cbn. constructor; [exact H|]. constructor; [exact E|]. rewrite Forall_forall in *. intros z Hz. eapply str_lt_trans; eauto.
  - cbn. constructor; [apply IH; tauto|]. rewrite Forall_forall in *. intros z Hz. rewrite key_insert_perm in Hz. cbn in Hz.
    destruct Hz as [<-|Hz]; [|auto]. destruct (str_lt_total (fst y) (fst x)) as [L|L]; [tauto|exact L|].
    apply str_ltb_lt in L. congruence.
Qed.
Lemma by_key_sorted : forall {A} (l : list (str * A)), NoDup (map fst l) -> StronglySorted str_lt (map fst (by_key l)).
Proof.
  intros A l. induction l as [|x l IH]; cbn; intros D; [constructor|]. inversion D; subst. unfold by_key in *. cbn.
  apply key_insert_sorted; [auto|]. rewrite (Permutation_map fst (by_key_perm l)). assumption.
Qed.
Lemma flat_spec : forall l, exists ks, StronglySorted str_lt ks /\ (forall k, In k ks <-> exists a n, In a l /\ aname a = Some n /\ normalize n = k) /\
  flat_args (attrs_of l) = filter unnamed l ++ concat (map (fun k => filter (called k) l) ks).
Proof.
  intros l. destruct (read_attrs l) as [P N D Nm]. set (g := attrs_of l) in *. exists (map fst (by_key (named g))). split; [now apply by_key_sorted|].
  assert (K : forall k, In k (map fst (by_key (named g))) <-> In k (map fst (named g))).
  { intros k. now rewrite (Permutation_map fst (by_key_perm (named g))). }
  split.
  - intros k. rewrite K. specialize (N k). destruct (in_dec str_dec k (map fst (named g))) as [I|I].
    + split; [|tauto]. intros _. destruct (filter (called k) l) as [|a r] eqn:F; [apply lookup_None in N; tauto|].
      assert (Ha : In a (filter (called k) l)) by (rewrite F; now left). apply filter_In in Ha. destruct Ha as [Ha Hc].
      destruct a as [[n|] v]; [|discriminate]. rewrite called_eq in Hc. apply str_eqb_eq in Hc. exists (Attr (Some n) v), n. auto.
    + split; [tauto|]. intros (a & n & Ha & En & Ek). exfalso. apply I. apply lookup_None in I. rewrite I in N.
      assert (Hf : In a (filter (called k) l)).
      { apply filter_In. split; [exact Ha|]. destruct a as [o v]. cbn in En. subst o. rewrite called_eq. now apply str_eqb_eq. }
      destruct (filter (called k) l); [destruct Hf|discriminate].
  - unfold flat_args. rewrite P. f_equal. f_equal. rewrite map_map. apply map_ext_in. intros [k v] H. cbn.
    assert (L : lookup (named g) k = Some v).
    { rewrite by_key_perm in H. clear -D H. induction (named g) as [|[a b] m IH]; [destruct H|]. cbn in *. inversion D; subst. destruct H as [H|H].
      - injection H as -> ->. now rewrite str_eqb_refl.
      - destruct (str_eqb a k) eqn:E; [|now apply IH]. apply str_eqb_eq in E. subst a. exfalso.
        match goal with H : ~ In k _ |- _ => apply H end. apply in_map_iff. now exists (k, v). }
    rewrite N in L. destruct (filter (called k) l); [discriminate|]. now injection L as ->.
Qed.
Lemma get_attrs_named : forall l p, get_attrs (attrs_of l) (Some p) = filter (called (normalize p)) l.
Proof. intros l p. cbn. rewrite (rd_named _ _ (read_attrs l)). now destruct (filter (called (normalize p)) l). Qed.
Lemma attrs_proper : forall l, proper (attrs_of l).
Proof. intros l. destruct (read_attrs l) as [_ _ D N]. split; [exact D|]. intros k v H. apply N. apply in_map_iff. now exists (k, v). Qed.

(** ** The property stack *)
Lemma set_named_all : forall l g k, NoDup (map fst l) -> (forall k v, In (k, v) l -> normalize k = k) ->
  lookup (named (fold_left (fun acc (kv : str * list attr) => set_named acc (fst kv) (snd kv)) l g)) k =
  match lookup l k with Some v => Some v | None => lookup (named g) k end.
Proof.
  induction l as [|[a b] l IH]; intros g k D N; cbn; [reflexivity|]. inversion D; subst.
  rewrite IH; [|assumption|intros; eapply N; right; eassumption]. cbn [set_named named]. rewrite lookup_assign.
  rewrite (N a b) by now left. destruct (str_eqb a k) eqn:E.
  - apply str_eqb_eq in E. subst a. destruct (lookup l k) eqn:F; [|reflexivity]. exfalso. apply lookup_In in F.
    match goal with H : ~ In k _ |- _ => apply H end. apply in_map_iff. now exists (k, l0).
  - reflexivity.
Qed.
Lemma set_named_positional : forall l g,
  positional (fold_left (fun acc (kv : str * list attr) => set_named acc (fst kv) (snd kv)) l g) = positional g.
Proof. induction l as [|[a b] l IH]; intros g; cbn; [reflexivity|]. now rewrite IH. Qed.

Definition override {B} (inner outer : option B) : option B := match inner with Some v => Some v | None => outer end.
Lemma last_def_snoc : forall {A B} (f : A -> option B) l x r, last_def f l r -> last_def f (l ++ [x]) (override (f x) r).
Proof.
  intros A B f l x r H. destruct (f x) as [v|] eqn:E; cbn.
  - exists l, x, []. repeat split; auto. intros y [].
  - destruct r as [v|]; cbn in *.
    + destruct H as (l1 & y & l2 & -> & Fy & N). exists l1, y, (l2 ++ [x]). rewrite <- app_assoc. repeat split; auto.
      intros z Hz. apply in_app_iff in Hz. destruct Hz as [Hz|[<-|[]]]; auto.
    + intros z Hz. apply in_app_iff in Hz. destruct Hz as [Hz|[<-|[]]]; auto.
Qed.
Lemma combine_args : forall l n s g l0,
  Forall (fun p => exists s' g', p = PArgs n s' g' /\ proper g') l ->
  (last_def positional_def l0 (positional_def g)) -> (forall k, last_def (named_def k) l0 (named_def k g)) ->
  exists g', combine_loop (PArgs n s g) l = Ok (PArgs n s g') /\
    last_def positional_def (l0 ++ flat_map (fun p => match p with PArgs _ _ g => [g] | _ => [] end) l) (positional_def g') /\
    forall k, last_def (named_def k) (l0 ++ flat_map (fun p => match p with PArgs _ _ g => [g] | _ => [] end) l) (named_def k g').
Proof.
  induction l as [|p l IH]; intros n s g l0 F Lp Ln.
  - exists g. cbn. rewrite app_nil_r. auto.
  - inversion F as [|? ? (s' & g' & -> & Pr) F']; subst. cbn [combine_loop]. unfold combine_step at 1. cbn [same_kind]. rewrite str_eqb_refl. cbn [obind].
    match goal with |- context [combine_loop (PArgs n s ?G) l] => set (g1 := G) end.
    cbn [flat_map app]. replace (l0 ++ g' :: flat_map (fun p => match p with PArgs _ _ g => [g] | _ => [] end) l)
      with ((l0 ++ [g']) ++ flat_map (fun p => match p with PArgs _ _ g => [g] | _ => [] end) l) by (rewrite <- app_assoc; reflexivity).
    apply IH; [exact F'| |].
    + replace (positional_def g1) with (override (positional_def g') (positional_def g)); [now apply last_def_snoc|].
      unfold g1, positional_def. rewrite set_named_positional. destruct (positional g') as [|x r]; cbn; reflexivity.
    + intros k. replace (named_def k g1) with (override (named_def k g') (named_def k g)); [now apply last_def_snoc|].
      unfold g1, named_def, override. destruct Pr as [D N]. rewrite set_named_all by assumption.
      destruct (lookup (named g') k); [reflexivity|]. destruct (positional g'); reflexivity.
Qed.

Lemma same_kind_refl : forall p, same_kind p p = true.
Proof. intros []; cbn; auto. apply str_eqb_refl. Qed.
Lemma same_kind_sym : forall p q, same_kind p q = same_kind q p.
Proof. intros [] []; cbn; auto. unfold str_eqb. destruct (str_dec kindname kindname0), (str_dec kindname0 kindname); congruence. Qed.
Lemma same_kind_trans : forall p q r, same_kind p q = true -> same_kind q r = true -> same_kind p r = true.
Proof. intros [] [] []; cbn; try congruence. rewrite !str_eqb_eq. congruence. Qed.

Lemma compatible_refl : forall p, compatible p p.
Proof. intros []; cbn; reflexivity. Qed.
Lemma compatible_sym : forall p q, compatible p q -> compatible q p.
Proof. intros [] []; cbn; auto. Qed.
Lemma compatible_trans : forall p q r, compatible p q -> compatible q r -> compatible p r.
Proof. intros [] [] []; cbn; try tauto; congruence. Qed.
Lemma combine_step_spec : forall p q,
  (~ compatible p q /\ combine_step p q = Throw) \/
  (compatible p q /\ exists r, combine_step p q = Ok r /\ compatible r q /\ (match p with PArgs _ _ _ => False | _ => True end -> r = q)).
Proof.
  intros p q. unfold combine_step. destruct p as [n s g|n v|n v|n v|n v|k v], q as [n' s' g'|n' v'|n' v'|n' v'|n' v'|k' v'];
    cbn [same_kind compatible]; try (left; split; [tauto|reflexivity]); try (right; split; [exact I|]; eexists; split; [reflexivity|]; split; [exact I|reflexivity]).
  - destruct (str_eqb n n') eqn:E.
    + apply str_eqb_eq in E. right. split; [exact E|]. eexists. split; [reflexivity|]. split; [exact E|]. intros [].
    + apply str_eqb_neq in E. left. now split.
  - destruct (str_eqb k k') eqn:E.
    + apply str_eqb_eq in E. right. split; [exact E|]. eexists. split; [reflexivity|]. split; [reflexivity|reflexivity].
    + apply str_eqb_neq in E. left. now split.
Qed.
Lemma combine_loop_total : forall l p, (exists r, combine_loop p l = Ok r) <-> forall q, In q l -> compatible p q.
Proof.
  induction l as [|q l IH]; intros p; cbn [combine_loop].
  - split; [intros _ q []|eauto].
  - destruct (combine_step_spec p q) as [[N E]|(C & r & E & Cr & _)]; rewrite E; cbn [obind].
    + split; [intros [r H]; discriminate|]. intros H. exfalso. apply N, H. now left.
    + rewrite IH. split.
      * intros H x [<-|Hx]; [exact C|]. eapply compatible_trans; [exact C|]. eapply compatible_trans; [apply compatible_sym, Cr|]. auto.
      * intros H x Hx. eapply compatible_trans; [exact Cr|]. eapply compatible_trans; [apply compatible_sym, C|]. apply H. now right.
Qed.
Lemma combine_loop_throw : forall l p, (exists r, combine_loop p l = Ok r) \/ combine_loop p l = Throw.
Proof.
  induction l as [|q l IH]; intros p; cbn [combine_loop]; [eauto|].
  destruct (combine_step_spec p q) as [[N E]|(C & r & E & Cr & _)]; rewrite E; cbn [obind]; auto.
Qed.
Lemma combine_last : forall l p, match p with PArgs _ _ _ => False | _ => True end -> (forall q, In q l -> compatible p q) ->
  combine_loop p l = Ok (last l p).
Proof.
  induction l as [|q l IH]; intros p NA H; cbn [combine_loop]; [reflexivity|].
  destruct (combine_step_spec p q) as [[N E]|(C & r & E & Cr & R)]; [exfalso; apply N, H; now left|]. rewrite E. cbn [obind]. rewrite (R NA).
  rewrite IH.
  - f_equal. destruct l as [|x l]; [reflexivity|]. cbn [last]. clear. revert x. induction l as [|y l IH]; intros x; [reflexivity|]. cbn [last] in *. apply IH.
  - destruct p, q; cbn in *; tauto.
  - intros x Hx. eapply compatible_trans; [apply compatible_sym, C|]. apply H. now right.
Qed.

(** ** Setting properties *)
Lemma hd_filter : forall {A} (f : A -> bool) l x, hd_error (filter f l) = Some x <-> exists l1 l2, l = l1 ++ x :: l2 /\ f x = true /\ forall y, In y l1 -> f y = false.
Proof.
  intros A f l x. induction l as [|y l IH]; cbn.
  - split; [discriminate|]. intros (l1 & l2 & E & _). now destruct l1.
  - destruct (f y) eqn:E; cbn.
    + split.
      * intros H. injection H as ->. exists [], l. repeat split; auto. intros z [].
      * intros (l1 & l2 & El & Fx & N). destruct l1 as [|z l1]; cbn in El; injection El as -> ->; [reflexivity|].
        rewrite (N z (or_introl eq_refl)) in E. discriminate.
    + rewrite IH. split.
      * intros (l1 & l2 & -> & Fx & N). exists (y :: l1), l2. repeat split; auto. intros z [<-|Hz]; auto.
      * intros (l1 & l2 & El & Fx & N). destruct l1 as [|z l1]; cbn in El; injection El as -> ->; [congruence|].
        exists l1, l2. repeat split; auto. intros z' Hz. apply N. now right.
Qed.
Lemma filter_none : forall {A} (f : A -> bool) l, (forall x, In x l -> f x = false) -> filter f l = [].
Proof. intros A f l. induction l as [|x l IH]; cbn; intros H; [reflexivity|]. rewrite (H x) by now left. apply IH. auto. Qed.
Lemma filter_comm : forall {A} (f g : A -> bool) l, filter f (filter g l) = filter g (filter f l).
Proof. intros A f g l. induction l as [|x l IH]; cbn; [reflexivity|]. destruct (f x) eqn:F, (g x) eqn:G; cbn; rewrite ?F, ?G, IH; reflexivity. Qed.
Lemma filter_keep : forall {A} (f : A -> bool) l, (forall x, In x l -> f x = true) -> filter f l = l.
Proof. intros A f l. induction l as [|x l IH]; cbn; intros H; [reflexivity|]. rewrite (H x) by now left. f_equal. apply IH. auto. Qed.
Lemma opt_eqb_eq : forall a b, opt_eqb a b = true <-> a = b.
Proof. intros [a|] [b|]; cbn; rewrite ?str_eqb_eq; split; congruence. Qed.

(** ** Hashtags *)
Lemma hashtag_ind' : forall P : hashtag -> Prop, (forall h subs, Forall P subs -> P (HashTag h subs)) -> forall t, P t.
Proof.
  intros P H. fix IH 1. intros [h subs]. apply H. induction subs as [|s subs IHs]; constructor; [apply IH|exact IHs].
Qed.
Lemma prefix_match_spec : forall t p, prefix_match t p = true <-> p = [] \/ tag_path t p.
Proof.
  induction t as [h subs IH] using hashtag_ind'. intros [|x p]; cbn [prefix_match]; [tauto|].
  destruct (Nat.eqb x h) eqn:E.
  - apply Nat.eqb_eq in E. subst x. destruct p as [|y p].
    + split; [|reflexivity]. intros _. right. constructor.
    + rewrite existsb_exists. rewrite Forall_forall in IH. split.
      * intros (s & Hs & M). apply IH in M; [|exact Hs]. destruct M as [M|M]; [discriminate|]. right. econstructor; eassumption.
      * intros [C|H]; [discriminate|]. inversion H; subst. exists s. split; [assumption|]. apply IH; auto.
  - split; [discriminate|]. intros [C|H]; [discriminate|]. inversion H; subst; rewrite Nat.eqb_refl in E; discriminate.
Qed.

Definition go_tags (inter : bool) (parents : list nat) :=
  fix go (l : list hashtag) (acc vis : list (list nat)) {struct l} : list (list nat) * list (list nat) :=
    match l with
    | [] => (acc, vis)
    | s :: l' => let r := flat_aux inter s parents vis in go l' (acc ++ fst r) (snd r)
    end.
Lemma flat_aux_eq : forall inter h subs parents visited, flat_aux inter (HashTag h subs) parents visited =
  let fresh := inter && negb (match parents with [] => true | _ => false end) && negb (existsb (path_eqb parents) visited) in
  let pre := if fresh then [parents] else [] in
  let vis := if fresh then parents :: visited else visited in
  match subs with [] => (pre ++ [parents ++ [h]], vis) | _ => go_tags inter (parents ++ [h]) subs pre vis end.
Proof. reflexivity. Qed.

Lemma leaves_total : forall t, exists l, leaves t l.
Proof.
  induction t as [h subs IH] using hashtag_ind'. destruct subs as [|s subs]; [exists [[h]]; constructor|].
  assert (H : exists ls, Forall2 leaves (s :: subs) ls).
  { induction IH as [|x r [l Hl] _ [ls Hls]]; [exists []; constructor|]. exists (l :: ls). now constructor. }
  destruct H as [ls H]. eexists. apply lv_node; [discriminate|exact H].
Qed.
Lemma leaves_fun : forall t l l', leaves t l -> leaves t l' -> l = l'.
Proof.
  induction t as [h subs IH] using hashtag_ind'. intros l l' H H'. inversion H; subst; inversion H'; subst; try reflexivity; try contradiction.
  f_equal. f_equal. match goal with A : Forall2 leaves subs ls, B : Forall2 leaves subs ls0 |- _ => revert A B end. clear -IH.
  revert ls ls0. induction IH as [|x r Hx _ IHr]; intros ls ls' A B; inversion A; subst; inversion B; subst; [reflexivity|]. f_equal; auto.
Qed.

Definition cnt (p : list nat) (l : list (list nat)) : nat := count_occ (list_eq_dec Nat.eq_dec) l p.
Lemma cnt_app : forall p a b, cnt p (a ++ b) = cnt p a + cnt p b.
Proof. intros. apply count_occ_app. Qed.
(** Without intermediate tags. *)
Lemma flat_false : forall t parents vis l, leaves t l -> flat_aux false t parents vis = (map (app parents) l, vis).
Proof.
  induction t as [h subs IH] using hashtag_ind'. intros parents vis l H. rewrite flat_aux_eq. cbn [andb]. cbv zeta.
  inversion H as [h0|h0 subs0 ls N F]; subst; [reflexivity|].
  assert (G : forall acc vis, go_tags false (parents ++ [h]) subs acc vis = (acc ++ map (app (parents ++ [h])) (concat ls), vis)).
  { clear -IH F. revert ls F. induction IH as [|x r Hx _ IHr]; intros ls F acc vis; inversion F; subst; cbn [go_tags concat map].
    - now rewrite app_nil_r.
    - cbv zeta. rewrite (Hx (parents ++ [h]) vis _ ltac:(eassumption)). cbn [fst snd].
      change ((fix go (l : list hashtag) (acc0 vis0 : list (list nat)) {struct l} : list (list nat) * list (list nat) :=
        match l with [] => (acc0, vis0) | s :: l'0 => let r0 := flat_aux false s (parents ++ [h]) vis0 in go l'0 (acc0 ++ fst r0) (snd r0) end) r)
        with (go_tags false (parents ++ [h]) r).
      rewrite (IHr _ ltac:(eassumption)). rewrite map_app, app_assoc. reflexivity. }
  destruct subs as [|s subs]; [contradiction|]. rewrite G. cbn. f_equal. rewrite map_map. apply map_ext. intros a. now rewrite <- app_assoc.
Qed.
(** With intermediate tags: what a call adds to the visited set. *)
Definition adds (vis vis' res leafs : list (list nat)) (inside : list nat -> Prop) : Prop :=
  exists new, vis' = new ++ vis /\ NoDup new /\ (forall p, In p new -> ~ In p vis) /\
    (forall p, In p vis' <-> In p vis \/ inside p) /\ forall p, cnt p res = cnt p leafs + cnt p new.
Lemma path_eqb_eq : forall a b, path_eqb a b = true <-> a = b.
Proof. intros. unfold path_eqb. destruct (list_eq_dec Nat.eq_dec a b); split; congruence. Qed.
Lemma nodup_app' : forall {A} (a b : list A), NoDup a -> NoDup b -> (forall x, In x a -> ~ In x b) -> NoDup (a ++ b).
Proof.
  intros A a b Ha Hb D. induction Ha as [|x a N Ha IH]; cbn; [exact Hb|]. constructor.
  - rewrite in_app_iff. intros [H|H]; [contradiction|]. apply (D x); [now left|exact H].
  - apply IH. intros y Hy. apply D. now right.
Qed.
Lemma adds_trans : forall v0 v1 v2 r1 r2 l1 l2 (P Q : list nat -> Prop), adds v0 v1 r1 l1 P -> adds v1 v2 r2 l2 Q -> adds v0 v2 (r1 ++ r2) (l1 ++ l2) (fun p => P p \/ Q p).
Proof.
  intros v0 v1 v2 r1 r2 l1 l2 P Q (n1 & E1 & D1 & F1 & M1 & C1) (n2 & E2 & D2 & F2 & M2 & C2). exists (n2 ++ n1). repeat split.
  - now rewrite E2, E1, app_assoc.
  - apply nodup_app'; auto. intros x H1 H2. apply (F2 x H1). rewrite E1. apply in_app_iff. now left.
  - intros p Hp. apply in_app_iff in Hp. destruct Hp as [Hp|Hp]; [|auto]. intros H. apply (F2 p Hp). rewrite E1. apply in_app_iff. now right.
  - rewrite M2, M1. tauto.
  - rewrite M2, M1. tauto.
  - intros p. rewrite !cnt_app, C1, C2. lia.
Qed.
Lemma adds_ext : forall v v' r l (P Q : list nat -> Prop), (forall p, P p <-> Q p) -> adds v v' r l P -> adds v v' r l Q.
Proof. intros v v' r l P Q H (n & E & D & F & M & C). exists n. repeat split; auto; rewrite M, H; tauto. Qed.

Lemma flat_true : forall t parents vis l, leaves t l ->
  adds vis (snd (flat_aux true t parents vis)) (fst (flat_aux true t parents vis)) (map (app parents) l)
    (fun p => (p = parents /\ parents <> []) \/ exists q, inner_path t q /\ p = parents ++ q).
Proof.
  induction t as [h subs IH] using hashtag_ind'. intros parents vis l H. rewrite flat_aux_eq. cbv zeta.
  set (fresh := true && negb (match parents with [] => true | _ => false end) && negb (existsb (path_eqb parents) vis)).
  set (pre := if fresh then [parents] else []). set (vis1 := if fresh then parents :: vis else vis).
  assert (A0 : adds vis vis1 pre [] (fun p => p = parents /\ parents <> [])).
  { unfold pre, vis1. destruct fresh eqn:Fr; unfold fresh in Fr.
    - cbn [andb] in Fr. apply andb_true_iff in Fr. destruct Fr as [F1 F2].
      assert (Np : parents <> []) by (destruct parents; [discriminate|discriminate]).
      assert (Nv : ~ In parents vis).
      { intros C. apply negb_true_iff in F2. assert (T : existsb (path_eqb parents) vis = true); [|congruence].
        apply existsb_exists. exists parents. split; [exact C|]. now apply path_eqb_eq. }
      exists [parents]. repeat split.
      + constructor; [intros []|constructor].
      + intros p [<-|[]]. exact Nv.
      + intros [<-|Hp]; [right; now split|now left].
      + intros [Hp|[-> _]]; [now right|now left].
    - exists []. repeat split; try (now constructor); try (intros p []); auto.
      intros [Hp|[-> Np]]; [exact Hp|]. cbn [andb] in Fr. destruct parents as [|x parents]; [congruence|]. cbn [negb andb] in Fr.
      apply negb_false_iff in Fr. apply existsb_exists in Fr. destruct Fr as (y & Hy & E). apply path_eqb_eq in E. now subst y. }
  inversion H as [h0|h0 subs0 ls N F]; subst.
  - cbn [fst snd map app]. apply adds_ext with (P := fun p => (p = parents /\ parents <> []) \/ False).
    + intros p. split; [intros [Hp|[]]; now left|]. intros [Hp|(q & Hq & _)]; [now left|]. inversion Hq; subst. contradiction.
    + apply (adds_trans vis vis1 vis1 pre [parents ++ [h]] [] [parents ++ [h]]); [exact A0|].
      exists []. repeat split; try (now constructor); auto. intros [Hp|[]]. exact Hp.
  - assert (G : forall r ls acc vis, Forall (fun s => forall parents vis l, leaves s l ->
        adds vis (snd (flat_aux true s parents vis)) (fst (flat_aux true s parents vis)) (map (app parents) l)
          (fun p => (p = parents /\ parents <> []) \/ exists q, inner_path s q /\ p = parents ++ q)) r -> Forall2 leaves r ls ->
      exists res, fst (go_tags true (parents ++ [h]) r acc vis) = acc ++ res /\
        adds vis (snd (go_tags true (parents ++ [h]) r acc vis)) res (map (app (parents ++ [h])) (concat ls))
          (fun p => (r <> [] /\ p = parents ++ [h]) \/ exists s q, In s r /\ inner_path s q /\ p = (parents ++ [h]) ++ q)).
    { clear. induction r as [|s r IHr]; intros ls acc vis IHs F; inversion F; subst; cbn [go_tags concat map].
      - exists []. rewrite app_nil_r. split; [reflexivity|]. exists []. repeat split; try (now constructor); auto.
        intros [Hp|[[C _]|(s & q & [] & _)]]; [exact Hp|congruence].
      - inversion IHs as [|? ? Hs IHs']; subst. cbv zeta.
        specialize (Hs (parents ++ [h]) vis _ ltac:(eassumption)).
        match goal with F2 : Forall2 leaves r ?LS |- _ => destruct (IHr LS (acc ++ fst (flat_aux true s (parents ++ [h]) vis)) (snd (flat_aux true s (parents ++ [h]) vis)) IHs' F2) as (res & E & A) end.
        exists (fst (flat_aux true s (parents ++ [h]) vis) ++ res). split; [rewrite app_assoc; exact E|].
        rewrite map_app. eapply adds_ext; [|eapply adds_trans; [exact Hs|exact A]].
        intros p. cbn [In]. split.
        + intros [[[-> _]|(q & Hq & ->)]|[[_ ->]|(s' & q & Hs' & Hq & ->)]].
          * left. split; [discriminate|reflexivity].
          * right. exists s, q. auto.
          * left. split; [discriminate|reflexivity].
          * right. exists s', q. auto.
        + intros [[_ ->]|(s' & q & [->|Hs'] & Hq & ->)].
          * left. left. split; [reflexivity|]. destruct parents; discriminate.
          * left. right. eauto.
          * right. right. eauto. }
    destruct subs as [|s subs]; [contradiction|].
    destruct (G (s :: subs) ls pre vis1 IH F) as (res & E & A). rewrite E.
    replace (map (app parents) (map (cons h) (concat ls))) with ([] ++ map (app (parents ++ [h])) (concat ls)).
    2:{ cbn. rewrite map_map. apply map_ext. intros a. now rewrite <- app_assoc. }
    eapply adds_ext; [|eapply adds_trans; [exact A0|exact A]]. intros p. split.
    + intros [Hp|[[_ ->]|(s' & q & Hs' & Hq & ->)]]; [now left| |]; right.
      * exists [h]. split; [constructor|reflexivity].
      * exists (h :: q). split; [econstructor; eassumption|]. now rewrite <- app_assoc.
    + intros [Hp|(q & Hq & ->)]; [now left|]. right. inversion Hq; subst.
      * left. split; [discriminate|reflexivity].
      * right. exists s0, p. rewrite <- app_assoc. auto.
Qed.
Lemma flat_hashes_false : forall t l, leaves t l -> flat_hashes t false = l.
Proof. intros t l H. unfold flat_hashes. rewrite (flat_false t [] [] l H). cbn. now rewrite map_id. Qed.
Lemma flat_hashes_true : forall t l, leaves t l -> forall p,
  (inner_path t p -> cnt p (flat_hashes t true) = S (cnt p l)) /\ (~ inner_path t p -> cnt p (flat_hashes t true) = cnt p l).
Proof.
  intros t l H p. destruct (flat_true t [] [] l H) as (new & E & D & F & M & C). unfold flat_hashes. specialize (C p). rewrite (map_ext (app []) (fun x => x)), map_id in C by reflexivity. cbv zeta in *.
  rewrite app_nil_r in E. assert (K : In p new <-> inner_path t p).
  { rewrite <- E. rewrite M. split.
    - intros [[]|[[_ B]|(q & Hq & ->)]]; [congruence|exact Hq].
    - intros Hq. right. right. exists p. auto. }
  split; intros Hp; rewrite C.
  - apply K in Hp. unfold cnt. rewrite (proj1 (NoDup_count_occ' (list_eq_dec Nat.eq_dec) new) D p Hp). lia.
  - rewrite <- K in Hp. apply (count_occ_not_In (list_eq_dec Nat.eq_dec)) in Hp. unfold cnt. rewrite Hp. lia.
Qed.

Lemma matching_answers : forall p kind sub, matching p kind sub = true <-> answers p kind sub.
Proof.
  assert (E : forall a b, str_eqb (normalize a) (normalize b) = true <-> same_name a b) by (intros; apply str_eqb_eq).
  assert (J : forall kind, same_name kind (lit "propjson") -> ~ same_name kind (lit "CustomSubtreeJson")).
  { unfold same_name. intros kind -> C. vm_compute in C. discriminate. }
  assert (F : forall kind, same_name kind (lit "propargs") -> ~ same_name kind (lit "CustomSubtreeFlags")).
  { unfold same_name. intros kind -> C. vm_compute in C. discriminate. }
  intros p kind sub. destruct p as [n s g|n v|n v|n v|b v|k v]; cbn [matching kind_name].
  - rewrite E. split; [now constructor|]. now inversion 1.
  - rewrite E. split; [now constructor|]. now inversion 1.
  - destruct (str_eqb (normalize kind) (normalize (lit "propjson"))) eqn:K.
    + apply E in K. destruct sub as [s|]; [rewrite E|]; (split; [now constructor|]).
      * inversion 1; subst; [assumption|]. exfalso. now apply (J kind).
      * reflexivity.
    + assert (N : ~ same_name kind (lit "propjson")) by (intros C; apply E in C; congruence). rewrite E. split.
      * intros H. apply an_json_kind. now symmetry.
      * inversion 1; subst; try contradiction. now symmetry.
  - destruct (str_eqb (normalize kind) (normalize (lit "propargs"))) eqn:K.
    + apply E in K. destruct sub as [s|]; [rewrite E|]; (split; [now constructor|]).
      * inversion 1; subst; [assumption|]. exfalso. now apply (F kind).
      * reflexivity.
    + assert (N : ~ same_name kind (lit "propargs")) by (intros C; apply E in C; congruence). rewrite E. split.
      * intros H. apply an_flags_kind. now symmetry.
      * inversion 1; subst; try contradiction. now symmetry.
  - rewrite orb_true_iff, E. split.
    + intros [H|H]; [apply an_export; now symmetry|]. destruct sub as [s|]; [|discriminate]. apply E in H. now apply an_export_sub.
    + inversion 1; subst; [left; now symmetry|right; now apply E].
  - rewrite E. split; [now constructor|]. now inversion 1.
Qed.
