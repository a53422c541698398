(** Proofs for C44 and C64. *)
From Coq Require Import List Bool Arith Lia Permutation.
From Verif Require Import Base LoadModel LoadSpec.
Import ListNotations.
Local Open Scope nat_scope.

Lemma tree_ind' : forall P : tree -> Prop, (forall l ch, Forall P ch -> P (T l ch)) -> forall t, P t.
Proof. intros P H. fix IH 1. intros [l ch]. apply H. induction ch as [|c ch IHc]; constructor; [apply IH|exact IHc]. Qed.

(** ** Fuel *)
Definition sub {A} (o o' : outcome A) : Prop := o <> Fuel -> o' = o.
Lemma sub_refl : forall {A} (o : outcome A), sub o o.
Proof. intros A o _. reflexivity. Qed.
Lemma sub_bind : forall {A B} (o o' : outcome A) (k k' : A -> outcome B), sub o o' -> (forall a, sub (k a) (k' a)) -> sub (obind o k) (obind o' k').
Proof.
  intros A B o o' k k' H K N. unfold sub in *. destruct o as [a| | |]; cbn in *; try (rewrite H by discriminate; cbn; auto); try congruence.
Qed.

Section Loading.
  Variable is_symlink : path -> bool.
  Variable read_link : path -> path.
  Variable is_dir : path -> bool.
  Variable is_file : path -> bool.
  Variable entries : path -> list path.
  Variable wanted : path -> bool.
  Variable exists_ : path -> bool.
  Variable is_org : path -> bool.
  Variable contents : path -> tree.
  Variable find_include : path -> option path.
  Notation resolve := (resolve is_dir exists_ find_include).
  Notation parse_path := (parse_path is_symlink read_link is_dir is_file entries wanted exists_ is_org contents find_include).
  Notation parse_file := (parse_file is_symlink read_link is_dir is_file entries wanted exists_ is_org contents find_include).
  Notation walk := (walk is_symlink read_link is_dir is_file entries wanted exists_ is_org contents find_include).

  Lemma each_sub : forall {A} (f g : A -> state -> outcome (A * state)), (forall x s, sub (f x s) (g x s)) -> forall l s, sub (each f l s) (each g l s).
  Proof.
    intros A f g H. induction l as [|x l IH]; intros s; cbn [each]; [apply sub_refl|]. apply sub_bind; [apply H|]. intros r.
    apply sub_bind; [apply IH|]. intros r'. apply sub_refl.
  Qed.
  Lemma collect_sub : forall {A B} (f g : A -> state -> outcome (option B * state)), (forall x s, sub (f x s) (g x s)) -> forall l s, sub (collect f l s) (collect g l s).
  Proof.
    intros A B f g H. induction l as [|x l IH]; intros s; cbn [collect]; [apply sub_refl|]. apply sub_bind; [apply H|]. intros r.
    apply sub_bind; [apply IH|]. intros r'. apply sub_refl.
  Qed.

  (** The step functions, with the recursive calls as parameters. *)
  Definition path_step (pp : path -> state -> outcome (option tree * state)) (pf : path -> state -> outcome (tree * state)) (p : path) (s : state) : outcome (option tree * state) :=
    if is_visited s p then Ok (None, s) else
    if negb (wanted p) then Ok (None, visit s p)
    else if is_symlink p then
      if is_dir (read_link p) then
        obind (pp (read_link p) (visit s p)) (fun r => Ok (Some (T (LSym (read_link p)) (opt_list (fst r))), snd r))
      else if is_file (read_link p) then
        obind (pp (read_link p) (visit s p)) (fun r => Ok (Some (T (LSym (parent (read_link p))) (opt_list (fst r))), snd r))
      else Ok (None, visit s p)
    else if is_dir p then
      obind (collect pp (entries p) (visit s p)) (fun r => Ok (Some (T (LDir p) (fst r)), snd r))
    else if is_file p then
      if is_org p then obind (pf p (visit s p)) (fun r => Ok (Some (fst r), snd r)) else Ok (None, visit s p)
    else Ok (None, visit s p).
  Definition file_step (w : path -> tree -> state -> outcome (tree * state)) (p : path) (s : state) : outcome (tree * state) :=
    if is_file p then obind (w p (contents p) (note_parsed s p)) (fun r => Ok (T (LFile p) [fst r], snd r)) else Throw.
  Definition node_step (pp : path -> state -> outcome (option tree * state)) (p : path) (t : tree) (s : state) : outcome (list tree * state) :=
    match label_of t with
    | LInclude abs target => obind (resolve (parent p) abs target) (fun full =>
        match full with
        | Some q => obind (pp q s) (fun r => Ok (children t ++ opt_list (fst r), snd r))
        | None => Ok (children t ++ [T LError []], s)
        end)
    | LLink abs target => obind (resolve (parent p) abs target) (fun full =>
        match full with
        | Some q => Ok (children t ++ [T (LFileRef q) []], s)
        | None => Ok (children t, s)
        end)
    | _ => Ok (children t, s)
    end.
  Definition walk_step (pp : path -> state -> outcome (option tree * state)) (w : path -> tree -> state -> outcome (tree * state)) (p : path) (t : tree) (s : state) : outcome (tree * state) :=
    obind (node_step pp p t s) (fun r => obind (each (w p) (fst r) (snd r)) (fun r' => Ok (T (label_of t) (fst r'), snd r'))).
  Lemma path_eq : forall fuel p s, parse_path (S fuel) p s = path_step (parse_path fuel) (parse_file fuel) p s.
  Proof. reflexivity. Qed.
  Lemma file_eq : forall fuel p s, parse_file (S fuel) p s = file_step (walk fuel) p s.
  Proof. reflexivity. Qed.
  Lemma walk_eq : forall fuel p t s, walk (S fuel) p t s = walk_step (parse_path fuel) (walk fuel) p t s.
  Proof. reflexivity. Qed.

  Lemma fuel_mono1 : forall fuel,
    (forall p s, sub (parse_path fuel p s) (parse_path (S fuel) p s)) /\
    (forall p s, sub (parse_file fuel p s) (parse_file (S fuel) p s)) /\
    (forall p t s, sub (walk fuel p t s) (walk (S fuel) p t s)).
  Proof.
    induction fuel as [|fuel (IHp & IHf & IHw)].
    { repeat split; intros; intros N; exfalso; apply N; reflexivity. }
    repeat split; intros.
    - rewrite !path_eq. unfold path_step. destruct (is_visited s p); [apply sub_refl|]. destruct (negb (wanted p)); [apply sub_refl|].
      destruct (is_symlink p).
      { destruct (is_dir (read_link p)); [apply sub_bind; [apply IHp|intros; apply sub_refl]|].
        destruct (is_file (read_link p)); [apply sub_bind; [apply IHp|intros; apply sub_refl]|apply sub_refl]. }
      destruct (is_dir p); [apply sub_bind; [apply collect_sub, IHp|intros; apply sub_refl]|].
      destruct (is_file p); [|apply sub_refl]. destruct (is_org p); [|apply sub_refl]. apply sub_bind; [apply IHf|intros; apply sub_refl].
    - rewrite !file_eq. unfold file_step. destruct (is_file p); [|apply sub_refl]. apply sub_bind; [apply IHw|intros; apply sub_refl].
    - rewrite !walk_eq. unfold walk_step. apply sub_bind.
      + unfold node_step. destruct (label_of t); try apply sub_refl. apply sub_bind; [apply sub_refl|]. intros [q|]; [|apply sub_refl].
        apply sub_bind; [apply IHp|intros; apply sub_refl].
      + intros r. apply sub_bind; [apply each_sub; intros; apply IHw|intros; apply sub_refl].
  Qed.
  Lemma sub_trans : forall {A} (a b c : outcome A), sub a b -> sub b c -> sub a c.
  Proof. intros A a b c H1 H2 N. unfold sub in *. rewrite H2; [now apply H1|]. rewrite H1; exact N. Qed.
  Lemma path_mono : forall fuel fuel' p s, fuel <= fuel' -> sub (parse_path fuel p s) (parse_path fuel' p s).
  Proof. intros fuel fuel' p s H. induction H; [apply sub_refl|]. eapply sub_trans; [exact IHle|]. apply fuel_mono1. Qed.
  Lemma file_mono : forall fuel fuel' p s, fuel <= fuel' -> sub (parse_file fuel p s) (parse_file fuel' p s).
  Proof. intros fuel fuel' p s H. induction H; [apply sub_refl|]. eapply sub_trans; [exact IHle|]. apply fuel_mono1. Qed.
  Lemma walk_mono : forall fuel fuel' p t s, fuel <= fuel' -> sub (walk fuel p t s) (walk fuel' p t s).
  Proof. intros fuel fuel' p t s H. induction H; [apply sub_refl|]. eapply sub_trans; [exact IHle|]. apply fuel_mono1. Qed.

  (** ** What the state records *)
  Definition grow (s s' : state) : Prop := exists v n, visited s' = v ++ visited s /\ parsed s' = parsed s ++ n /\
    NoDup n /\ incl n v /\ (forall x, In x v -> ~ In x (visited s)) /\ NoDup v.
  Lemma nodup_app2 : forall {A} (a b : list A), NoDup a -> NoDup b -> (forall x, In x a -> ~ In x b) -> NoDup (a ++ b).
  Proof.
    intros A a b Ha Hb D. induction Ha as [|x a N Ha IH]; cbn; [exact Hb|]. constructor.
    - rewrite in_app_iff. intros [H|H]; [contradiction|]. apply (D x); [now left|exact H].
    - apply IH. intros y Hy. apply D. now right.
  Qed.
  Lemma grow_refl : forall s, grow s s.
  Proof. intros s. exists [], []. cbn. rewrite app_nil_r. repeat split; auto; try constructor; intros x []. Qed.
  Lemma grow_trans : forall s1 s2 s3, grow s1 s2 -> grow s2 s3 -> grow s1 s3.
  Proof.
    intros s1 s2 s3 (v & n & Ev & En & Nn & I & D & Nv) (v' & n' & Ev' & En' & Nn' & I' & D' & Nv'). exists (v' ++ v), (n ++ n'). repeat split.
    - now rewrite Ev', Ev, app_assoc.
    - now rewrite En', En, app_assoc.
    - apply nodup_app2; auto. intros x H1 H2. apply (D' x (I' x H2)). rewrite Ev. apply in_app_iff. left. now apply I.
    - intros x Hx. apply in_app_iff in Hx. apply in_app_iff. destruct Hx as [Hx|Hx]; [right; now apply I|left; now apply I'].
    - intros x Hx. apply in_app_iff in Hx. destruct Hx as [Hx|Hx]; [|now apply D]. intros C. apply (D' x Hx). rewrite Ev. apply in_app_iff. now right.
    - apply nodup_app2; auto. intros x H1 H2. apply (D' x H1). rewrite Ev. apply in_app_iff. now left.
  Qed.
  Lemma is_visited_In : forall s p, is_visited s p = true <-> In p (visited s).
  Proof.
    intros s p. unfold is_visited. rewrite existsb_exists. split.
    - intros (q & Hq & E). destruct (path_dec q p); [now subst|discriminate].
    - intros H. exists p. split; [exact H|]. destruct (path_dec p p); congruence.
  Qed.
  Lemma is_visited_not : forall s p, is_visited s p = false -> ~ In p (visited s).
  Proof. intros s p H C. apply is_visited_In in C. congruence. Qed.
  Lemma grow_visit : forall s p, ~ In p (visited s) -> grow s (visit s p).
  Proof.
    intros s p H. exists [p], []. cbn. rewrite app_nil_r. split; [reflexivity|]. split; [reflexivity|]. split; [constructor|].
    split; [intros x []|]. split; [intros x [<-|[]]; exact H|]. constructor; [intros []|constructor].
  Qed.
  Lemma each_inv : forall {A} (R : state -> state -> Prop), (forall s, R s s) -> (forall a b c, R a b -> R b c -> R a c) ->
    forall (f : A -> state -> outcome (A * state)), (forall x s r, f x s = Ok r -> R s (snd r)) ->
    forall l s r, each f l s = Ok r -> R s (snd r).
  Proof.
    intros A R Rr Rt f H. induction l as [|x l IH]; intros s r E; cbn [each] in E; [injection E as <-; apply Rr|].
    destruct (f x s) as [r1| | |] eqn:E1; try discriminate E. cbn [obind] in E.
    destruct (each f l (snd r1)) as [r2| | |] eqn:E2; try discriminate E. cbn [obind] in E. injection E as <-. cbn [snd].
    eapply Rt; [eapply H, E1|]. eapply IH, E2.
  Qed.
  Lemma collect_inv : forall {A B} (R : state -> state -> Prop), (forall s, R s s) -> (forall a b c, R a b -> R b c -> R a c) ->
    forall (f : A -> state -> outcome (option B * state)), (forall x s r, f x s = Ok r -> R s (snd r)) ->
    forall l s r, collect f l s = Ok r -> R s (snd r).
  Proof.
    intros A B R Rr Rt f H. induction l as [|x l IH]; intros s r E; cbn [collect] in E; [injection E as <-; apply Rr|].
    destruct (f x s) as [r1| | |] eqn:E1; try discriminate E. cbn [obind] in E.
    destruct (collect f l (snd r1)) as [r2| | |] eqn:E2; try discriminate E. cbn [obind] in E. injection E as <-. cbn [snd].
    eapply Rt; [eapply H, E1|]. eapply IH, E2.
  Qed.
  Lemma bind_inv : forall {A B} (o : outcome A) (k : A -> outcome B) r, obind o k = Ok r -> exists a, o = Ok a /\ k a = Ok r.
  Proof. intros A B [a| | |] k r H; try discriminate H. eauto. Qed.

  Lemma load_grow : forall fuel,
    (forall p s r, parse_path fuel p s = Ok r -> grow s (snd r) /\ In p (visited (snd r)) /\ (fst r <> None -> ~ In p (visited s))) /\
    (forall p s r, parse_file fuel p s = Ok r -> grow (note_parsed s p) (snd r)) /\
    (forall p t s r, walk fuel p t s = Ok r -> grow s (snd r)).
  Proof.
    induction fuel as [|fuel (IHp & IHf & IHw)]; [repeat split; intros; discriminate|]. split; [|split].
    - intros p s r E. rewrite path_eq in E. unfold path_step in E. destruct (is_visited s p) eqn:V.
      { injection E as <-. cbn. split; [apply grow_refl|]. split; [now apply is_visited_In|congruence]. }
      assert (NV : ~ In p (visited s)) by now apply is_visited_not.
      assert (K : forall s', grow (visit s p) s' -> grow s s' /\ In p (visited s')).
      { intros s' G. split; [eapply grow_trans; [apply grow_visit; exact NV|exact G]|].
        destruct G as (v & n & Ev & _). rewrite Ev. apply in_app_iff. right. cbn. now left. }
      assert (Z : grow s (snd r) /\ In p (visited (snd r)) -> grow s (snd r) /\ In p (visited (snd r)) /\ (fst r <> None -> ~ In p (visited s))) by tauto.
      apply Z. clear Z.
      destruct (negb (wanted p)); [injection E as <-; apply K, grow_refl|].
      destruct (is_symlink p).
      { destruct (is_dir (read_link p)); [|destruct (is_file (read_link p)); [|injection E as <-; apply K, grow_refl]];
        apply bind_inv in E; destruct E as (r1 & E1 & E); injection E as <-; cbn [snd]; apply K; eapply IHp, E1. }
      destruct (is_dir p).
      { apply bind_inv in E. destruct E as (r1 & E1 & E). injection E as <-. cbn [snd]. apply K.
        eapply (collect_inv grow); [apply grow_refl|apply grow_trans| |exact E1]. intros x s0 r0 H0. eapply IHp, H0. }
      destruct (is_file p); [|injection E as <-; apply K, grow_refl]. destruct (is_org p); [|injection E as <-; apply K, grow_refl].
      apply bind_inv in E. destruct E as (r1 & E1 & E). injection E as <-. cbn [snd]. apply IHf in E1.
      destruct E1 as (v & n & Ev & En & Nn & I & D & Nv). cbn in Ev, En, D. split.
      + exists (v ++ [p]), (p :: n). repeat split.
        * rewrite Ev, <- app_assoc. reflexivity.
        * rewrite En, <- app_assoc. reflexivity.
        * constructor; [|exact Nn]. intros C. apply (D p (I p C)). now left.
        * intros x [<-|Hx]; apply in_app_iff; [right; now left|left; now apply I].
        * intros x Hx. apply in_app_iff in Hx. destruct Hx as [Hx|[<-|[]]]; [|exact NV]. intros C. apply (D x Hx). now right.
        * apply nodup_app2; [exact Nv|constructor; [intros []|constructor]|]. intros x Hx [<-|[]]. apply (D p Hx). now left.
      + rewrite Ev. apply in_app_iff. right. now left.
    - intros p s r E. rewrite file_eq in E. unfold file_step in E. destruct (is_file p); [|discriminate].
      apply bind_inv in E. destruct E as (r1 & E1 & E). injection E as <-. cbn [snd]. eapply IHw, E1.
    - intros p t s r E. rewrite walk_eq in E. unfold walk_step in E. apply bind_inv in E. destruct E as (r1 & E1 & E).
      apply bind_inv in E. destruct E as (r2 & E2 & E). injection E as <-. cbn [snd].
      eapply grow_trans; [|eapply (each_inv grow); [apply grow_refl|apply grow_trans| |exact E2]; intros x s0 r0 H0; eapply IHw, H0].
      unfold node_step in E1. destruct (label_of t); try (injection E1 as <-; apply grow_refl).
      + apply bind_inv in E1. destruct E1 as ([q|] & _ & E1); [|injection E1 as <-; apply grow_refl].
        apply bind_inv in E1. destruct E1 as (r3 & E3 & E1). injection E1 as <-. cbn [snd]. eapply IHp, E3.
      + apply bind_inv in E1. destruct E1 as ([q|] & _ & E1); injection E1 as <-; apply grow_refl.
  Qed.

  (** ** Everything needed is reached *)
  Notation loadable := (loadable is_symlink is_dir is_file wanted is_org).
  Notation needs := (needs is_symlink read_link is_dir is_file entries wanted exists_ is_org contents find_include).
  Lemma resolve_some p abs target q : resolve (parent p) abs target = Ok (Some q) <-> refers is_dir exists_ find_include p abs target q.
  Proof.
    unfold LoadModel.resolve, LoadModel.full_path, LoadModel.parent, refers. destruct (is_dir (removelast p)).
    2:{ split; [discriminate|]. intros [H _]. discriminate. }
    set (full := if abs then target else removelast p ++ target). split.
    - intros H. injection H as H. split; [reflexivity|]. exists full. split; [reflexivity|]. destruct (exists_ full) eqn:E.
      + rewrite E in H. injection H as <-. auto.
      + right. destruct (find_include target) as [r|]; [|rewrite E in H; discriminate]. destruct (exists_ r) eqn:E'; [|discriminate].
        injection H as <-. auto.
    - intros (_ & full' & Ef & H). fold full in Ef. subst full'. f_equal. destruct H as [[E ->]|(E & F & E')].
      + rewrite E, E. reflexivity.
      + rewrite E, F, E'. reflexivity.
  Qed.
  Lemma resolve_none p abs target : resolve (parent p) abs target = Ok None <-> dangling is_dir exists_ find_include p abs target.
  Proof.
    unfold LoadModel.resolve, LoadModel.full_path, LoadModel.parent, dangling. destruct (is_dir (removelast p)).
    2:{ split; [discriminate|]. intros [H _]. discriminate. }
    set (full := if abs then target else removelast p ++ target). split.
    - intros H. injection H as H. split; [reflexivity|]. destruct (exists_ full) eqn:E; [rewrite E in H; discriminate|]. split; [reflexivity|].
      intros q F. rewrite F in H. destruct (exists_ q); [discriminate|reflexivity].
    - intros (_ & E & F). f_equal. rewrite E. destruct (find_include target) as [r|]; [rewrite (F r eq_refl)|rewrite E]; reflexivity.
  Qed.
  Definition handled (s : state) (x : path) : Prop := (forall q, needs x q -> In q (visited s)) /\ (loadable x -> In x (parsed s)).
  Definition handles (s s' : state) : Prop := incl (visited s) (visited s') /\ incl (parsed s) (parsed s') /\ forall x, In x (visited s') -> ~ In x (visited s) -> handled s' x.
  Lemma handles_refl : forall s, handles s s.
  Proof. intros s. split; [apply incl_refl|]. split; [apply incl_refl|]. intros x H N. contradiction. Qed.
  Lemma handles_trans : forall a b c, handles a b -> handles b c -> handles a c.
  Proof.
    intros a b c (I1 & J1 & H1) (I2 & J2 & H2). split; [eapply incl_tran; eauto|]. split; [eapply incl_tran; eauto|]. intros x Hx N.
    destruct (in_dec path_dec x (visited b)) as [Hb|Hb]; [|now apply H2]. destruct (H1 x Hb N) as [K1 K2]. split.
    - intros q Hq. apply I2. now apply K1.
    - intros L. apply J2. now apply K2.
  Qed.
  Lemma collect_reach : forall fuel, (forall p s r, parse_path fuel p s = Ok r -> handles s (snd r) /\ In p (visited (snd r))) ->
    forall l s r, collect (parse_path fuel) l s = Ok r -> handles s (snd r) /\ incl l (visited (snd r)).
  Proof.
    intros fuel H. induction l as [|x l IH]; intros s r E; cbn [collect] in E.
    { injection E as <-. split; [apply handles_refl|intros y []]. }
    apply bind_inv in E. destruct E as (r1 & E1 & E). apply bind_inv in E. destruct E as (r2 & E2 & E). injection E as <-. cbn [snd].
    destruct (H _ _ _ E1) as [K1 V1]. destruct (IH _ _ E2) as [K2 V2]. split; [eapply handles_trans; eauto|].
    intros y [<-|Hy]; [apply K2, V1|now apply V2].
  Qed.
  Definition resolves_in (s : state) (p : path) (t : tree) : Prop :=
    forall abs target q, occurs (LInclude abs target) t -> resolve (parent p) abs target = Ok (Some q) -> In q (visited s).
  Lemma each_reach : forall fuel p, (forall t s r, walk fuel p t s = Ok r -> handles s (snd r) /\ resolves_in (snd r) p t) ->
    forall l s r, each (walk fuel p) l s = Ok r -> handles s (snd r) /\ (forall t, In t l -> resolves_in (snd r) p t).
  Proof.
    intros fuel p H. induction l as [|x l IH]; intros s r E; cbn [each] in E.
    { injection E as <-. split; [apply handles_refl|intros t []]. }
    apply bind_inv in E. destruct E as (r1 & E1 & E). apply bind_inv in E. destruct E as (r2 & E2 & E). injection E as <-. cbn [snd].
    destruct (H _ _ _ E1) as [K1 V1]. destruct (IH _ _ E2) as [K2 V2]. split; [eapply handles_trans; eauto|].
    intros y [<-|Hy]; [|now apply V2]. intros abs target q O R. apply K2. eapply V1; eauto.
  Qed.
  Lemma handles_visit : forall s p s', ~ In p (visited s) -> handles (visit s p) s' -> handled s' p -> handles s s'.
  Proof.
    intros s p s' N (I & J & H) Hp. split; [intros x Hx; apply I; cbn; now right|]. split; [exact J|].
    intros x Hx Nx. destruct (path_dec x p) as [->|D]; [exact Hp|]. apply H; [exact Hx|]. cbn. intros [C|C]; [congruence|contradiction].
  Qed.

  Lemma load_reach : forall fuel,
    (forall p s r, parse_path fuel p s = Ok r -> handles s (snd r) /\ In p (visited (snd r))) /\
    (forall p s r, parse_file fuel p s = Ok r -> handles s (snd r) /\ resolves_in (snd r) p (contents p) /\ In p (parsed (snd r))) /\
    (forall p t s r, walk fuel p t s = Ok r -> handles s (snd r) /\ resolves_in (snd r) p t).
  Proof.
    induction fuel as [|fuel (IHp & IHf & IHw)]; [repeat split; intros; discriminate|]. split; [|split].
    - intros p s r E. rewrite path_eq in E. unfold path_step in E. destruct (is_visited s p) eqn:V.
      { injection E as <-. cbn. split; [apply handles_refl|now apply is_visited_In]. }
      assert (NV : ~ In p (visited s)) by now apply is_visited_not.
      assert (K : forall s', handles (visit s p) s' -> handled s' p -> handles s s' /\ In p (visited s')).
      { intros s' G Hp. split; [eapply handles_visit; eauto|]. apply G. cbn. now left. }
      destruct (negb (wanted p)) eqn:W.
      { injection E as <-. apply K; [apply handles_refl|]. apply negb_true_iff in W. split; [intros q (Wq & _); congruence|intros (Wq & _); congruence]. }
      apply negb_false_iff in W.
      destruct (is_symlink p) eqn:SL.
      { assert (Z : forall s', (is_dir (read_link p) = true \/ is_file (read_link p) = true -> In (read_link p) (visited s')) -> handled s' p).
        { intros s' Hs. split.
          - intros q (_ & [(_ & -> & D)|[(C & _)|((_ & C & _) & _)]]); [auto|congruence|congruence].
          - intros (_ & C & _). congruence. }
        destruct (is_dir (read_link p)) eqn:D1; [|destruct (is_file (read_link p)) eqn:D2; [|injection E as <-; apply K; [apply handles_refl|]; apply Z; intros [C|C]; discriminate]];
        apply bind_inv in E; destruct E as (r1 & E1 & E); injection E as <-; cbn [snd]; apply IHp in E1; apply K; [apply E1|apply Z; intros _; apply E1|apply E1|apply Z; intros _; apply E1]. }
      destruct (is_dir p) eqn:D.
      { apply bind_inv in E. destruct E as (r1 & E1 & E). injection E as <-. cbn [snd].
        destruct (collect_reach fuel IHp _ _ _ E1) as [H1 H2]. apply K; [exact H1|]. split.
        - intros q (_ & [(C & _)|[(_ & _ & Hq)|((_ & _ & C & _) & _)]]); [congruence|now apply H2|congruence].
        - intros (_ & _ & C & _). congruence. }
      destruct (is_file p) eqn:F.
      2:{ injection E as <-. apply K; [apply handles_refl|]. split.
          - intros q (_ & [(C & _)|[(_ & C & _)|((_ & _ & _ & C & _) & _)]]); congruence.
          - intros (_ & _ & _ & C & _). congruence. }
      destruct (is_org p) eqn:O.
      2:{ injection E as <-. apply K; [apply handles_refl|]. split.
          - intros q (_ & [(C & _)|[(_ & C & _)|((_ & _ & _ & _ & C) & _)]]); congruence.
          - intros (_ & _ & _ & _ & C). congruence. }
      apply bind_inv in E. destruct E as (r1 & E1 & E). injection E as <-. cbn [snd]. destruct (IHf _ _ _ E1) as (H1 & H2 & H3). apply K; [exact H1|]. split.
      + intros q (_ & [(C & _)|[(_ & C & _)|(_ & abs & target & Oc & R)]]); [congruence|congruence|]. apply resolve_some in R. eapply H2; eauto.
      + intros _. exact H3.
    - intros p s r E. rewrite file_eq in E. unfold file_step in E. destruct (is_file p); [|discriminate].
      apply bind_inv in E. destruct E as (r1 & E1 & E). injection E as <-. cbn [snd]. destruct (IHw _ _ _ _ E1) as ((I & J & H) & R). cbn in I, J, H.
      split; [|split]; [|exact R|apply J; apply in_app_iff; right; now left].
      split; [exact I|]. split; [intros x Hx; apply J; apply in_app_iff; now left|exact H].
    - intros p t s r E. rewrite walk_eq in E. unfold walk_step in E. apply bind_inv in E. destruct E as (r1 & E1 & E).
      apply bind_inv in E. destruct E as (r2 & E2 & E). injection E as <-. cbn [snd].
      destruct (each_reach fuel p (IHw p) _ _ _ E2) as [H2 V2].
      assert (H1 : handles s (snd r1) /\ incl (children t) (fst r1) /\ (forall abs target q, label_of t = LInclude abs target -> resolve (parent p) abs target = Ok (Some q) -> In q (visited (snd r1)))).
      { unfold node_step in E1. destruct (label_of t) eqn:L; try (injection E1 as <-; cbn [fst snd]; split; [apply handles_refl|]; split; [apply incl_refl|]; intros ? ? ? C; discriminate C).
        - apply bind_inv in E1. destruct E1 as (full & R & E1). destruct full as [q|].
          + apply bind_inv in E1. destruct E1 as (r3 & E3 & E1). injection E1 as <-. cbn [fst snd]. apply IHp in E3. split; [apply E3|].
            split; [apply incl_appl, incl_refl|]. intros a tg q' C R'. injection C as <- <-. rewrite R in R'. injection R' as <-. apply E3.
          + injection E1 as <-. cbn [fst snd]. split; [apply handles_refl|]. split; [apply incl_appl, incl_refl|]. intros a tg q' C R'. injection C as <- <-. congruence.
        - apply bind_inv in E1. destruct E1 as (full & R & E1). destruct full as [q|]; injection E1 as <-; cbn [fst snd]; (split; [apply handles_refl|]; split; [try apply incl_appl; apply incl_refl|]; intros ? ? ? C; discriminate C). }
      destruct H1 as (H1 & IC & HI). split; [eapply handles_trans; eauto|].
      intros abs target q Oc R. inversion Oc as [ch Et | l ch c Hc Oc' Et]; subst t; cbn [label_of children] in *.
      + apply H2. eapply HI; eauto.
      + eapply (V2 c); eauto.
  Qed.

  (** ** Termination *)
  Section Term.
    Variable U : list path.
    Hypothesis closed_U : closed is_symlink read_link is_dir entries exists_ contents find_include U.
    Definition good (t : tree) : Prop := forall abs target, occurs (LInclude abs target) t -> exists f, In f U /\ occurs (LInclude abs target) (contents f).
    Lemma good_sub : forall l ch c, good (T l ch) -> In c ch -> good c.
    Proof. intros l ch c H Hc abs target O. apply H. eapply oc_sub; eauto. Qed.
    Lemma good_contents : forall p, In p U -> good (contents p).
    Proof. intros p Hp abs target O. exists p. auto. Qed.
    Lemma good_node : forall l ch, (forall abs target, l <> LInclude abs target) -> (forall c, In c ch -> good c) -> good (T l ch).
    Proof. intros l ch Hl H abs target O. inversion O as [ch' E|l' ch' c Hc O' E]; subst; [exfalso; eapply Hl; reflexivity|]. eapply H; eauto. Qed.
    Lemma good_relabel : forall l ch ch', good (T l ch) -> (forall c, In c ch' -> good c) -> good (T l ch').
    Proof. intros l ch ch' H Hc abs target O. inversion O as [x E|l' x c Hi O' E]; subst; [apply H; constructor|]. eapply Hc; eauto. Qed.
    Lemma each_good : forall fuel p, (forall t s r, good t -> walk fuel p t s = Ok r -> good (fst r)) ->
      forall l s r, (forall c, In c l -> good c) -> each (walk fuel p) l s = Ok r -> forall c, In c (fst r) -> good c.
    Proof.
      intros fuel p H. induction l as [|x l IH]; intros s r G E c Hc; cbn [each] in E; [injection E as <-; destruct Hc|].
      apply bind_inv in E. destruct E as (r1 & E1 & E). apply bind_inv in E. destruct E as (r2 & E2 & E). injection E as <-. cbn [fst] in Hc.
      destruct Hc as [<-|Hc]; [eapply H; [|exact E1]; apply G; now left|]. eapply IH; [|exact E2|exact Hc]. intros c' Hc'. apply G. now right.
    Qed.
    Lemma collect_good : forall fuel, (forall p s r t, In p U -> parse_path fuel p s = Ok r -> fst r = Some t -> good t) ->
      forall l s r, incl l U -> collect (parse_path fuel) l s = Ok r -> forall c, In c (fst r) -> good c.
    Proof.
      intros fuel H. induction l as [|x l IH]; intros s r G E c Hc; cbn [collect] in E; [injection E as <-; destruct Hc|].
      apply bind_inv in E. destruct E as (r1 & E1 & E). apply bind_inv in E. destruct E as (r2 & E2 & E). injection E as <-. cbn [fst] in Hc.
      assert (K : In c (fst r2) -> good c) by (eapply IH; [|exact E2]; intros y Hy; apply G; now right).
      destruct (fst r1) as [t|] eqn:F; [|now apply K]. destruct Hc as [<-|Hc]; [|now apply K].
      eapply H; [|exact E1|exact F]. apply G. now left.
    Qed.
    Lemma load_good : forall fuel,
      (forall p s r t, In p U -> parse_path fuel p s = Ok r -> fst r = Some t -> good t) /\
      (forall p s r, In p U -> parse_file fuel p s = Ok r -> good (fst r)) /\
      (forall p t s r, In p U -> good t -> walk fuel p t s = Ok r -> good (fst r)).
    Proof.
      destruct closed_U as (CS & CD & CI).
      induction fuel as [|fuel (IHp & IHf & IHw)]; [repeat split; intros; discriminate|]. split; [|split].
      - intros p s r t Hp E Et. rewrite path_eq in E. unfold path_step in E.
        destruct (is_visited s p); [injection E as <-; discriminate|]. destruct (negb (wanted p)); [injection E as <-; discriminate|].
        destruct (is_symlink p) eqn:SL.
        { destruct (is_dir (read_link p)); [|destruct (is_file (read_link p)); [|injection E as <-; discriminate]];
          apply bind_inv in E; destruct E as (r1 & E1 & E); injection E as <-; cbn [fst] in Et; injection Et as <-;
          (apply good_node; [congruence|]; intros c Hc; destruct (fst r1) as [t1|] eqn:F; [|destruct Hc]; destruct Hc as [<-|[]];
           eapply IHp; [|exact E1|exact F]; now apply CS). }
        destruct (is_dir p) eqn:D.
        { apply bind_inv in E. destruct E as (r1 & E1 & E). injection E as <-. cbn [fst] in Et. injection Et as <-. apply good_node; [congruence|].
          eapply collect_good; [apply IHp| |exact E1]. intros q Hq. eapply CD; eauto. }
        destruct (is_file p); [|injection E as <-; discriminate]. destruct (is_org p); [|injection E as <-; discriminate].
        apply bind_inv in E. destruct E as (r1 & E1 & E). injection E as <-. cbn [fst] in Et. injection Et as <-. eapply IHf; eauto.
      - intros p s r Hp E. rewrite file_eq in E. unfold file_step in E. destruct (is_file p); [|discriminate].
        apply bind_inv in E. destruct E as (r1 & E1 & E). injection E as <-. cbn [fst]. apply good_node; [congruence|].
        intros c [<-|[]]. eapply IHw; [exact Hp| |exact E1]. now apply good_contents.
      - intros p t s r Hp G E. rewrite walk_eq in E. unfold walk_step in E. apply bind_inv in E. destruct E as (r1 & E1 & E).
        apply bind_inv in E. destruct E as (r2 & E2 & E). injection E as <-. cbn [fst]. destruct t as [l ch]. cbn [label_of].
        eapply good_relabel; [exact G|]. eapply each_good; [intros; eapply IHw; eauto| |exact E2].
        unfold node_step in E1. cbn [label_of children] in E1.
        destruct l as [abs target|abs target| | | | | |]; try (injection E1 as <-; cbn [fst]; intros c Hc; eapply good_sub; eauto).
        + apply bind_inv in E1. destruct E1 as ([q|] & R & E1).
          * apply bind_inv in E1. destruct E1 as (r3 & E3 & E1). injection E1 as <-. cbn [fst]. intros c Hc. apply in_app_iff in Hc.
            destruct Hc as [Hc|Hc]; [eapply good_sub; eauto|]. destruct (fst r3) as [t3|] eqn:F; [|destruct Hc]. destruct Hc as [<-|[]].
            eapply IHp; [|exact E3|exact F]. destruct (G abs target) as (f & Hf & Of); [constructor|]. exact (CI p f abs target q Hp Hf Of (proj1 (resolve_some _ _ _ _) R)).
          * injection E1 as <-. cbn [fst]. intros c Hc. apply in_app_iff in Hc. destruct Hc as [Hc|[<-|[]]]; [eapply good_sub; eauto|].
            apply good_node; [congruence|intros c []].
        + apply bind_inv in E1. destruct E1 as ([q|] & R & E1); injection E1 as <-; cbn [fst]; intros c Hc; [|eapply good_sub; eauto].
          apply in_app_iff in Hc. destruct Hc as [Hc|[<-|[]]]; [eapply good_sub; eauto|]. apply good_node; [congruence|intros c []].
    Qed.

    Definition unvisited (s : state) : nat := length (filter (fun p => negb (is_visited s p)) U).
    Lemma filter_len_le : forall {A} (f g : A -> bool) l, (forall x, f x = true -> g x = true) -> length (filter f l) <= length (filter g l).
    Proof.
      intros A f g l H. induction l as [|x l IH]; cbn; [lia|]. destruct (f x) eqn:F; [rewrite (H x F); cbn; lia|]. destruct (g x); cbn; lia.
    Qed.
    Lemma filter_len_lt : forall {A} (f g : A -> bool) l y, (forall x, f x = true -> g x = true) -> In y l -> f y = false -> g y = true -> length (filter f l) < length (filter g l).
    Proof.
      intros A f g l y H. induction l as [|x l IH]; intros Hy Fy Gy; [destruct Hy|]. cbn. destruct Hy as [->|Hy].
      - rewrite Fy, Gy. cbn. pose proof (filter_len_le f g l H). lia.
      - specialize (IH Hy Fy Gy). destruct (f x) eqn:F; [rewrite (H x F); cbn; lia|]. destruct (g x); cbn; lia.
    Qed.
    Lemma unvisited_grow : forall s s', grow s s' -> unvisited s' <= unvisited s.
    Proof.
      intros s s' (v & n & Ev & _). apply filter_len_le. intros x H. apply negb_true_iff in H. apply negb_true_iff.
      destruct (is_visited s x) eqn:E; [|reflexivity]. apply is_visited_In in E. apply is_visited_not in H. exfalso. apply H. rewrite Ev. apply in_app_iff. now right.
    Qed.
    Lemma unvisited_lt : forall s s' p, grow s s' -> In p U -> ~ In p (visited s) -> In p (visited s') -> unvisited s' < unvisited s.
    Proof.
      intros s s' p (v & n & Ev & _) Hp N V. apply filter_len_lt with p; [|exact Hp| |].
      - intros x H. apply negb_true_iff in H. apply negb_true_iff.
        destruct (is_visited s x) eqn:E; [|reflexivity]. apply is_visited_In in E. apply is_visited_not in H. exfalso. apply H. rewrite Ev. apply in_app_iff. now right.
      - apply negb_false_iff. now apply is_visited_In.
      - apply negb_true_iff. destruct (is_visited s p) eqn:E; [|reflexivity]. apply is_visited_In in E. contradiction.
    Qed.

    Lemma collect_fuel : forall n l, incl l U -> (forall p s, In p U -> unvisited s <= n -> exists fuel, parse_path fuel p s <> Fuel) ->
      forall s, unvisited s <= n -> exists fuel, collect (parse_path fuel) l s <> Fuel.
    Proof.
      intros n l I H. induction l as [|x l IH]; intros s Hs; [exists 0; cbn; discriminate|].
      destruct (H x s (I x (or_introl eq_refl)) Hs) as [f1 E1]. destruct (parse_path f1 x s) as [r1| | |] eqn:R1; [|exists f1; cbn [collect]; rewrite R1; discriminate|exists f1; cbn [collect]; rewrite R1; discriminate|congruence].
      destruct (load_grow f1) as (GP & _). assert (G1 : unvisited (snd r1) <= n).
      { etransitivity; [apply unvisited_grow; eapply GP, R1|exact Hs]. }
      destruct (IH (fun y Hy => I y (or_intror Hy)) (snd r1) G1) as [f2 E2]. exists (max f1 f2). cbn [collect].
      rewrite (path_mono f1 (max f1 f2) x s (Nat.le_max_l f1 f2)) by (rewrite R1; discriminate). rewrite R1. cbn [obind].
      assert (S2 : sub (collect (parse_path f2) l (snd r1)) (collect (parse_path (max f1 f2)) l (snd r1))).
      { apply collect_sub. intros y s0. apply path_mono. apply Nat.le_max_r. }
      rewrite (S2 E2). destruct (collect (parse_path f2) l (snd r1)); cbn; congruence.
    Qed.
    Lemma each_fuel : forall n p l, Forall (fun t => forall s, unvisited s <= n -> exists fuel, walk fuel p t s <> Fuel) l ->
      forall s, unvisited s <= n -> exists fuel, each (walk fuel p) l s <> Fuel.
    Proof.
      intros n p l H. induction H as [|x l Hx Hl IH]; intros s Hs; [exists 0; cbn; discriminate|].
      destruct (Hx s Hs) as [f1 E1]. destruct (walk f1 p x s) as [r1| | |] eqn:R1; [|exists f1; cbn [each]; rewrite R1; discriminate|exists f1; cbn [each]; rewrite R1; discriminate|congruence].
      destruct (load_grow f1) as (_ & _ & GW). assert (G1 : unvisited (snd r1) <= n).
      { etransitivity; [apply unvisited_grow; eapply GW, R1|exact Hs]. }
      destruct (IH (snd r1) G1) as [f2 E2]. exists (max f1 f2). cbn [each].
      rewrite (walk_mono f1 (max f1 f2) p x s (Nat.le_max_l f1 f2)) by (rewrite R1; discriminate). rewrite R1. cbn [obind].
      assert (S2 : sub (each (walk f2 p) l (snd r1)) (each (walk (max f1 f2) p) l (snd r1))).
      { apply each_sub. intros y s0. apply walk_mono. apply Nat.le_max_r. }
      rewrite (S2 E2). destruct (each (walk f2 p) l (snd r1)); cbn; congruence.
    Qed.
    Lemma bind_not_fuel : forall {A B} (o : outcome A) (k : A -> outcome B), o <> Fuel -> (forall a, o = Ok a -> k a <> Fuel) -> obind o k <> Fuel.
    Proof. intros A B [a| | |] k H K; cbn; [now apply K|discriminate|discriminate|congruence]. Qed.

    Lemma walk_from_each : forall p l ch ch1 s s1 f1, node_step (parse_path f1) p (T l ch) s = Ok (ch1, s1) ->
      (exists f2, each (walk f2 p) ch1 s1 <> Fuel) -> exists fuel, walk fuel p (T l ch) s <> Fuel.
    Proof.
      intros p l ch ch1 s s1 f1 E1 [f2 E2]. exists (S (max f1 f2)). rewrite walk_eq. unfold walk_step.
      assert (S1 : sub (node_step (parse_path f1) p (T l ch) s) (node_step (parse_path (max f1 f2)) p (T l ch) s)).
      { unfold node_step. cbn [label_of]. destruct l; try apply sub_refl. apply sub_bind; [apply sub_refl|]. intros [q|]; [|apply sub_refl].
        apply sub_bind; [apply path_mono, Nat.le_max_l|intros; apply sub_refl]. }
      rewrite S1 by (rewrite E1; discriminate). rewrite E1. cbn [obind fst snd].
      assert (S2 : sub (each (walk f2 p) ch1 s1) (each (walk (max f1 f2) p) ch1 s1)).
      { apply each_sub. intros y s0. apply walk_mono. apply Nat.le_max_r. }
      rewrite (S2 E2). apply bind_not_fuel; [exact E2|]. intros; discriminate.
    Qed.

    Lemma terminates : forall n,
      (forall p s, In p U -> unvisited s <= n -> exists fuel, parse_path fuel p s <> Fuel) /\
      (forall p t s, In p U -> good t -> unvisited s <= n -> exists fuel, walk fuel p t s <> Fuel).
    Proof.
      assert (PF : forall n, (forall p t s, In p U -> good t -> unvisited s <= n -> exists fuel, walk fuel p t s <> Fuel) ->
                forall p s, In p U -> unvisited s <= n -> exists fuel, parse_file fuel p s <> Fuel).
      { intros n H p s Hp Hs. destruct (H p (contents p) (note_parsed s p) Hp (good_contents p Hp) Hs) as [f E]. exists (S f). rewrite file_eq. unfold file_step.
        destruct (is_file p); [|discriminate]. apply bind_not_fuel; [exact E|intros; discriminate]. }
      assert (WN : forall n, (forall p s, In p U -> unvisited s <= n -> exists fuel, parse_path fuel p s <> Fuel) ->
                (forall m, m < n -> forall p t s, In p U -> good t -> unvisited s <= m -> exists fuel, walk fuel p t s <> Fuel) ->
                forall p t s, In p U -> good t -> unvisited s <= n -> exists fuel, walk fuel p t s <> Fuel).
      { intros n A Wm p t s Hp. revert t s. apply (tree_ind' (fun t => forall s, good t -> unvisited s <= n -> exists fuel, walk fuel p t s <> Fuel)).
        intros l ch IH s G Hs.
        assert (IH' : Forall (fun t => forall s, unvisited s <= n -> exists fuel, walk fuel p t s <> Fuel) ch).
        { rewrite Forall_forall in *. intros c Hc s0 Hs0. apply IH; [exact Hc| |exact Hs0]. eapply good_sub; eauto. }
        assert (LF : forall x m s0, (forall abs target, x <> LInclude abs target) -> (forall abs target, x <> LLink abs target) -> unvisited s0 <= m -> exists fuel, walk fuel p (T x []) s0 <> Fuel).
        { intros x m s0 N1 N2 _. exists 1. rewrite walk_eq. unfold walk_step, node_step. cbn [label_of children]. destruct x; cbn; try discriminate; exfalso; [eapply N1|eapply N2]; reflexivity. }
        destruct l as [abs target|abs target| | | | | |];
          try (eapply (walk_from_each p _ ch ch s s 0); [reflexivity|]; eapply each_fuel; eauto).
        - destruct (resolve (parent p) abs target) as [[q|]| | |] eqn:R.
          + assert (Hq : In q U). { destruct (G abs target) as (f & Hf & Of); [constructor|]. destruct closed_U as (_ & _ & CI). exact (CI p f abs target q Hp Hf Of (proj1 (resolve_some _ _ _ _) R)). }
            destruct (A q s Hq Hs) as [f1 E1]. destruct (parse_path f1 q s) as [r1| | |] eqn:R1; [| | |congruence].
            2,3: exists (S f1); rewrite walk_eq; unfold walk_step, node_step; cbn [label_of]; rewrite R; cbn [obind]; rewrite R1; discriminate.
            destruct (load_grow f1) as (GP & _). destruct (GP _ _ _ R1) as (G1 & V1 & N1). destruct (load_good f1) as (GG & _).
            eapply (walk_from_each p _ ch (ch ++ opt_list (fst r1)) s (snd r1) f1); [unfold node_step; cbn [label_of children]; rewrite R; cbn [obind]; rewrite R1; reflexivity|].
            destruct (fst r1) as [c|] eqn:F; cbn [opt_list].
            * assert (L : unvisited (snd r1) < unvisited s) by (eapply unvisited_lt; eauto; apply N1; discriminate).
              destruct n as [|n]; [lia|]. eapply (each_fuel n); [|lia]. apply Forall_app. split.
              -- eapply Forall_impl; [|exact IH']. intros t Ht s0 Hs0. apply Ht. lia.
              -- constructor; [|constructor]. intros s0 Hs0. eapply (Wm n); [lia|exact Hp| |exact Hs0]. eapply GG; eauto.
            * rewrite app_nil_r. eapply each_fuel; [exact IH'|]. etransitivity; [apply unvisited_grow; exact G1|exact Hs].
          + eapply (walk_from_each p _ ch (ch ++ [T LError []]) s s 0); [unfold node_step; cbn [label_of children]; rewrite R; reflexivity|].
            eapply each_fuel; [|exact Hs]. apply Forall_app. split; [exact IH'|]. constructor; [|constructor]. intros s0 Hs0. eapply LF; [congruence|congruence|exact Hs0].
          + exists 1. rewrite walk_eq. unfold walk_step, node_step. cbn [label_of]. rewrite R. discriminate.
          + exists 1. rewrite walk_eq. unfold walk_step, node_step. cbn [label_of]. rewrite R. discriminate.
          + exfalso. unfold LoadModel.resolve in R. destruct (is_dir (parent p)); discriminate.
        - destruct (resolve (parent p) abs target) as [[q|]| | |] eqn:R.
          + eapply (walk_from_each p _ ch (ch ++ [T (LFileRef q) []]) s s 0); [unfold node_step; cbn [label_of children]; rewrite R; reflexivity|].
            eapply each_fuel; [|exact Hs]. apply Forall_app. split; [exact IH'|]. constructor; [|constructor]. intros s0 Hs0. eapply LF; [congruence|congruence|exact Hs0].
          + eapply (walk_from_each p _ ch ch s s 0); [unfold node_step; cbn [label_of children]; rewrite R; reflexivity|]. eapply each_fuel; eauto.
          + exists 1. rewrite walk_eq. unfold walk_step, node_step. cbn [label_of]. rewrite R. discriminate.
          + exists 1. rewrite walk_eq. unfold walk_step, node_step. cbn [label_of]. rewrite R. discriminate.
          + exfalso. unfold LoadModel.resolve in R. destruct (is_dir (parent p)); discriminate. }
      assert (AN : forall n, (forall m, m < n -> (forall p s, In p U -> unvisited s <= m -> exists fuel, parse_path fuel p s <> Fuel) /\
                     (forall p t s, In p U -> good t -> unvisited s <= m -> exists fuel, walk fuel p t s <> Fuel)) ->
                forall p s, In p U -> unvisited s <= n -> exists fuel, parse_path fuel p s <> Fuel).
      { intros n IH p s Hp Hs. destruct (is_visited s p) eqn:V; [exists 1; rewrite path_eq; unfold path_step; rewrite V; discriminate|].
        assert (L : unvisited (visit s p) < unvisited s).
        { eapply unvisited_lt; [apply grow_visit; now apply is_visited_not|exact Hp|now apply is_visited_not|now left]. }
        destruct n as [|n]; [lia|]. destruct (IH n (Nat.lt_succ_diag_r n)) as [IHp IHw]. assert (Hs' : unvisited (visit s p) <= n) by lia.
        destruct closed_U as (CS & CD & CI).
        destruct (negb (wanted p)) eqn:W; [exists 1; rewrite path_eq; unfold path_step; rewrite V, W; discriminate|].
        destruct (is_symlink p) eqn:SL.
        { destruct (IHp (read_link p) (visit s p) (CS p Hp SL) Hs') as [f E]. exists (S f). rewrite path_eq. unfold path_step. rewrite V, W, SL.
          destruct (is_dir (read_link p)); [apply bind_not_fuel; [exact E|discriminate]|]. destruct (is_file (read_link p)); [apply bind_not_fuel; [exact E|discriminate]|discriminate]. }
        destruct (is_dir p) eqn:D.
        { destruct (collect_fuel n (entries p) (fun q Hq => CD p q Hp D Hq) IHp (visit s p) Hs') as [f E]. exists (S f). rewrite path_eq. unfold path_step. rewrite V, W, SL, D.
          apply bind_not_fuel; [exact E|discriminate]. }
        destruct (is_file p) eqn:F; [|exists 1; rewrite path_eq; unfold path_step; rewrite V, W, SL, D, F; discriminate].
        destruct (is_org p) eqn:O; [|exists 1; rewrite path_eq; unfold path_step; rewrite V, W, SL, D, F, O; discriminate].
        destruct (PF n IHw p (visit s p) Hp Hs') as [f E]. exists (S f). rewrite path_eq. unfold path_step. rewrite V, W, SL, D, F, O.
        apply bind_not_fuel; [exact E|discriminate]. }
      intros n. induction n as [n IH] using lt_wf_ind.
      pose proof (AN n IH) as A. split; [exact A|]. apply WN; [exact A|]. intros m Hm. apply IH. exact Hm.
    Qed.
  End Term.

  (** ** The shape of the result *)
  Notation done := (done is_symlink read_link is_dir is_file entries exists_ find_include).
  Notation links := (links is_symlink read_link is_dir is_file entries exists_ find_include).
  Notation loads := (loads is_symlink read_link is_dir is_file entries exists_ find_include).
  Notation loaded_from := (loaded_from is_symlink read_link is_dir is_file).
  Notation listed := (listed is_symlink read_link is_dir is_file).

  Lemma raw_done : forall t, raw t -> done [] t.
  Proof.
    apply (tree_ind' (fun t => raw t -> done [] t)). intros l ch IH R.
    assert (F : Forall (done []) ch).
    { rewrite Forall_forall in *. intros c Hc. apply IH; [exact Hc|]. intros x Hx. apply R. eapply oc_sub; eauto. }
    pose proof (R l (oc_here l ch)) as L. destruct l; try contradiction.
    - rewrite <- (app_nil_r ch). constructor; [exact F|constructor].
    - rewrite <- (app_nil_r ch). constructor; [exact F|constructor].
    - constructor. exact F.
  Qed.
  Lemma each_app : forall {A} (f : A -> state -> outcome (A * state)) a b s r, each f (a ++ b) s = Ok r ->
    exists ra rb, each f a s = Ok ra /\ each f b (snd ra) = Ok rb /\ fst r = fst ra ++ fst rb /\ snd r = snd rb.
  Proof.
    intros A f. induction a as [|x a IH]; intros b s r E; cbn [app each] in E |- *.
    { exists ([], s), r. repeat split; auto. }
    apply bind_inv in E. destruct E as (r1 & E1 & E). apply bind_inv in E. destruct E as (r2 & E2 & E). injection E as <-. cbn [fst snd].
    destruct (IH _ _ _ E2) as (ra & rb & Ea & Eb & F & G). exists (fst r1 :: fst ra, snd ra), rb. rewrite E1. cbn [obind]. rewrite Ea. cbn [obind fst snd]. rewrite F. auto.
  Qed.
  Lemma walk_leaf : forall fuel p x s r, match x with LInclude _ _ | LLink _ _ => False | _ => True end -> walk fuel p (T x []) s = Ok r -> r = (T x [], s).
  Proof.
    intros [|fuel] p x s r H E; [discriminate|]. rewrite walk_eq in E. unfold walk_step, node_step in E. destruct x; try contradiction; cbn in E; injection E as <-; reflexivity.
  Qed.
  Lemma walk_label : forall fuel p t s r, walk fuel p t s = Ok r -> label_of (fst r) = label_of t.
  Proof.
    intros [|fuel] p t s r E; [discriminate|]. rewrite walk_eq in E. unfold walk_step in E. apply bind_inv in E. destruct E as (r1 & E1 & E).
    apply bind_inv in E. destruct E as (r2 & E2 & E). injection E as <-. reflexivity.
  Qed.
  Lemma each_links : forall fuel p files abs target refs, links files abs target refs -> forall s r tail, each (walk fuel p) refs s = Ok r -> links [p] abs target tail ->
    links (files ++ [p]) abs target (fst r ++ tail).
  Proof.
    intros fuel p files abs target refs L. induction L as [abs target|f files abs target q refs R L IH|f files abs target refs R L IH]; intros s r tail E Ht; cbn [each] in E.
    - injection E as <-. exact Ht.
    - apply bind_inv in E. destruct E as (r1 & E1 & E). apply bind_inv in E. destruct E as (r2 & E2 & E). injection E as <-. cbn [fst].
      apply walk_leaf in E1; [|exact I]. subst r1. cbn [fst snd] in *. cbn [app]. constructor; [exact R|]. eapply IH; eauto.
    - cbn [app]. apply lk_none; [exact R|]. eapply IH; eauto.
  Qed.
  Lemma each_loads : forall fuel p, (forall files t s r, done files t -> walk fuel p t s = Ok r -> done (files ++ [p]) (fst r)) ->
    forall files abs target subs, loads files abs target subs -> forall s r tail, each (walk fuel p) subs s = Ok r -> loads [p] abs target tail ->
    loads (files ++ [p]) abs target (fst r ++ tail).
  Proof.
    intros fuel p H files abs target subs L.
    induction L as [abs target|f files abs target subs R L IH|f files abs target q c subs R F D L IH|f files abs target q subs R L IH]; intros s r tail E Ht; cbn [each] in E.
    - injection E as <-. exact Ht.
    - apply bind_inv in E. destruct E as (r1 & E1 & E). apply bind_inv in E. destruct E as (r2 & E2 & E). injection E as <-. cbn [fst].
      apply walk_leaf in E1; [|exact I]. subst r1. cbn [fst snd] in *. cbn [app]. constructor; [exact R|]. eapply IH; eauto.
    - apply bind_inv in E. destruct E as (r1 & E1 & E). apply bind_inv in E. destruct E as (r2 & E2 & E). injection E as <-. cbn [fst app].
      eapply ld_some; [exact R| | |eapply IH; eauto].
      + unfold LoadSpec.loaded_from in *. now rewrite (walk_label _ _ _ _ _ E1).
      + change (f :: files ++ [p]) with ((f :: files) ++ [p]). eapply H; eauto.
    - cbn [app]. eapply ld_seen; [exact R|]. eapply IH; eauto.
  Qed.
  Lemma each_done : forall fuel p, (forall files t s r, done files t -> walk fuel p t s = Ok r -> done (files ++ [p]) (fst r)) ->
    forall files l, Forall (done files) l -> forall s r, each (walk fuel p) l s = Ok r -> Forall (done (files ++ [p])) (fst r).
  Proof.
    intros fuel p H files l F. induction F as [|x l Hx F IH]; intros s r E; cbn [each] in E; [injection E as <-; constructor|].
    apply bind_inv in E. destruct E as (r1 & E1 & E). apply bind_inv in E. destruct E as (r2 & E2 & E). injection E as <-. cbn [fst].
    constructor; [eapply H; eauto|eapply IH; eauto].
  Qed.
  Lemma each_listed : forall fuel p qs l, listed qs l -> forall s r, each (walk fuel p) l s = Ok r -> listed qs (fst r).
  Proof.
    intros fuel p qs l L. induction L as [|q qs c cs F L IH|q qs cs L IH]; intros s r E; cbn [each] in E; [injection E as <-; constructor| |].
    - apply bind_inv in E. destruct E as (r1 & E1 & E). apply bind_inv in E. destruct E as (r2 & E2 & E). injection E as <-. cbn [fst].
      constructor; [|eapply IH; eauto]. unfold LoadSpec.loaded_from in *. now rewrite (walk_label _ _ _ _ _ E1).
    - apply ls_out. eapply IH; eauto.
  Qed.
  Lemma collect_done : forall fuel, (forall p s r t, parse_path fuel p s = Ok r -> fst r = Some t -> loaded_from p t /\ done [] t) ->
    forall l s r, collect (parse_path fuel) l s = Ok r -> Forall (done []) (fst r) /\ listed l (fst r).
  Proof.
    intros fuel H. induction l as [|x l IH]; intros s r E; cbn [collect] in E; [injection E as <-; split; constructor|].
    apply bind_inv in E. destruct E as (r1 & E1 & E). apply bind_inv in E. destruct E as (r2 & E2 & E). injection E as <-. cbn [fst].
    destruct (IH _ _ E2) as [D L]. destruct (fst r1) as [t|] eqn:F; [|split; [exact D|now apply ls_out]].
    destruct (H _ _ _ _ E1 F) as [LF Dt]. split; constructor; assumption.
  Qed.

  Hypothesis raw_contents : forall p, raw (contents p).
  Lemma load_done : forall fuel,
    (forall p s r t, parse_path fuel p s = Ok r -> fst r = Some t -> loaded_from p t /\ done [] t) /\
    (forall p s r, parse_file fuel p s = Ok r -> label_of (fst r) = LFile p /\ done [] (fst r)) /\
    (forall p files t s r, done files t -> walk fuel p t s = Ok r -> done (files ++ [p]) (fst r)).
  Proof.
    induction fuel as [|fuel (IHp & IHf & IHw)].
    { split; [|split]; intros; discriminate. }
    split; [|split].
    - intros p s r t E Et. rewrite path_eq in E. unfold path_step in E.
      destruct (is_visited s p); [injection E as <-; discriminate|]. destruct (negb (wanted p)); [injection E as <-; discriminate|].
      destruct (is_symlink p) eqn:SL.
      { assert (K : forall o d, (forall t, o = Some t -> loaded_from (read_link p) t /\ done [] t) -> loaded_from p (T (LSym d) []) ->
            loaded_from p (T (LSym d) (opt_list o)) /\ done [] (T (LSym d) (opt_list o))).
        { intros o d Ho Hd. split; [exact Hd|]. apply d_sym with (q := p); [| |exact Hd].
          - destruct o as [t0|]; cbn; constructor; [now apply Ho|constructor].
          - destruct o as [t0|]; cbn [opt_list]; [constructor; [now apply Ho|constructor]|apply ls_out; constructor]. }
        destruct (is_dir (read_link p)) eqn:DR; [|destruct (is_file (read_link p)) eqn:FR; [|injection E as <-; discriminate]];
          apply bind_inv in E; destruct E as (r1 & E1 & E); injection E as <-; cbn [fst] in Et; injection Et as <-; apply K;
          try (intros t0 Ht0; eapply IHp; eauto); unfold LoadSpec.loaded_from; cbn [label_of]; auto. }
      destruct (is_dir p) eqn:D.
      { apply bind_inv in E. destruct E as (r1 & E1 & E). injection E as <-. cbn [fst] in Et. injection Et as <-. split; [reflexivity|].
        destruct (collect_done _ IHp _ _ _ E1) as [DC LC]. now constructor. }
      destruct (is_file p); [|injection E as <-; discriminate]. destruct (is_org p); [|injection E as <-; discriminate].
      apply bind_inv in E. destruct E as (r1 & E1 & E). injection E as <-. cbn [fst] in Et. injection Et as <-. destruct (IHf _ _ _ E1) as [L D1].
      split; [|exact D1]. unfold LoadSpec.loaded_from. now rewrite L.
    - intros p s r E. rewrite file_eq in E. unfold file_step in E. destruct (is_file p); [|discriminate].
      apply bind_inv in E. destruct E as (r1 & E1 & E). injection E as <-. cbn [fst]. split; [reflexivity|]. constructor.
      exact (IHw p [] _ _ _ (raw_done _ (raw_contents p)) E1).
    - intros p files t s r D E. rewrite walk_eq in E. unfold walk_step in E. apply bind_inv in E. destruct E as (r1 & E1 & E).
      apply bind_inv in E. destruct E as (r2 & E2 & E). injection E as <-. cbn [fst].
      destruct D as [files n ch F|files abs target ch refs F L|files abs target ch subs F L|files q doc F|files q ch F L|files q d ch F L LF]; unfold node_step in E1; cbn [label_of children] in E1 |- *.
      + injection E1 as <-. constructor. eapply each_done; eauto.
      + apply bind_inv in E1. destruct E1 as (full & R & E1). destruct full as [q|]; [apply resolve_some in R|apply resolve_none in R]; injection E1 as <-; cbn [fst snd] in E2.
        * apply each_app in E2. destruct E2 as (ra & rb & Ea & Eb & F2 & _). apply each_app in Ea. destruct Ea as (rc & rd & Ec & Ed & F3 & _).
          rewrite F2, F3, <- app_assoc. constructor; [eapply each_done; eauto|]. eapply each_links; [exact L|exact Ed|].
          cbn [each] in Eb. apply bind_inv in Eb. destruct Eb as (re & Ee & Eb). injection Eb as <-. apply walk_leaf in Ee; [|exact I]. subst re.
          constructor; [exact R|constructor].
        * apply each_app in E2. destruct E2 as (ra & rb & Ea & Eb & F2 & _). rewrite F2. constructor; [eapply each_done; eauto|].
          rewrite <- (app_nil_r (fst rb)). eapply each_links; [exact L|exact Eb|]. apply lk_none; [exact R|constructor].
      + apply bind_inv in E1. destruct E1 as (full & R & E1). destruct full as [q|]; [apply resolve_some in R|apply resolve_none in R].
        * apply bind_inv in E1. destruct E1 as (r3 & E3 & E1). injection E1 as <-. cbn [fst snd] in E2.
          apply each_app in E2. destruct E2 as (ra & rb & Ea & Eb & F2 & _). apply each_app in Ea. destruct Ea as (rc & rd & Ec & Ed & F3 & _).
          rewrite F2, F3, <- app_assoc. constructor; [eapply each_done; eauto|]. eapply each_loads; [intros; eapply IHw; eauto|exact L|exact Ed|].
          destruct (fst r3) as [c|] eqn:FC; cbn [opt_list each] in Eb.
          -- apply bind_inv in Eb. destruct Eb as (re & Ee & Eb). injection Eb as <-. cbn [fst]. destruct (IHp _ _ _ _ E3 FC) as [LF DC].
             eapply ld_some; [exact R| | |constructor].
             ++ unfold LoadSpec.loaded_from in *. now rewrite (walk_label _ _ _ _ _ Ee).
             ++ exact (IHw p [] _ _ _ DC Ee).
          -- injection Eb as <-. cbn [fst]. eapply ld_seen; [exact R|constructor].
        * injection E1 as <-. cbn [fst snd] in E2.
          apply each_app in E2. destruct E2 as (ra & rb & Ea & Eb & F2 & _). apply each_app in Ea. destruct Ea as (rc & rd & Ec & Ed & F3 & _).
          rewrite F2, F3, <- app_assoc. constructor; [eapply each_done; eauto|]. eapply each_loads; [intros; eapply IHw; eauto|exact L|exact Ed|].
          cbn [each] in Eb. apply bind_inv in Eb. destruct Eb as (re & Ee & Eb). injection Eb as <-. apply walk_leaf in Ee; [|exact I]. subst re.
          constructor; [exact R|constructor].
      + injection E1 as <-. cbn [fst snd each] in E2. apply bind_inv in E2. destruct E2 as (re & Ee & E2). injection E2 as <-. cbn [fst].
        constructor. exact (IHw p (q :: files) _ _ _ F Ee).
      + injection E1 as <-. constructor; [eapply each_done; eauto|eapply each_listed; eauto].
      + injection E1 as <-. apply d_sym with (q := q); [eapply each_done; eauto|eapply each_listed; eauto|exact LF].
  Qed.

  (** ** The files in the result *)
  Definition adds (s s' : state) (before after : list path) : Prop :=
    exists new, parsed s' = parsed s ++ new /\ Permutation after (before ++ new).
  Lemma raw_files : forall t, raw t -> files_in t = [].
  Proof.
    apply (tree_ind' (fun t => raw t -> files_in t = [])). intros l ch IH R. cbn [files_in].
    pose proof (R l (oc_here l ch)) as L. assert (F : flat_map files_in ch = []).
    { assert (Rc : forall c, In c ch -> raw c) by (intros c Hc x Hx; apply R; eapply oc_sub; eauto). clear R L.
      induction IH as [|c ch Hc IH IH2]; [reflexivity|]. cbn. rewrite Hc by (apply Rc; now left). apply IH2. intros c' Hc'. apply Rc. now right. }
    rewrite F. destruct l; try contradiction; reflexivity.
  Qed.
  Lemma each_adds : forall fuel p, (forall t s r, walk fuel p t s = Ok r -> adds s (snd r) (files_in t) (files_in (fst r))) ->
    forall l s r, each (walk fuel p) l s = Ok r -> adds s (snd r) (flat_map files_in l) (flat_map files_in (fst r)).
  Proof.
    intros fuel p H. induction l as [|x l IH]; intros s r E; cbn [each] in E.
    { injection E as <-. exists []. cbn. rewrite app_nil_r. auto. }
    apply bind_inv in E. destruct E as (r1 & E1 & E). apply bind_inv in E. destruct E as (r2 & E2 & E). injection E as <-. cbn [fst snd flat_map].
    destruct (H _ _ _ E1) as (n1 & P1 & Q1). destruct (IH _ _ E2) as (n2 & P2 & Q2). exists (n1 ++ n2). split; [now rewrite P2, P1, app_assoc|].
    rewrite Q1, Q2. rewrite <- !app_assoc. apply Permutation_app_head. rewrite !app_assoc. apply Permutation_app_tail. apply Permutation_app_comm.
  Qed.
  Lemma collect_adds : forall fuel, (forall p s r, parse_path fuel p s = Ok r -> adds s (snd r) [] (flat_map files_in (opt_list (fst r)))) ->
    forall l s r, collect (parse_path fuel) l s = Ok r -> adds s (snd r) [] (flat_map files_in (fst r)).
  Proof.
    intros fuel H. induction l as [|x l IH]; intros s r E; cbn [collect] in E.
    { injection E as <-. exists []. cbn. rewrite app_nil_r. auto. }
    apply bind_inv in E. destruct E as (r1 & E1 & E). apply bind_inv in E. destruct E as (r2 & E2 & E). injection E as <-. cbn [fst snd].
    destruct (H _ _ _ E1) as (n1 & P1 & Q1). destruct (IH _ _ E2) as (n2 & P2 & Q2). exists (n1 ++ n2). split; [now rewrite P2, P1, app_assoc|].
    cbn [app] in *. destruct (fst r1) as [c|]; cbn [opt_list flat_map] in *.
    - rewrite app_nil_r in Q1. now rewrite Q1, Q2.
    - apply Permutation_nil in Q1. subst n1. exact Q2.
  Qed.
  Lemma load_adds : forall fuel,
    (forall p s r, parse_path fuel p s = Ok r -> adds s (snd r) [] (flat_map files_in (opt_list (fst r)))) /\
    (forall p s r, parse_file fuel p s = Ok r -> adds s (snd r) [] (files_in (fst r))) /\
    (forall p t s r, walk fuel p t s = Ok r -> adds s (snd r) (files_in t) (files_in (fst r))).
  Proof.
    assert (Z : forall s l, adds s s l l) by (intros s l; exists []; rewrite !app_nil_r; auto).
    induction fuel as [|fuel (IHp & IHf & IHw)]; [repeat split; intros; discriminate|]. split; [|split].
    - intros p s r E. rewrite path_eq in E. unfold path_step in E. destruct (is_visited s p); [injection E as <-; apply Z|].
      assert (V : forall s' l, adds (visit s p) s' [] l -> adds s s' [] l) by (intros s' l H; exact H).
      destruct (negb (wanted p)); [injection E as <-; apply V, Z|].
      destruct (is_symlink p).
      { destruct (is_dir (read_link p)); [|destruct (is_file (read_link p)); [|injection E as <-; apply V, Z]];
        apply bind_inv in E; destruct E as (r1 & E1 & E); injection E as <-; cbn [fst snd opt_list flat_map files_in]; rewrite app_nil_r; exact (IHp _ _ _ E1). }
      destruct (is_dir p).
      { apply bind_inv in E. destruct E as (r1 & E1 & E). injection E as <-. cbn [fst snd opt_list flat_map files_in]. rewrite app_nil_r. exact (collect_adds fuel IHp _ _ _ E1). }
      destruct (is_file p); [|injection E as <-; apply V, Z]. destruct (is_org p); [|injection E as <-; apply V, Z].
      apply bind_inv in E. destruct E as (r1 & E1 & E). injection E as <-. cbn [fst snd opt_list flat_map]. rewrite app_nil_r. exact (IHf _ _ _ E1).
    - intros p s r E. rewrite file_eq in E. unfold file_step in E. destruct (is_file p); [|discriminate].
      apply bind_inv in E. destruct E as (r1 & E1 & E). injection E as <-. cbn [fst snd flat_map files_in].
      destruct (IHw _ _ _ _ E1) as (n & P & Q). rewrite (raw_files _ (raw_contents p)) in Q. exists (p :: n). split; [cbn in P; now rewrite P, <- app_assoc|].
      rewrite app_nil_r. cbn [app] in *. now constructor.
    - intros p t s r E. rewrite walk_eq in E. unfold walk_step in E. apply bind_inv in E. destruct E as (r1 & E1 & E).
      apply bind_inv in E. destruct E as (r2 & E2 & E). injection E as <-. cbn [fst snd].
      assert (S1 : adds s (snd r1) (flat_map files_in (children t)) (flat_map files_in (fst r1))).
      { unfold node_step in E1. destruct (label_of t); try (injection E1 as <-; apply Z).
        - apply bind_inv in E1. destruct E1 as ([q|] & _ & E1).
          + apply bind_inv in E1. destruct E1 as (r3 & E3 & E1). injection E1 as <-. cbn [fst snd]. rewrite flat_map_app.
            destruct (IHp _ _ _ E3) as (n & P & Q). exists n. split; [exact P|]. now apply Permutation_app_head.
          + injection E1 as <-. cbn [fst snd]. rewrite flat_map_app. cbn. rewrite app_nil_r. apply Z.
        - apply bind_inv in E1. destruct E1 as ([q|] & _ & E1); injection E1 as <-; cbn [fst snd]; [rewrite flat_map_app; cbn; rewrite app_nil_r|]; apply Z. }
      destruct (each_adds fuel p (IHw p) _ _ _ E2) as (n2 & P2 & Q2). destruct S1 as (n1 & P1 & Q1).
      exists (n1 ++ n2). split; [now rewrite P2, P1, app_assoc|]. destruct t as [l ch]. cbn [label_of children files_in] in *.
      rewrite <- app_assoc. apply Permutation_app_head. rewrite Q2, Q1. now rewrite <- app_assoc.
  Qed.
End Loading.
