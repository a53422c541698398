(** Proofs for PathsProps. *)
From Coq Require Import List Bool Arith Lia Permutation.
From Verif Require Import Base ImmModel ImmSpec ImmProofs ImmAssign ImmCascade ImmList PathsModel PathsSpec.
Import ListNotations.
Local Open Scope nat_scope.

Lemma mem_nat x l : existsb (Nat.eqb x) l = true <-> In x l.
Proof.
  rewrite existsb_exists. split; [intros (y & A & B); apply Nat.eqb_eq in B; now subst|].
  intros H. exists x. split; [exact H|apply Nat.eqb_refl].
Qed.
Lemma take_out_in x l y : NoDup l -> (In y (take_out x l) <-> In y l /\ y <> x).
Proof.
  induction l as [|z l IH]; intros N; [cbn; tauto|]. inversion N as [|? ? N1 N2]; subst. cbn [take_out].
  destruct (Nat.eqb_spec z x) as [->|D].
  - cbn. split; [|intros [[H|H] K]; [congruence|exact H]]. intros H. split; [now right|]. intros ->. contradiction.
  - cbn. rewrite IH by auto. split; [|tauto]. intros [H|H]; [subst; auto|tauto].
Qed.
Lemma take_out_nodup x l : NoDup l -> NoDup (take_out x l).
Proof.
  induction l as [|z l IH]; intros N; [exact N|]. inversion N as [|? ? N1 N2]; subst. cbn. destruct (Nat.eqb z x); [auto|].
  constructor; [|auto]. rewrite take_out_in by auto. tauto.
Qed.
Lemma upd_same pm t v : upd pm t v t = v.
Proof. unfold upd. now rewrite Nat.eqb_refl. Qed.
Lemma upd_other pm t v u : u <> t -> upd pm t v u = pm u.
Proof. intros H. unfold upd. apply Nat.eqb_neq in H. now rewrite H. Qed.

Lemma nodup_snoc {A} (l : list A) x : NoDup l -> ~ In x l -> NoDup (l ++ [x]).
Proof.
  intros N H. apply NoDup_rev in N. rewrite <- (rev_involutive (l ++ [x])). apply NoDup_rev. rewrite rev_app_distr. cbn.
  constructor; [now rewrite <- in_rev|exact N].
Qed.
Lemma nodup_flat_map {A B} (f : A -> list B) l : NoDup l -> (forall x, In x l -> NoDup (f x)) ->
  (forall x y z, In x l -> In y l -> In z (f x) -> In z (f y) -> x = y) -> NoDup (flat_map f l).
Proof.
  induction l as [|x l IH]; intros N F D; [constructor|]. inversion N as [|? ? N1 N2]; subst. cbn.
  assert (NoDup (flat_map f l)) as I.
  { apply IH; [auto|intros; apply F; now right|]. intros a b z Ha Hb. apply D; now right. }
  assert (NoDup (f x)) as I2 by (apply F; now left).
  assert (forall z, In z (f x) -> ~ In z (flat_map f l)) as I3.
  { intros z Hz K. apply in_flat_map in K. destruct K as (y & Hy & K). rewrite (D x y z) in N1; [contradiction|now left|now right|auto|auto]. }
  clear - I I2 I3. induction (f x) as [|z r IHr]; [exact I|]. inversion I2; subst. cbn. constructor.
  - rewrite in_app_iff. intros [K|K]; [contradiction|]. apply (I3 z); [now left|exact K].
  - apply IHr; [auto|]. intros w Hw. apply I3. now right.
Qed.

Lemma kind_of_ext s s' id : extends s s' -> id <= length s -> kind_of s' id = kind_of s id.
Proof.
  intros [l ->] H. unfold kind_of. destruct id as [|i]; [reflexivity|]. cbn. now rewrite nth_error_app1 by lia.
Qed.
Lemma node_at_back s s' id : extends s s' -> id <= length s -> node_at s' id = node_at s id.
Proof. intros [l ->] H. destruct id as [|i]; [reflexivity|]. cbn. now rewrite nth_error_app1 by lia. Qed.
Lemma node_at_len s id n : node_at s id = Some n -> 1 <= id <= length s.
Proof. destruct id as [|i]; [discriminate|]. cbn. intros H. assert (i < length s) by (apply nth_error_Some; congruence). lia. Qed.
Lemma wf_sub s q n st t : wf_store s -> node_at s q = Some n -> In (st, t) (subs n) -> t < q.
Proof. destruct q as [|i]; [discriminate|]. intros W N H. apply W in N. destruct N as [_ N]. apply N in H. lia. Qed.
Lemma wf_steps s q n : wf_store s -> node_at s q = Some n -> NoDup (map fst (subs n)).
Proof. destruct q as [|i]; [discriminate|]. intros W N. apply W in N. destruct N as [N _]. now apply shaped_nodup. Qed.

Section Proofs.
  Variable tk : nat -> bool.
  Notation tracked := (tracked tk). Notation holds := (holds tk). Notation leads := (leads tk). Notation top := (top tk).

  Lemma remove_from_spec s parent l : forall pm, (forall t, NoDup (pm t)) ->
    (forall t, NoDup (remove_from tk s pm parent l t)) /\
    forall p t, In p (remove_from tk s pm parent l t) <->
      In p (pm t) /\ ~ (p = parent /\ tracked s t = true /\ exists st, In (st, t) l).
  Proof.
    induction l as [|[st0 u] l IH]; intros pm N.
    - split; [exact N|]. intros p t. cbn. split; [intros H; split; [exact H|intros (_ & _ & st & [])]|tauto].
    - cbn [remove_from]. destruct (tracked s u && existsb (Nat.eqb parent) (pm u)) eqn:C.
      + apply andb_true_iff in C. destruct C as [C1 C2]. apply mem_nat in C2.
        destruct (IH (upd pm u (take_out parent (pm u)))) as [A B].
        { intros t. destruct (Nat.eq_dec t u) as [->|D]; [rewrite upd_same; now apply take_out_nodup|now rewrite upd_other]. }
        split; [exact A|]. intros p t. rewrite B. destruct (Nat.eq_dec t u) as [->|D].
        * rewrite upd_same, take_out_in by auto. split.
          -- intros [[X Y] Z]. split; [exact X|]. intros (-> & _). congruence.
          -- intros [X Y]. assert (p <> parent) as Q.
             { intros ->. apply Y. split; [reflexivity|]. split; [exact C1|]. exists st0. now left. }
             split; [tauto|]. tauto.
        * rewrite upd_other by auto. split; intros [X Y]; (split; [exact X|]); intros (P1 & P2 & st & P3); apply Y;
            (split; [exact P1|]); (split; [exact P2|]); exists st; [destruct P3 as [P3|P3]; [congruence|exact P3]|now right].
      + destruct (IH pm N) as [A B]. split; [exact A|]. intros p t. rewrite B.
        split; intros [X Y]; (split; [exact X|]); intros (P1 & P2 & st & P3).
        * destruct P3 as [P3|P3].
          -- injection P3 as _ ->. rewrite P2 in C. cbn in C. subst p. apply mem_nat in X. congruence.
          -- apply Y. eauto.
        * apply Y. split; [exact P1|]. split; [exact P2|]. exists st. now right.
  Qed.
  Lemma insert_into_spec s parent l : forall pm, (forall t, NoDup (pm t)) ->
    (forall t, NoDup (insert_into tk s pm parent l t)) /\
    forall p t, In p (insert_into tk s pm parent l t) <->
      In p (pm t) \/ (p = parent /\ tracked s t = true /\ exists st, In (st, t) l).
  Proof.
    induction l as [|[st0 u] l IH]; intros pm N.
    - split; [exact N|]. intros p t. cbn. split; [tauto|intros [H|(_ & _ & st & [])]; exact H].
    - cbn [insert_into].
      assert (H : (forall t, NoDup ((if tracked s u then set_as_parent pm parent u else pm) t)) /\
        forall p t, In p ((if tracked s u then set_as_parent pm parent u else pm) t) <->
          In p (pm t) \/ (p = parent /\ tracked s u = true /\ t = u)).
      { destruct (tracked s u) eqn:Tu.
        - unfold set_as_parent. destruct (existsb (Nat.eqb parent) (pm u)) eqn:E.
          + apply mem_nat in E. split; [exact N|]. intros p t. split; [tauto|]. intros [H|(-> & _ & ->)]; auto.
          + assert (~ In parent (pm u)) as E' by (rewrite <- mem_nat; congruence). split.
            * intros t. destruct (Nat.eq_dec t u) as [->|D]; [rewrite upd_same; now apply nodup_snoc|now rewrite upd_other].
            * intros p t. destruct (Nat.eq_dec t u) as [->|D]; [rewrite upd_same, in_app_iff; cbn|rewrite upd_other by auto].
              -- intuition congruence.
              -- intuition congruence.
        - split; [exact N|]. intros p t. intuition congruence. }
      destruct H as [H1 H2]. destruct (IH _ H1) as [A B]. split; [exact A|]. intros p t. rewrite B, H2. split.
      + intros [[X|(X & Y & ->)]|(X & Y & st & Z)]; [now left|right|right].
        * split; [exact X|]. split; [exact Y|]. exists st0. now left.
        * split; [exact X|]. split; [exact Y|]. exists st. now right.
      + intros [X|(X & Y & st & [Z|Z])]; [tauto| |right; eauto]. injection Z as _ ->. left. right. auto.
  Qed.

  Definition inv (s : store) (pm : nat -> list nat) (log : list event) : Prop :=
    wf_store s /\ (forall t, NoDup (pm t)) /\
    (forall p t, In p (pm t) <-> current log p /\ exists st, holds s p st t) /\
    (forall p, current log p -> p <= length s).

  Lemma holds_ext s s' p st t : extends s s' -> wf_store s -> p <= length s -> (holds s' p st t <-> holds s p st t).
  Proof.
    intros X W L. unfold PathsSpec.holds. rewrite (node_at_back s s' p X L). unfold PathsModel.tracked. rewrite (kind_of_ext s s' p X L).
    split; intros (n & A & B & C & D); exists n; pose proof (wf_sub _ _ _ _ _ W A B) as E;
      rewrite (kind_of_ext s s' t X) in * by lia; auto.
  Qed.
  Lemma remove_subs_spec s s' pm log old : inv s pm log -> extends s s' ->
    (forall t, NoDup (remove_subs tk s' pm old t)) /\
    forall p t, In p (remove_subs tk s' pm old t) <-> In p (pm t) /\ p <> old.
  Proof.
    intros (W & N & H & L) X. unfold remove_subs, refs. destruct (tracked s' old) eqn:T.
    - destruct (remove_from_spec s' old (match node_at s' old with Some n => subs n | None => [] end) pm N) as [A B].
      split; [exact A|]. intros p t. rewrite B. split.
      + intros [P Q]. split; [exact P|]. intros ->. apply Q. split; [reflexivity|]. apply H in P. destruct P as [P0 [st P]].
        apply (holds_ext s s') in P; auto. destruct P as (n & P1 & P2 & P3 & P4). rewrite P1. eauto.
      + intros [P Q]. split; [exact P|]. tauto.
    - split; [exact N|]. intros p t. split; [|tauto]. intros P. split; [exact P|]. intros ->. apply H in P. destruct P as [P0 [st P]].
      apply (holds_ext s s') in P; auto. destruct P as (n & P1 & P2 & P3 & P4). congruence.
  Qed.
  Lemma insert_subs_spec s pm id n : (forall t, NoDup (pm t)) -> node_at s id = Some n ->
    (forall t, NoDup (insert_subs tk s pm id t)) /\
    forall p t, In p (insert_subs tk s pm id t) <-> In p (pm t) \/ (p = id /\ exists st, holds s id st t).
  Proof.
    intros N E. unfold insert_subs, refs. rewrite E. destruct (tracked s id) eqn:T.
    - destruct (insert_into_spec s id (subs n) pm N) as [A B]. split; [exact A|]. intros p t. rewrite B. split.
      + intros [H|(-> & H & st & K)]; [now left|]. right. split; [reflexivity|]. exists st, n. auto.
      + intros [H|(-> & st & m & K1 & K2 & K3 & K4)]; [now left|]. right. rewrite E in K1. injection K1 as <-. eauto.
    - split; [exact N|]. intros p t. split; [tauto|]. intros [H|(-> & st & m & K1 & K2 & K3 & K4)]; [exact H|]. congruence.
  Qed.
  Lemma inv_step s pm log old n s' id : inv s pm log -> fits s n -> intern s n = (s', id) ->
    inv s' (insert_subs tk s' (remove_subs tk s' pm old) id) (Replaced old id :: log) /\
    inv s' (insert_subs tk s' (remove_subs tk s' pm id) id) (Added id :: log).
  Proof.
    intros I [F1 F2] E. pose proof I as (W & N & H & L).
    pose proof (wf_intern s n W F1 F2) as W'. destruct (intern_spec s n) as (m & X & M & _). rewrite E in *. cbn [fst snd] in *.
    pose proof (node_at_len _ _ _ M) as Lid.
    assert (Lx : length s <= length s') by (destruct X as [l ->]; rewrite app_length; lia).
    assert (G : forall o, (forall t, NoDup (insert_subs tk s' (remove_subs tk s' pm o) id t)) /\
       forall p t, In p (insert_subs tk s' (remove_subs tk s' pm o) id t) <->
          (In p (pm t) /\ p <> o) \/ (p = id /\ exists st, holds s' id st t)).
    { intros o. destruct (remove_subs_spec s s' pm log o I X) as [A B]. destruct (insert_subs_spec s' _ id m A M) as [C D].
      split; [exact C|]. intros p t. now rewrite D, B. }
    assert (HX : forall p t, In p (pm t) <-> current log p /\ exists st, holds s' p st t).
    { intros p t. rewrite H. split; intros [P [st Q]]; (split; [exact P|]); exists st; apply (holds_ext s s' p st t X W (L _ P)); exact Q. }
    split.
    - split; [exact W'|]. destruct (G old) as [A B]. split; [exact A|]. split.
      + intros p t. rewrite B, HX. cbn [current]. split; [|].
        * intros [[[P Q] R]|[-> Q]]; auto.
        * intros [[->|[P Q]] R]; auto.
      + intros p [->|[_ K]]; [lia|]. apply L in K. lia.
    - split; [exact W'|]. destruct (G id) as [A B]. split; [exact A|]. split.
      + intros p t. rewrite B, HX. cbn [current]. split; [|].
        * intros [[[P Q] R]|[-> Q]]; auto.
        * destruct (Nat.eq_dec p id) as [->|D]; [intros [_ R]; auto|]. intros [[->|P] R]; auto.
      + intros p [->|K]; [lia|]. apply L in K. lia.
  Qed.
  Lemma history_inv s pm log : history tk s pm log -> inv s pm log.
  Proof.
    induction 1 as [|s pm log n s' pm' id H IH F E|s pm log old n s' pm' id H IH F E].
    - split; [intros i n H; destruct i; discriminate|]. split; [constructor|]. split; [|intros p []].
      intros p t. cbn. split; [tauto|]. intros [[] _].
    - unfold track_add in E. destruct (intern s n) as [s1 i] eqn:I. injection E as <- <- <-. now apply (inv_step s pm log 0 n).
    - unfold track_set in E. destruct (intern s n) as [s1 i] eqn:I. injection E as <- <- <-. now apply (inv_step s pm log old n).
  Qed.

  (** ** The map of parents *)
  Lemma note_last m p a st : ~ In p (map fst m) -> note (m ++ [(p, a)]) p st = m ++ [(p, a ++ [st])].
  Proof.
    induction m as [|[q l] m IH]; intros H; cbn; [now rewrite Nat.eqb_refl|]. cbn in H.
    destruct (Nat.eqb_spec q p) as [->|D]; [tauto|]. now rewrite IH by tauto.
  Qed.
  Lemma note_new m p st : ~ In p (map fst m) -> note m p st = m ++ [(p, [st])].
  Proof.
    induction m as [|[q l] m IH]; intros H; cbn; [reflexivity|]. cbn in H.
    destruct (Nat.eqb_spec q p) as [->|D]; [tauto|]. now rewrite IH by tauto.
  Qed.
  Lemma note_more m p l : forall a, ~ In p (map fst m) -> note_all (m ++ [(p, a)]) p l = m ++ [(p, a ++ l)].
  Proof.
    induction l as [|st l IH]; intros a H; cbn; [now rewrite app_nil_r|]. unfold note_all in *. rewrite note_last by auto.
    rewrite IH by auto. now rewrite <- app_assoc.
  Qed.
  Lemma note_all_new m p l : ~ In p (map fst m) -> l <> [] -> note_all m p l = m ++ [(p, l)].
  Proof.
    destruct l as [|st l]; [congruence|]. intros H _. unfold note_all. cbn [fold_left]. rewrite note_new by auto.
    exact (note_more m p l [st] H).
  Qed.
  Lemma parents_fold s t ps : forall m, NoDup (map fst m ++ ps) -> (forall p, In p ps -> relative s p t <> []) ->
    fold_left (fun m p => note_all m p (relative s p t)) ps m = m ++ map (fun p => (p, relative s p t)) ps.
  Proof.
    induction ps as [|p ps IH]; intros m N R; cbn; [now rewrite app_nil_r|].
    rewrite note_all_new; [|intros K; apply NoDup_remove_2 in N; apply N; rewrite in_app_iff; auto|apply R; now left].
    rewrite IH; [now rewrite <- app_assoc| |intros q Hq; apply R; now right].
    rewrite map_app. cbn. now rewrite <- app_assoc.
  Qed.
  Lemma relative_in s p t st : In st (relative s p t) <-> In (st, t) (refs s p).
  Proof.
    unfold relative. rewrite in_map_iff. split.
    - intros ([st' t'] & <- & H). apply filter_In in H. destruct H as [H E]. cbn in *. apply Nat.eqb_eq in E. now subst.
    - intros H. exists (st, t). split; [reflexivity|]. apply filter_In. cbn. rewrite Nat.eqb_refl. auto.
  Qed.
  Lemma relative_nodup s p t : wf_store s -> NoDup (relative s p t).
  Proof.
    intros W. unfold relative, refs. destruct (node_at s p) as [n|] eqn:E; [|constructor]. pose proof (wf_steps _ _ _ W E) as N.
    clear E. induction (subs n) as [|x l IH]; [constructor|]. cbn in N. inversion N as [|? ? N1 N2]; subst. cbn [filter].
    destruct (Nat.eqb (snd x) t); [|auto]. cbn. constructor; [|auto]. intros K. apply N1. apply in_map_iff in K.
    destruct K as (y & <- & K). apply filter_In in K. destruct K. now apply in_map.
  Qed.
  Lemma parents_for_eq s pm log t : inv s pm log ->
    parents_for s pm t = map (fun p => (p, relative s p t)) (pm t).
  Proof.
    intros (W & N & H & L). unfold parents_for. rewrite parents_fold; [reflexivity|apply N|]. intros p Hp K.
    apply H in Hp. destruct Hp as (_ & st & n & A & B & _). assert (In st (relative s p t)) as Q.
    { apply relative_in. unfold refs. now rewrite A. } rewrite K in Q. destruct Q.
  Qed.

  (** ** Paths *)
  Lemma leads_at s log r p t : wf_store s -> leads s log r p t -> id_at s r p = Ok t.
  Proof.
    intros W. induction 1 as [|p q st t H IH C (n & A & B & _)]; [reflexivity|]. rewrite id_at_app, IH. cbn.
    unfold id_step. rewrite A. pose proof (wf_steps _ _ _ W A) as N.
    rewrite (proj2 (find_step (subs n) st (st, t) N) (conj B eq_refl)). reflexivity.
  Qed.
  Lemma leads_snoc s log r p st t : leads s log r (p ++ [st]) t -> exists q, leads s log r p q /\ current log q /\ holds s q st t.
  Proof.
    intros H. inversion H as [E|p' q st' t' A B C E]; subst.
    - destruct p; discriminate.
    - apply app_inj_tail in E. destruct E as [-> ->]. eauto.
  Qed.
  Lemma top_or s pm log t : inv s pm log -> pm t = [] <-> top s log t.
  Proof.
    intros (W & N & H & L). split.
    - intros E q st C D. assert (In q (pm t)) as K by (apply H; eauto). rewrite E in K. destruct K.
    - intros T. destruct (pm t) as [|q l] eqn:E; [reflexivity|]. exfalso. assert (In q (pm t)) as K by (rewrite E; now left).
      apply H in K. destruct K as (C & st & D). exact (T q st C D).
  Qed.
  Lemma climbs s pm log : inv s pm log -> forall k t, length s - t <= k -> exists r p, leads s log r p t /\ top s log r.
  Proof.
    intros I. pose proof I as (W & N & H & L). induction k as [|k IH]; intros t K.
    - exists t, []. split; [constructor|]. intros q st C (n & A & B & _). pose proof (wf_sub _ _ _ _ _ W A B).
      apply L in C. lia.
    - destruct (pm t) as [|q l] eqn:E; [exists t, []; split; [constructor|now apply (top_or s pm)]|].
      assert (In q (pm t)) as Q by (rewrite E; now left). apply H in Q. destruct Q as (C & st & D). pose proof D as (n & A & B & _).
      pose proof (wf_sub _ _ _ _ _ W A B). apply L in C as C'. destruct (IH q) as (r & p & P1 & P2); [lia|].
      exists r, (p ++ [st]). split; [econstructor; eauto|exact P2].
  Qed.
  Lemma through_in q steps above r p : In (r, p) (through q steps above) <->
    exists p0 st, p = p0 ++ [st] /\ In st steps /\ ((above = [] /\ r = q /\ p0 = []) \/ In (r, p0) above).
  Proof.
    destruct above as [|a above].
    - unfold through. rewrite in_map_iff. split.
      + intros (st & E & H). injection E as <- <-. exists [], st. split; [reflexivity|auto].
      + intros (p0 & st & -> & H & [(_ & -> & ->)|[]]). exists st. auto.
    - unfold through. rewrite in_flat_map. split.
      + intros ([r' p'] & A & B). apply in_map_iff in B. destruct B as (st & B & C). cbn in B. injection B as <- <-. exists p', st. auto.
      + intros (p0 & st & -> & H & [(E & _)|K]); [discriminate|]. exists (r, p0). split; [exact K|]. apply in_map_iff. exists st. auto.
  Qed.
  Lemma through_nodup q steps above : NoDup steps -> NoDup above -> NoDup (through q steps above).
  Proof.
    intros N M. destruct above as [|a above].
    - unfold through. clear M. induction N as [|st l H N IH]; cbn; constructor; auto. intros K. apply in_map_iff in K.
      destruct K as (x & E & K). injection E as ->. contradiction.
    - unfold through. apply nodup_flat_map; [exact M| |].
      + intros x _. clear M. induction N as [|st l H N IH]; cbn; constructor; auto. intros K. apply in_map_iff in K.
        destruct K as (y & E & K). injection E as E. apply app_inj_tail in E. destruct E as [_ ->]. contradiction.
      + intros [r p] [r' p'] z _ _ A B. apply in_map_iff in A. apply in_map_iff in B. destruct A as (u & A & _), B as (v & B & _).
        cbn in *. rewrite <- A in B. injection B as -> B. apply app_inj_tail in B. destruct B as [-> _]. reflexivity.
  Qed.
  Definition got (o : outcome (list (nat * path))) : list (nat * path) := match o with Ok l => l | _ => [] end.
  Lemma every_ok rec m : (forall x, In x m -> exists l, rec (fst x) = Ok l) ->
    every rec m = Ok (flat_map (fun x => through (fst x) (snd x) (got (rec (fst x)))) m).
  Proof.
    induction m as [|[p steps] m IH]; intros H; [reflexivity|]. cbn [every flat_map fst snd].
    destruct (H (p, steps) (or_introl eq_refl)) as [l E]. cbn in E. rewrite E. cbn [obind]. rewrite IH by (intros; apply H; now right).
    reflexivity.
  Qed.

  Variable walk : list (nat * list step) -> list (nat * list step).
  Variable order : list (nat * path) -> list (nat * path).
  Hypothesis Walk : any_order walk.
  Hypothesis Order : any_order order.

  Lemma paths_up_ok s pm log : inv s pm log -> forall fuel t, length s - t < fuel ->
    exists l, paths_up walk fuel s pm t = Ok l /\ NoDup l /\
      forall r p, In (r, p) l <-> p <> [] /\ leads s log r p t /\ top s log r.
  Proof.
    intros I. pose proof I as (W & N & H & L). induction fuel as [|f IH]; intros t K; [lia|]. cbn [paths_up].
    rewrite (parents_for_eq s pm log t I). set (m := map (fun p => (p, relative s p t)) (pm t)). specialize (Walk m).
    assert (P : forall x, In x (walk m) <-> In (fst x) (pm t) /\ snd x = relative s (fst x) t).
    { intros x. split.
      - intros Hx. apply (Permutation_in x (Permutation_sym Walk)) in Hx. apply in_map_iff in Hx. destruct Hx as (p & <- & Hp). auto.
      - intros [A B]. apply (Permutation_in x Walk). apply in_map_iff. exists (fst x). rewrite <- B. split; [now destruct x|exact A]. }
    assert (PR : forall x, In x (walk m) -> exists l, paths_up walk f s pm (fst x) = Ok l /\ NoDup l /\
      forall r p, In (r, p) l <-> p <> [] /\ leads s log r p (fst x) /\ top s log r).
    { intros x Hx. apply P in Hx. destruct Hx as [Hx _]. apply H in Hx. destruct Hx as (C & st & n & A & B & _).
      pose proof (wf_sub _ _ _ _ _ W A B). apply L in C. apply IH. lia. }
    rewrite every_ok by (intros x Hx; destruct (PR x Hx) as (l & E & _); eauto). eexists. split; [reflexivity|].
    assert (MEM : forall x r p, In x (walk m) -> (In (r, p) (through (fst x) (snd x) (got (paths_up walk f s pm (fst x)))) <->
       exists p0 st, p = p0 ++ [st] /\ holds s (fst x) st t /\ leads s log r p0 (fst x) /\ top s log r)).
    { intros x r p Hx. destruct (PR x Hx) as (l & E & D & M). rewrite E. cbn [got]. apply P in Hx. destruct Hx as [X1 X2].
      rewrite through_in, X2. pose proof X1 as X3. apply H in X3. destruct X3 as (C & st0 & n & A & B & T1 & T2).
      assert (R : forall st, In st (relative s (fst x) t) <-> holds s (fst x) st t).
      { intros st. rewrite relative_in. unfold refs, PathsSpec.holds. rewrite A. split; [intros Q; exists n; auto|].
        intros (n' & Q1 & Q2 & _). congruence. }
      split.
      - intros (p0 & st & -> & Q & Z). exists p0, st. split; [reflexivity|]. split; [now apply R|]. destruct Z as [(-> & -> & ->)|Z].
        + split; [constructor|]. apply (top_or s pm log _ I). destruct (pm (fst x)) as [|q' l'] eqn:E'; [reflexivity|]. exfalso.
          destruct (climbs s pm log I (length s - fst x) (fst x)) as (r & p & G1 & G2); [lia|].
          destruct p as [|a p].
          * inversion G1; subst; [|destruct p; discriminate]. apply (top_or s pm log _ I) in G2. congruence.
          * apply (M r (a :: p)). split; [discriminate|]. auto.
        + apply M in Z. tauto.
      - intros (p0 & st & -> & Q & Z1 & Z2). exists p0, st. split; [reflexivity|]. split; [now apply R|].
        destruct p0 as [|a p0].
        + left. assert (r = fst x) as -> by (inversion Z1; subst; [reflexivity|destruct p; discriminate]). split; [|auto].
          destruct l as [|[r' p'] l]; [reflexivity|]. exfalso. destruct (proj1 (M r' p') (or_introl eq_refl)) as (G1 & G2 & G3).
          destruct p' as [|b p' _] using rev_ind; [congruence|]. apply leads_snoc in G2. destruct G2 as (q & G4 & G5 & G6).
          exact (Z2 q b G5 G6).
        + right. apply M. split; [discriminate|]. auto. }
    split.
    - apply nodup_flat_map.
      + apply (Permutation_NoDup Walk). unfold m. specialize (N t). clear - N. induction N as [|x l A B IHn]; cbn; constructor; auto.
        intros K. apply in_map_iff in K. destruct K as (y & E & K). injection E as -> _. contradiction.
      + intros x Hx. destruct (PR x Hx) as (l & E & D & M). rewrite E. cbn [got]. apply P in Hx. destruct Hx as [_ ->].
        apply through_nodup; [now apply relative_nodup|exact D].
      + intros x y [r p] Hx Hy A B. apply MEM in A; auto. apply MEM in B; auto.
        destruct A as (p0 & st & -> & _ & A & _), B as (p1 & st' & E & _ & B & _). apply app_inj_tail in E. destruct E as [<- <-].
        apply leads_at in A; auto. apply leads_at in B; auto. apply P in Hx. apply P in Hy. destruct x as [x1 x2], y as [y1 y2].
        cbn [fst snd] in *. destruct Hx as [_ ->], Hy as [_ ->]. congruence.
    - intros r p. rewrite in_flat_map. split.
      + intros (x & Hx & A). apply MEM in A; auto. destruct A as (p0 & st & -> & A & B & C). split; [now destruct p0|].
        split; [|exact C]. apply P in Hx. destruct Hx as [Hx _]. apply H in Hx. destruct Hx as [Hx _]. econstructor; eauto.
      + intros (A & B & C). destruct p as [|st p _] using rev_ind; [congruence|]. apply leads_snoc in B.
        destruct B as (q & B & D & E). exists (q, relative s q t). assert (Q : In (q, relative s q t) (walk m)).
        { apply P. cbn. split; [|reflexivity]. apply H. eauto. }
        split; [exact Q|]. apply MEM; [exact Q|]. cbn. exists p, st. auto.
  Qed.
  Lemma paths_for_ok s pm log : inv s pm log -> forall fuel t, length s < fuel ->
    exists l, paths_for walk order fuel s pm t = Ok l /\ NoDup l /\
      forall r p, In (r, p) l <-> p <> [] /\ leads s log r p t /\ top s log r.
  Proof.
    intros I fuel t F. destruct (paths_up_ok s pm log I fuel t) as (l & E & N & M); [lia|]. unfold paths_for. rewrite E.
    exists (order l). split; [reflexivity|]. split; [now apply (Permutation_NoDup (Order l))|]. intros r p. rewrite <- M.
    split; [apply (Permutation_in _ (Permutation_sym (Order l)))|apply (Permutation_in _ (Order l))].
  Qed.
End Proofs.
