(** Proofs for KeysProps. *)
From Coq Require Import List Bool Arith Lia.
From Verif Require Import Base PathsModel PathsSpec PathsProofs KeysModel KeysSpec.
Import ListNotations.
Local Open Scope nat_scope.

Lemma put_all_at ks v : forall m k, put_all m ks v k = if existsb (Nat.eqb k) ks then v else m k.
Proof.
  induction ks as [|x ks IH]; intros m k; [reflexivity|]. cbn [put_all existsb]. rewrite IH. unfold put.
  destruct (existsb (Nat.eqb k) ks); [now rewrite orb_true_r|]. rewrite orb_false_r. reflexivity.
Qed.
Lemma put_all_in ks v m k : In k ks -> put_all m ks v k = v.
Proof. intros H. rewrite put_all_at. apply mem_nat in H. now rewrite H. Qed.
Lemma put_all_out ks v m k : ~ In k ks -> put_all m ks v k = m k.
Proof. intros H. rewrite put_all_at. rewrite <- mem_nat in H. destruct (existsb (Nat.eqb k) ks); congruence. Qed.

Section OneMap.
  Variable ks : nat -> list nat.
  Definition exact (log : list event) (m : nat -> option nat) : Prop := forall k q, m k = Some q <-> current log q /\ In k (ks q).
  Definition alone (log : list event) : Prop := forall q q' k, current log q -> current log q' -> In k (ks q) -> In k (ks q') -> q = q'.
  Lemma exact_added log m i : exact log m -> alone (Added i :: log) -> exact (Added i :: log) (put_all m (ks i) (Some i)).
  Proof.
    intros E A k q. destruct (in_dec Nat.eq_dec k (ks i)) as [H|H].
    - rewrite put_all_in by auto. split; [intros [= <-]; cbn; auto|]. intros [C D]. f_equal. apply (A i q k); cbn; auto.
    - rewrite put_all_out by auto. rewrite (E k q). cbn. split; [tauto|]. intros [[->|C] D]; [contradiction|auto].
  Qed.
  Lemma exact_replaced log m o i : exact log m -> alone log -> current log o -> alone (Replaced o i :: log) ->
    exact (Replaced o i :: log) (put_all (put_all m (ks o) None) (ks i) (Some i)).
  Proof.
    intros E B Co A k q. destruct (in_dec Nat.eq_dec k (ks i)) as [H|H].
    - rewrite put_all_in by auto. split; [intros [= <-]; cbn; auto|]. intros [C D]. f_equal. apply (A i q k); cbn; auto.
    - rewrite put_all_out by auto. destruct (in_dec Nat.eq_dec k (ks o)) as [K|K].
      + rewrite put_all_in by auto. split; [discriminate|]. cbn. intros [[->|[C1 C2]] D]; [contradiction|].
        elim C1. now apply (B q o k).
      + rewrite put_all_out by auto. rewrite (E k q). cbn. split; [|intros [[->|C] D]; [contradiction|tauto]].
        intros [C D]. split; [|exact D]. right. split; [|exact C]. intros ->. contradiction.
  Qed.
  Definition kept (log : list event) (m : nat -> option nat) : Prop := forall k q, current log q -> In k (ks q) -> m k = Some q.
  Lemma kept_added log m i : kept log m -> alone (Added i :: log) -> kept (Added i :: log) (put_all m (ks i) (Some i)).
  Proof.
    intros E A k q C D. destruct (in_dec Nat.eq_dec k (ks i)) as [H|H].
    - rewrite put_all_in by auto. f_equal. apply (A i q k); cbn; auto.
    - rewrite put_all_out by auto. apply E; auto. destruct C as [->|C]; [contradiction|exact C].
  Qed.
  Lemma kept_replaced log m o i : kept log m -> alone log -> current log o -> alone (Replaced o i :: log) ->
    kept (Replaced o i :: log) (put_all (put_all m (ks o) (Some o)) (ks i) (Some i)).
  Proof.
    intros E B Co A k q C D. destruct (in_dec Nat.eq_dec k (ks i)) as [H|H].
    - rewrite put_all_in by auto. f_equal. apply (A i q k); cbn; auto.
    - rewrite put_all_out by auto. destruct C as [->|[C1 C2]]; [contradiction|].
      destruct (in_dec Nat.eq_dec k (ks o)) as [K|K].
      + elim C1. now apply (B q o k).
      + rewrite put_all_out by auto. now apply E.
  Qed.
End OneMap.

Lemma radios_add l : forall rt, (forall t ws, In (t, ws) l -> ws <> []) -> (forall w, NoDup (rt w)) ->
  exists rt', edit_radios rt l true = Ok rt' /\ (forall w, NoDup (rt' w)) /\
    forall w t, In t (rt' w) <-> In t (rt w) \/ In (w, t) (map first_of l).
Proof.
  induction l as [|[t0 ws] l IH]; intros rt F N.
  - exists rt. split; [reflexivity|]. split; [exact N|]. intros w t. cbn. tauto.
  - cbn [edit_radios]. destruct ws as [|w0 ws]; [elim (F t0 []); [now left|reflexivity]|]. cbn [edit_radio obind].
    set (rt1 := if existsb (Nat.eqb t0) (rt w0) then rt else upd rt w0 (rt w0 ++ [t0])).
    assert (H : (forall w, NoDup (rt1 w)) /\ forall w t, In t (rt1 w) <-> In t (rt w) \/ (w = w0 /\ t = t0)).
    { unfold rt1. destruct (existsb (Nat.eqb t0) (rt w0)) eqn:E.
      - apply mem_nat in E. split; [exact N|]. intros w t. split; [tauto|]. intros [H|[-> ->]]; auto.
      - assert (~ In t0 (rt w0)) as E' by (rewrite <- mem_nat; congruence). split.
        + intros w. destruct (Nat.eq_dec w w0) as [->|D]; [rewrite upd_same; now apply nodup_snoc|now rewrite upd_other].
        + intros w t. destruct (Nat.eq_dec w w0) as [->|D]; [rewrite upd_same, in_app_iff; cbn|rewrite upd_other by auto]; intuition congruence. }
    destruct H as [H1 H2]. destruct (IH rt1) as (rt' & A & B & C); [intros; apply (F t ws0); now right|exact H1|].
    exists rt'. split; [exact A|]. split; [exact B|]. intros w t. rewrite C, H2. cbn. unfold first_of at 2. cbn. intuition congruence.
Qed.
Lemma radios_remove l : forall rt, (forall t ws, In (t, ws) l -> ws <> []) -> (forall w, NoDup (rt w)) ->
  NoDup (map first_of l) -> (forall w t, In (w, t) (map first_of l) -> In t (rt w)) ->
  exists rt', edit_radios rt l false = Ok rt' /\ (forall w, NoDup (rt' w)) /\
    forall w t, In t (rt' w) <-> In t (rt w) /\ ~ In (w, t) (map first_of l).
Proof.
  induction l as [|[t0 ws] l IH]; intros rt F N D H.
  - exists rt. split; [reflexivity|]. split; [exact N|]. intros w t. cbn. tauto.
  - cbn [edit_radios]. destruct ws as [|w0 ws]; [elim (F t0 []); [now left|reflexivity]|]. cbn [edit_radio].
    cbn [map first_of hd fst snd] in *. inversion D as [|? ? D1 D2]; subst.
    assert (Q : In t0 (rt w0)) by (apply H; now left). rewrite (proj2 (mem_nat _ _) Q). cbn [obind].
    set (rt1 := upd rt w0 (take_out t0 (rt w0))).
    assert (H1 : forall w, NoDup (rt1 w)).
    { intros w. unfold rt1. destruct (Nat.eq_dec w w0) as [->|E]; [rewrite upd_same; now apply take_out_nodup|now rewrite upd_other]. }
    assert (H2 : forall w t, In t (rt1 w) <-> In t (rt w) /\ ~ (w = w0 /\ t = t0)).
    { intros w t. unfold rt1. destruct (Nat.eq_dec w w0) as [->|E]; [rewrite upd_same, take_out_in by auto|rewrite upd_other by auto]; intuition congruence. }
    destruct (IH rt1) as (rt' & A & B & C); [intros; apply (F t ws0); now right|exact H1|exact D2| |].
    { intros w t K. apply H2. split; [apply H; now right|]. intros [-> ->]. contradiction. }
    exists rt'. split; [exact A|]. split; [exact B|]. intros w t. rewrite C, H2. cbn [In].
    assert (P : (w0, t0) = (w, t) <-> w = w0 /\ t = t0) by (split; [intros E; injection E as -> ->; auto|intros [-> ->]; reflexivity]).
    rewrite P. tauto.
Qed.

Section All.
  Variable fc : nat -> facts.
  Definition id_keys q := match part_of (fc q) with Subtree i _ _ _ => keys_of i | _ => [] end.
  Definition custom_keys q := match part_of (fc q) with Subtree _ c _ _ => c | _ => [] end.
  Definition foot_keys q := match part_of (fc q) with Paragraph f _ => keys_of f | _ => [] end.
  Definition tag_keys q := match part_of (fc q) with Subtree _ _ _ t => t | _ => [] end.
  Definition radio_list q := match part_of (fc q) with
    | Subtree _ _ rs _ => map (fun words => (q, words)) rs | Paragraph _ ts => ts | Other => [] end.
  Lemma radio_list_of q : map first_of (radio_list q) = radio_of fc q.
  Proof. unfold radio_list, radio_of. destruct (part_of (fc q)); [|reflexivity|reflexivity]. now rewrite map_map. Qed.
  Lemma radio_list_fine q : radio_fine fc q -> forall t ws, In (t, ws) (radio_list q) -> ws <> [].
  Proof.
    intros [_ H] t ws. unfold radio_list. destruct (part_of (fc q)); [|apply H|intros []].
    intros K. apply in_map_iff in K. destruct K as (x & E & K). injection E as _ <-. now apply H.
  Qed.
  Lemma id_keys_in q k : In k (id_keys q) <-> has_id fc q k.
  Proof. unfold id_keys, has_id. destruct (part_of (fc q)) as [[i|]| |]; cbn; tauto. Qed.
  Lemma custom_keys_in q k : In k (custom_keys q) <-> has_custom fc q k.
  Proof. unfold custom_keys, has_custom. destruct (part_of (fc q)); cbn; tauto. Qed.
  Lemma foot_keys_in q k : In k (foot_keys q) <-> has_foot fc q k.
  Proof. unfold foot_keys, has_foot. destruct (part_of (fc q)) as [|[i|]|]; cbn; tauto. Qed.
  Lemma tag_keys_in q k : In k (tag_keys q) <-> defines fc q k.
  Proof. unfold tag_keys, defines. destruct (part_of (fc q)); cbn; tauto. Qed.

  Lemma update_eq (m : maps) (q : nat) (add : bool) : let v := if add then Some q else None in update_tracking fc m q add =
    omap (mkM (put_all (names m) (names_of (fc q)) v) (put_all (subtrees m) (id_keys q) v) (put_all (customs m) (custom_keys q) v)
              (put_all (foots m) (foot_keys q) v) (put_all (tagdefs m) (tag_keys q) (Some q)))
         (edit_radios (radios m) (radio_list q) add).
  Proof.
    unfold update_tracking, id_keys, custom_keys, foot_keys, tag_keys, radio_list. destruct (part_of (fc q)); reflexivity.
  Qed.

  Definition good_maps (log : list event) (m : maps) : Prop :=
    exact (fun q => names_of (fc q)) log (names m) /\ exact id_keys log (subtrees m) /\ exact custom_keys log (customs m) /\
    exact foot_keys log (foots m) /\ kept tag_keys log (tagdefs m) /\
    (forall w, NoDup (radios m w)) /\ (forall w t, In t (radios m w) <-> exists q, current log q /\ In (w, t) (radio_of fc q)).

  Lemma apart_alone log : apart fc log -> alone (fun q => names_of (fc q)) log /\ alone id_keys log /\ alone custom_keys log /\
    alone foot_keys log /\ alone tag_keys log /\
    (forall q q' x, current log q -> current log q' -> In x (radio_of fc q) -> In x (radio_of fc q') -> q = q').
  Proof.
    intros A. unfold alone. repeat apply conj; intros q q' k C C' H H'; apply A; auto; rewrite ?id_keys_in, ?custom_keys_in, ?foot_keys_in, ?tag_keys_in in *.
    - left. exists k. left. auto.
    - left. exists k. auto.
    - left. exists k. auto.
    - left. exists k. tauto.
    - left. exists k. tauto.
    - right. exists k. auto.
  Qed.
  Lemma orderly_apart log : orderly fc log -> apart fc log.
  Proof. destruct log as [|[i|o i] log]; cbn; [intros _ q q' []|tauto|tauto]. Qed.
  Lemma orderly_fine log : orderly fc log -> forall q, current log q -> radio_fine fc q.
  Proof.
    induction log as [|[i|o i] log IH]; cbn; [tauto| |].
    - intros (A & B & C) q [->|D]; auto.
    - intros (A & B & C & _) q [->|[_ D]]; auto.
  Qed.
  Lemma after_good log : orderly fc log -> exists m, after fc log = Ok m /\ good_maps log m.
  Proof.
    induction log as [|[i|o i] log IH]; intros H.
    - exists no_maps. split; [reflexivity|]. unfold good_maps, exact, kept, no_maps. cbn.
      repeat apply conj; try (intros k q; split; [discriminate|tauto]); try tauto; try constructor.
      + intros [].
      + intros (q & [] & _).
    - pose proof (apart_alone _ (orderly_apart _ H)) as (A1 & A2 & A3 & A4 & A5 & A6).
      destruct H as (H & _ & Fi). destruct (IH H) as (m & E & G1 & G2 & G3 & G4 & G5 & G6 & G7).
      cbn [after]. rewrite E. cbn [obind]. unfold added. rewrite update_eq.
      destruct (radios_add (radio_list i) (radios m) (radio_list_fine i Fi) G6) as (rt & R1 & R2 & R3). rewrite R1. eexists. split; [reflexivity|].
      unfold good_maps. cbn [names subtrees customs foots tagdefs radios].
      split; [now apply (exact_added (fun q => names_of (fc q)))|]. split; [now apply exact_added|]. split; [now apply exact_added|].
      split; [now apply exact_added|]. split; [now apply kept_added|]. split; [exact R2|]. intros w t. rewrite R3, G7, radio_list_of. cbn [current].
      split; [intros [(q & Q1 & Q2)|Q]; eauto|]. intros (q & [->|Q1] & Q2); eauto.
    - pose proof (apart_alone _ (orderly_apart _ H)) as (A1 & A2 & A3 & A4 & A5 & A6).
      destruct H as (H & _ & Fi & Co). destruct (IH H) as (m & E & G1 & G2 & G3 & G4 & G5 & G6 & G7).
      pose proof (apart_alone _ (orderly_apart _ H)) as (B1 & B2 & B3 & B4 & B5 & B6).
      pose proof (orderly_fine _ H o Co) as Fo.
      cbn [after]. rewrite E. cbn [obind]. unfold replaced. rewrite update_eq.
      destruct (radios_remove (radio_list o) (radios m) (radio_list_fine o Fo) G6) as (rt & R1 & R2 & R3).
      { rewrite radio_list_of. apply Fo. } { intros w t. rewrite radio_list_of, G7. eauto. }
      rewrite R1. cbn [omap obind]. rewrite update_eq. cbn [names subtrees customs foots tagdefs radios].
      destruct (radios_add (radio_list i) rt (radio_list_fine i Fi) R2) as (rt' & S1 & S2 & S3). rewrite S1. eexists. split; [reflexivity|].
      unfold good_maps. cbn [names subtrees customs foots tagdefs radios].
      split; [now apply (exact_replaced (fun q => names_of (fc q)))|]. split; [now apply exact_replaced|]. split; [now apply exact_replaced|].
      split; [now apply exact_replaced|]. split; [now apply kept_replaced|]. split; [exact S2|].
      intros w t. rewrite S3, R3, G7, !radio_list_of. cbn [current]. split.
      + intros [[(q & Q1 & Q2) Q3]|Q]; [|eauto]. exists q. split; [|exact Q2]. right. split; [|exact Q1]. intros ->. contradiction.
      + intros (q & [->|[Q0 Q1]] & Q2); [now right|]. left. split; [eauto|]. intros Q3. apply Q0. now apply (B6 q o (w, t)).
  Qed.
End All.
