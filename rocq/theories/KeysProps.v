(** C116: nodes are found by name, id, footnote and radio target. *)
From Coq Require Import List Bool Arith Lia.
From Verif Require Import Base PathsModel PathsSpec KeysModel KeysSpec KeysProofs.
Import ListNotations.
Local Open Scope nat_scope.

(** As long as no two nodes share a key, no update fails, and a key leads to a
    node exactly if this has the key, was added or put in place of another, and
    was not replaced since; the radio targets listed for a word are exactly
    those that start with it, each once.  A hash tag leads to the heading that
    defines it. *)
Theorem C116_lookup : forall fc log, orderly fc log -> exists m, after fc log = Ok m /\
  (forall k q, names m k = Some q <-> current log q /\ named fc q k) /\
  (forall k q, subtrees m k = Some q <-> current log q /\ has_id fc q k) /\
  (forall k q, customs m k = Some q <-> current log q /\ has_custom fc q k) /\
  (forall k q, foots m k = Some q <-> current log q /\ has_foot fc q k) /\
  (forall w, NoDup (radios m w)) /\
  (forall w t, In t (radios m w) <-> exists q, current log q /\ In (w, t) (radio_of fc q)) /\
  (forall k q, current log q -> defines fc q k -> tagdefs m k = Some q).
Proof.
  intros fc log O. destruct (after_good fc log O) as (m & E & G1 & G2 & G3 & G4 & G5 & G6 & G7). exists m. split; [exact E|].
  split; [exact G1|]. split; [intros k q; rewrite (G2 k q), id_keys_in; tauto|].
  split; [intros k q; rewrite (G3 k q), custom_keys_in; tauto|]. split; [intros k q; rewrite (G4 k q), foot_keys_in; tauto|].
  split; [exact G6|]. split; [exact G7|]. intros k q C D. apply G5; [exact C|]. now apply tag_keys_in.
Qed.
Print Assumptions C116_lookup.

(** Nodes 1 to 6: a heading with id 10, custom id 20, radio words and a hash
    tag; a named paragraph with two radio targets that start alike; a footnote;
    the heading and the paragraph after edits. *)
Definition ex_facts (q : nat) : facts :=
  match q with
  | 1 => mkF [] (Subtree (Some 10) [20] [[30; 31]; [32]] [40])
  | 2 => mkF [50; 51] (Paragraph None [(7, [30]); (8, [30; 33])])
  | 3 => mkF [] (Paragraph (Some 60) [])
  | 4 => mkF [] (Subtree (Some 11) [20] [[32]] [40; 41])
  | 5 => mkF [51; 52] (Paragraph None [(8, [30; 33])])
  | _ => mkF [] Other
  end.
Definition ex_log : list event := [Replaced 2 5; Replaced 1 4; Added 6; Added 3; Added 2; Added 1].
Definition prod_eq_dec (a b : nat * nat) : {a = b} + {a <> b}.
Proof. decide equality; apply Nat.eq_dec. Defined.
Example C116_demo : orderly ex_facts ex_log /\
  omap (fun m => (map (names m) [50; 51; 52], map (subtrees m) [10; 11], customs m 20, foots m 60, map (radios m) [30; 32; 33],
                  map (tagdefs m) [40; 41])) (after ex_facts ex_log) =
  Ok ([None; Some 5; Some 5], [None; Some 4], Some 4, Some 3, [[8]; [4]; []], [Some 4; Some 4]).
Proof.
  split; [|vm_compute; reflexivity].
  assert (F : forall q, In q [1; 2; 3; 4; 5; 6] -> radio_fine ex_facts q).
  { intros q H. assert (N : radio_of ex_facts q = nodup (fun a b => prod_eq_dec a b) (radio_of ex_facts q)).
    { repeat destruct H as [<-|H]; try destruct H; reflexivity. }
    split; [rewrite N; apply NoDup_nodup|]. repeat destruct H as [<-|H]; try destruct H; cbn; intuition congruence. }
  assert (A : forall log, (forall q, current log q -> In q [1; 2; 3; 4; 5; 6]) ->
    (current log 1 -> current log 4 -> False) -> (current log 2 -> current log 5 -> False) -> apart ex_facts log).
  { intros log H N M q q' C C' K. pose proof (H q C) as Hq. pose proof (H q' C') as Hq'.
    repeat destruct Hq as [<-|Hq]; try destruct Hq; (repeat destruct Hq' as [<-|Hq']; try destruct Hq'; try reflexivity; try (exfalso; first [apply N; assumption|apply M; assumption]));
      exfalso; unfold named, has_id, has_custom, has_foot, defines, radio_of, first_of in K; cbn in K;
      repeat match goal with
        | H : _ \/ _ |- _ => destruct H
        | H : _ /\ _ |- _ => destruct H
        | H : exists _, _ |- _ => destruct H
        | H : False |- _ => destruct H
        end; congruence. }
  cbn [orderly ex_log]. repeat apply conj; try exact I; try (apply F; cbn; tauto); try (apply A; cbn [current In]; lia); cbn [current]; lia.
Qed.

(** Findings.  Two nodes swap their names in one edit: no two nodes of the new
    version share a name, but one of the names leads nowhere. *)
Theorem C116_swap_refuted :
  let fc q := match q with 1 | 4 => mkF [50] Other | 2 | 3 => mkF [51] Other | _ => mkF [] Other end in
  let log := [Replaced 2 4; Replaced 1 3; Added 2; Added 1] in
  apart fc log /\ current log 3 /\ named fc 3 51 /\
  omap (fun m => (names m 50, names m 51)) (after fc log) = Ok (Some 4, None).
Proof.
  cbv zeta. split.
  - intros q q' C C' K. cbn in C, C'.
    assert (In q [3; 4]) as Hq by (cbn; intuition congruence). assert (In q' [3; 4]) as Hq' by (cbn; intuition congruence). clear C C'.
    repeat destruct Hq as [<-|Hq]; try destruct Hq; (repeat destruct Hq' as [<-|Hq']; try destruct Hq'; try reflexivity);
      exfalso; unfold named, has_id, has_custom, has_foot, defines, radio_of, first_of in K; cbn in K;
      repeat match goal with
        | H : _ \/ _ |- _ => destruct H
        | H : _ /\ _ |- _ => destruct H
        | H : exists _, _ |- _ => destruct H
        | H : False |- _ => destruct H
        end; congruence.
  - split; [cbn; intuition lia|]. split; [cbn; auto|]. vm_compute. reflexivity.
Qed.
Print Assumptions C116_swap_refuted.
(** A paragraph with the same radio target twice (equal nodes are one), or a
    heading with two radio ids that start alike, cannot be edited at all; nor
    can the second of two paragraphs with the same target once the first has
    lost it. *)
Theorem C116_radio_refuted :
  (forall fc new, fc 1 = mkF [] (Paragraph None [(7, [30]); (7, [30])]) -> after fc [Replaced 1 new; Added 1] = Throw) /\
  (forall fc new, fc 1 = mkF [] (Subtree None [] [[30; 31]; [30; 32]] []) -> after fc [Replaced 1 new; Added 1] = Throw) /\
  (forall fc new, fc 1 = mkF [] (Paragraph None [(7, [30])]) -> fc 2 = mkF [50] (Paragraph None [(7, [30])]) ->
     fc 3 = mkF [] (Paragraph None []) -> after fc [Replaced 2 new; Replaced 1 3; Added 2; Added 1] = Throw).
Proof.
  split; [|split]; intros fc new.
  - intros E. cbn [after obind]. unfold added, replaced, update_tracking. rewrite E. reflexivity.
  - intros E. cbn [after obind]. unfold added, replaced, update_tracking. rewrite E. reflexivity.
  - intros E1 E2 E3. cbn [after obind]. unfold added, replaced, update_tracking. rewrite E1, E2. cbn. rewrite E3. reflexivity.
Qed.
Print Assumptions C116_radio_refuted.
(** A heading loses the definition of a hash tag: the tag still leads to the
    heading that was replaced. *)
Theorem C116_hashtag_refuted :
  let fc q := match q with 1 => mkF [] (Subtree None [] [] [40]) | _ => mkF [] (Subtree None [] [] []) end in
  let log := [Replaced 1 2; Added 1] in
  orderly fc log /\ ~ current log 1 /\ omap (fun m => tagdefs m 40) (after fc log) = Ok (Some 1).
Proof.
  cbv zeta.
  split; [|split; [cbn; intuition lia|vm_compute; reflexivity]].
  cbn [orderly]. repeat apply conj; auto; try (cbn; tauto); try constructor; try (cbn; tauto).
  - intros q q' C C' _. cbn in C, C'. intuition congruence.
  - intros q q' C C' _. cbn in C, C'. intuition congruence.
Qed.
Print Assumptions C116_hashtag_refuted.
