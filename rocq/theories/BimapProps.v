(** C24, C25: two-way maps and the source registry. *)
From Verif Require Import Base DodModel BimapModel BimapSpec BimapProofs.
Local Open Scope nat_scope.

(** ** C24. [ops] is a history, newest operation first. *)

Theorem C24_one_to_one_mirror : forall (L R : Type) (eql : L -> L -> bool) (eqr : R -> R -> bool),
  (forall a b, eql a b = true <-> a = b) -> (forall a b, eqr a b = true <-> a = b) ->
  forall ops l r,
    (get_right eql (run11 eql eqr (rev ops)) l = Some r <-> linked ops l r) /\
    (get_left eqr (run11 eql eqr (rev ops)) r = Some l <-> linked ops l r).
Proof. intros L R eql eqr Hl Hr ops l r. exact (run11_lookups eql eqr Hl Hr ops l r). Qed.
Print Assumptions C24_one_to_one_mirror.

Theorem C24_one_to_one_inverse : forall (L R : Type) (eql : L -> L -> bool) (eqr : R -> R -> bool),
  (forall a b, eql a b = true <-> a = b) -> (forall a b, eqr a b = true <-> a = b) ->
  forall ops l r, let m := run11 eql eqr ops in
    (get_right eql m l = Some r <-> get_left eqr m r = Some l).
Proof.
  intros L R eql eqr Hl Hr ops l r m. unfold m. rewrite <- (rev_involutive ops).
  destruct (run11_lookups eql eqr Hl Hr (rev ops) l r). tauto.
Qed.
Print Assumptions C24_one_to_one_inverse.

(** An addition is refused exactly when one of the keys is present; it then leaves the map as it was. *)
Theorem C24_add_refused : forall (L R : Type) (eql : L -> L -> bool) (eqr : R -> R -> bool),
  (forall a b, eql a b = true <-> a = b) -> (forall a b, eqr a b = true <-> a = b) ->
  forall ops l r, let m := run11 eql eqr (rev ops) in
    (add_unique_11 eql eqr m l r = None <-> (exists r', linked ops l r') \/ (exists l', linked ops l' r)) /\
    (add_unique_11 eql eqr m l r = None -> step11 eql eqr m (Add11 l r) = m).
Proof.
  intros L R eql eqr Hl Hr ops l r m. split.
  - unfold m. rewrite (add_refused_iff eql eqr Hl Hr).
    destruct (run11_spec eql eqr Hl Hr ops) as (_ & _ & C).
    split; (intros [(x & H)|(x & H)]; [left|right]; exists x; apply C; exact H).
  - intros E. cbn. now rewrite E.
Qed.
Print Assumptions C24_add_refused.
Example C24_example :
  let m := run11 Nat.eqb Nat.eqb [Add11 1 10; Add11 2 20; Add11 1 30; EraseR11 20; Add11 3 10; Add11 4 20] in
  get_right Nat.eqb m 1 = Some 10 /\ get_left Nat.eqb m 20 = Some 4 /\ get_right Nat.eqb m 2 = None
  /\ add_unique_11 Nat.eqb Nat.eqb m 5 10 = None.
Proof. vm_compute. auto. Qed.

Theorem C24_many_to_one : forall (L R : Type) (eql : L -> L -> bool) (eqr : R -> R -> bool),
  (forall a b, eql a b = true <-> a = b) -> (forall a b, eqr a b = true <-> a = b) ->
  forall ops, let m := runn1 eql eqr (rev ops) in
    (forall l, get_right eql m l = partner eql eqr ops l) /\
    (forall r l, In l (get_left_n eqr m r) <-> partner eql eqr ops l = Some r) /\
    (forall r, NoDup (get_left_n eqr m r)).
Proof. intros L R eql eqr Hl Hr ops. exact (runn1_lookups eql eqr Hl Hr ops). Qed.
Print Assumptions C24_many_to_one.
Theorem C24_many_to_one_erase : forall (L R : Type) (eql : L -> L -> bool) (eqr : R -> R -> bool),
  (forall a b, eql a b = true <-> a = b) -> (forall a b, eqr a b = true <-> a = b) ->
  forall ops l, erase_left eql (runn1 eql eqr (rev ops)) l = erase_first eql (runn1 eql eqr (rev ops)) l.
Proof. intros L R eql eqr Hl Hr ops l. exact (runn1_erase eql eqr Hl Hr ops l). Qed.
Print Assumptions C24_many_to_one_erase.
(** What the calls report on the many-to-one map: an addition throws exactly when the left key is already
    in use (and then changes nothing), a reassignment reports whether the key was in use. *)
Theorem C24_many_to_one_reports : forall (L R : Type) (eql : L -> L -> bool) (eqr : R -> R -> bool),
  (forall a b, eql a b = true <-> a = b) -> (forall a b, eqr a b = true <-> a = b) ->
  forall ops l r, let m := runn1 eql eqr (rev ops) in
    (add_unique_n1 eql m l r = None <-> partner eql eqr ops l <> None) /\
    (snd (reassign eql m l r) = true <-> partner eql eqr ops l <> None) /\
    (at_left_n eqr m r = None <-> forall l', partner eql eqr ops l' <> Some r).
Proof.
  intros L R eql eqr Hl Hr ops l r m.
  destruct (runn1_lookups eql eqr Hl Hr ops) as (A & B & _). fold m in A, B.
  assert (C : contains_left eql m l = true <-> partner eql eqr ops l <> None).
  { rewrite <- A. unfold contains_left, get_right. destruct (find_left eql m l); cbn; split; congruence. }
  split; [|split].
  - unfold add_unique_n1. rewrite <- C. destruct (contains_left eql m l); split; congruence.
  - unfold reassign. rewrite <- C. destruct (contains_left eql m l); cbn; split; congruence.
  - unfold at_left_n. destruct (contains_right eqr m r) eqn:E.
    + split; [discriminate|]. intros H. exfalso. unfold contains_right in E.
      destruct (find_right eqr m r) as [p|] eqn:F; [|discriminate]. apply (H (fst p)). apply B.
      clear -F Hr. induction m as [|q m' IH]; [discriminate|]. cbn in F |- *. unfold get_left_n. cbn [filter].
      destruct (eqr (snd q) r); [left; congruence|]. apply IH. exact F.
    + split; [|reflexivity]. intros _ l' H. apply B in H. unfold contains_right in E.
      destruct (find_right eqr m r) eqn:F; [discriminate|]. clear -F H.
      induction m as [|q m' IH]; [destruct H|]. cbn in F. unfold get_left_n in H. cbn [filter] in H.
      destruct (eqr (snd q) r); [discriminate|]. auto.
Qed.
Print Assumptions C24_many_to_one_reports.
Example C24_many_example :
  let m := runn1 Nat.eqb Nat.eqb [AddN1 1 7; AddN1 2 7; AddN1 1 8; ReassignN1 2 9; AddN1 3 7] in
  get_left_n Nat.eqb m 7 = [1; 3] /\ get_right Nat.eqb m 2 = Some 9 /\ erase_right Nat.eqb m 7 = [(2, 9)]
  /\ add_unique_n1 Nat.eqb m 2 1 = None /\ at_left_n Nat.eqb m 8 = None.
Proof. vm_compute. repeat split. Qed.

(** ** C25 *)

Theorem C25_registry_total : forall (P T : Type) (eqp : P -> P -> bool) (eqt : T -> T -> bool),
  (forall a b, eqp a b = true <-> a = b) -> (forall a b, eqt a b = true <-> a = b) ->
  forall ops, (Z.of_nat (length ops) < 2 ^ 31)%Z ->
    ((forall p t t', In (p, t) ops -> In (p, t') ops -> t = t') <->
     exists s ids, sm_run eqp eqt ops = Some (s, ids)).
Proof. intros P T eqp eqt Hp Ht ops Hl. exact (sm_run_total eqp eqt Hp Ht ops Hl). Qed.
Print Assumptions C25_registry_total.

Theorem C25_registry_inverse : forall (P T : Type) (eqp : P -> P -> bool) (eqt : T -> T -> bool),
  (forall a b, eqp a b = true <-> a = b) -> (forall a b, eqt a b = true <-> a = b) ->
  forall ops s ids, (Z.of_nat (length ops) < 2 ^ 31)%Z -> sm_run eqp eqt ops = Some (s, ids) ->
    length ids = length ops /\
    (forall i p t id, nth_error ops i = Some (p, t) -> nth_error ids i = Some id ->
       sm_get_id eqp s p = Some id /\ sm_get_path s id = Some p /\ sm_get_content s id = Some t /\
       sm_get_content_for_path eqp s p = Some t) /\
    (forall p id, sm_get_id eqp s p = Some id <-> sm_get_path s id = Some p) /\
    (forall p, (exists id, sm_get_id eqp s p = Some id) <-> In p (map fst ops)).
Proof. intros P T eqp eqt Hp Ht ops s ids Hl H. exact (sm_history eqp eqt Hp Ht ops s ids Hl H). Qed.
Print Assumptions C25_registry_inverse.
Example C25_registry_example :
  option_map snd (sm_run Nat.eqb Nat.eqb [(5, 50); (6, 60); (5, 50); (7, 60)]) = Some [1; 2; 1; 3]%N
  /\ sm_run Nat.eqb Nat.eqb [(5, 50); (5, 51)] = None.
Proof. vm_compute. auto. Qed.
