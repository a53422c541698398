(** Theorems about JSON text (C108), filtering (C109) and reading back (C110). *)
From Coq Require Import String.
From Verif Require Import Base StrModel AttrModel JsonModel JsonSpec JsonProofs.
From Verif Require AttrSpec AttrProofs.
Local Open Scope nat_scope.

(** ** C108 *)
(** Whatever sizes the values are taken to have, the text is JSON text for the value, when
    the value contains no null, its strings are UTF-8 and its field names need no escapes. *)
Theorem C108_compact : forall size o j, text_ok j -> plain_names j -> ~ inside JNull j -> (0 <= ostart o)%Z -> (0 <= oindent o)%Z ->
  exists t j', to_compact_json size o j = Ok t /\ reads t j' /\ same j j'.
Proof. intros. now apply compact_reads. Qed.
Print Assumptions C108_compact.
(** The fields of an object that takes several lines are written in the order of their names, if the option says so. *)
Theorem C108_sorted : forall size o l, text_ok (JObj l) -> plain_names (JObj l) -> ~ inside JNull (JObj l) -> (0 <= ostart o)%Z -> (0 <= oindent o)%Z ->
  ostable o = true -> (owidth o - ostart o <= size (JObj l))%Z ->
  exists t l', to_compact_json size o (JObj l) = Ok t /\ reads t (JObj l') /\ same (JObj l) (JObj l') /\ StronglySorted str_le (map fst l').
Proof.
  intros size o l A B C D E F G. destruct (compact_reads_sorted size o E (JObj l) (ostart o) D (conj A (conj B C))) as (t & j' & H1 & H2 & H3 & H4).
  assert (exists l', j' = JObj l') as (l' & ->) by (inversion H3; subst; eauto). exists t, l'. repeat split; eauto.
Qed.
Print Assumptions C108_sorted.
(** A value that is short enough for one line may contain null and any names. *)
Theorem C108_short : forall size o j, text_ok j -> (size j < owidth o - ostart o)%Z -> exists t, to_compact_json size o j = Ok t /\ reads t j.
Proof.
  intros size o j T S. destruct (dump_reads j T) as (t & E & R). exists t. split; [|auto]. apply Z.ltb_lt in S. unfold to_compact_json. destruct j; cbn [compact]; now rewrite S.
Qed.
Print Assumptions C108_short.
Definition narrow : options := {| owidth := 4; oindent := 2; ostart := 0; ostable := true |}.
Definition wide : options := {| owidth := 80; oindent := 2; ostart := 0; ostable := true |}.
Definition ten (j : json) : Z := 10.
Definition sample : json := JObj [(lit "b", JArr [JInt (-12); JBool true]); (lit "a", JStr (lit "x""y"))].
Example C108_narrow : to_compact_json ten narrow sample = Ok (lit "{
""a"": ""x\""y"",
""b"": [
  -12,
  true]}").
Proof. vm_compute. reflexivity. Qed.
Example C108_wide : to_compact_json ten wide sample = Ok (lit "{""b"":[-12,true],""a"":""x\""y""}").
Proof. vm_compute. reflexivity. Qed.
Lemma ascii s : Forall (fun c => (0 <= c <= 127)%Z) s -> utf8 s.
Proof.
  intros H. exists (map (fun c => [c]) s). split; [induction H; cbn; congruence|]. induction H; cbn; constructor; auto. now constructor.
Qed.
Lemma inside_sample x : inside x sample -> In x [sample; JArr [JInt (-12); JBool true]; JInt (-12); JBool true; JStr (lit "x""y")].
Proof.
  intros H. inversion H as [|x' y l I|k x' y l I N]; subst; [now left|]. destruct I as [I|[I|[]]]; injection I as <- <-; inversion N as [|x' y l I|k x' y l I]; subst.
  - right. now left.
  - destruct I as [<-|[<-|[]]]; inversion H0; subst; cbn; tauto.
  - cbn; tauto.
Qed.
Example C108_sample : text_ok sample /\ plain_names sample /\ ~ inside JNull sample.
Proof.
  split; [split; [|split]|split].
  - intros s H. apply inside_sample in H. repeat destruct H as [H|H]; try discriminate H; [|destruct H]. injection H as <-. apply ascii. repeat constructor; discriminate.
  - intros l k x H I. apply inside_sample in H. repeat destruct H as [H|H]; try discriminate H; [|destruct H]. injection H as <-.
    destruct I as [I|[I|[]]]; injection I as <- <-; apply ascii; repeat constructor; discriminate.
  - intros t H. apply inside_sample in H. repeat destruct H as [H|H]; try discriminate H; destruct H.
  - intros l k x H I. apply inside_sample in H. repeat destruct H as [H|H]; try discriminate H; [|destruct H]. injection H as <-.
    destruct I as [I|[I|[]]]; injection I as <- <-; repeat constructor; discriminate.
  - intros H. apply inside_sample in H. repeat destruct H as [H|H]; try discriminate H; destruct H.
Qed.
(** Null that does not fit on a line is written as nothing: the text means something else. *)
Theorem C108_null_refuted : exists t, to_compact_json ten narrow (JArr [JNull]) = Ok t /\ forall j', same (JArr [JNull]) j' -> ~ reads t j'.
Proof.
  eexists. split; [vm_compute; reflexivity|]. intros j' S R.
  assert (N : inside JNull j').
  { inversion S as [|l l' SI|]; subst.
    - econstructor; [now left|constructor].
    - inversion SI as [|a a' m m' SA SM]; subst. inversion SA; subst. econstructor; [now left|constructor]. }
  pose proof (reads_null _ _ R N) as I. cbn in I. repeat destruct I as [I|I]; discriminate || destruct I.
Qed.
Print Assumptions C108_null_refuted.
(** The name of a field is not escaped when the object does not fit on a line. *)
Theorem C108_name_refuted : exists t, to_compact_json ten narrow (JObj [(lit "a""b", JInt 1)]) = Ok t /\ forall j', same (JObj [(lit "a""b", JInt 1)]) j' -> ~ reads t j'.
Proof.
  eexists. split; [vm_compute; reflexivity|]. intros j' S R.
  assert (N : exists l x, j' = JObj l /\ In (lit "a""b", x) l).
  { inversion S as [| |l p l' P SF]; subst; [eexists; eexists; split; [reflexivity|now left]|]. apply Permutation_length_1_inv in P. subst p.
    inversion SF; subst. eexists; eexists; split; [reflexivity|now left]. }
  destruct N as (l & x & -> & I). assert (Q : In 92%Z (lit "{
""a""b"": 1}")).
  { eapply reads_quote; [exact R|constructor|exact I|]. vm_compute. tauto. }
  vm_compute in Q. repeat destruct Q as [Q|Q]; discriminate || destruct Q.
Qed.
Print Assumptions C108_name_refuted.
(** A string that is not UTF-8 ends the program when it fits on a line, and loses bytes when it does not. *)
Theorem C108_bytes_refuted : to_compact_json ten wide (JStr [97; 255; 98]%Z) = Throw /\
  to_compact_json ten narrow (JStr [97; 255; 98]%Z) = Ok (lit """ab""").
Proof. split; vm_compute; reflexivity. Qed.
Print Assumptions C108_bytes_refuted.

(** ** C109 *)
(** What is in the filtered value: exactly the places of the value whose path uses none of the names. *)
Theorem C109_places : forall names j p, (exists y, stands (filter_fields names j) p y) <->
  (forall k, In (Name k) p -> ~ In k names) /\ exists x, stands j p x.
Proof.
  intros names j p. split.
  - intros (y & H). apply filter_sound in H. destruct H as (A & x & S & _). eauto.
  - intros (A & x & S). exists (filter_fields names x). exact (filter_complete names j p x S A).
Qed.
Print Assumptions C109_places.
(** At such a place the same number, text, truth value or null stands, an array of the same length, or an object. *)
Theorem C109_values : forall names j p x, stands j p x -> (forall k, In (Name k) p -> ~ In k names) ->
  exists y, stands (filter_fields names j) p y /\ shape y = shape x.
Proof. intros names j p x S A. exists (filter_fields names x). split; [now apply filter_complete|apply filter_shape]. Qed.
Print Assumptions C109_values.
Example C109_example : filter_fields [lit "loc"] (JObj [(lit "a", JArr [JObj [(lit "loc", JInt 1)]; JInt 2]); (lit "loc", JNull)]) =
  JObj [(lit "a", JArr [JObj []; JInt 2])] /\ stands (JObj [(lit "a", JArr [JObj [(lit "loc", JInt 1)]; JInt 2]); (lit "loc", JNull)]) [Name (lit "a"); Index 1] (JInt 2).
Proof.
  split; [vm_compute; reflexivity|]. econstructor; [now left|]. apply (st_arr [JObj [(lit "loc", JInt 1)]] (JInt 2) []). constructor.
Qed.

(** ** C110 *)
Theorem C110_round_trip : forall t v, restorable t -> typed t v -> from_json t (to_json t v) = Ok v.
Proof. exact round_trip. Qed.
Print Assumptions C110_round_trip.
(** Fields that the record does not have are ignored, and fields that are not there keep their first values. *)
Theorem C110_unknown : forall skip fs l1 k x l2, ~ In k (map fst fs) ->
  from_json (TRec skip fs) (JObj (l1 ++ (k, x) :: l2)) = from_json (TRec skip fs) (JObj (l1 ++ l2)).
Proof. exact unknown_field. Qed.
Print Assumptions C110_unknown.
Theorem C110_missing : forall skip fs, from_json (TRec skip fs) (JObj []) = Ok (VRec (map (fun f => fst (snd f)) fs)).
Proof.
  intros skip fs. rewrite from_json_rec. assert (E : read_fields (JObj []) fs = Ok (map (fun f => fst (snd f)) fs)); [|now rewrite E].
  induction fs as [|[n [d t]] fs IH]; [reflexivity|]. cbn. now rewrite IH.
Qed.
Print Assumptions C110_missing.
Definition person : ty := TRec true [(lit "name", (VStr [], TStr)); (lit "age", (VNone, TOpt (TInt 0 255)));
  (lit "tags", (VMap [], TStrMap (TVec (TPair "last" (TInt (-128) 127) TBool))))].
Definition someone : val := VRec [VStr (lit "A"); VSome (VInt 200);
  VMap [(VStr (lit "x"), VList [VPair (VInt (-3)) (VBool true)]); (VStr (lit "y"), VList [])]].
Example C110_example : restorable person /\ typed person someone /\
  to_json person someone = JObj [(lit "age", JInt 200); (lit "name", JStr (lit "A"));
    (lit "tags", JObj [(lit "x", JArr [JObj [(lit "first", JInt (-3)); (lit "last", JBool true)]]); (lit "y", JArr [])])].
Proof.
  split; [|split; [|vm_compute; reflexivity]].
  - apply rs_rec.
    + repeat constructor; cbn; intuition discriminate.
    + intros n d t [H|[H|[H|[]]]]; injection H as <- <- <-; repeat first [apply rs_key; constructor; lia|apply rs_key; constructor|apply rs_opt|apply rs_str_map|apply rs_vec|apply rs_pair]; try discriminate. now intros [].
    + intros _ n d t [H|[H|[H|[]]]]; try discriminate H. now injection H as <- <- <-.
  - constructor. constructor; [constructor|]. constructor; [constructor; constructor; lia|]. constructor; [|constructor].
    apply (ty_str_map _ [(lit "x", VList [VPair (VInt (-3)) (VBool true)]); (lit "y", VList [])]).
    + intros x y [H|[H|[]]]; injection H as <- <-; constructor; intros v V; [|destruct V]. destruct V as [<-|[]]. repeat constructor; lia.
    + repeat constructor.
Qed.
(** A variant is never read: the function that reads it returns nothing. *)
Theorem C110_variant_refuted : forall ts i v, from_json (TVar ts) (to_json (TVar ts) (VAlt i v)) = UB.
Proof. reflexivity. Qed.
Print Assumptions C110_variant_refuted.
(** An optional that holds an empty optional is read as an empty one. *)
Theorem C110_nested_refuted : exists v, typed (TOpt (TOpt TBool)) v /\ from_json (TOpt (TOpt TBool)) (to_json (TOpt (TOpt TBool)) v) = Ok VNone /\ v <> VNone.
Proof. exists (VSome VNone). split; [repeat constructor|]. split; [reflexivity|discriminate]. Qed.
Print Assumptions C110_nested_refuted.
(** A C string is read as a null pointer. *)
Theorem C110_pointer_refuted : forall s, from_json TCStr (to_json TCStr (VStr s)) = Ok VNone.
Proof. reflexivity. Qed.
Print Assumptions C110_pointer_refuted.
(** An optional that is not empty in a new record cannot be read back as empty when records leave out empty optionals. *)
Theorem C110_default_refuted : exists fs v, typed (TRec true fs) v /\ NoDup (map fst fs) /\ from_json (TRec true fs) (to_json (TRec true fs) v) <> Ok v.
Proof.
  exists [(lit "n", (VSome (VInt 1), TOpt (TInt 0 9)))], (VRec [VNone]). split; [repeat constructor|]. split; [repeat constructor; intros []|]. vm_compute. discriminate.
Qed.
Print Assumptions C110_default_refuted.
(** A field of a record that hides one of its base: both get the value that is written last. *)
Theorem C110_hidden_refuted : exists fs v, typed (TRec false fs) v /\ exists w, from_json (TRec false fs) (to_json (TRec false fs) v) = Ok w /\ w <> v.
Proof.
  exists [(lit "n", (VInt 0, TInt 0 9)); (lit "n", (VInt 0, TInt 0 9))], (VRec [VInt 1; VInt 2]). split; [repeat constructor; lia|].
  eexists. split; [vm_compute; reflexivity|discriminate].
Qed.
Print Assumptions C110_hidden_refuted.
