(** C119: times are read and written as they are meant. *)
From Coq Require Import String.
From Verif Require Import Base StrModel NodeKind TimeModel TimeSpec.
From Verif Require AttrModel TokModel RegroupModel TreeModel ParseModel TimeProofs.
Local Open Scope Z_scope.

(** Unix timestamps and differences of times count the seconds of the calendar; what does not fit into 32 bits is refused. *)
Theorem C119_instant : forall t, is_time (civ t) ->
  (exists n, since (civ t) n)
  /\ forall n, since (civ t) n ->
       (-2147483648 <= n - offset t <= 2147483647 -> to_unix t = Ok (n - offset t))
       /\ (-9223372036 <= n - offset t <= 9223372036 -> ~ -2147483648 <= n - offset t <= 2147483647 -> to_unix t = Throw)
       /\ (forall u k, since (civ u) k -> delta_seconds t u = (n - offset t) - (k - offset u))
       /\ (forall a u b k, at_time a = t -> at_time b = u -> since (civ u) k -> clocked_seconds b a = (n - offset t) - (k - offset u)).
Proof.
  intros t T. split; [eexists; apply TimeProofs.reached; exact T|]. intros n N. apply TimeProofs.since_seconds in N.
  assert (I : forall u k, since (civ u) k -> instant u = k - offset u).
  { intros u k K. apply TimeProofs.since_seconds in K. unfold instant, offset. now rewrite K. }
  assert (E : instant t = n - offset t) by (unfold instant, offset; now rewrite N).
  split; [|split; [|split]].
  - intros B. unfold to_unix. rewrite E. destruct (TimeProofs.clock_inside (n - offset t)) as [-> _]; [lia|]. cbn [negb].
    destruct (Z.ltb_spec (n - offset t) (-2147483648)); [lia|]. destruct (Z.ltb_spec 2147483647 (n - offset t)); [lia|]. reflexivity.
  - intros B C. unfold to_unix. rewrite E. destruct (TimeProofs.clock_inside (n - offset t) B) as [-> _]. cbn [negb].
    destruct (Z.ltb_spec (n - offset t) (-2147483648)); [reflexivity|]. destruct (Z.ltb_spec 2147483647 (n - offset t)); [reflexivity|]. lia.
  - intros u k K. unfold delta_seconds. now rewrite E, (I u k K).
  - intros a u b k <- <- K. unfold clocked_seconds, delta_seconds. now rewrite E, (I _ k K).
Qed.
Print Assumptions C119_instant.
Example instant_example : to_unix (Utime (Civil 2024 2 29 12 30 0) (Some 3600) AMinute) = Ok 1709206200
  /\ to_unix (Utime (Civil 2050 1 1 0 0 0) None ADay) = Throw
  /\ delta_seconds (Utime (Civil 2024 3 1 0 0 0) None ADay) (Utime (Civil 2024 2 28 0 0 0) None ADay) = 172800.
Proof. vm_compute. auto. Qed.
Example calendar_example : tick (Civil 2024 2 29 23 59 59) (Civil 2024 3 1 0 0 0) /\ is_time (Civil 2024 2 29 12 30 0).
Proof.
  assert (L : leap_year 2024). { split; [now exists 506|left]. intros [k K]. lia. }
  split; [apply (tick_month 2024 2 29); [now constructor|lia]|].
  unfold is_time. cbn. split; [exists 29; split; [now constructor|lia]|lia].
Qed.

(** The text of a date, with or without a clock, is read as the time it spells; a text that is no time is refused, and second
    60 is the next minute. *)
Theorem C119_read : forall ys ms ds y m d k h i s a z,
  length ys = 4%nat -> number ys y -> length ms = 2%nat -> number ms m -> length ds = 2%nat -> number ds d -> clock_text k h i s a ->
  let text := ys ++ 45 :: ms ++ 45 :: ds ++ match k with Some x => 32 :: x | None => [] end in
  let fits c := forall n, since c n -> -9223372036 <= n - match z with Some o => o | None => 0 end <= 9223372036 in
  (is_time (Civil y m d h i s) -> fits (Civil y m d h i s) -> parse_user_time text z = Ok (Some (Utime (Civil y m d h i s) z a)))
  /\ (forall c, s = 60 -> tick (Civil y m d h i 59) c -> fits c -> parse_user_time text z = Ok (Some (Utime c z a)))
  /\ (~ is_time (Civil y m d h i s) -> s <> 60 -> parse_user_time text z = Ok None).
Proof.
  intros ys ms ds y m d k h i s a z Ly Ny Lm Nm Ld Nd K text fits. split; [|split].
  - intros T F. eapply TimeProofs.read_time; eauto. apply F. apply TimeProofs.reached. exact T.
  - intros c S T F. eapply TimeProofs.read_leap; eauto. apply F. apply TimeProofs.reached. eapply TimeProofs.tick_time; eauto.
  - intros B S. eapply TimeProofs.read_bad; eauto.
Qed.
Print Assumptions C119_read.
Example read_example : parse_user_time (AttrModel.lit "2024-02-29 9:05") (Some 7200) = Ok (Some (Utime (Civil 2024 2 29 9 5 0) (Some 7200) AMinute))
  /\ parse_user_time (AttrModel.lit "2023-02-29") None = Ok None
  /\ parse_user_time (AttrModel.lit "2016-12-31 23:59:60") None = Ok (Some (Utime (Civil 2017 1 1 0 0 0) None ASecond)).
Proof. vm_compute. auto. Qed.

(** What is written for a time is a date, a clock, a zone, repeaters and a warning in the syntax of the reader, and they are read
    as the same time. *)
Theorem C119_write : forall s, writable s ->
  exists f, orderly f /\ stamp_text s = Ok (spelling f) /\ read_stamp f = Ok (Some (kept s)).
Proof.
  intros s W. exists (TimeProofs.fields_of s). split; [now apply TimeProofs.fields_orderly|]. split; [now apply TimeProofs.stamp_written|now apply TimeProofs.stamp_back].
Qed.
Print Assumptions C119_write.
(** And no other fields are spelled like this *)
Theorem C119_spelling : forall f g, orderly f -> orderly g -> spelling f = spelling g -> f = g.
Proof. exact TimeProofs.spelling_injective. Qed.
Print Assumptions C119_spelling.
Definition sample : stamp :=
  Stamp true (Utime (Civil 2024 2 29 12 30 0) (Some 10800) AMinute)
    [Repeat (Some MFirstMatch) 1 PWeek; Repeat (Some MSameDay) 12 PMonth] (Some (Repeat None (-3) PDay)).
Example write_example : stamp_text sample = Ok (AttrModel.lit "<2024-02-29 12:30 +03++1w.+12m-3d>").
Proof. reflexivity. Qed.
Example sample_writable : writable sample.
Proof.
  unfold writable, holds. cbn [sample at_time civ year rounded al zone repeats warn whole_hours]. split; [split; [apply calendar_example|]|split].
  - split; [lia|]. split; [reflexivity|]. split; [exists 3; lia|]. intros n N. apply TimeProofs.since_seconds in N. subst n. vm_compute. split; discriminate.
  - repeat constructor; cbn; try lia; unfold small; try lia; eexists; (split; [reflexivity|discriminate]).
  - intros w [= <-]. cbn. unfold small. lia.
Qed.

(** The fields of a time up to its alignment say which time it is *)
Definition whole (t : utime) : Prop :=
  match al t with
  | AYear => month (civ t) = 1 /\ day (civ t) = 1 /\ hour (civ t) = 0 /\ minute (civ t) = 0 /\ second (civ t) = 0
  | AMonth => day (civ t) = 1 /\ hour (civ t) = 0 /\ minute (civ t) = 0 /\ second (civ t) = 0
  | ADay => hour (civ t) = 0 /\ minute (civ t) = 0 /\ second (civ t) = 0
  | AHour => minute (civ t) = 0 /\ second (civ t) = 0
  | AMinute => second (civ t) = 0
  | ASecond => True
  end.
Theorem C119_fields : forall t u, whole t -> whole u -> get_breakdown t = get_breakdown u -> t = u.
Proof.
  intros [[y m d h i s] z a] [[y' m' d' h' i' s'] z' a'] W W' E.
  destruct a, a'; unfold get_breakdown in E; cbn in E; try discriminate E; unfold whole in W, W'; cbn in W, W'; injection E as; f_equal; [f_equal; lia|assumption|f_equal; lia|assumption|f_equal; lia|assumption|f_equal; lia|assumption|f_equal; lia|assumption|f_equal; lia|assumption].
Qed.
Print Assumptions C119_fields.
Example fields_example : whole (Utime (Civil 2024 2 29 12 30 0) None AMinute)
  /\ b_minute (get_breakdown (Utime (Civil 2024 2 29 12 30 0) None AMinute)) = Some 30
  /\ b_second (get_breakdown (Utime (Civil 2024 2 29 12 30 0) None AMinute)) = None.
Proof. vm_compute. auto. Qed.

(** Comparing these fields does not look at minutes *)
Theorem C119_minute_refuted : exists t u, whole t /\ whole u /\ t <> u /\ breakdown_eqb (get_breakdown t) (get_breakdown u) = true.
Proof. exists (Utime (Civil 2024 2 29 12 30 0) None AMinute), (Utime (Civil 2024 2 29 12 45 0) None AMinute). split; [reflexivity|]. split; [reflexivity|]. split; [discriminate|vm_compute; reflexivity]. Qed.
Print Assumptions C119_minute_refuted.

(** A zone with minutes is written as its number of minutes, and read as another zone *)
Theorem C119_zone_refuted : exists f s g, read_stamp f = Ok (Some s) /\ spelling f = AttrModel.lit "[2024-02-29 12:30 +0530]"
  /\ stamp_text s = Ok (AttrModel.lit "[2024-02-29 12:30 +0330]") /\ stamp_text s = Ok (spelling g)
  /\ exists s', read_stamp g = Ok (Some s') /\ zone (at_time s) = Some 19800 /\ zone (at_time s') = Some 12600.
Proof.
  exists (Fields false (Some (AttrModel.lit "2024-02-29")) (Some (AttrModel.lit "12:30")) (Some (AttrModel.lit "0530")) [] None).
  exists (Stamp false (Utime (Civil 2024 2 29 12 30 0) (Some 19800) AMinute) [] None).
  exists (Fields false (Some (AttrModel.lit "2024-02-29")) (Some (AttrModel.lit "12:30")) (Some (AttrModel.lit "0330")) [] None).
  split; [reflexivity|]. split; [reflexivity|]. split; [reflexivity|]. split; [reflexivity|]. eexists. split; [reflexivity|]. split; reflexivity.
Qed.
Print Assumptions C119_zone_refuted.

(** A zone west of Greenwich is written with a minus, which the parser does not take for a zone *)
Definition parsed_kinds (s : str) : outcome (list nk) :=
  obind (obind (TokModel.tokenize s 100) RegroupModel.convert_tokens) (fun ts => obind (ParseModel.parse_full ts 100) (fun ns => Ok (map TreeModel.kind ns))).
Theorem C119_negative_refuted : exists s text ks, is_time (civ (at_time s)) /\ rounded (at_time s) /\ zone (at_time s) = Some (-10800)
  /\ stamp_text s = Ok text /\ parsed_kinds text = Ok ks /\ In nErrorInfoToken ks.
Proof.
  exists (Stamp false (Utime (Civil 2024 2 29 12 30 0) (Some (-10800)) AMinute) [] None), (AttrModel.lit "[2024-02-29 12:30 -03]").
  eexists. split; [apply calendar_example|]. split; [reflexivity|]. split; [reflexivity|]. split; [reflexivity|]. split; [vm_compute; reflexivity|]. cbn. tauto.
Qed.
Print Assumptions C119_negative_refuted.
Example positive_zone : exists ks, parsed_kinds (AttrModel.lit "[2024-02-29 12:30 +03]") = Ok ks /\ In nStaticInactiveTime ks /\ ~ In nErrorInfoToken ks.
Proof. eexists. split; [vm_compute; reflexivity|]. cbn. split; [tauto|]. intros H. repeat (destruct H as [H|H]; [discriminate H|]). exact H. Qed.

(** A zone of one digit is read as no difference at all *)
Theorem C119_digit_refuted : exists f s, read_stamp f = Ok (Some s) /\ spelling f = AttrModel.lit "[2024-02-29 +3]" /\ zone (at_time s) = Some 0.
Proof.
  exists (Fields false (Some (AttrModel.lit "2024-02-29")) None (Some (AttrModel.lit "3")) [] None). eexists. split; [vm_compute; reflexivity|]. split; reflexivity.
Qed.
Print Assumptions C119_digit_refuted.

(** Times aligned to hours, months or years are written, but not read *)
Theorem C119_hours_refuted : exists t, is_time (civ t) /\ whole t /\ parse_user_time (format_org t) None = Ok None.
Proof. exists (Utime (Civil 1970 1 1 12 0 0) None AHour). split; [|split; [cbn; auto|vm_compute; reflexivity]]. unfold is_time. cbn. split; [exists 31; split; [constructor; cbn; tauto|lia]|lia]. Qed.
Print Assumptions C119_hours_refuted.

(** A date that is more than 292 years away from 1970 overflows the clock *)
Theorem C119_clock_refuted : exists f, orderly f /\ spelling f = AttrModel.lit "<2300-01-01>" /\ read_stamp f = UB.
Proof.
  exists (Fields true (Some (AttrModel.lit "2300-01-01")) None None [] None). split; [|split; [reflexivity|vm_compute; reflexivity]].
  unfold orderly. cbn [f_date f_clock f_zone f_repeats f_warn]. split; [|split; [discriminate|split; [discriminate|split; [constructor|discriminate]]]].
  exists (AttrModel.lit "2300"), (AttrModel.lit "01"), (AttrModel.lit "01"). split; [reflexivity|].
  split; [|split]; (split; [reflexivity|]); repeat constructor; vm_compute; discriminate.
Qed.
Print Assumptions C119_clock_refuted.

(** The mode of a warning is never set *)
Theorem C119_warning_refuted : exists f s w, read_stamp f = Ok (Some s) /\ spelling f = AttrModel.lit "<2024-02-29-3d>" /\ warn s = Some w /\ r_mode w = None
  /\ exists ks, parsed_kinds (spelling f) = Ok ks /\ ~ In nErrorInfoToken ks.
Proof.
  exists (Fields true (Some (AttrModel.lit "2024-02-29")) None None [] (Some (AttrModel.lit "-3d"))). eexists _, _. split; [vm_compute; reflexivity|].
  split; [reflexivity|]. split; [reflexivity|]. split; [reflexivity|]. eexists. split; [vm_compute; reflexivity|]. intros H. cbn in H. repeat (destruct H as [H|H]; [discriminate H|]). exact H.
Qed.
Print Assumptions C119_warning_refuted.

(** A clock with am or pm is taken for a time by the lexer and refused by the reader *)
Theorem C119_noon_refuted : exists f, spelling f = AttrModel.lit "<2024-02-29 10:20am>" /\ read_stamp f = Ok None
  /\ exists ks, parsed_kinds (spelling f) = Ok ks /\ In nStaticActiveTime ks /\ ~ In nErrorInfoToken ks.
Proof.
  exists (Fields true (Some (AttrModel.lit "2024-02-29")) (Some (AttrModel.lit "10:20am")) None [] None). split; [reflexivity|]. split; [vm_compute; reflexivity|].
  eexists. split; [vm_compute; reflexivity|]. split; [cbn; tauto|]. intros H. cbn in H. repeat (destruct H as [H|H]; [discriminate H|]). exact H.
Qed.
Print Assumptions C119_noon_refuted.
