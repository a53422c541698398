(** Proofs for C120, part five: what is not read back. *)
From Coq Require Import String Lia.
From Verif Require Import Base StrModel StrSpec StrProofs AttrModel TokModel TimeModel PropModel PropSpec PropProofs PropRead PropWrite PropAgain.
From Verif Require JsonModel ConvModel ConvSpec ConvProofs ConvTexts AttrProofs Utf8Proofs TokRun TimeSpec TimeProofs.
Local Open Scope Z_scope.

Lemma stoi_total : forall s, (exists v, TimeModel.stoi s = Ok v) \/ TimeModel.stoi s = Throw.
Proof. intros s. unfold TimeModel.stoi. destruct (take_digits None 0 0 s) as [[v [|n]] r]; [now right|]. destruct (v <=? 2147483647); [left; eauto|now right]. Qed.
Lemma zone_total : forall s, (exists v, zone_of s = Ok v) \/ zone_of s = Throw.
Proof.
  intros s. unfold zone_of. destruct (match s with 43 :: r => (true, r) | 45 :: r => (false, r) | _ => (true, s) end) as [pos z].
  destruct (length z =? 2)%nat.
  - destruct (stoi_total z) as [(v & ->)| ->]; cbn [omap obind]; [left; eauto|now right].
  - destruct (length z =? 4)%nat; [|left; cbn [obind]; eauto].
    destruct (stoi_total (firstn 2 z)) as [(v & ->)| ->]; cbn [omap obind]; [|now right]. destruct (stoi_total (skipn 2 z)) as [(w & ->)| ->]; cbn [omap obind]; [left; eauto|now right].
Qed.
Lemma back_total : forall s k, (exists v, back s k = Ok v) \/ back s k = Throw.
Proof. intros s k. unfold back. destruct (k <=? length s)%nat; [|now right]. destruct (nth_error _ _); [left; eauto|now right]. Qed.
(** A text that begins with a bracket *)
Lemma bracket_time : forall r, archive_time (91 :: r) = Throw.
Proof.
  intros r. set (s := 91 :: r). unfold archive_time.
  assert (X : forall o : outcome (nat * option Z), (exists v, o = Ok v) \/ o = Throw ->
    obind o (fun kz => obind (parse_user_time (firstn (length s - fst kz) s) (snd kz)) (fun r => match r with Some t => Ok (RProp (PArchiveTime t)) | None => Throw end)) = Throw).
  { intros o [(v & ->)| ->]; [|reflexivity]. cbn [obind]. subst s. destruct (length (91%Z :: r) - fst v)%nat; reflexivity. }
  apply X. clear X. destruct (back_total s 3) as [(c & ->)| ->]; [|now right]. cbn [obind]. destruct (is_sign c).
  - destruct (zone_total (skipn (length s - 2) s)) as [(v & ->)| ->]; [left; cbn [omap obind]; eauto|now right].
  - destruct (back_total s 5) as [(d & ->)| ->]; [|now right]. cbn [obind]. destruct (is_sign d).
    + destruct (zone_total (skipn (length s - 4) s)) as [(v & ->)| ->]; [left; cbn [omap obind]; eauto|now right].
    + left. eauto.
Qed.
Lemma cookie_rec : forall l r s p, r <> Some false -> cookie l r s = RProp p -> exists r' s', p = PCookie r' s' /\ r' <> Some false.
Proof.
  intros l. induction l as [|w l IH]; intros r s p N H; cbn [cookie] in H; [injection H as <-; eauto|].
  repeat (destruct (str_eqb _ _) in H; [eapply IH in H; [exact H|]; congruence|]). discriminate.
Qed.
Lemma read_cookie : forall json_of tok v r s, read_property json_of tok v = Ok (RProp (PCookie r s)) -> r <> Some false.
Proof.
  intros json_of tok v r s H. unfold PropModel.read_property in H. cbv zeta in H. set (n := strip tok (ConvModel.chars [32; 58]) (ConvModel.chars [58])) in *.
  unfold values_text in H.
  repeat match type of H with
  | (if str_eqb (normalize n) (lit ?w) then _ else _) = _ => destruct (str_eqb (normalize n) (lit w))
  end.
  all: try discriminate.
  all: try (apply hashtag_kind in H; destruct H as (t & H); discriminate).
  all: try (destruct (items_of v) as [|[|[t|]|t|] q]; discriminate).
  all: destruct (text_of v) as [x| | |]; cbn [omap obind] in H; try discriminate.
  all: try (destruct (split_char _ _) in H; discriminate).
  all: try (destruct (parse_level x); discriminate).
  all: try (destruct (split_by (ConvModel.strip_space x) " ") as [l| | |] in H; cbn [omap obind] in H; try discriminate; injection H as H; apply cookie_rec in H; [|discriminate]; destruct H as (r' & s' & E & N); injection E as -> ->; exact N).
  all: try (unfold archive_time in H; repeat (match type of H with obind ?x _ = _ => destruct x; cbn [obind] in H; try discriminate end); match type of H with match ?x with _ => _ end = _ => destruct x; discriminate end).
  all: try (destruct (subtree_path _) in H; discriminate).
  all: try (destruct (split_by (ConvModel.strip_space x) "::") in H; cbn [omap obind] in H; try discriminate; destruct (at_out _ 0) in H; cbn [omap obind] in H; try discriminate;
    destruct (at_out _ 1) in H; cbn [omap obind] in H; try discriminate; destruct (split_by _ "/") in H; discriminate).
  all: try (destruct (split_by (ConvModel.strip_space x) ":") as [[|a [|b [|]]]| | |] in H; cbn [omap obind] in H; try discriminate;
    [destruct (to_int a); discriminate|destruct (to_int b); cbn [omap obind] in H; try discriminate; destruct (to_int a); discriminate]).
  all: destruct (starts_with (normalize n) (lit "propjson")).
  all: try (destruct (second_part n); cbn [omap obind] in H; try discriminate; destruct (json_of _) in H; discriminate).
  all: destruct (starts_with (normalize n) (lit "propargs")).
  all: try (destruct (second_part n); cbn [omap obind] in H; try discriminate; destruct (attrs_of_values v) in H; discriminate).
  all: destruct v as [s'|l|g]; try discriminate.
  all: destruct (split_char _ _) in H; cbn [omap obind] in H; try discriminate; destruct (at_out _ 0) in H; discriminate.
Qed.
Lemma dump0_compound : forall j t, compound j -> dump0 j = Ok t -> exists c r, (c = 91 \/ c = 123) /\ t = c :: 10 :: r.
Proof.
  intros j t C E. destruct j as [| | | | |[|x l]|[|x l]]; try contradiction; cbn [dump0] in E.
  all: match type of E with omap _ ?o = _ => destruct o; try discriminate end; cbn [omap obind] in E; injection E as <-; eexists _, _; (split; [|reflexivity]); auto.
Qed.
Lemma listed_text : forall l s, listed l s -> vector_text l = s.
Proof.
  intros l s (body & -> & A & B). unfold vector_text. f_equal. f_equal. destruct l as [|x r]; [now rewrite (A eq_refl)|]. rewrite (B x r eq_refl), join_cons, flat_map_concat_map. reflexivity.
Qed.
Ltac plainly := apply plain_one; [apply ident_wordy; split; [discriminate|]; apply Forall_forall, forallb_forall; reflexivity|cbn; intuition discriminate|
  let I := fresh in let E := fresh in intros [I|[(? & E)|(? & E)]]; [vm_compute in I; intuition discriminate|vm_compute in E; discriminate E|vm_compute in E; discriminate E]].

Section Lines.
Variable paragraph : str -> list item.
Variable arguments : str -> group.
Variable json_of : str -> outcome JsonModel.json.
Variable attrs_text : group -> str.
Notation read_line := (read_line paragraph arguments json_of).
Notation write := (write attrs_text).

Lemma empty_read : forall n, plain_name n -> ~ In 58 n -> read_line (58 :: n ++ [58]) = Some (Ok (RProp (PRaw n []))).
Proof.
  intros n N C. inversion N as [a I S R|a b I J S R]; subst; [|exfalso; apply C, in_or_app; right; now left].
  rewrite (line_read _ _ _ _ _ _ _ (line_one0 n [] I S eq_refl)). cbn [values_of]. rewrite (raw_read json_of _ n); [reflexivity|apply base0; now apply ident_ends|exact R].
Qed.
Lemma unread_line : forall p n v, unread p n v -> clean v -> exists t, write p = Ok t /\ read_line t = Some (Ok (RProp (PRaw n v))).
Proof.
  intros p n v U C. destruct U; (eexists; split; [reflexivity|]).
  3: apply (empty_read (lit "trigger")); [plainly|vm_compute; intuition discriminate].
  3: apply (empty_read (lit "unnumbered")); [plainly|vm_compute; intuition discriminate].
  8: { cbn [map fst snd]. rewrite join_cons. cbn [flat_map]. rewrite app_nil_r. change (lit ":export_options:" ++ b ++ lit ": " ++ k ++ lit ":" ++ v) with (58 :: lit "export_options" ++ 58 :: b ++ 58 :: 32 :: k ++ 58 :: v).
    replace (58 :: lit "export_options" ++ 58 :: b ++ 58 :: 32 :: k ++ 58 :: v) with (58 :: (lit "export_options" ++ 58 :: b) ++ 58 :: 32 :: k ++ 58 :: v) by (now rewrite <- app_assoc).
    change (lit "export_options:" ++ b) with (lit "export_options" ++ 58 :: b). apply plain_read; [|exact C].
    apply plain_two; [apply ident_wordy; split; [discriminate|]; apply Forall_forall, forallb_forall; reflexivity|assumption|cbn; intuition discriminate|].
    rewrite essence_app. change (essence (58 :: b)) with (essence b). change (essence (lit "export_options")) with (lit "exportoptions"). destruct (essence b) as [|c e]; [contradiction|].
    intros [I|[(r & E)|(r & E)]]; [cbn in I; intuition discriminate|discriminate E|discriminate E]. }
  8-9: destruct s; reflexivity.
  all: try (rewrite (listed_text _ _ H)).
  all: match goal with |- _ = Some (Ok (RProp (PRaw ?n ?v))) => apply (plain_read paragraph arguments json_of n v); [plainly|exact C] end.
Qed.
End Lines.
