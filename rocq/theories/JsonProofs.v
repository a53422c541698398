(** Lemmas about JSON text and JSON values. *)
From Coq Require Import String.
From Verif Require Import Base StrModel StrProofs AttrModel AttrProofs JsonModel JsonSpec.
From Verif Require AttrSpec.
Local Open Scope nat_scope.

Lemma ob_ok {A B} (o : outcome A) (f : A -> outcome B) b : obind o f = Ok b -> exists a, o = Ok a /\ f a = Ok b.
Proof. destruct o; cbn; try discriminate. eauto. Qed.
Lemma all_ok_total {A B} (f : A -> outcome B) (g : A -> B) l : (forall a, In a l -> f a = Ok (g a)) -> all_ok (map f l) = Ok (map g l).
Proof.
  induction l as [|a l IH]; intros H; cbn; [reflexivity|]. rewrite (H a (or_introl eq_refl)). cbn. rewrite IH; [reflexivity|]. intros; apply H; now right.
Qed.
Lemma all_ok_forall2 {A B} (f : A -> outcome B) (R : A -> B -> Prop) l : (forall a, In a l -> exists b, f a = Ok b /\ R a b) ->
  exists bs, all_ok (map f l) = Ok bs /\ Forall2 R l bs.
Proof.
  induction l as [|a l IH]; intros H; cbn; [eauto|]. destruct (H a (or_introl eq_refl)) as (b & E & Q). rewrite E. cbn.
  destruct IH as (bs & E' & Q'); [intros; apply H; now right|]. rewrite E'. cbn. eauto.
Qed.

Lemma json_ind' (P : json -> Prop) : P JNull -> (forall b, P (JBool b)) -> (forall z, P (JInt z)) -> (forall t, P (JFloat t)) -> (forall s, P (JStr s)) ->
  (forall l, (forall x, In x l -> P x) -> P (JArr l)) -> (forall l, (forall k x, In (k, x) l -> P x) -> P (JObj l)) -> forall j, P j.
Proof.
  intros H1 H2 H3 H4 H5 H6 H7. fix IH 1. intros [|b|z|t|s|l|l]; [exact H1|apply H2|apply H3|apply H4|apply H5| |].
  - apply H6. induction l as [|x l IHl]; intros y Y; [destruct Y|]. destruct Y as [<-|Y]; [apply IH|exact (IHl y Y)].
  - apply H7. induction l as [|[k x] l IHl]; intros n y Y; [destruct Y|]. destruct Y as [Y|Y]; [injection Y as <- <-; apply IH|exact (IHl n y Y)].
Qed.

(** ** UTF-8 *)
Lemma within_iff b lo hi : within b lo hi = true <-> (lo <= b <= hi)%Z.
Proof. unfold within. rewrite andb_true_iff, !Z.leb_le. tauto. Qed.
Lemma within_not b lo hi : within b lo hi = false <-> ~ (lo <= b <= hi)%Z.
Proof. rewrite <- within_iff. destruct (within b lo hi); split; congruence. Qed.
Lemma one_char_sound b s c r : one_char b s = (Some c, r) -> utf8_char c /\ b :: s = c ++ r.
Proof.
  unfold one_char. intros H.
  repeat match type of H with
  | (if within ?x ?lo ?hi then _ else _) = _ => let E := fresh "E" in destruct (within x lo hi) eqn:E; [apply within_iff in E|apply within_not in E]
  | (if (?x =? ?y)%Z then _ else _) = _ => let E := fresh "E" in destruct (Z.eqb_spec x y) as [E|E]
  end; cbn [conts] in H;
  repeat match type of H with
  | (match ?l with _ => _ end) = _ => destruct l; [discriminate H|]
  | (if within ?x ?lo ?hi then _ else _) = _ => let E := fresh "E" in destruct (within x lo hi) eqn:E; [apply within_iff in E|discriminate H]
  end; try discriminate; injection H as <- <-; (split; [|reflexivity]); cbn [app]; first [apply u1; lia|apply u2; lia|apply u3; lia|apply u4; lia].
Qed.
Lemma one_char_complete c r : utf8_char c -> exists b s, c ++ r = b :: s /\ one_char b s = (Some c, r).
Proof.
  intros H. inversion H; subst; eexists; eexists; (split; [reflexivity|]); unfold one_char;
  repeat match goal with
  | |- context [within ?x ?lo ?hi] => let E := fresh "E" in destruct (within x lo hi) eqn:E; [apply within_iff in E|apply within_not in E]; try lia
  | |- context [(?x =? ?y)%Z] => let E := fresh "E" in destruct (Z.eqb_spec x y) as [E|E]; try lia
  end; try reflexivity; cbn [conts];
  repeat match goal with
  | |- context [within ?x ?lo ?hi] => let E := fresh "E" in destruct (within x lo hi) eqn:E; [apply within_iff in E|apply within_not in E; lia]
  end; reflexivity.
Qed.
Lemma valid_sound : forall f s, length s <= f -> snd (valid_chars f s) = true -> utf8 s.
Proof.
  induction f as [|f IH]; intros [|b s] L H; cbn in *; try lia; try (exists []; now split).
  destruct (one_char b s) as [c r] eqn:E. destruct (valid_chars f r) as [t ok] eqn:V. destruct c as [c|]; [|discriminate]. cbn in H. subst ok.
  apply one_char_sound in E. destruct E as [U E]. destruct (IH r) as (cs & -> & F).
  - assert (length (b :: s) = length (c ++ r)) by congruence. rewrite app_length in H. cbn in H. assert (length c <> 0) by (inversion U; cbn; lia). lia.
  - now rewrite V.
  - exists (c :: cs). rewrite E. split; [reflexivity|now constructor].
Qed.
Lemma valid_complete : forall cs f, Forall utf8_char cs -> length (concat cs) <= f -> valid_chars f (concat cs) = (concat cs, true).
Proof.
  induction cs as [|c cs IH]; intros f F L; [destruct f; reflexivity|]. inversion F; subst. cbn [concat] in *.
  destruct (one_char_complete c (concat cs) H1) as (b & s & E & O). rewrite app_length in L. assert (length c <> 0) by (inversion H1; cbn; lia).
  destruct f as [|f]; [lia|]. rewrite E. cbn [valid_chars]. rewrite O, IH by (auto; lia). now rewrite <- E.
Qed.
Lemma readable_iff s : readable s = true <-> utf8 s.
Proof.
  unfold readable. split; [now apply valid_sound|]. intros (cs & -> & F). now rewrite valid_complete.
Qed.
Lemma ignoring_valid s : utf8 s -> ignoring s = s.
Proof. intros (cs & -> & F). unfold ignoring. now rewrite valid_complete. Qed.

(** ** Numbers *)
Lemma dec_natural : forall f z acc, (0 <= z < Z.of_nat f)%Z -> exists d, dec_digits f z acc = d ++ acc /\ natural z d.
Proof.
  induction f as [|f IH]; intros z acc H; [lia|]. cbn [dec_digits]. pose proof (Z.mod_pos_bound z 10 ltac:(lia)) as M. pose proof (Z.div_mod z 10 ltac:(lia)) as D.
  destruct (Z.ltb_spec z 10) as [L|L].
  - exists [(48 + z mod 10)%Z]. split; [reflexivity|]. rewrite Z.mod_small in * by lia. repeat split; [discriminate| |intros Q; cbn [hd] in Q; now rewrite Q|].
    + repeat constructor; lia.
    + unfold digit_value. cbn [fold_left]. lia.
  - destruct (IH (z / 10)%Z ((48 + z mod 10)%Z :: acc)) as (d & E & N1 & N2 & N3 & N4); [lia|]. exists (d ++ [(48 + z mod 10)%Z]). rewrite E, <- app_assoc.
    split; [reflexivity|]. split; [destruct d; discriminate|]. split; [apply Forall_app; split; [auto|repeat constructor; lia]|]. split.
    + destruct d as [|c d]; [now destruct N1|]. cbn [hd app] in *. intros Q. specialize (N3 Q). injection N3 as -> ->. cbn [fold_left] in N4. unfold digit_value in N4. lia.
    + rewrite fold_left_app, <- N4. unfold digit_value. cbn [fold_left]. lia.
Qed.
Lemma int_reads z : reads (int_text z) (JInt z).
Proof.
  constructor. unfold int_text. destruct (Z.ltb_spec z 0).
  - right. destruct (dec_natural (S (Z.to_nat (- z))) (- z)%Z []) as (d & E & N); [lia|]. exists d. rewrite E, app_nil_r. auto.
  - left. destruct (dec_natural (S (Z.to_nat z)) z []) as (d & E & N); [lia|]. now rewrite E, app_nil_r.
Qed.

(** ** Strings *)
Lemma hexit_hex z : (0 <= z <= 15)%Z -> hexit z (hex z).
Proof. intros H. unfold hexit, hex. destruct (Z.ltb_spec z 10); lia. Qed.
Lemma escape_text c : (0 <= c)%Z -> char_text (escape c) [c].
Proof.
  intros H. unfold escape.
  repeat match goal with |- char_text (if (?x =? ?y)%Z then _ else _) _ => destruct (Z.eqb_spec x y) as [->|]; [apply c_escape; cbn; tauto|] end.
  destruct (Z.ltb_spec c 32).
  - pose proof (Z.mod_pos_bound c 16 ltac:(lia)). pose proof (Z.div_mod c 16 ltac:(lia)).
    replace [c] with [(16 * (c / 16) + c mod 16)%Z] by (f_equal; lia). apply (c_hex (c / 16)%Z (c mod 16)%Z); [lia|apply hexit_hex; lia|apply hexit_hex; lia].
  - apply c_plain; auto.
Qed.
Lemma utf8_pos s : utf8 s -> Forall (fun c => (0 <= c)%Z) s.
Proof.
  intros (cs & -> & F). induction F as [|c cs U _ IH]; [constructor|]. cbn. apply Forall_app. split; [|auto]. inversion U; subst; repeat constructor; lia.
Qed.
Lemma escapes_text s : Forall (fun c => (0 <= c)%Z) s -> string_text (flat_map escape s) s.
Proof.
  induction 1 as [|c s H _ IH]; cbn; [constructor|]. apply (s_char (escape c) [c]); [now apply escape_text|auto].
Qed.
Lemma quote_reads s : utf8 s -> reads (quote s) (JStr s).
Proof. intros H. apply r_str. apply escapes_text. now apply utf8_pos. Qed.
Lemma plain_text k : Forall (fun c => (32 <= c)%Z /\ c <> 34%Z /\ c <> 92%Z) k -> string_text k k.
Proof. induction 1 as [|c k (A & B & C) _ IH]; [constructor|]. apply (s_char [c] [c]); [now constructor|auto]. Qed.

(** ** Lists *)
Lemma items_join ts l : Forall2 reads ts l -> l <> [] -> reads_items (join (lit ",") ts) l.
Proof.
  induction 1 as [|t j ts l H F IH]; intros N; [now destruct N|]. destruct F as [|t' j' ts l H' F].
  - unfold join. cbn. rewrite app_nil_r. now constructor.
  - rewrite join_cons. cbn [flat_map]. rewrite <- app_assoc, <- join_cons. constructor; [auto|]. apply IH. discriminate.
Qed.
Lemma fields_join ts l : Forall2 reads_field ts l -> l <> [] -> reads_fields (join (lit ",") ts) l.
Proof.
  induction 1 as [|t j ts l H F IH]; intros N; [now destruct N|]. destruct F as [|t' j' ts l H' F].
  - unfold join. cbn. rewrite app_nil_r. now constructor.
  - rewrite join_cons. cbn [flat_map]. rewrite <- app_assoc, <- join_cons. constructor; [auto|]. apply IH. discriminate.
Qed.
Lemma arr_reads ts l : Forall2 reads ts l -> reads (lit "[" ++ join (lit ",") ts ++ lit "]") (JArr l).
Proof.
  intros F. destruct l as [|j l]; [inversion F; subst; apply (r_no_items []); constructor|]. apply r_items. apply items_join; [auto|discriminate].
Qed.
Lemma obj_reads ts l : Forall2 reads_field ts l -> reads (lit "{" ++ join (lit ",") ts ++ lit "}") (JObj l).
Proof.
  intros F. destruct l as [|j l]; [inversion F; subst; apply (r_no_fields []); constructor|]. apply r_fields. apply fields_join; [auto|discriminate].
Qed.
Lemma f2_flip {A B} (R : A -> B -> Prop) l l' : Forall2 (fun a b => R b a) l l' -> Forall2 (fun b a => R b a) l' l.
Proof. induction 1; constructor; auto. Qed.

Lemma text_ok_arr l x : text_ok (JArr l) -> In x l -> text_ok x.
Proof.
  intros (A & B & C) I. split; [|split].
  - intros s H. apply A. econstructor; eauto.
  - intros l' k y H. apply B. econstructor; eauto.
  - intros t H. apply C. econstructor; eauto.
Qed.
Lemma text_ok_obj l k x : text_ok (JObj l) -> In (k, x) l -> text_ok x /\ utf8 k.
Proof.
  intros (A & B & C) I. split; [split; [|split]|eapply B; [constructor|exact I]].
  - intros s H. apply A. econstructor; eauto.
  - intros l' k' y H. apply B. econstructor; eauto.
  - intros t H. apply C. econstructor; eauto.
Qed.
Lemma dump_reads : forall j, text_ok j -> exists t, dump j = Ok t /\ reads t j.
Proof.
  induction j as [|[]|z|t|s|l IH|l IH] using json_ind'; intros T; cbn [dump].
  - eexists. split; [reflexivity|constructor].
  - eexists. split; [reflexivity|constructor].
  - eexists. split; [reflexivity|constructor].
  - eexists. split; [reflexivity|apply int_reads].
  - eexists. split; [reflexivity|]. constructor. apply T. constructor.
  - unfold dump_str. assert (U : utf8 s) by (apply T; constructor). rewrite (proj2 (readable_iff s) U). eexists. split; [reflexivity|now apply quote_reads].
  - destruct (all_ok_forall2 dump (fun j t => reads t j) l) as (ts & E & F).
    { intros x X. apply IH; [auto|]. eapply text_ok_arr; eauto. }
    rewrite E. cbn. eexists. split; [reflexivity|]. apply arr_reads. now apply f2_flip.
  - destruct (all_ok_forall2 (fun e => obind (dump_str (fst e)) (fun k => omap (fun t => k ++ lit ":" ++ t) (dump (snd e)))) (fun e t => reads_field t e) l) as (ts & E & F).
    { intros [k x] X. destruct (text_ok_obj l k x T X) as [T1 T2]. destruct (IH k x X T1) as (t & D & R). cbn [fst snd]. unfold dump_str.
      rewrite (proj2 (readable_iff k) T2), D. cbn [obind omap]. eexists. split; [reflexivity|]. unfold quote.
      change ((34%Z :: flat_map escape k ++ [34%Z]) ++ lit ":" ++ t) with ([] ++ 34%Z :: (flat_map escape k ++ [34%Z]) ++ [] ++ lit ":" ++ t).
      rewrite <- app_assoc. cbn [app]. apply (rf [] (flat_map escape k) k []); [constructor|constructor|apply escapes_text; now apply utf8_pos|auto]. }
    rewrite E. cbn. eexists. split; [reflexivity|]. apply obj_reads. now apply f2_flip.
Qed.

(** ** to_compact_json *)
Lemma place_perm {A} (lt : A -> A -> bool) x l : Permutation (place lt x l) (x :: l).
Proof.
  induction l as [|y l IH]; cbn; [constructor; constructor|]. destruct (lt x y); [reflexivity|]. rewrite IH. constructor.
Qed.
Lemma sort_by_perm {A} (lt : A -> A -> bool) l : Permutation (sort_by lt l) l.
Proof. unfold sort_by. induction l as [|x l IH]; cbn; [constructor|]. rewrite place_perm. now constructor. Qed.
Lemma blank_spaces n : blank (repeat 32%Z n).
Proof. apply Forall_forall. intros c C. apply repeat_spec in C. subst. now left. Qed.
Lemma blank_line n : blank (lit "
" ++ repeat 32%Z n).
Proof. constructor; [cbn; tauto|apply blank_spaces]. Qed.
Definition fine (j : json) : Prop := text_ok j /\ plain_names j /\ ~ inside JNull j.
Lemma fine_arr l x : fine (JArr l) -> In x l -> fine x.
Proof.
  intros (A & B & C) I. split; [eapply text_ok_arr; eauto|split; [|intros N; apply C; econstructor; eauto]]. intros l' k y H. apply B. econstructor; eauto.
Qed.
Lemma fine_obj l k x : fine (JObj l) -> In (k, x) l -> fine x.
Proof.
  intros (A & B & C) I. split; [eapply text_ok_obj; eauto|split; [|intros N; apply C; econstructor; eauto]]. intros l' k' y H. apply B. econstructor; eauto.
Qed.
Lemma same_items_f2 l l' : Forall2 same l l' -> same_items l l'.
Proof. induction 1; constructor; auto. Qed.
Section Compact.
  Variable size : json -> Z.
  Variable o : options.
  Hypothesis step : (0 <= oindent o)%Z.
  Lemma same_fields_keys l l' : same_fields l l' -> map fst l = map fst l'.
  Proof. induction 1; cbn; congruence. Qed.
  Lemma place_keys x l : ostable o = true -> StronglySorted str_le (map (fun p => fst (fst p)) l) -> StronglySorted str_le (map (fun p => fst (fst p)) (place (before size o) x l)).
  Proof.
    intros ST. induction l as [|y l IH]; intros H; cbn [place map]; [repeat constructor|]. inversion H as [|? ? S F]; subst.
    assert (BE : before size o x y = str_ltb (fst (fst x)) (fst (fst y))) by (unfold before; now rewrite ST). rewrite BE. clear BE. destruct (str_ltb (fst (fst x)) (fst (fst y))) eqn:E.
    - apply str_ltb_lt in E. cbn [map]. constructor; [exact H|]. constructor; [now right|]. rewrite Forall_forall in *. intros z Z. apply F in Z. destruct Z as [<-|Z]; [now right|]. right. eapply str_lt_trans; eauto.
    - cbn [map]. constructor; [apply IH; exact S|]. apply Forall_forall. intros z Z. apply in_map_iff in Z. destruct Z as (w & <- & W). eapply Permutation_in in W; [|apply place_perm].
      destruct W as [<-|W]; [|rewrite Forall_forall in F; apply F; now apply (in_map (fun p => fst (fst p)))]. unfold str_le.
      destruct (str_eqb (fst (fst y)) (fst (fst x))) eqn:Q; [apply str_eqb_eq in Q; now left|]. right. destruct (str_lt_total (fst (fst y)) (fst (fst x))) as [L|L]; auto.
      + intros K. rewrite K, str_eqb_refl in Q. discriminate.
      + apply str_ltb_lt in L. congruence.
  Qed.
  Lemma sort_by_keys l : ostable o = true -> StronglySorted str_le (map fst (map fst (sort_by (before size o) l))).
  Proof.
    intros ST. rewrite map_map. induction l as [|x l IH]; [constructor|]. apply place_keys; auto.
  Qed.
  Lemma compact_reads_sorted : forall j indent, (0 <= indent)%Z -> fine j -> exists t j', compact size o indent j = Ok t /\ reads t j' /\ same j j' /\
    (forall l, j' = JObj l -> ostable o = true -> (owidth o - indent <= size j)%Z -> StronglySorted str_le (map fst l)).
  Proof using step.
    induction j as [|b|z|t|s|l IH|l IH] using json_ind'; intros indent I F; pose proof F as (T & PN & NN); destruct (dump_reads _ T) as (dt & D & DR);
      cbn [compact]; (match goal with |- context [if ?c then _ else _] => destruct c eqn:SZ end; [apply Z.ltb_lt in SZ; exists dt; eexists; split; [exact D|split; [exact DR|split; [constructor|intros; lia]]]|]).
    - now destruct NN; constructor.
    - exists dt; eexists; split; [exact D|split; [exact DR|split; [constructor|discriminate]]].
    - exists dt; eexists; split; [exact D|split; [exact DR|split; [constructor|discriminate]]].
    - exists dt; eexists; split; [exact D|split; [exact DR|split; [constructor|discriminate]]].
    - assert (U : utf8 s) by (apply T; constructor). rewrite ignoring_valid by auto. eexists. eexists. split; [reflexivity|]. split; [now apply quote_reads|split; [constructor|discriminate]].
    - match goal with |- context [all_ok (map ?f l)] => destruct (all_ok_forall2 f (fun j t => exists j', reads t j' /\ same j j') l) as (ts & E & Q) end.
      { intros x X. destruct (IH x X (indent + oindent o)%Z) as (t & j' & E & R & S & _); [lia|eapply fine_arr; eauto|]. unfold spaces_of.
        destruct (Z.ltb_spec indent 0); [lia|]. cbn [obind]. rewrite E. cbn [omap]. eexists. split; [reflexivity|]. exists j'. split; [|auto].
        rewrite app_assoc. rewrite <- (app_nil_r t). apply r_blank; [apply blank_line|constructor|auto]. }
      rewrite E. cbn [obind]. assert (G : exists l', Forall2 reads ts l' /\ Forall2 same l l').
      { clear -Q. induction Q as [|j t l ts (j' & A & B) _ (l' & C & D)]; [exists []; split; constructor|]. exists (j' :: l'). split; constructor; auto. }
      destruct G as (l' & G1 & G2). eexists. exists (JArr l'). split; [reflexivity|]. split; [now apply arr_reads|]. split; [|discriminate]. constructor. now apply same_items_f2.
    - match goal with |- context [all_ok (map ?f l)] => destruct (all_ok_forall2 f (fun e p => fst p = e /\ exists j', reads_field (snd p) (fst e, j') /\ same (snd e) j') l) as (ts & E & Q) end.
      { intros [k x] X. cbn [fst snd]. destruct (IH k x X (indent + oindent o)%Z) as (t & j' & E & R & S & _); [lia|eapply fine_obj; eauto|]. unfold spaces_of.
        destruct (Z.ltb_spec indent 0); [lia|]. cbn [obind]. rewrite E. cbn [omap]. eexists. split; [reflexivity|]. cbn [fst snd]. split; [reflexivity|]. exists j'. split; [|auto].
        rewrite app_assoc. change (lit """" ++ k ++ lit """: " ++ t) with (34%Z :: k ++ 34%Z :: [] ++ lit ":" ++ ([32%Z] ++ t)).
        apply rf; [apply blank_line|constructor|apply plain_text; eapply PN; [constructor|exact X]|].
        rewrite <- (app_nil_r t). apply r_blank; [repeat constructor|constructor|auto]. }
      rewrite E. cbn [obind]. pose proof (sort_by_perm (before size o) ts) as SP. set (ss := sort_by (before size o) ts) in *.
      assert (QA : forall p, In p ss -> exists j', reads_field (snd p) (fst (fst p), j') /\ same (snd (fst p)) j').
      { intros p P. rewrite SP in P. clear -Q P. induction Q as [|e p' l ts (A & B) _ IH]; [destruct P|]. destruct P as [<-|P]; [now rewrite A|auto]. }
      assert (G : exists l', Forall2 reads_field (map snd ss) l' /\ same_fields (map fst ss) l').
      { clear -QA. induction ss as [|[[k x] t] ss IH]; [exists []; split; constructor|]. destruct (QA _ (or_introl eq_refl)) as (j' & A & B). cbn in A, B.
        destruct IH as (l' & C & D); [intros; apply QA; now right|]. exists ((k, j') :: l'). cbn. split; constructor; auto. }
      destruct G as (l' & G1 & G2). eexists. exists (JObj l'). split; [reflexivity|]. split; [now apply obj_reads|]. split; [|intros l0 E0 ST _; injection E0 as <-; rewrite <- (same_fields_keys _ _ G2); unfold ss; apply sort_by_keys; exact ST].
      apply (same_obj l (map fst ss)); [|exact G2]. assert (ML : l = map fst ts).
      { clear -Q. induction Q as [|e p l ts [A _] _ IH]; [reflexivity|]. cbn. congruence. }
      rewrite ML at 1. apply Permutation_map. symmetry. exact SP.
  Qed.
  Lemma compact_reads : forall j indent, (0 <= indent)%Z -> fine j -> exists t j', compact size o indent j = Ok t /\ reads t j' /\ same j j'.
  Proof using step. intros j indent I F. destruct (compact_reads_sorted j indent I F) as (t & j' & A & B & C & _). eauto. Qed.
End Compact.

(** ** What must be in a text *)
Scheme reads_ind4 := Induction for reads Sort Prop with items_ind4 := Induction for reads_items Sort Prop
  with fields_ind4 := Induction for reads_fields Sort Prop with field_ind4 := Induction for reads_field Sort Prop.
Lemma field_in c w k w' t : In c t -> In c (w ++ 34%Z :: k ++ 34%Z :: w' ++ lit ":" ++ t).
Proof.
  intros H. apply in_or_app. right. right. apply in_or_app. right. right. apply in_or_app. right. apply in_or_app. now right.
Qed.
Lemma reads_null : forall t j, reads t j -> inside JNull j -> In 110%Z t.
Proof.
  intros t j H.
  refine (reads_ind4 (fun t j _ => inside JNull j -> In 110%Z t) (fun t l _ => forall x, In x l -> inside JNull x -> In 110%Z t)
    (fun t l _ => forall k x, In (k, x) l -> inside JNull x -> In 110%Z t) (fun t e _ => inside JNull (snd e) -> In 110%Z t) _ _ _ _ _ _ _ _ _ _ _ _ _ _ _ _ t j H); clear.
  - intros w t w' j _ _ _ IH N. apply in_or_app. right. apply in_or_app. auto.
  - intros _. cbn. tauto.
  - intros N. inversion N.
  - intros N. inversion N.
  - intros z t _ N. inversion N.
  - intros t _ N. inversion N.
  - intros t s _ N. inversion N.
  - intros w _ N. inversion N; subst. match goal with H : In _ [] |- _ => destruct H end.
  - intros t l _ IH N. inversion N; subst. apply in_or_app. right. apply in_or_app. left. eauto.
  - intros w _ N. inversion N; subst. match goal with H : In _ [] |- _ => destruct H end.
  - intros t l _ IH N. inversion N; subst. apply in_or_app. right. apply in_or_app. left. eauto.
  - intros t j _ IH x [<-|[]] N. auto.
  - intros t j u l _ IH _ IHl x [<-|X] N; apply in_or_app; [auto|]. right. apply in_or_app. eauto.
  - intros t e _ IH k x [->|[]] N. auto.
  - intros t e u l _ IH _ IHl k x [->|X] N; apply in_or_app; [auto|]. right. apply in_or_app. eauto.
  - intros w k name w' t j _ _ _ _ IH N. cbn [snd] in N. specialize (IH N). now apply field_in.
Qed.
Lemma string_escape t s : string_text t s -> In 34%Z s -> In 92%Z t.
Proof.
  induction 1 as [|t c ts s C S IH]; [intros []|]. rewrite !in_app_iff. intros [H|H]; [|auto]. left. destruct C as [c A B D|x c I|]; [|now left|now left].
  destruct H as [->|[]]. now destruct B.
Qed.
Lemma reads_quote : forall t j, reads t j -> forall l k x, inside (JObj l) j -> In (k, x) l -> In 34%Z k -> In 92%Z t.
Proof.
  intros t j H.
  refine (reads_ind4 (fun t j _ => forall l k x, inside (JObj l) j -> In (k, x) l -> In 34%Z k -> In 92%Z t)
    (fun t js _ => forall j l k x, In j js -> inside (JObj l) j -> In (k, x) l -> In 34%Z k -> In 92%Z t)
    (fun t js _ => forall n j, In (n, j) js -> (In 34%Z n -> In 92%Z t) /\ forall l k x, inside (JObj l) j -> In (k, x) l -> In 34%Z k -> In 92%Z t)
    (fun t e _ => (In 34%Z (fst e) -> In 92%Z t) /\ forall l k x, inside (JObj l) (snd e) -> In (k, x) l -> In 34%Z k -> In 92%Z t) _ _ _ _ _ _ _ _ _ _ _ _ _ _ _ _ t j H); clear.
  - intros w t w' j _ _ _ IH l k x N X K. apply in_or_app. right. apply in_or_app. eauto.
  - intros l k x N. inversion N.
  - intros l k x N. inversion N.
  - intros l k x N. inversion N.
  - intros z t _ l k x N. inversion N.
  - intros t _ l k x N. inversion N.
  - intros t s _ l k x N. inversion N.
  - intros w _ l k x N. inversion N; subst. match goal with H : In _ [] |- _ => destruct H end.
  - intros t js _ IH l k x N X K. inversion N; subst. apply in_or_app. right. apply in_or_app. left. eauto.
  - intros w _ l k x N X K. inversion N; subst; [destruct X|]. match goal with H : In _ [] |- _ => destruct H end.
  - intros t js _ IH l k x N X K. apply in_or_app. right. apply in_or_app. left. inversion N; subst; [now apply (IH k x X)|]. eapply IH; eauto.
  - intros t j _ IH j' l k x [<-|[]] N X K. eauto.
  - intros t j u js _ IH _ IHl j' l k x [<-|J] N X K; apply in_or_app; [left; eauto|]. right. apply in_or_app. right. eauto.
  - intros t e _ IH n j [->|[]]. exact IH.
  - intros t e u js _ IH _ IHl n j [->|J]; cbn [fst snd] in IH.
    + destruct IH as [A B]. split; [intros; apply in_or_app; auto|]. intros l k x N X K. apply in_or_app. left. eauto.
    + destruct (IHl n j J) as [A B]. split; [intros Q; apply in_or_app; right; apply in_or_app; auto|]. intros l k x N X K. apply in_or_app. right. apply in_or_app. right. eauto.
  - intros w k name w' t j _ _ S _ IH. cbn [fst snd]. split.
    + intros Q. apply (string_escape _ _ S) in Q. apply in_or_app. right. right. apply in_or_app. auto.
    + intros l k' x N X K. specialize (IH l k' x N X K). now apply field_in.
Qed.

(** ** filterFields *)
Definition avoids (names : list str) (p : list key) : Prop := forall k, In (Name k) p -> ~ In k names.
Lemma existsb_names k names : existsb (str_eqb k) names = true <-> In k names.
Proof.
  rewrite existsb_exists. split; [intros (x & X & E); apply str_eqb_eq in E; now subst|]. intros I. exists k. split; [auto|apply str_eqb_refl].
Qed.
Lemma filter_field names (l : list (str * json)) k y : In (k, y) (flat_map (fun e => if existsb (str_eqb (fst e)) names then [] else [(fst e, filter_fields names (snd e))]) l) <->
  ~ In k names /\ exists x, In (k, x) l /\ y = filter_fields names x.
Proof.
  rewrite in_flat_map. split.
  - intros ([k' x] & I & H). cbn [fst snd] in H. destruct (existsb (str_eqb k') names) eqn:E; [destruct H|]. destruct H as [H|[]]. injection H as <- <-.
    split; [intros N; apply existsb_names in N; congruence|eauto].
  - intros (N & x & I & ->). exists (k, x). split; [auto|]. cbn [fst snd]. destruct (existsb (str_eqb k) names) eqn:E; [apply existsb_names in E; now destruct N|now left].
Qed.
Lemma filter_shape names j : shape (filter_fields names j) = shape j.
Proof. destruct j as [| | | | |l|l]; cbn; try reflexivity. now rewrite map_map. Qed.
Lemma filter_sound names : forall p j y, stands (filter_fields names j) p y -> avoids names p /\ exists x, stands j p x /\ y = filter_fields names x.
Proof.
  induction p as [|k p IH]; intros j y H.
  - inversion H; subst. split; [intros k []|]. exists j. split; [constructor|reflexivity].
  - inversion H as [|l1 x l2 p' y' S E|l k' x p' y' I S E]; subst; destruct j as [| | | | |l0|l0]; cbn [filter_fields] in E; try discriminate E; injection E as E.
    + assert (EX : exists m1 z m2, l0 = m1 ++ z :: m2 /\ length m1 = length l1 /\ x = filter_fields names z).
      { clear -E. revert l0 E. induction l1 as [|a l1 IH]; intros [|b l0] E; try discriminate E; cbn in E; injection E as E1 E2.
        - exists [], b, l0. auto.
        - destruct (IH l0 E2) as (m1 & z & m2 & -> & L & ->). exists (b :: m1), z, m2. cbn. auto. }
      destruct EX as (m1 & z & m2 & -> & L & ->). apply IH in S. destruct S as (A & w & S & ->). split.
      * intros k [K|K]; [discriminate K|auto].
      * exists w. split; [|reflexivity]. rewrite <- L. now constructor.
    + rewrite E in I. apply filter_field in I. destruct I as (N & z & I & ->). apply IH in S. destruct S as (A & w & S & ->). split.
      * intros k [K|K]; [injection K as <-; auto|auto].
      * exists w. split; [|reflexivity]. econstructor; eauto.
Qed.
Lemma filter_complete names j p x : stands j p x -> avoids names p -> stands (filter_fields names j) p (filter_fields names x).
Proof.
  induction 1 as [j|l1 x l2 p y S IH|l k x p y I S IH]; intros A; cbn [filter_fields].
  - constructor.
  - rewrite map_app. cbn [map]. rewrite <- (map_length (filter_fields names) l1). constructor. apply IH. intros k K. apply A. now right.
  - econstructor; [|apply IH; intros n K; apply A; now right]. apply filter_field. split; [apply A; now left|eauto].
Qed.

(** ** Values *)
Lemma ty_ind' (P : ty -> Prop) : P TBool -> (forall lo hi, P (TInt lo hi)) -> P TReal -> P TStr -> P TCStr -> P TJson -> (forall t, P (TEnum t)) ->
  (forall t, P t -> P (TOpt t)) -> (forall t, P t -> P (TVec t)) -> (forall t, P t -> P (TSet t)) -> (forall s a b, P a -> P b -> P (TPair s a b)) ->
  (forall k v, P k -> P v -> P (TMap k v)) -> (forall v, P v -> P (TStrMap v)) -> (forall skip fs, (forall n d t, In (n, (d, t)) fs -> P t) -> P (TRec skip fs)) ->
  (forall ts, P (TVar ts)) -> forall t, P t.
Proof.
  intros H1 H2 H3 H4 H5 H6 H7 H8 H9 H10 H11 H12 H13 H14 H15. fix IH 1.
  intros [|lo hi| | | | |tb|t|t|t|s a b|k v|v|skip fs|ts]; [exact H1|apply H2|exact H3|exact H4|exact H5|exact H6|apply H7|apply H8; apply IH|apply H9; apply IH|apply H10; apply IH
    |apply H11; apply IH|apply H12; apply IH|apply H13; apply IH| |apply H15].
  apply H14. induction fs as [|[n' [d' t']] fs IHf]; intros n d t I; [destruct I|]. destruct I as [I|I]; [injection I as <- <- <-; apply IH|exact (IHf n d t I)].
Qed.
Lemma lookup_put l k j k' : lookup (put l k j) k' = if str_eqb k k' then Some j else lookup l k'.
Proof.
  induction l as [|[n x] l IH]; cbn [put lookup]; [reflexivity|]. destruct (str_eqb n k) eqn:E.
  - apply str_eqb_eq in E. subst n. cbn [lookup]. now destruct (str_eqb k k').
  - destruct (str_ltb k n); cbn [lookup]; [reflexivity|]. rewrite IH. destruct (str_eqb n k') eqn:E'; [|reflexivity]. apply str_eqb_eq in E'. subst k'.
    destruct (str_eqb k n) eqn:E2; [|reflexivity]. apply str_eqb_eq in E2. subst n. now rewrite str_eqb_refl in E.
Qed.
Lemma same_key_eq t a b : key_type t -> typed t a -> typed t b -> (same_key a b = true <-> a = b).
Proof.
  intros K A B. destruct K; inversion A; subst; inversion B; subst; cbn [same_key].
  - rewrite Bool.eqb_true_iff. split; congruence.
  - rewrite Z.eqb_eq. split; congruence.
  - rewrite str_eqb_eq. split; congruence.
  - rewrite Z.eqb_eq. split; congruence.
Qed.
Lemma incl_all t : key_type t -> forall l acc, (forall v, In v (acc ++ l) -> typed t v) -> NoDup (acc ++ l) -> fold_left JsonModel.incl l acc = acc ++ l.
Proof.
  intros K. induction l as [|v l IH]; intros acc T N; cbn; [now rewrite app_nil_r|]. unfold JsonModel.incl at 2.
  destruct (existsb (fun x => same_key x v) acc) eqn:E.
  - apply existsb_exists in E. destruct E as (x & I & E). apply (same_key_eq t) in E; auto; try (apply T; rewrite in_app_iff; cbn; auto).
    subst x. apply NoDup_remove_2 in N. destruct N. rewrite in_app_iff. auto.
  - rewrite IH; rewrite <- app_assoc; auto.
Qed.
Lemma insert_new m k v : (forall x y, In (x, y) m -> same_key x k = false) -> insert_or_assign m k v = m ++ [(k, v)].
Proof.
  induction m as [|[x y] m IH]; intros H; cbn; [reflexivity|]. rewrite (H x y (or_introl eq_refl)). rewrite IH; [reflexivity|]. intros; eapply H; right; eauto.
Qed.
Lemma insert_all t : key_type t -> forall l acc, (forall x y, In (x, y) (acc ++ l) -> typed t x) -> NoDup (map fst (acc ++ l)) ->
  fold_left (fun m e => insert_or_assign m (fst e) (snd e)) l acc = acc ++ l.
Proof.
  intros K. induction l as [|[k v] l IH]; intros acc T N; cbn; [now rewrite app_nil_r|]. rewrite insert_new.
  - rewrite IH; rewrite <- app_assoc; auto.
  - intros x y I. destruct (same_key x k) eqn:E; [|reflexivity]. exfalso. apply (same_key_eq t) in E; auto;
      [|eapply T; apply in_or_app; left; eauto|eapply T; apply in_or_app; right; left; reflexivity].
    subst x. rewrite map_app in N. cbn [map fst] in N. apply NoDup_remove_2 in N. destruct N. apply in_or_app. left. apply (in_map fst _ _ I).
Qed.
Lemma enum_back table n z : NoDup (map fst table) -> In (n, z) table ->
  exists e, List.find (fun e => str_eqb (fst e) (enum_name table z)) table = Some e /\ snd e = z.
Proof.
  intros N I. unfold enum_name. destruct (List.find (fun e => (snd e =? z)%Z) table) as [e|] eqn:E.
  - apply find_some in E. destruct E as [I' E]. apply Z.eqb_eq in E. exists e. split; [|auto]. clear I n z E. induction table as [|[n z] table IH]; [destruct I'|].
    cbn [List.find fst]. destruct I' as [<-|I']; [cbn; now rewrite str_eqb_refl|]. inversion N; subst. destruct (str_eqb n (fst e)) eqn:Q; [|auto].
    apply str_eqb_eq in Q. subst n. destruct H1. now apply in_map.
  - eapply List.find_none in E; [|exact I]. cbn in E. rewrite Z.eqb_refl in E. discriminate.
Qed.
Lemma not_null t v : restorable t -> ~ nullable t -> typed t v -> to_json t v <> JNull.
Proof. intros R N T. destruct T; try discriminate; destruct N; exact I. Qed.
Lemma str_ltb_irrefl s : str_ltb s s = false.
Proof. induction s as [|c s IH]; [reflexivity|]. cbn. now rewrite Z.ltb_irrefl, Z.eqb_refl. Qed.
Lemma put_last o k j : (forall n x, In (n, x) o -> AttrSpec.str_lt n k) -> put o k j = o ++ [(k, j)].
Proof.
  induction o as [|[n x] o IH]; intros H; [reflexivity|]. cbn [put]. pose proof (H n x (or_introl eq_refl)) as L.
  destruct (str_eqb n k) eqn:E; [apply str_eqb_eq in E; subst n; apply str_ltb_lt in L; now rewrite str_ltb_irrefl in L|].
  destruct (str_ltb k n) eqn:E'; [|rewrite IH; [reflexivity|intros; eapply H; right; eauto]].
  apply str_ltb_lt in E'. pose proof (str_lt_trans _ _ _ L E') as C. apply str_ltb_lt in C. now rewrite str_ltb_irrefl in C.
Qed.
Lemma str_fields t : forall l o, StronglySorted AttrSpec.str_lt (map fst (o ++ map (fun e : str * val => (fst e, to_json t (snd e))) l)) ->
  fold_left (fun o e => match fst e with VStr k => put o k (to_json t (snd e)) | _ => o end) (map (fun e => (VStr (fst e), snd e)) l) o =
  o ++ map (fun e => (fst e, to_json t (snd e))) l.
Proof.
  induction l as [|[k v] l IH]; intros o S; cbn [map fold_left fst snd]; [now rewrite app_nil_r|]. rewrite put_last.
  - rewrite IH; rewrite <- app_assoc; [reflexivity|]. exact S.
  - intros n x I. cbn [map fst snd] in S. rewrite map_app in S. clear -S I. induction o as [|e o IH]; [destruct I|]. cbn [map app] in S. inversion S; subst.
    destruct I as [->|I]; [|auto]. rewrite Forall_forall in H2. apply H2. apply in_or_app. right. now left.
Qed.
Lemma typed_none t v : typed t v -> v = VNone -> exists t', t = TOpt t'.
Proof. intros T ->. inversion T; subst; eauto. Qed.

(** The two loops over fields *)
Fixpoint write_fields (skip : bool) (fs : list (str * (val * ty))) (l : list val) (o : list (str * json)) : list (str * json) :=
  match fs, l with
  | (n, (_, t)) :: fs', v :: l' => write_fields skip fs' l' (if skip && match v with VNone => true | _ => false end then o else put o n (to_json t v))
  | _, _ => o
  end.
Fixpoint read_fields (j : json) (fs : list (str * (val * ty))) : outcome (list val) :=
  match fs with
  | [] => Ok []
  | (n, (d, t)) :: fs' =>
      obind (match j with JObj l => match lookup l n with Some x => from_json t x | None => Ok d end | _ => Ok d end) (fun v => omap (cons v) (read_fields j fs'))
  end.
Lemma to_json_rec skip fs l : to_json (TRec skip fs) (VRec l) = JObj (write_fields skip fs l []).
Proof.
  cbn [to_json]. f_equal. generalize (@nil (str * json)) as o. revert l. induction fs as [|[n [d t]] fs IH]; intros [|v l] o; try reflexivity. cbn [write_fields]. apply IH.
Qed.
Lemma from_json_rec skip fs j : from_json (TRec skip fs) j = omap VRec (read_fields j fs).
Proof.
  cbn [from_json]. f_equal. induction fs as [|[n [d t]] fs IH]; [reflexivity|]. cbn [read_fields]. now rewrite IH.
Qed.
Lemma write_other skip n : forall fs l o, ~ In n (map fst fs) -> lookup (write_fields skip fs l o) n = lookup o n.
Proof.
  induction fs as [|[m [d t]] fs IH]; intros [|v l] o N; cbn [write_fields]; try reflexivity. cbn in N. rewrite IH by tauto.
  destruct (skip && _); [reflexivity|]. rewrite lookup_put. destruct (str_eqb m n) eqn:E; [|reflexivity]. apply str_eqb_eq in E. tauto.
Qed.
Lemma rec_back skip : forall fs l o, NoDup (map fst fs) -> (skip = true -> forall n d t, In (n, (d, TOpt t)) fs -> d = VNone) ->
  (forall n d t v, In (n, (d, t)) fs -> typed t v -> from_json t (to_json t v) = Ok v) -> fields_typed fs l -> (forall n, In n (map fst fs) -> lookup o n = None) ->
  read_fields (JObj (write_fields skip fs l o)) fs = Ok l.
Proof.
  intros fs l o N D R T. revert o. enough (G : forall o fs', (forall n, In n (map fst fs) -> lookup o n = None) -> fs' = fs -> read_fields (JObj (write_fields skip fs l o)) fs' = Ok l) by (intros; now apply G).
  induction T as [|n d t fs v l T Ts IH]; intros o fs' F ->; [reflexivity|]. cbn [read_fields write_fields]. inversion N; subst.
  set (o' := if skip && match v with VNone => true | _ => false end then o else put o n (to_json t v)).
  assert (L : (match lookup (write_fields skip fs l o') n with Some x => from_json t x | None => Ok d end) = Ok v).
  { rewrite write_other by auto. unfold o'. destruct (skip && match v with VNone => true | _ => false end) eqn:E.
    - apply andb_true_iff in E. destruct E as [E V]. assert (v = VNone) by (destruct v; congruence). rewrite F by (now left).
      destruct (typed_none t v T H) as (t' & ->). rewrite (D E n d t') by (now left). now subst.
    - rewrite lookup_put, str_eqb_refl. eapply R; [now left|exact T]. }
  rewrite L. cbn [obind]. rewrite (IH H2).
  - reflexivity.
  - intros E n' d' t' I. apply (D E n' d' t'). now right.
  - intros n' d' t' v' I. apply (R n' d' t' v'). now right.
  - intros n' I. unfold o'. destruct (skip && _); [apply F; now right|]. rewrite lookup_put. destruct (str_eqb n n') eqn:E; [|apply F; now right]. apply str_eqb_eq in E. congruence.
  - reflexivity.
Qed.
Lemma all_ok_back {A B} (f : A -> B) (g : B -> outcome A) l : (forall a, In a l -> g (f a) = Ok a) -> all_ok (map g (map f l)) = Ok l.
Proof.
  intros H. rewrite map_map. rewrite (all_ok_total _ (fun a => a)); [now rewrite map_id|exact H].
Qed.
Lemma round_trip : forall t v, restorable t -> typed t v -> from_json t (to_json t v) = Ok v.
Proof.
  induction t as [|lo hi| | | | |tb|t IH|t IH|t IH|s a b IHa IHb|k t IHk IH|t IH|skip fs IH|ts] using ty_ind'; intros v R T; inversion T; subst; cbn [to_json].
  - reflexivity.
  - cbn. unfold cast. rewrite Z.mod_small by lia. do 2 f_equal. lia.
  - reflexivity.
  - reflexivity.
  - reflexivity.
  - cbn [from_json]. assert (ND : NoDup (map fst tb)) by (inversion R as [t K| | | | | | | | |]; subst; now inversion K). destruct (enum_back tb n z ND H0) as (e & E & <-). now rewrite E.
  - reflexivity.
  - inversion R as [t0 K| | |t0 R' NN| | | | | |]; subst; [inversion K|]. cbn [from_json]. pose proof (not_null t v0 R' NN H0) as J. rewrite IH by auto.
    destruct (to_json t v0); try reflexivity. now destruct J.
  - assert (R' : restorable t) by (inversion R as [t0 K| | | | | | | | |]; subst; [inversion K|auto]). cbn [from_json elements]. rewrite (all_ok_back (to_json t)); [reflexivity|]. auto.
  - assert (K : key_type t) by (inversion R as [t0 K| | | | | | | | |]; subst; [inversion K|auto]). cbn [from_json elements]. rewrite (all_ok_back (to_json t)).
    + cbn. rewrite (incl_all t K l []); auto.
    + intros a I. apply IH; [now constructor|auto].
  - assert (R' : lit s <> lit "first" /\ restorable a /\ restorable b) by (inversion R as [t0 K| | | | | | | | |]; subst; [inversion K|auto]). destruct R' as (N & Ra & Rb).
    cbn [from_json field]. rewrite !lookup_put, str_eqb_refl. destruct (str_eqb (lit s) (lit "first")) eqn:E; [apply str_eqb_eq in E; now destruct N|]. rewrite str_eqb_refl.
    cbn [obind]. rewrite IHa, IHb by auto. reflexivity.
  - assert (R' : key_type k /\ restorable t) by (inversion R as [t0 K| | | | | | | | |]; subst; [inversion K|auto]). destruct R' as (K & R'). cbn [from_json elements]. match goal with H : forall x y, In (x, y) l -> _ |- _ => rename H into HT end.
    rewrite (all_ok_back (fun e : val * val => JObj (put (put [] (lit "key") (to_json k (fst e))) (lit "value") (to_json t (snd e))))).
    + cbn. rewrite (insert_all k K l []); auto. intros x y I. now apply HT in I.
    + intros [x y] I. apply HT in I. destruct I as [I1 I2]. cbn [field fst snd]. rewrite !lookup_put. change (str_eqb (lit "value") (lit "key")) with false. rewrite !str_eqb_refl.
      cbn [obind]. rewrite IHk, IH by (auto; now constructor). reflexivity.
  - assert (R' : restorable t) by (inversion R as [t0 K| | | | | | | | |]; subst; [inversion K|auto]). rewrite str_fields.
    + cbn [app from_json]. rewrite map_map. cbn [fst snd]. rewrite (all_ok_total _ (fun e => (VStr (fst e), snd e))); [reflexivity|]. intros [x y] I. cbn [fst snd]. rewrite IH; [reflexivity|auto|eauto].
    + cbn [app]. rewrite map_map. exact H1.
  - match goal with |- from_json _ (JObj ?o) = Ok (VRec ?l) => change (JObj o) with (to_json (TRec skip fs) (VRec l)) end.
    rewrite to_json_rec, from_json_rec. inversion R as [t0 K| | | | | | | | |skip' fs' ND RF SK]; subst; [inversion K|]. rewrite rec_back; auto. intros n d t v I Tv. eapply IH; eauto.
Qed.
Lemma unknown_field skip fs l1 k x l2 : ~ In k (map fst fs) -> from_json (TRec skip fs) (JObj (l1 ++ (k, x) :: l2)) = from_json (TRec skip fs) (JObj (l1 ++ l2)).
Proof.
  intros N. rewrite !from_json_rec. f_equal. induction fs as [|[n [d t]] fs IH]; [reflexivity|]. cbn [read_fields]. cbn in N. rewrite IH by tauto.
  assert (L : lookup (l1 ++ (k, x) :: l2) n = lookup (l1 ++ l2) n); [|now rewrite L].
  clear -N. induction l1 as [|[m y] l1 IHl]; cbn [app lookup]; [|now rewrite IHl]. destruct (str_eqb k n) eqn:E; [|reflexivity]. apply str_eqb_eq in E. destruct N. now left.
Qed.
