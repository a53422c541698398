(** Proofs for C120, part one: texts, names, and how the lines of a drawer are told apart. *)
From Coq Require Import String Lia.
From Verif Require Import Base StrModel StrSpec StrProofs AttrModel TokModel TimeModel PropModel PropSpec.
From Verif Require JsonModel ConvModel ConvSpec ConvProofs ConvTexts AttrProofs Utf8Proofs TokRun.
Local Open Scope Z_scope.

(** ** Characters *)
Lemma low_is : forall c, to_lower c = low c.
Proof. intros c. unfold to_lower, is_upper, low. reflexivity. Qed.
Lemma lows_are : forall s, map to_lower s = map low s.
Proof. intros s. apply map_ext. apply low_is. Qed.
Lemma essence_is : forall s, normalize s = essence s.
Proof.
  intros s. rewrite Utf8Proofs.normalize_folded. unfold folded_alnum. induction s as [|c s IH]; [reflexivity|]. cbn [filter essence].
  unfold StrSpec.is_alnum, is_lower, is_upper, is_digit in *.
  destruct ((97 <=? c) && (c <=? 122)), ((65 <=? c) && (c <=? 90)), ((48 <=? c) && (c <=? 57)); cbn [orb map]; rewrite ?IH, ?low_is; reflexivity.
Qed.
Definition wordy (c : Z) : bool := is_word c || Z.eqb c 45.
Lemma wordy_spec : forall c, wordy c = true <-> letter c \/ c = 95 \/ c = 45.
Proof.
  intros c. unfold wordy, is_word, is_alnum, is_alpha, is_lower, is_upper, is_digit, letter. lia.
Qed.
Lemma low_idem : forall c, to_lower (to_lower c) = to_lower c.
Proof. intros c. unfold to_lower, is_upper. destruct ((65 <=? c) && (c <=? 90)) eqn:E; [|now rewrite E]. destruct ((65 <=? c + 32) && (c + 32 <=? 90)) eqn:F; lia. Qed.
Lemma low_colon : forall c, to_lower c = 58 <-> c = 58.
Proof. intros c. unfold to_lower, is_upper. destruct ((65 <=? c) && (c <=? 90)) eqn:E; lia. Qed.

(** ** Patterns *)
Lemma run_stop : forall f a r, Forall (fun c => f c = true) a -> match r with c :: _ => f c = false | [] => True end -> run_len f (a ++ r) = length a.
Proof.
  intros f a r F S. induction F as [|c a E _ IH]; cbn [app run_len length].
  - destruct r as [|c r]; [reflexivity|]. cbn. now rewrite S.
  - rewrite E, IH. reflexivity.
Qed.
Lemma ident_wordy : forall a, ident a <-> a <> [] /\ Forall (fun c => wordy c = true) a.
Proof.
  intros a. unfold ident. split; intros [N F]; (split; [exact N|]); eapply Forall_impl; try exact F; intros c; apply wordy_spec.
Qed.
Lemma ident_run : forall a r, ident a -> p_ident (a ++ 58 :: r) = Some (length a).
Proof.
  intros a r I. apply ident_wordy in I. destruct I as [N F]. unfold p_ident, p_many1. rewrite (run_stop wordy) by (auto; reflexivity).
  destruct a; [congruence|reflexivity].
Qed.
Lemma ident_inv : forall s n, p_seq p_ident (p_chr c_colon) s = Some n -> exists a r, s = a ++ 58 :: r /\ ident a /\ n = (length a + 1)%nat.
Proof.
  intros s n H. unfold p_seq in H. destruct (p_ident s) as [k|] eqn:E; [|discriminate]. unfold p_ident in E. apply TokRun.many_inv in E. destruct E as [-> P].
  unfold p_chr, p_cls in H. destruct (skipn _ s) as [|c r] eqn:S; [discriminate|]. destruct (Z.eqb_spec c_colon c) as [<-|]; [|discriminate]. injection H as <-.
  exists (firstn (run_len (fun c : Z => is_word c || (c =? c_minus)) s) s), r. rewrite <- S, firstn_skipn. split; [reflexivity|].
  rewrite firstn_length_le by apply TokRun.run_len_le. split; [|reflexivity]. apply ident_wordy. split.
  - intros E. apply (f_equal (@length Z)) in E. rewrite firstn_length_le in E by apply TokRun.run_len_le. cbn in E. lia.
  - apply (TokRun.run_len_all wordy).
Qed.
Lemma ident_seq : forall a r, ident a -> p_seq p_ident (p_chr c_colon) (a ++ 58 :: r) = Some (length a + 1)%nat.
Proof.
  intros a r I. unfold p_seq. rewrite ident_run by exact I. rewrite skipn_app, skipn_all, Nat.sub_diag. reflexivity.
Qed.
Lemma colons_ident : forall a r, ident a -> colons p_ident (58 :: a ++ 58 :: r) = Some (2 + length a)%nat.
Proof. intros a r I. unfold colons. unfold p_seq at 1. cbn [p_chr p_cls Z.eqb Pos.eqb skipn]. rewrite ident_seq by exact I. f_equal. lia. Qed.
Lemma colons_inv : forall s n, colons p_ident s = Some n -> exists a r, s = 58 :: a ++ 58 :: r /\ ident a /\ n = (2 + length a)%nat.
Proof.
  intros s n H. unfold colons in H. unfold p_seq at 1 in H. destruct s as [|c s]; [discriminate|]. change (p_chr c_colon (c :: s)) with (if Z.eqb c_colon c then Some 1%nat else None) in H.
  destruct (Z.eqb_spec c_colon c) as [<-|]; [|discriminate]. cbn [skipn] in H. destruct (p_seq p_ident (p_chr c_colon) s) as [m|] eqn:E; [|discriminate]. injection H as <-.
  apply ident_inv in E. destruct E as (a & r & -> & I & ->). exists a, r. repeat split; auto; try apply I. lia.
Qed.

(** Patterns of literals only see lower case letters *)
Lemma ilit_lower : forall l s, p_ilit l s = p_ilit l (map to_lower s).
Proof.
  unfold p_ilit. intros l. induction l as [|c l IH]; intros s; [now destruct s|]. destruct s as [|d s]; [reflexivity|]. cbn [map p_fold].
  rewrite low_idem, IH. reflexivity.
Qed.
Lemma chr_lower : forall s, p_chr c_colon s = p_chr c_colon (map to_lower s).
Proof.
  intros [|c s]; [reflexivity|]. unfold p_chr, p_cls. cbn [map]. destruct (Z.eqb_spec c_colon c) as [<-|N]; [reflexivity|].
  destruct (Z.eqb_spec c_colon (to_lower c)) as [E|]; [|reflexivity]. symmetry in E. apply (proj1 (low_colon _)) in E. congruence.
Qed.
Definition caseless (p : pat) : Prop := forall s, p s = p (map to_lower s).
Lemma alt_lower : forall p q, caseless p -> caseless q -> caseless (p_alt p q).
Proof. intros p q P Q s. unfold p_alt. now rewrite (P s), (Q s). Qed.
Lemma seq_lower : forall p q, caseless p -> caseless q -> caseless (p_seq p q).
Proof.
  intros p q P Q s. unfold p_seq. rewrite <- (P s). destruct (p s) as [n|]; [|reflexivity]. rewrite (Q (skipn n s)), (Q (skipn n (map to_lower s))).
  rewrite !skipn_map. rewrite (map_map to_lower to_lower), (map_ext _ _ low_idem). reflexivity.
Qed.
Lemma arguments_lower : caseless (colons p_argument_property).
Proof. unfold colons, p_argument_property. repeat first [apply seq_lower | apply alt_lower]; intros s; first [apply chr_lower | apply ilit_lower]. Qed.
Lemma text_lower : caseless (colons p_text_property).
Proof. unfold colons, p_text_property. repeat first [apply seq_lower | apply alt_lower]; intros s; first [apply chr_lower | apply ilit_lower]. Qed.
Lemma lower_name : forall a r, map to_lower (58 :: a ++ 58 :: r) = 58 :: map low a ++ 58 :: map to_lower r.
Proof. intros a r. cbn [map]. rewrite map_app, lows_are. reflexivity. Qed.

(** A literal followed by a colon at a name *)
Lemma name_lit : forall w a r, ~ In 58 w -> ~ In 58 a -> p_ilit (w ++ [58]) (a ++ 58 :: r) <> None -> map to_lower w = map to_lower a.
Proof.
  unfold p_ilit. intros w. induction w as [|c w IH]; intros a r W A H.
  - destruct a as [|d a]; [reflexivity|]. exfalso. apply H. cbn [app p_fold]. destruct (Z.eqb_spec (to_lower 58) (to_lower d)) as [E|]; [|reflexivity].
    symmetry in E. apply (proj1 (low_colon _)) in E. subst d. exfalso. apply A. now left.
  - destruct a as [|d a].
    + exfalso. apply H. cbn [app p_fold]. destruct (Z.eqb_spec (to_lower c) (to_lower 58)) as [E|]; [|reflexivity]. apply (proj1 (low_colon _)) in E. subst c. exfalso. apply W. now left.
    + cbn [app p_fold] in H. destruct (Z.eqb_spec (to_lower c) (to_lower d)) as [E|]; [|congruence]. cbn [map]. f_equal; [exact E|].
      apply (IH a r); [intros X; apply W; now right|intros X; apply A; now right|]. intros X. rewrite X in H. apply H. reflexivity.
Qed.
Lemma seq_lit : forall w s, p_seq (p_ilit w) (p_chr c_colon) s <> None -> p_ilit (w ++ [58]) s <> None.
Proof.
  unfold p_ilit. intros w. induction w as [|c w IH]; intros s H.
  - unfold p_seq in H. cbn [p_fold app] in *. destruct s as [|d s]; [exfalso; apply H; reflexivity|]. unfold p_chr, p_cls in H. cbn [skipn] in H.
    destruct (Z.eqb_spec c_colon d) as [<-|]; [|congruence]. cbn. discriminate.
  - unfold p_seq in H. cbn [p_fold app] in *. destruct s as [|d s]; [exfalso; apply H; reflexivity|]. destruct (to_lower c =? to_lower d) eqn:Q; [|cbn [option_map] in H; congruence].
    specialize (IH s). unfold p_seq in IH. destruct (p_fold _ w s) as [k|] eqn:E; cbn [option_map] in H; [|congruence]. cbn [skipn] in H.
    assert (X : p_fold (fun a b : Z => to_lower a =? to_lower b) (w ++ [58]) s <> None).
    { apply IH. intros X. destruct (p_chr c_colon (skipn k s)); congruence. }
    destruct (p_fold _ (w ++ [58]) s); [discriminate|congruence].
Qed.
Lemma seq_alt : forall p q t s, p_seq (p_alt p q) t s <> None -> p_seq p t s <> None \/ p_seq q t s <> None.
Proof. intros p q t s H. unfold p_seq, p_alt in *. destruct (p s); [left; exact H|right; exact H]. Qed.
Lemma ident_colon : forall a, ident a -> ~ In 58 a.
Proof. intros a [_ F] I. rewrite Forall_forall in F. apply F in I. unfold letter in I. lia. Qed.
Ltac no_colon := cbn; intuition discriminate.
Lemma plain_lit : forall w a r, ident a -> ~ In 58 w -> map to_lower w <> map to_lower a -> p_ilit (58 :: w ++ [58]) (58 :: a ++ 58 :: r) = None.
Proof.
  intros w a r I W N. change (58 :: w ++ [58]) with ([58] ++ (w ++ [58])). unfold p_ilit. cbn [app p_fold Z.eqb to_lower is_upper].
  destruct (p_fold _ (w ++ [58]) (a ++ 58 :: r)) eqn:E; [|destruct (to_lower 58 =? to_lower 58); reflexivity]. exfalso. apply N. apply (name_lit w a r); auto using ident_colon.
  unfold p_ilit. congruence.
Qed.
Lemma plain_args : forall a r, ident a -> ~ In (map low a) (map lit ["header-args"; "header_args"; "prop_args"; "prop-args"]%string) ->
  colons p_argument_property (58 :: a ++ 58 :: r) = None.
Proof.
  intros a r I N. unfold colons. unfold p_seq at 1. cbn [p_chr p_cls Z.eqb Pos.eqb skipn]. destruct (p_seq p_argument_property _ _) eqn:E; [|reflexivity]. exfalso. apply N.
  assert (H : p_seq p_argument_property (p_chr c_colon) (a ++ 58 :: r) <> None) by congruence. clear E N. unfold p_argument_property in H.
  repeat (apply seq_alt in H; destruct H as [H|H]; [apply seq_lit, name_lit in H; [rewrite <- lows_are, <- H; cbn; auto 10|no_colon|apply ident_colon; exact I]|]).
  apply seq_lit, name_lit in H; [rewrite <- lows_are, <- H; cbn; auto 10|no_colon|apply ident_colon; exact I].
Qed.
Lemma plain_text : forall a r, ident a -> ~ In (map low a) (map lit ["description"; "created"; "hashtag_def"; "hashtag-def"; "hashtag"]%string) ->
  colons p_text_property (58 :: a ++ 58 :: r) = None.
Proof.
  intros a r I N. unfold colons. unfold p_seq at 1. cbn [p_chr p_cls Z.eqb Pos.eqb skipn]. destruct (p_seq p_text_property _ _) eqn:E; [|reflexivity]. exfalso. apply N.
  assert (H : p_seq p_text_property (p_chr c_colon) (a ++ 58 :: r) <> None) by congruence. clear E N. unfold p_text_property in H.
  repeat (apply seq_alt in H; destruct H as [H|H]; [apply seq_lit, name_lit in H; [rewrite <- lows_are, <- H; cbn; auto 10|no_colon|apply ident_colon; exact I]|]).
  apply seq_lit, name_lit in H; [rewrite <- lows_are, <- H; cbn; auto 10|no_colon|apply ident_colon; exact I].
Qed.

(** ** Telling lines apart *)
Lemma special_cases : forall a r, special a ->
  p_ilit (lit ":end:") (58 :: a ++ 58 :: r) <> None \/ p_ilit (lit ":properties:") (58 :: a ++ 58 :: r) <> None \/
  p_ilit (lit ":logbook:") (58 :: a ++ 58 :: r) <> None \/ colons p_argument_property (58 :: a ++ 58 :: r) <> None \/
  colons p_text_property (58 :: a ++ 58 :: r) <> None.
Proof.
  intros a r S. rewrite (ilit_lower (lit ":end:")), (ilit_lower (lit ":properties:")), (ilit_lower (lit ":logbook:")), arguments_lower, text_lower, lower_name.
  generalize (map to_lower r). intros q. unfold special in S. cbn [map] in S.
  repeat (destruct S as [<-|S]; [first [left; discriminate | right; left; discriminate | right; right; left; discriminate
    | right; right; right; left; discriminate | right; right; right; right; discriminate]|]). destruct S.
Qed.
Lemma not_special : forall a r, ident a -> ~ special a ->
  p_ilit (lit ":end:") (58 :: a ++ 58 :: r) = None /\ p_ilit (lit ":properties:") (58 :: a ++ 58 :: r) = None /\
  p_ilit (lit ":logbook:") (58 :: a ++ 58 :: r) = None /\ colons p_argument_property (58 :: a ++ 58 :: r) = None /\
  colons p_text_property (58 :: a ++ 58 :: r) = None.
Proof.
  intros a r I S. split; [|split; [|split; [|split]]].
  - apply (plain_lit (lit "end")); [exact I|no_colon|]. intros E. apply S. unfold special. rewrite <- lows_are, <- E. cbn. auto 20.
  - apply (plain_lit (lit "properties")); [exact I|no_colon|]. intros E. apply S. unfold special. rewrite <- lows_are, <- E. cbn. auto 20.
  - apply (plain_lit (lit "logbook")); [exact I|no_colon|]. intros E. apply S. unfold special. rewrite <- lows_are, <- E. cbn. auto 20.
  - apply plain_args; [exact I|]. intros E. apply S. unfold special. cbn [map In] in *. tauto.
  - apply plain_text; [exact I|]. intros E. apply S. unfold special. cbn [map In] in *. tauto.
Qed.
Lemma firstn_here : forall (a b : str), firstn (length a) (a ++ b) = a.
Proof. intros. rewrite firstn_app, Nat.sub_diag, firstn_all. cbn. apply app_nil_r. Qed.
Lemma skipn_here : forall (a b : str), skipn (length a) (a ++ b) = b.
Proof. intros. rewrite skipn_app, Nat.sub_diag, skipn_all. reflexivity. Qed.
Lemma subname_one : forall (a r : str), p_seq p_ident (p_chr c_colon) r = None -> with_subname (a ++ r) (length a) = length a.
Proof. intros a r N. unfold with_subname. rewrite skipn_here, N. reflexivity. Qed.
Lemma subname_two : forall (a b r : str), ident b -> with_subname (a ++ b ++ 58 :: r) (length a) = length (a ++ b ++ [58]).
Proof. intros a b r I. unfold with_subname. rewrite skipn_here, ident_seq by exact I. rewrite !app_length. cbn [length]. lia. Qed.
(** The lines of literal properties *)
Lemma spaces_skip : forall k r, hd_error r <> Some 32 -> run_len (Z.eqb c_sp) (repeat 32 k ++ r) = k /\ skipn k (repeat 32 k ++ r) = r.
Proof.
  intros k r H. split; [apply TokRun.run_spaces; exact H|]. rewrite <- (repeat_length 32 k) at 1. apply skipn_here.
Qed.
Lemma literal_line : forall k a r, ident a -> ~ special a ->
  property_line (repeat 32 k ++ 58 :: a ++ 58 :: r) =
  let e := with_subname (repeat 32 k ++ 58 :: a ++ 58 :: r) (2 + length a + k) in
  Some (KLiteral, firstn e (repeat 32 k ++ 58 :: a ++ 58 :: r), skipn e (repeat 32 k ++ 58 :: a ++ 58 :: r)).
Proof.
  intros k a r I S. unfold property_line. destruct (spaces_skip k (58 :: a ++ 58 :: r)) as [-> ->]; [discriminate|].
  destruct (not_special a r I S) as (-> & -> & -> & -> & ->). rewrite colons_ident by exact I. reflexivity.
Qed.
Lemma line_one : forall k a r, ident a -> ~ special a -> p_seq p_ident (p_chr c_colon) r = None ->
  property_line (repeat 32 k ++ 58 :: a ++ 58 :: r) = Some (KLiteral, repeat 32 k ++ 58 :: a ++ [58], r).
Proof.
  intros k a r I S N. rewrite literal_line by assumption. cbv zeta.
  replace (repeat 32 k ++ 58 :: a ++ 58 :: r) with ((repeat 32 k ++ 58 :: a ++ [58]) ++ r) by (rewrite <- !app_assoc; cbn [app]; rewrite <- app_assoc; reflexivity).
  replace (2 + length a + k)%nat with (length (repeat 32 k ++ 58 :: a ++ [58])) by (rewrite app_length, repeat_length; cbn [length]; rewrite app_length; cbn [length]; lia).
  rewrite subname_one, firstn_here, skipn_here by exact N. reflexivity.
Qed.
Lemma line_two : forall k a b r, ident a -> ident b -> ~ special a ->
  property_line (repeat 32 k ++ 58 :: a ++ 58 :: b ++ 58 :: r) = Some (KLiteral, repeat 32 k ++ 58 :: a ++ 58 :: b ++ [58], r).
Proof.
  intros k a b r I J S. rewrite literal_line by assumption. cbv zeta.
  replace (repeat 32 k ++ 58 :: a ++ 58 :: b ++ 58 :: r) with ((repeat 32 k ++ 58 :: a ++ [58]) ++ b ++ 58 :: r) by (rewrite <- !app_assoc; cbn [app]; rewrite <- app_assoc; reflexivity).
  replace (2 + length a + k)%nat with (length (repeat 32 k ++ 58 :: a ++ [58])) by (rewrite app_length, repeat_length; cbn [length]; rewrite app_length; cbn [length]; lia).
  rewrite subname_two by exact J.
  replace ((repeat 32 k ++ 58 :: a ++ [58]) ++ b ++ 58 :: r) with (((repeat 32 k ++ 58 :: a ++ [58]) ++ b ++ [58]) ++ r) by (rewrite <- !app_assoc; cbn [app]; reflexivity).
  rewrite firstn_here, skipn_here. f_equal. f_equal. f_equal. rewrite <- !app_assoc. cbn [app]. rewrite <- app_assoc. reflexivity.
Qed.
(** What a literal property looks like *)
Lemma literal_inv : forall l tok v, property_line l = Some (KLiteral, tok, v) ->
  exists k a, ident a /\ ~ special a /\ l = tok ++ v /\
    ((tok = repeat 32 k ++ 58 :: a ++ [58] /\ p_seq p_ident (p_chr c_colon) v = None) \/ exists b, ident b /\ tok = repeat 32 k ++ 58 :: a ++ 58 :: b ++ [58]).
Proof.
  intros l tok v H. pose proof H as H0. unfold property_line in H. set (k := run_len (Z.eqb c_sp) l) in *.
  pose proof (TokRun.spaces_run l) as El. fold k in El. remember (skipn k l) as s eqn:Es.
  destruct (p_ilit (lit ":end:") s) eqn:E1; [discriminate|]. destruct (p_ilit (lit ":properties:") s) eqn:E2; [discriminate|].
  destruct (p_ilit (lit ":logbook:") s) eqn:E3; [discriminate|]. destruct (colons p_argument_property s) eqn:E4; [discriminate|].
  destruct (colons p_text_property s) eqn:E5; [discriminate|]. destruct (colons p_ident s) as [span|] eqn:E6; [|discriminate].
  apply colons_inv in E6. destruct E6 as (a & r & Ea & I & ->).
  assert (S : ~ special a) by (intros S; apply (special_cases a r) in S; rewrite <- Ea in S; destruct S as [?|[?|[?|[?|?]]]]; congruence).
  exists k, a. split; [exact I|]. split; [exact S|]. clear H. rewrite Ea in El.
  destruct (p_seq p_ident (p_chr c_colon) r) as [m|] eqn:Er.
  - apply ident_inv in Er. destruct Er as (b & q & -> & J & _). rewrite El in H0. rewrite line_two in H0 by assumption. injection H0 as <- <-. split.
    + rewrite El, <- !app_assoc. cbn [app]. rewrite <- !app_assoc. cbn [app]. rewrite <- app_assoc. reflexivity.
    + right. exists b. auto.
  - rewrite El in H0. rewrite line_one in H0 by assumption. injection H0 as <- <-. split.
    + rewrite El, <- !app_assoc. cbn [app]. rewrite <- !app_assoc. reflexivity.
    + left. auto.
Qed.
