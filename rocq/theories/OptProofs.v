(** Proofs for OptProps.v *)
From Coq Require Import String Lia.
From Verif Require Import Base StrModel ConvModel OptModel OptSpec.
From Verif Require AttrModel AttrProofs StrProofs CommentProofs ConvProofs ConvSpec ConvTexts.
Local Open Scope nat_scope.

(** ** Splitting *)
Inductive cuts (ch : Z) : str -> list str -> Prop :=
| cuts_nil : cuts ch [] []
| cuts_last t : t <> [] -> ~ In ch t -> cuts ch t [t]
| cuts_more t r ts : ~ In ch t -> cuts ch r ts -> cuts ch (t ++ ch :: r) (t :: ts).
Lemma getline_last ch t : ~ In ch t -> getline_aux ch t = (t, []).
Proof.
  induction t as [|x t IH]; intros N; [reflexivity|]. cbn [getline_aux]. destruct (Z.eqb_spec x ch) as [->|_].
  - exfalso. apply N. now left.
  - rewrite IH; [reflexivity|]. intros X. apply N. now right.
Qed.
Lemma getline_more ch t r : ~ In ch t -> getline_aux ch (t ++ ch :: r) = (t, r).
Proof.
  induction t as [|x t IH]; intros N.
  - cbn. now rewrite Z.eqb_refl.
  - cbn [getline_aux app]. destruct (Z.eqb_spec x ch) as [->|_].
    + exfalso. apply N. now left.
    + rewrite IH; [reflexivity|]. intros X. apply N. now right.
Qed.
Lemma cuts_loop ch s ts : cuts ch s ts -> forall f acc, length s < f -> split_char_loop f s ch acc = Ok (acc ++ ts).
Proof.
  induction 1 as [|t Ht N|t r ts N C IH]; intros f acc L; (destruct f as [|f]; [cbn in L; lia|]).
  - cbn. now rewrite app_nil_r.
  - cbn [split_char_loop]. unfold getline. destruct t as [|x t]; [congruence|]. rewrite getline_last by exact N.
    destruct f as [|f]; [cbn in L; lia|]. reflexivity.
  - cbn [split_char_loop]. unfold getline. rewrite getline_more by exact N.
    assert (X : exists x y, t ++ ch :: r = x :: y) by (destruct t; cbn; eauto). destruct X as (x & y & X). rewrite X.
    rewrite IH. now rewrite <- app_assoc. rewrite app_length in L. cbn in L. lia.
Qed.
Lemma cuts_split ch s ts : cuts ch s ts -> split_on s ch = Done ts.
Proof. intros C. unfold split_on, split_char. rewrite (cuts_loop _ _ _ C) by lia. reflexivity. Qed.
Lemma cuts_total ch : forall n s, length s <= n -> exists ts, cuts ch s ts.
Proof.
  induction n as [|n IH]; intros s L.
  - destruct s; [|cbn in L; lia]. eauto using cuts_nil.
  - destruct (in_dec Z.eq_dec ch s) as [I|I].
    + apply in_split in I as (a & b & ->).
      assert (X : exists t r, a ++ ch :: b = t ++ ch :: r /\ ~ In ch t).
      { clear. induction a as [|x a (t & r & E & N)].
        - exists [], b. auto.
        - destruct (Z.eq_dec x ch) as [->|D].
          + exists [], (a ++ ch :: b). auto.
          + exists (x :: t), r. cbn. rewrite E. split; [reflexivity|]. intros [->|Y]; auto. }
      destruct X as (t & r & E & N). rewrite E in *. destruct (IH r) as (ts & C).
      * rewrite app_length in L. cbn in L. lia.
      * eauto using cuts_more.
    + destruct s; [eauto using cuts_nil|]. eexists. apply cuts_last; [discriminate|exact I].
Qed.
Lemma cuts_pieces ch s ts : cuts ch s ts -> Forall (fun t => ~ In ch t) ts.
Proof. induction 1; auto. Qed.

(** ** Comparing names *)
Lemma norm_letters s : normalize s = letters s.
Proof.
  unfold letters. induction s as [|c s IH]; [reflexivity|]. cbn [normalize filter].
  rewrite IH. unfold alnum, is_lower, is_digit, is_upper, to_lower, lower_of, is_upper.
  destruct (Z.eqb_spec c 95), (Z.eqb_spec c 45); subst; try reflexivity. cbn [negb orb].
  destruct ((97 <=? c) && (c <=? 122))%Z eqn:A, ((48 <=? c) && (c <=? 57))%Z eqn:B, ((65 <=? c) && (c <=? 90))%Z eqn:C;
    cbn [orb app map]; unfold lower_of; rewrite ?C; auto; try (exfalso; lia).
Qed.
Lemma streq_iff s v : streq s v = true <-> letters s = letters (lit v).
Proof. unfold streq. rewrite AttrProofs.str_eqb_eq, !norm_letters. tauto. Qed.
Lemma streq_no s v : letters s <> letters (lit v) -> streq s v = false.
Proof. intros N. destruct (streq s v) eqn:E; [|reflexivity]. apply streq_iff in E. contradiction. Qed.

(** ** One value *)
Lemma contains_colon s : contains s [58%Z] = true <-> In 58%Z s.
Proof.
  unfold contains. destruct (find s [58%Z] 0) eqn:E.
  - apply CommentProofs.find_some in E. split; [|auto]. intros _. destruct E as [E _]. 
    destruct E as (a & b & -> & _). apply in_or_app. right. now left.
  - split; [discriminate|]. intros I. exfalso. apply CommentProofs.find_no in E. apply E.
    apply in_split in I as (a & b & ->). exists (length a), a, b. auto.
Qed.
Lemma value_split n v c : ~ In 58%Z n -> plain v -> option_value (n ++ 58%Z :: v) c = option_item (n ++ 58%Z :: v) n v c.
Proof.
  intros N (V & _ & W). unfold option_value.
  replace (contains (n ++ 58%Z :: v) [58%Z]) with true by (symmetry; apply contains_colon; apply in_or_app; right; now left).
  rewrite (cuts_split 58 _ [n; v]); [reflexivity|]. apply cuts_more; [exact N|]. apply cuts_last; assumption.
Qed.
Lemma value_missing n c : ~ In 58%Z n -> option_value (n ++ [58%Z]) c = Thrown.
Proof.
  intros N. unfold option_value.
  replace (contains (n ++ [58%Z]) [58%Z]) with true by (symmetry; apply contains_colon; apply in_or_app; right; now left).
  rewrite (cuts_split 58 _ [n]); [reflexivity|]. apply cuts_more; [exact N|]. apply cuts_nil.
Qed.
Lemma value_word v c : ~ In 58%Z v -> option_value v c = if streq v ":" then Done (set_fixed c) else Done (complain v c).
Proof.
  intros N. unfold option_value. destruct (contains v [58%Z]) eqn:E; [|reflexivity]. apply contains_colon in E. contradiction.
Qed.
Lemma value_empty c : option_value [] c = Done (set_fixed c).
Proof. reflexivity. Qed.

(** *** Numbers *)
Lemma digit_range d : (0 <= d <= 9)%Z -> is_digit (48 + d) = true /\ is_space (48 + d) = false.
Proof. intros D. unfold is_digit, is_space. split; lia. Qed.
Lemma digits_all ds : Forall (fun d => 0 <= d <= 9)%Z ds -> forall a seen, seen = true \/ ds <> [] ->
  ConvModel.digits (map (fun d => 48 + d)%Z ds) a seen = Some (fold_left (fun a d => 10 * a + d)%Z ds a).
Proof.
  induction 1 as [|d ds D F IH]; intros a seen S.
  - destruct S as [->|X]; [reflexivity|congruence].
  - cbn [map ConvModel.digits fold_left]. rewrite (proj1 (digit_range d D)), IH by auto. do 2 f_equal. lia.
Qed.
Lemma fold_nonneg ds : Forall (fun d => 0 <= d <= 9)%Z ds -> forall a, (0 <= a)%Z -> (0 <= fold_left (fun a d => 10 * a + d)%Z ds a)%Z.
Proof. induction 1 as [|d ds D F IH]; intros a A; cbn [fold_left]; [exact A|]. apply IH. lia. Qed.
Lemma number_head z v : number z v -> exists x r, v = x :: r /\ is_digit x = true /\ (48 <= x <= 57)%Z.
Proof.
  intros (ds & N & F & -> & _). destruct ds as [|d ds]; [congruence|]. inversion F; subst.
  cbn [map]. do 2 eexists. split; [reflexivity|]. split; [now apply digit_range|lia].
Qed.
Lemma stoi_number z v : number z v -> stoi v = Done z.
Proof.
  intros H. destruct (number_head z v H) as (x & r & E & D & R). destruct H as (ds & N & F & E2 & Z0 & L).
  assert (Y : stoi v = match ConvModel.digits v 0%Z false with
    | None => Thrown | Some z => if ((-2147483648 <=? z) && (z <=? 2147483647))%Z then Done z else Thrown end).
  { rewrite E. unfold stoi. cbn [skip_space]. replace (is_space x) with false by (unfold is_space; lia).
    assert (C : (x = 48 \/ x = 49 \/ x = 50 \/ x = 51 \/ x = 52 \/ x = 53 \/ x = 54 \/ x = 55 \/ x = 56 \/ x = 57)%Z) by lia.
    repeat (destruct C as [->|C]; [reflexivity|]). subst x. reflexivity. }
  rewrite Y, E2, digits_all by auto. rewrite <- Z0. pose proof (fold_nonneg ds F 0%Z ltac:(lia)) as P. rewrite <- Z0 in P.
  replace ((-2147483648 <=? z) && (z <=? 2147483647))%Z with true by lia. reflexivity.
Qed.
Lemma number_plain z v : number z v -> plain v.
Proof.
  intros (ds & N & F & -> & _). split; [destruct ds; [congruence|discriminate]|].
  split; intros I; apply in_map_iff in I as (d & E & I); rewrite Forall_forall in F; specialize (F d I); lia.
Qed.
Lemma number_word z v w : number z v -> (forall c r, letters (lit w) = c :: r -> ~ (48 <= c <= 57)%Z) -> streq v w = false.
Proof.
  intros H W. apply streq_no. intros E. destruct (number_head z v H) as (x & r & -> & D & R).
  unfold letters in E at 1. cbn [filter] in E. replace (alnum x) with true in E by (unfold alnum; lia). cbn [map] in E.
  unfold lower_of in E at 1. replace ((65 <=? x) && (x <=? 90))%Z with false in E by lia. symmetry in E. exact (W _ _ E R).
Qed.

(** *** What an item does *)
Definition applied (r : request) (c : config) : config :=
  match r with
  | Switch f b => set_switch f b c | Levels z => set_levels z c | Broken x => set_broken x c | Tags x => set_tags x c
  | Tasks x => set_tasks x c | Archived x => set_archived x c | Toc x => set_toc x c
  end.
Lemma names_found n f : In (n, f) names -> streq (lit n) "broken-links" = false /\ streq (lit n) "toc" = false /\
  first_switch plain_switches (lit n) = Some f /\ ~ In 58%Z (lit n) /\ ~ In 32%Z (lit n).
Proof.
  intros I. repeat (destruct I as [I|I]; [injection I as <- <-; repeat split; try reflexivity; vm_compute; intuition discriminate|]).
  destruct I.
Qed.
Lemma no_char (x : Z) (w : string) : existsb (Z.eqb x) (lit w) = false -> ~ In x (lit w).
Proof. intros E I. apply not_true_iff_false in E. apply E. apply existsb_exists. exists x. split; [exact I|apply Z.eqb_refl]. Qed.
Lemma plain_lit (w : string) : existsb (Z.eqb 32) (lit w) = false -> existsb (Z.eqb 58) (lit w) = false -> w <> ""%string -> plain (lit w).
Proof. intros A B C. split; [|split; now apply no_char]. destruct w; [congruence|discriminate]. Qed.
Lemma asks_shape n v r : asks n v r -> ~ In 58%Z n /\ ~ In 32%Z n /\ plain v.
Proof.
  destruct 1 as [n f v I V|n f v I P V W|z v H|z v H| | | | | | | | | | | | ];
    try (split; [now apply no_char|]; split; [now apply no_char|]; first [now apply plain_lit|now apply (number_plain z)]).
  - destruct (names_found n f I) as (_ & _ & _ & A & B). split; [exact A|]. split; [exact B|].
    destruct V as [->| ->]; now apply plain_lit.
  - destruct (names_found n f I) as (_ & _ & _ & A & B). auto.
Qed.
Lemma asks_item n v r value c : asks n v r -> option_item value n v c = Done (applied r c).
Proof.
  destruct 1 as [n f v I V|n f v I P V W|z v H|z v H| | | | | | | | | | | | ]; try reflexivity.
  - destruct (names_found n f I) as (A & B & C & _). unfold option_item. rewrite A, B, C. destruct V as [->| ->]; reflexivity.
  - destruct (names_found n f I) as (A & B & C & _). unfold option_item. rewrite A, B, C. unfold parse_bool, str_is.
    rewrite (proj2 (AttrProofs.str_eqb_neq v (lit "t")) V), (proj2 (AttrProofs.str_eqb_neq v (lit "T")) W). reflexivity.
  - change (option_item value (lit "H") v c) with (rbind (stoi v) (fun z => Done (set_levels z c))).
    now rewrite (stoi_number z v H).
  - destruct (number_head z v H) as (x & r & E & D & R).
    unfold option_item. change (streq (lit "toc") "broken-links") with false. change (streq (lit "toc") "toc") with true. cbv iota.
    rewrite (number_word z v "t" H), (number_word z v "nil" H);
      try (intros a b X; vm_compute in X; injection X as <- <-; lia).
    rewrite E at 1. rewrite D. now rewrite (stoi_number z v H).
Qed.
Lemma asks_value n v r c : asks n v r -> option_value (n ++ 58%Z :: v) c = Done (applied r c).
Proof.
  intros A. destruct (asks_shape n v r A) as (N & _ & P). rewrite value_split by assumption. now apply asks_item.
Qed.

(** ** A line *)
Definition word (i : item) : str := name_of i ++ 58%Z :: value_of i.
Fixpoint vals (l : list item) : list str :=
  match l with [] => [] | i :: r => repeat [] (spaces_before i) ++ word i :: vals r end.
Lemma cuts_spaces k s ts : cuts 32 s ts -> cuts 32 (repeat 32%Z k ++ s) (repeat [] k ++ ts).
Proof. intros C. induction k as [|k IH]; [exact C|]. exact (cuts_more 32 [] _ _ (fun x => x) IH). Qed.
Lemma word_solid i : sound i -> word i <> [] /\ ~ In 32%Z (word i).
Proof.
  intros S. destruct (asks_shape _ _ _ S) as (_ & N & _ & V & _). unfold word. split.
  - destruct (name_of i); discriminate.
  - intros I. apply in_app_or in I as [I|[I|I]]; [auto|discriminate|auto].
Qed.
Lemma text_cons i l : text_of (i :: l) = 32%Z :: repeat 32%Z (spaces_before i) ++ word i ++ text_of l.
Proof. unfold text_of, word. cbn [flat_map repeat app]. now rewrite <- !app_assoc. Qed.
Lemma line_cuts l : Forall sound l -> l <> [] -> exists rest, text_of l = 32%Z :: rest /\ cuts 32 rest (vals l).
Proof.
  induction 1 as [|i l S F IH]; intros N; [congruence|]. rewrite text_cons. eexists. split; [reflexivity|].
  cbn [vals]. apply cuts_spaces. destruct (word_solid i S) as [A B]. destruct l as [|j l].
  - rewrite app_nil_r. apply cuts_last; assumption.
  - destruct IH as (rest & E & C); [discriminate|]. rewrite E. apply cuts_more; assumption.
Qed.
Lemma line_cuts_more l s ts : Forall sound l -> cuts 32 s ts -> exists rest, text_of l ++ 32%Z :: s = 32%Z :: rest /\ cuts 32 rest (vals l ++ ts).
Proof.
  induction 1 as [|i l S F IH]; intros C.
  - exists s. auto.
  - rewrite text_cons. eexists. split; [cbn [app]; reflexivity|]. cbn [vals]. rewrite <- !app_assoc. apply cuts_spaces.
    destruct (word_solid i S) as [A B]. destruct (IH C) as (rest & E & D). rewrite <- app_comm_cons, E. apply cuts_more; assumption.
Qed.

Lemma values_app l : forall m c, option_values (l ++ m) c = rbind (option_values l c) (option_values m).
Proof.
  induction l as [|v l IH]; intros m c; [reflexivity|]. cbn [option_values app rbind].
  destruct (option_value v c); cbn [rbind]; auto.
Qed.
Lemma values_empty k c : exists c', option_values (repeat [] k) c = Done c' /\ (c' = c \/ c' = set_fixed c).
Proof.
  revert c. induction k as [|k IH]; intros c; [exists c; auto|]. cbn [repeat option_values]. rewrite value_empty. cbn [rbind].
  destruct (IH (set_fixed c)) as (c' & E & [->| ->]); exists (set_fixed c); auto.
Qed.
Lemma applied_answered r c l c' : answered l (applied (wants r) c) c' -> answered (r :: l) c c'.
Proof.
  unfold answered. cbn [last_of].
  intros (A & B & C & D & E & F & G & H). rewrite B, C, D, E, F, G, H. clear B C D E F G H.
  split; [intros f; rewrite A; clear A|destruct (wants r); auto 10].
  destruct (wants r) as [g b|z|x|x|x|x|x]; try reflexivity. cbn. unfold switch_of. cbn. destruct (switch_dec g f); reflexivity.
Qed.
Lemma values_read l : Forall sound l -> forall c, exists c', option_values (vals l) c = Done c' /\ answered l c c'.
Proof.
  induction 1 as [|i l S F IH]; intros c.
  - exists c. split; [reflexivity|]. unfold answered. cbn. auto 10.
  - cbn [vals]. rewrite values_app. destruct (values_empty (spaces_before i) c) as (d & E & D). rewrite E. cbn [rbind option_values].
    unfold word. rewrite (asks_value _ _ _ d S). cbn [rbind].
    destruct (IH (applied (wants i) d)) as (c' & E' & A). exists c'. split; [exact E'|].
    apply applied_answered in A. destruct D as [->| ->]; exact A.
Qed.
Lemma read_line l c : Forall sound l -> exists c', read_options (text_of l) c = Done c' /\ answered l c c'.
Proof.
  intros F. destruct l as [|i l].
  - exists c. split; [reflexivity|]. unfold answered. cbn. auto 10.
  - destruct (line_cuts (i :: l) F) as (rest & E & C); [discriminate|]. rewrite E.
    destruct (values_read (i :: l) F (set_fixed c)) as (c' & E' & A). exists c'. split; [|exact A].
    unfold read_options. rewrite (cuts_split 32 _ ([] :: vals (i :: l))).
    + cbn [rbind option_values]. rewrite value_empty. exact E'.
    + exact (cuts_more 32 [] _ _ (fun x => x) C).
Qed.
Lemma last_none {A} (about : request -> option A) : forall l d, (forall i, In i l -> about (wants i) = None) -> last_of about d l = d.
Proof.
  induction l as [|i l IH]; intros d N; [reflexivity|]. cbn [last_of]. rewrite N by now left. apply IH. intros j I. apply N. now right.
Qed.

(** ** Any line *)
Inductive step : config -> config -> Prop :=
| step_none c : step c c
| step_switch f b c : ~ In f (map snd (tl signs)) -> step c (set_switch f b c)
| step_levels z c : step c (set_levels z c)
| step_broken x c : x <> BRaise -> step c (set_broken x c)
| step_tags x c : step c (set_tags x c)
| step_tasks x c : x <> TkWhitelist -> step c (set_tasks x c)
| step_archived x c : step c (set_archived x c)
| step_toc x c : step c (set_toc x c)
| step_fixed c : step c (set_fixed c)
| step_complain v c : step c (complain v c).
Lemma first_reach h f : first_switch plain_switches h = Some f -> ~ In f (map snd (tl signs)).
Proof.
  unfold plain_switches. cbn [first_switch].
  change (streq h "-") with (streq h "*"). change (streq h "'") with (streq h "*"). change (streq h ":") with (streq h "*").
  change (streq h "<") with (streq h "*"). change (streq h "^") with (streq h "*"). change (streq h "|") with (streq h "*").
  intros H. destruct (streq h "*"); cbn [tl signs map snd In];
    repeat match type of H with (if ?b then _ else _) = _ => destruct b end; inversion H; subst; intuition discriminate.
Qed.
Lemma item_step value h t c c' : option_item value h t c = Done c' -> step c c'.
Proof.
  unfold option_item. intros H.
  repeat match type of H with
  | (if ?b then _ else _) = _ => destruct b
  | Done (if ?b then _ else _) = _ => destruct b
  end; try (injection H as <-; constructor; discriminate); try (injection H as <-; constructor).
  - destruct t as [|x t]; [injection H as <-; constructor|]. destruct (is_digit x); [|injection H as <-; constructor].
    destruct (stoi (x :: t)); try discriminate. injection H as <-. constructor.
  - destruct (first_switch plain_switches h) as [f|] eqn:E.
    + injection H as <-. constructor. now apply first_reach in E.
    + repeat match type of H with
      | (if ?b then _ else _) = _ => destruct b
      | Done (if ?b then _ else _) = _ => destruct b
      end; try (injection H as <-; constructor; discriminate); try (injection H as <-; constructor).
      destruct (stoi t); try discriminate. injection H as <-. constructor.
Qed.
Lemma value_step v c c' : option_value v c = Done c' -> step c c'.
Proof.
  unfold option_value. intros H. destruct (contains v [58%Z]).
  - destruct (split_on v 58) as [parts| | | |]; try discriminate. cbn [rbind] in H.
    destruct (at_ parts 0); try discriminate. destruct (at_ parts 1); try discriminate. cbn [rbind] in H. eapply item_step; exact H.
  - destruct (streq v ":"); injection H as <-; constructor.
Qed.
Lemma values_keep (P : config -> Prop) : (forall c c', step c c' -> P c -> P c') ->
  forall l c c', option_values l c = Done c' -> P c -> P c'.
Proof.
  intros S. induction l as [|v l IH]; intros c c' H X; cbn [option_values] in H.
  - injection H as <-. exact X.
  - destruct (option_value v c) as [d| | | |] eqn:E; try discriminate. cbn [rbind] in H. apply value_step in E. eauto.
Qed.
Lemma read_keep (P : config -> Prop) s c c' : (forall c c', step c c' -> P c -> P c') ->
  read_options s c = Done c' -> P c -> P c'.
Proof.
  unfold read_options. intros S H X. destruct (split_on s 32) as [l| | | |]; try discriminate. cbn [rbind] in H. eapply values_keep; eauto.
Qed.
Lemma never_switched s c c' f : In f (map snd (tl signs)) -> read_options s c = Done c' -> switch_of c' f = switch_of c f.
Proof.
  intros I H. apply (read_keep (fun d => switch_of d f = switch_of c f) s c c'); auto. clear - I.
  intros d e T E. rewrite <- E. destruct T; try reflexivity. unfold switch_of. cbn. destruct (switch_dec f0 f); [congruence|reflexivity].
Qed.
Lemma never_raise s c c' : read_options s c = Done c' -> brokenLinks c' = BRaise -> brokenLinks c = BRaise.
Proof.
  intros H. destruct (brokenLinks c) eqn:B; auto; intros X; exfalso;
    (apply (read_keep (fun d => brokenLinks d <> BRaise) s c c'); auto; [|congruence]);
    intros d e T E; destruct T; cbn; auto.
Qed.
Lemma never_listed s c c' : read_options s c = Done c' -> taskFiltering c' = TkWhitelist -> taskFiltering c = TkWhitelist.
Proof.
  intros H. destruct (taskFiltering c) eqn:B; auto; intros X; exfalso;
    (apply (read_keep (fun d => taskFiltering d <> TkWhitelist) s c c'); auto; [|congruence]);
    intros d e T E; destruct T; cbn; auto.
Qed.
Lemma always_fixed s c c' : read_options (32%Z :: s) c = Done c' -> fixedSections c' = Some true.
Proof.
  unfold read_options. destruct (cuts_total 32 (length s) s (le_n _)) as (ts & C).
  rewrite (cuts_split 32 _ ([] :: ts)); [|exact (cuts_more 32 [] _ _ (fun x => x) C)].
  cbn [rbind option_values]. rewrite value_empty. cbn [rbind]. intros H.
  apply (values_keep (fun d => fixedSections d = Some true) ltac:(intros d e T E; destruct T; auto) _ _ _ H). reflexivity.
Qed.

(** A name without a value. *)
Lemma no_value l k n rest c : Forall sound l -> ~ In 58%Z n -> ~ In 32%Z n -> (forall x r, rest = x :: r -> x = 32%Z) ->
  read_options (text_of l ++ repeat 32%Z (S k) ++ n ++ 58%Z :: rest) c = Thrown.
Proof.
  intros F N M R.
  assert (X : exists ts, cuts 32 ((n ++ [58%Z]) ++ rest) ((n ++ [58%Z]) :: ts)).
  { assert (W : ~ In 32%Z (n ++ [58%Z])) by (intros I; apply in_app_or in I as [I|[I|[]]]; [auto|discriminate]).
    destruct rest as [|x r].
    - exists []. rewrite app_nil_r. apply cuts_last; [destruct n; discriminate|exact W].
    - rewrite (R x r eq_refl). destruct (cuts_total 32 (length r) r (le_n _)) as (ts & C). exists ts. apply cuts_more; assumption. }
  destruct X as (ts & C). apply (cuts_spaces k) in C. rewrite <- app_assoc in C. cbn [app] in C.
  destruct (line_cuts_more l _ _ F C) as (rest' & E & D). cbn [repeat app]. rewrite E.
  unfold read_options. rewrite (cuts_split 32 _ ([] :: vals l ++ repeat [] k ++ (n ++ [58%Z]) :: ts)).
  2: exact (cuts_more 32 [] _ _ (fun x => x) D).
  cbn [rbind option_values]. rewrite value_empty. cbn [rbind]. rewrite values_app.
  destruct (values_read l F (set_fixed c)) as (c1 & E1 & _). rewrite E1. cbn [rbind]. rewrite values_app.
  destruct (values_empty k c1) as (c2 & E2 & _). rewrite E2. cbn [rbind option_values]. rewrite value_missing by exact N. reflexivity.
Qed.

(** One value after a space. *)
Lemma read_one v c : v <> [] -> ~ In 32%Z v -> read_options (32%Z :: v) c = rbind (option_value v (set_fixed c)) Done.
Proof.
  intros N M. unfold read_options. rewrite (cuts_split 32 _ [[]; v]).
  - cbn [rbind option_values]. rewrite value_empty. cbn [rbind]. reflexivity.
  - apply (cuts_more 32 []); [intros []|]. apply cuts_last; assumption.
Qed.
Lemma sign_emphasis n v c : letters n = [] -> ~ In 58%Z n -> ~ In 32%Z n -> plain v ->
  exists c' b, read_options (32%Z :: n ++ 58%Z :: v) c = Done c' /\ switch_of c' Emphasis = Some b /\
    (b = true <-> v = lit "t" \/ v = lit "T").
Proof.
  intros L N M P. pose proof P as (V1 & V2 & V3). rewrite read_one.
  - rewrite value_split by assumption. unfold option_item.
    assert (Q : forall w : string, letters (lit w) <> [] -> streq n w = false) by (intros w W; apply streq_no; rewrite L; congruence).
    rewrite !Q by (intros X; vm_compute in X; discriminate X).
    assert (E : first_switch plain_switches n = Some Emphasis).
    { unfold plain_switches. cbn [first_switch]. rewrite !Q by (intros X; vm_compute in X; discriminate X).
      replace (streq n "*") with true by (symmetry; apply streq_iff; exact L). reflexivity. }
    rewrite E. cbn [rbind]. eexists. exists (parse_bool v). split; [reflexivity|]. split; [reflexivity|].
    unfold parse_bool, str_is. rewrite Bool.orb_true_iff, !AttrProofs.str_eqb_eq. tauto.
  - destruct n; discriminate.
  - intros I. apply in_app_or in I as [I|[I|I]]; [auto|discriminate|auto].
Qed.
Lemma unknown_item n v c : unknown n -> ~ In 58%Z n -> ~ In 32%Z n -> plain v ->
  exists c', read_options (32%Z :: n ++ 58%Z :: v) c = Done c' /\ only_complains (n ++ 58%Z :: v) c c'.
Proof.
  intros (L & U) N M P. pose proof P as (V1 & V2 & V3). rewrite read_one.
  - rewrite value_split by assumption. unfold option_item.
    assert (Q : forall w : string, In w known -> streq n w = false) by (intros w W; apply streq_no; auto).
    assert (Q2 : forall w : string, letters (lit w) = [] -> streq n w = false) by (intros w W; apply streq_no; congruence).
    assert (K : forall w : string, existsb (String.eqb w) known = true -> streq n w = false).
    { intros w W. apply Q. apply existsb_exists in W as (w' & I & E). apply String.eqb_eq in E. now subst. }
    rewrite !K by reflexivity.
    assert (E : first_switch plain_switches n = None).
    { unfold plain_switches. cbn [first_switch]. repeat first [rewrite K by reflexivity | rewrite Q2 by reflexivity]. reflexivity. }
    rewrite E. eexists. split; [reflexivity|]. unfold only_complains. cbn. auto 10.
  - destruct n; discriminate.
  - intros I. apply in_app_or in I as [I|[I|I]]; [auto|discriminate|auto].
Qed.
Lemma unknown_word v c : letters v <> [] -> ~ In 58%Z v -> ~ In 32%Z v ->
  exists c', read_options (32%Z :: v) c = Done c' /\ only_complains v c c'.
Proof.
  intros L N M. rewrite read_one; [|intros ->; now apply L|exact M]. rewrite value_word by exact N.
  rewrite streq_no by exact L. eexists. split; [reflexivity|]. unfold only_complains. cbn. auto 10.
Qed.

(** ** Startup *)
Lemma startup_read j k v (i : bool) : v <> V5 ->
  read_startup (repeat 32%Z j ++ (lit (startup_word v) ++ if i then 32%Z :: lit "indent" else []) ++ repeat 32%Z k) = Done (v, i).
Proof.
  intros V. unfold read_startup, strip_space.
  rewrite (ConvProofs.strip_trims [32%Z] [32%Z] _ (lit (startup_word v) ++ if i then 32%Z :: lit "indent" else [])).
  - destruct v, i; try congruence; vm_compute; reflexivity.
  - exists (repeat 32%Z j), (repeat 32%Z k). split; [reflexivity|].
    split; [apply Forall_forall; intros x I; apply repeat_spec in I; now left|].
    split; [apply Forall_forall; intros x I; apply repeat_spec in I; now left|].
    destruct v, i; (split; [do 2 eexists; split; [reflexivity|vm_compute; intuition discriminate]|]);
    match goal with |- exists c m, ?t = _ /\ _ =>
      let u := eval vm_compute in t in exists (last u 0%Z), (removelast u); split; [reflexivity|vm_compute; intuition discriminate] end.
Qed.
Lemma two_words a w : ~ In 32%Z a -> ~ In 32%Z w -> split_by (a ++ 32%Z :: w) " " = Done [a; w].
Proof.
  intros A W. unfold split_by. change (lit " ") with [32%Z].
  destruct (StrProofs.split_str_spec (a ++ 32%Z :: w) [32%Z] (S (S (length (a ++ 32%Z :: w))))) as (ts & E & Q); [discriminate|lia|].
  rewrite E. cbn [lift]. f_equal. eapply StrProofs.split_at_functional; [exact Q|].
  pose proof (ConvTexts.split_joined 32%Z [a; w]) as J. rewrite StrProofs.join_cons in J. cbn [flat_map app] in J. rewrite app_nil_r in J. apply J; [discriminate|]. apply Forall_cons; [exact A|]. apply Forall_cons; [exact W|apply Forall_nil].
Qed.
Lemma startup_second j k v w : v <> V5 -> w <> [] -> ~ In 32%Z w ->
  exists b, read_startup (repeat 32%Z j ++ (lit (startup_word v) ++ 32%Z :: w) ++ repeat 32%Z k) = Done (v, b) /\
    (b = true <-> letters w = letters (lit "indent")).
Proof.
  intros V N W. exists (streq w "indent"). split; [|apply streq_iff]. unfold read_startup, strip_space.
  rewrite (ConvProofs.strip_trims [32%Z] [32%Z] _ (lit (startup_word v) ++ 32%Z :: w)).
  - rewrite two_words; [|destruct v; vm_compute; intuition discriminate|exact W].
    cbn [rbind]. unfold at_. cbn [nth_error rbind]. generalize (streq w "indent"). intros b. destruct v; try congruence; vm_compute; reflexivity.
  - exists (repeat 32%Z j), (repeat 32%Z k). split; [reflexivity|].
    split; [apply Forall_forall; intros x I; apply repeat_spec in I; now left|].
    split; [apply Forall_forall; intros x I; apply repeat_spec in I; now left|].
    split; [destruct v; (do 2 eexists; split; [reflexivity|vm_compute; intuition discriminate])|].
    destruct (exists_last N) as (m & x & ->). exists x, (lit (startup_word v) ++ 32%Z :: m). split; [now rewrite <- app_assoc|].
    intros [I|[]]. apply W. apply in_or_app. right. now left.
Qed.
