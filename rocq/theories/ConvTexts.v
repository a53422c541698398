(** Numbers, completions, times and arguments are read as they are meant. *)
From Coq Require Import String.
From Verif Require Import Base StrModel NodeKind.
From Verif Require StrProofs StrSpec AttrProofs TreeProofs.
From Verif Require RegroupModel TreeSpec ParseModel AttrModel.
From Verif Require Import ConvModel ConvSpec ConvProofs.
Import TreeSpec.
Local Open Scope nat_scope.

(** ** Numbers *)
Local Notation val10 := (fold_left (fun v c => (10 * v + (c - 48))%Z)).
Lemma digits_value : forall s acc, Forall (fun c => 48 <= c <= 57)%Z s -> digits s acc true = Some (val10 s acc).
Proof.
  intros s. induction s as [|c r IH]; intros acc F; [reflexivity|]. inversion F; subst. cbn [digits fold_left].
  assert (is_digit c = true) as -> by (unfold is_digit; apply andb_true_iff; split; apply Z.leb_le; lia).
  rewrite IH by assumption. f_equal. f_equal. lia.
Qed.
Lemma numeral_digits : forall s z, numeral s z -> digits s 0%Z false = Some z /\ exists c r, s = c :: r /\ (48 <= c <= 57)%Z.
Proof.
  intros [|c r] z (N & F & -> & _); [contradiction|]. inversion F; subst. split; [|eauto]. cbn [digits fold_left].
  assert (is_digit c = true) as -> by (unfold is_digit; apply andb_true_iff; split; apply Z.leb_le; lia).
  rewrite digits_value by assumption. reflexivity.
Qed.
Lemma value_pos : forall s acc, Forall (fun c => 48 <= c <= 57)%Z s -> (0 <= acc)%Z -> (0 <= val10 s acc)%Z.
Proof.
  intros s. induction s as [|c r IH]; intros acc F P; [exact P|]. inversion F; subst. cbn [fold_left]. apply IH; [assumption|]. lia.
Qed.
Lemma numeral_range : forall s z, numeral s z -> (0 <= z <= 2147483647)%Z.
Proof. intros s z (_ & F & -> & L). split; [|exact L]. apply value_pos; [exact F|lia]. Qed.
Lemma space_digit : forall c, (48 <= c <= 57)%Z -> is_space c = false.
Proof. intros c H. unfold is_space. apply orb_false_iff. split; [apply andb_false_iff; right; apply Z.leb_gt; lia|apply Z.eqb_neq; lia]. Qed.
Lemma numeral_ok : forall s z, numeral s z -> stoi s = Done z.
Proof.
  intros s z N. destruct (numeral_digits s z N) as (E & c & r & -> & B). pose proof (numeral_range _ _ N). unfold stoi. cbn [skip_space]. rewrite space_digit by exact B.
  assert (H1 : (let (neg, body) := match c :: r with 45%Z :: r0 => (true, r0) | 43%Z :: r0 => (false, r0) | r0 => (false, r0) end in (neg, body)) = (false, c :: r)).
  { destruct c as [|p|p]; try lia. do 7 (destruct p as [p|p|]; try reflexivity; try lia). }
  destruct (match c :: r with 45%Z :: r0 => (true, r0) | 43%Z :: r0 => (false, r0) | r0 => (false, r0) end) as [neg body]. injection H1 as -> ->.
  rewrite E. replace ((-2147483648 <=? z) && (z <=? 2147483647))%Z with true; [reflexivity|]. symmetry. apply andb_true_iff. split; apply Z.leb_le; lia.
Qed.
Lemma numeral_plus : forall s z, numeral s z -> stoi (43%Z :: s) = Done z.
Proof.
  intros s z N. destruct (numeral_digits s z N) as (E & c & r & -> & B). pose proof (numeral_range _ _ N). unfold stoi. cbn [skip_space]. change (is_space 43) with false. cbv iota beta.
  rewrite E. replace ((-2147483648 <=? z) && (z <=? 2147483647))%Z with true; [reflexivity|]. symmetry. apply andb_true_iff. split; apply Z.leb_le; lia.
Qed.
Lemma numeral_minus : forall s z, numeral s z -> stoi (45%Z :: s) = Done (- z)%Z.
Proof.
  intros s z N. destruct (numeral_digits s z N) as (E & c & r & -> & B). pose proof (numeral_range _ _ N). unfold stoi. cbn [skip_space]. change (is_space 45) with false. cbv iota beta.
  rewrite E. replace ((-2147483648 <=? - z) && (- z <=? 2147483647))%Z with true; [reflexivity|]. symmetry. apply andb_true_iff. split; apply Z.leb_le; lia.
Qed.
Lemma numeral_last : forall s z, numeral s z -> exists m c, s = m ++ [c] /\ (48 <= c <= 57)%Z.
Proof.
  intros s z (N & F & _). destruct (exists_last N) as (m & c & ->). exists m, c. split; [reflexivity|]. apply Forall_app in F as [_ F]. inversion F; assumption.
Qed.
Lemma numeral_no : forall s z c, numeral s z -> (c < 48 \/ 57 < c)%Z -> ~ In c s.
Proof. intros s z c (_ & F & _) B I. rewrite Forall_forall in F. apply F in I. lia. Qed.

(** ** Parts between slashes *)
Lemma no_occurs : forall c (s : str), ~ In c s -> ~ StrSpec.occurs [c] s.
Proof. intros c s N (i & a & b & -> & _). apply N. apply in_or_app. right. left. reflexivity. Qed.
Lemma first_at : forall c (a b : str), ~ In c a -> StrSpec.first_occurrence [c] (a ++ [c] ++ b) (length a).
Proof.
  intros c a b N. split; [exists a, b; auto|]. intros j J (x & y & E & L).
  apply N. assert (H : nth_error (a ++ [c] ++ b) j = Some c) by (rewrite E, nth_error_app2, L, Nat.sub_diag by lia; reflexivity).
  rewrite nth_error_app1 in H by exact J. eapply nth_error_In. exact H.
Qed.
Lemma split_joined : forall c parts, parts <> [] -> Forall (fun p => ~ In c p) parts -> StrSpec.split_at [c] (join [c] parts) parts.
Proof.
  intros c parts. induction parts as [|p r IH]; intros N F; [contradiction|]. inversion F; subst. destruct r as [|q r].
  - rewrite StrProofs.join_cons. cbn [flat_map]. rewrite app_nil_r. constructor. apply no_occurs. assumption.
  - rewrite StrProofs.join_cons. cbn [flat_map]. rewrite <- app_assoc, <- (StrProofs.join_cons [c] q r). constructor; [apply first_at; assumption|]. apply IH; [discriminate|assumption].
Qed.
Lemma split_by_joined : forall parts, parts <> [] -> Forall (fun p => ~ In 47%Z p) parts -> split_by (join [47%Z] parts) "/" = Done parts.
Proof.
  intros parts N F. unfold split_by. change (lit "/") with [47%Z].
  destruct (StrProofs.split_str_spec (join [47%Z] parts) [47%Z] (S (S (length (join [47%Z] parts))))) as (ts & E & Q); [discriminate|lia|].
  rewrite E. cbn [lift]. f_equal. eapply StrProofs.split_at_functional; [exact Q|]. apply split_joined; assumption.
Qed.

Section Texts.
Variable toks : list RegroupModel.otok.
Lemma text_done : forall a s, text_of toks a s -> get_text toks a = Done s /\ is_error a = false.
Proof. intros a s (k & i & x & -> & E & <-). cbn. rewrite E. auto. Qed.
Lemma texts_done : forall l ss, Forall2 (text_of toks) l ss -> each (get_text toks) l = Done ss /\ existsb is_error l = false.
Proof.
  intros l ss F. split.
  - apply each_ok. eapply f2_impl; [|exact F]. intros x s _ _ T. apply text_done. exact T.
  - induction F as [|x s l ss T _ IH]; [reflexivity|]. cbn. destruct (text_done _ _ T) as [_ ->]. exact IH.
Qed.
Lemma full_not_empty : forall a, kind_of a <> nEmpty -> is_empty a = false.
Proof. intros a H. unfold is_empty, is_kind. apply nk_eqb_neq. exact H. Qed.

Lemma completion_ok : forall a l, completion toks a l -> is_error a = false /\ completion_of toks a = Done l.
Proof.
  intros a l [(-> & ->)|(s & T & K & H)]; [split; reflexivity|]. destruct (text_done _ _ T) as [G E]. split; [exact E|].
  unfold completion_of. rewrite (full_not_empty _ K), G. cbn [rbind]. destruct H as [(d & z & -> & N & ->)|(d & f & x & y & -> & Nd & Nf & ->)].
  - assert (strip (lit "[" ++ d ++ lit "%]") (chars [91%Z]) (chars [93%Z]) = d ++ [37%Z]) as ->.
    { apply strip_trims. exists [91%Z], [93%Z]. destruct (numeral_digits _ _ N) as (_ & c & r & -> & B).
      split; [rewrite <- app_assoc; reflexivity|]. split; [repeat constructor|]. split; [repeat constructor|].
      split; [exists c, (r ++ [37%Z]); split; [reflexivity|cbn; lia]|exists 37%Z, (c :: r); split; [reflexivity|cbn; lia]]. }
    rewrite (proj2 (StrProofs.ends_with_spec _ _)) by (exists d; reflexivity).
    assert (strip (d ++ [37%Z]) (chars []) (chars [37%Z]) = d) as ->.
    { apply strip_trims. exists [], [37%Z]. destruct (numeral_last _ _ N) as (m & c & -> & B).
      split; [reflexivity|]. split; [constructor|]. split; [repeat constructor|].
      split; [destruct m as [|b m]; [exists c, []|exists b, (m ++ [c])]; split; cbn; auto|exists c, m; split; [reflexivity|cbn; lia]]. }
    rewrite (numeral_ok _ _ N). reflexivity.
  - assert (strip (lit "[" ++ d ++ lit "/" ++ f ++ lit "]") (chars [91%Z]) (chars [93%Z]) = d ++ [47%Z] ++ f) as ->.
    { apply strip_trims. exists [91%Z], [93%Z]. destruct (numeral_digits _ _ Nd) as (_ & c & r & -> & B). destruct (numeral_last _ _ Nf) as (m & e & -> & Be).
      split; [change (lit "/") with [47%Z]; rewrite <- !app_assoc; reflexivity|]. split; [repeat constructor|]. split; [repeat constructor|].
      split; [exists c, (r ++ [47%Z] ++ m ++ [e]); split; [reflexivity|cbn; lia]|exists e, ((c :: r) ++ [47%Z] ++ m); split; [rewrite <- !app_assoc; reflexivity|cbn; lia]]. }
    assert (ends_with (d ++ [47%Z] ++ f) (lit "%") = false) as ->.
    { destruct (ends_with (d ++ [47%Z] ++ f) (lit "%")) eqn:X; [|reflexivity]. apply StrProofs.ends_with_spec in X as (r & X). exfalso.
      destruct (numeral_last _ _ Nf) as (m & e & -> & Be). change (lit "%") with [37%Z] in X. rewrite !app_assoc in X. apply app_inj_tail in X as [_ X]. lia. }
    assert (d ++ [47%Z] ++ f = join [47%Z] [d; f]) as -> by (rewrite StrProofs.join_cons; cbn [flat_map]; rewrite app_nil_r; reflexivity).
    rewrite split_by_joined; [|discriminate|constructor; [eapply numeral_no; [exact Nd|lia]|constructor; [eapply numeral_no; [exact Nf|lia]|constructor]]].
    unfold at_. cbn [rbind nth_error]. rewrite (numeral_ok _ _ Nd). cbn [rbind]. rewrite (numeral_ok _ _ Nf). reflexivity.
Qed.
Lemma unsigned : forall (c : Z) r, c <> 43%Z -> c <> 45%Z ->
  match c :: r with 43%Z :: r' => (true, r') | 45%Z :: r' => (false, r') | _ => (true, c :: r) end = (true, c :: r).
Proof. intros c r A B. destruct c as [|p|p]; auto. repeat (destruct p as [p|p|]; auto); congruence. Qed.
Lemma zone_ok : forall a o, zone toks a o -> is_error a = false /\
  (if is_empty a then Done None else s <- get_text toks a ;; o <- zone_of s ;; Done (Some o)) = Done o.
Proof.
  intros a o [(-> & ->)|(s & g & hs & h & ms & m & T & K & -> & Lh & Nh & M & G)]; [split; reflexivity|].
  destruct (text_done _ _ T) as [Et E]. split; [exact E|]. rewrite (full_not_empty _ K), Et. cbn [rbind].
  assert (Q : forall p : bool, (let (pos, z) := (p, hs ++ ms) in hm <- (if length z =? 2 then h <- stoi z ;; Done (h, 0%Z)
         else if length z =? 4 then h <- stoi (substr z 0 2) ;; m <- stoi (substr z 2 2) ;; Done (h, m)
         else Done (0, 0)%Z) ;; let off := (fst hm * 3600 + snd hm * 60)%Z in Done (if pos : bool then off else - off)%Z) = Done (if p then h * 3600 + m * 60 else - (h * 3600 + m * 60))%Z).
  { intros p. cbv beta iota. rewrite app_length, Lh. destruct M as [(-> & ->)|(Lm & Nm)].
    - cbn [length Nat.add Nat.eqb]. rewrite app_nil_r, (numeral_ok _ _ Nh). reflexivity.
    - rewrite Lm. cbn [Nat.add Nat.eqb]. unfold substr. change (skipn 0 (hs ++ ms)) with (hs ++ ms).
      assert (firstn 2 (hs ++ ms) = hs) as -> by (rewrite firstn_app, Lh, firstn_all2 by lia; apply app_nil_r).
      assert (skipn 2 (hs ++ ms) = ms) as -> by (rewrite skipn_app, Lh, skipn_all2 by lia; reflexivity).
      rewrite firstn_all2 by lia. rewrite (numeral_ok _ _ Nh). cbn [rbind]. rewrite (numeral_ok _ _ Nm). reflexivity. }
  destruct G as [([->| ->] & ->)|(-> & ->)].
  - assert (zone_of (hs ++ ms) = Done (h * 3600 + m * 60)%Z) as Z0; [|cbn [app]; rewrite Z0; reflexivity].
    rewrite <- (Q true). unfold zone_of. destruct hs as [|c hs]; [discriminate|]. cbn [app]. rewrite unsigned; [reflexivity| |];
      destruct Nh as (_ & Fh & _); inversion Fh; subst; lia.
  - change (lit "+" ++ hs ++ ms) with (43%Z :: hs ++ ms). assert (zone_of (43%Z :: hs ++ ms) = Done (h * 3600 + m * 60)%Z) as -> by exact (Q true). reflexivity.
  - change (lit "-" ++ hs ++ ms) with (45%Z :: hs ++ ms). assert (zone_of (45%Z :: hs ++ ms) = Done (- (h * 3600 + m * 60))%Z) as -> by exact (Q false). reflexivity.
Qed.
Lemma period_ok : forall s z, period s z -> period_of s = Done z.
Proof.
  intros s z (d & u & -> & I & N). unfold period_of. rewrite app_length. cbn [length].
  replace (length d + 1 - 1) with (length d) by lia. unfold substr. cbn [skipn]. rewrite firstn_app, firstn_all, Nat.sub_diag. cbn [firstn]. rewrite app_nil_r.
  assert (stoi d = Done z) as ->.
  { destruct N as [N|[(e & -> & N)|(e & m & -> & N & ->)]]; [apply numeral_ok|apply numeral_plus|apply numeral_minus]; exact N. }
  unfold at_. rewrite nth_error_app2, Nat.sub_diag by lia. cbn [rbind nth_error].
  assert (chars [100; 109; 119; 121; 77; 104]%Z u = true) as ->; [|reflexivity]. apply chars_in. exact I.
Qed.
Lemma repetition_ok : forall a z, repetition toks a z -> repeat_of toks a = Done z.
Proof.
  intros a z [k mode p m s z' rest Tm Tp P]. unfold repeat_of, at_. cbn [sub_of nth_error rbind].
  rewrite (proj1 (text_done _ _ Tm)). cbn [rbind]. rewrite (proj1 (text_done _ _ Tp)). cbn [rbind]. apply period_ok. exact P.
Qed.
End Texts.
