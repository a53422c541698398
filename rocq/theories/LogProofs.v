(** Proofs for LogProps.v *)
From Coq Require Import String Lia.
From Verif Require Import Base StrModel ConvModel LogModel LogSpec.
From Verif Require AttrModel AttrProofs.
Local Open Scope nat_scope.

Lemma osk_refl k : osk_eqb k k = true.
Proof. unfold osk_eqb. destruct (osk_dec k k); congruence. Qed.
Lemma osk_eq a b : osk_eqb a b = true <-> a = b.
Proof. unfold osk_eqb. destruct (osk_dec a b); split; congruence. Qed.
Lemma osk_neq a b : osk_eqb a b = false <-> a <> b.
Proof. unfold osk_eqb. destruct (osk_dec a b); split; congruence. Qed.
Lemma str_is_eq s v : str_is s v = true <-> s = lit v.
Proof. apply AttrProofs.str_eqb_eq. Qed.
Lemma str_is_neq s v : str_is s v = false <-> s <> lit v.
Proof. apply AttrProofs.str_eqb_neq. Qed.

(** ** Reading a sentence *)
(** The letters of a blank are no word. *)
Lemma norm_repeat c n : (c = 32 \/ c = 10)%Z -> normalize (repeat c n) = [].
Proof. intros [-> | ->]; induction n as [|n IH]; auto; cbn [repeat normalize]; rewrite IH; reflexivity. Qed.


(** One node of a sentence, in front of others *)
Lemma seek_skip k x r : is_a oWord x = false -> is_a k x = false -> seek k (x :: r) = seek k r.
Proof. intros A B. cbn [seek]. now rewrite A, B. Qed.
Lemma seek_word k x r : is_a oWord x = true -> osk_eqb k oWord = false -> seek k (x :: r) = None.
Proof. intros A B. cbn [seek]. now rewrite A, B. Qed.
Lemma seek_hit k x r : is_a oWord x = false -> is_a k x = true -> seek k (x :: r) = Some x.
Proof. intros A B. cbn [seek]. now rewrite A, B. Qed.
Lemma after_skip v k x r : (forall s, leaf_text x = Some s -> str_is (normalize s) v = false) ->
  node_after v k (x :: r) = node_after v k r.
Proof. intros A. cbn [node_after]. destruct (leaf_text x) as [s|]; auto. now rewrite (A s). Qed.
Lemma after_hit v k x r t s : leaf_text x = Some s -> str_is (normalize s) v = true -> seek k r = Some t ->
  node_after v k (x :: r) = Some t.
Proof. intros A B C. cbn [node_after]. now rewrite A, B, C. Qed.
Lemma after_miss v k x r : seek k r = None -> node_after v k (x :: r) = node_after v k r.
Proof. intros A. cbn [node_after]. destruct (leaf_text x) as [s|]; auto. rewrite A. now destruct (str_is _ _). Qed.

Lemma norm_lit v : In v ["tag"; "added"; "removed"; "on"; "state"; "from"; "note"; "taken"; "refiled"; "priority"; "changed"; "deadline"]%string ->
  forall u, In u ["tag"; "added"; "removed"; "on"; "state"; "from"; "note"; "taken"; "refiled"; "priority"; "changed"; "deadline"]%string ->
  str_is (lit u) v = String.eqb u v.
Proof.
  intros V u U. cbn [In] in V, U.
  destruct V as [<-|[<-|[<-|[<-|[<-|[<-|[<-|[<-|[<-|[<-|[<-|[<-|[]]]]]]]]]]]]];
  destruct U as [<-|[<-|[<-|[<-|[<-|[<-|[<-|[<-|[<-|[<-|[<-|[<-|[]]]]]]]]]]]]]; reflexivity.
Qed.

Lemma silent_after v k l : Forall (fun x => ~ says v x) l -> node_after v k l = None.
Proof.
  induction 1 as [|x l H _ IH]; auto. rewrite after_skip; auto.
  intros s E. apply str_is_neq. intros N. apply H. split.
  - unfold leaf_text in E. unfold leaf_kind. destruct (skind x); cbn [In]; tauto || discriminate E.
  - unfold leaf_text in E. destruct (skind x); try discriminate E; injection E as <-; auto.
Qed.
Lemma seek_none k l : Forall (fun x => skind x <> k) l -> seek k l = None.
Proof.
  induction 1 as [|x l H _ IH]; auto. cbn [seek]. destruct (_ && _); auto.
  unfold is_a. apply osk_neq in H. now rewrite H.
Qed.
Lemma after_kind_none v k l : Forall (fun x => skind x <> k) l -> node_after v k l = None.
Proof. induction 1 as [|x l H F IH]; auto. rewrite after_miss; auto using seek_none. Qed.

Lemma tag_back t : htag_of (tag_node t) = t.
Proof.
  revert t. fix IH 1. intros [h l]. cbn [tag_node htag_of text dtext List.hd]. f_equal.
  induction l as [|x l IHl]; cbn [map]; auto. cbn [snd]. now rewrite IH, IHl.
Qed.
Lemma tag_kind t : exists f, tag_node t = Sem oHashTag (text [let 'HT h _ := t in h]) f [] [].
Proof. destruct t. eexists. reflexivity. Qed.

(** A sentence as nodes: the head of each piece *)
Ltac nodes H :=
  lazymatch type of H with
  | Forall2 _ [] _ => inversion H; subst; clear H
  | Forall2 _ (_ :: _) _ =>
      let x := fresh "x" in let F := fresh "F" in let R := fresh "R" in
      inversion H as [|? x ? ? F R]; subst; clear H; nodes R
  end.
Ltac open_fits :=
  repeat match goal with
  | F : fits (PWord _) ?x |- _ => cbn [fits] in F; unfold is_leaf in F; destruct F as (? & -> & F)
  | F : fits PGap ?x |- _ => cbn [fits] in F; unfold is_leaf in F; destruct F as (? & ->)
  | F : fits PQuote ?x |- _ => cbn [fits] in F; unfold is_leaf in F; subst
  | F : fits (PName _) ?x |- _ => cbn [fits] in F; unfold is_leaf in F; subst
  | F : fits (PTime _) ?x |- _ => destruct F as (? & ? & ->)
  | F : fits (PRange _ _) ?x |- _ => destruct F as (? & ? & (? & ? & ->) & (? & ? & ->) & ->)
  | F : fits (PTag ?t) ?x |- _ => cbn [fits] in F; subst
  | F : fits (PLink _) ?x |- _ => destruct F as (? & ->)
  end.

(** The end of the line *)
Lemma ending_first tail d k : ending tail d -> In k [oWord; oTime; oLink] -> firsts k tail = [].
Proof.
  intros E K. destruct E as [|x (n & ->)|g b x d (m & ->) -> (n & ->) _]; auto.
  cbn [In] in K. now destruct K as [<-|[<-|[<-|[]]]].
Qed.
Lemma ending_described tail d : ending tail d -> drop_blank (after_break tail) = d.
Proof.
  destruct 1 as [|x (n & ->)|g b x d (m & ->) -> (n & ->) D]; auto.
  change (drop_blank (Sem oNewline (text [repeat 10%Z n]) [] [] [] :: d) = d). cbn [drop_blank].
  change (is_a oNewline (Sem oNewline (text [repeat 10%Z n]) [] [] [])) with true. cbn [orb].
  destruct d as [|y d]; auto. destruct D as [A B]. cbn [drop_blank]. unfold is_a.
  apply osk_neq in A. apply osk_neq in B. now rewrite A, B.
Qed.
Lemma ending_after tail d v k : ending tail d -> lit v <> [] -> node_after v k d = None -> node_after v k tail = None.
Proof.
  intros E V D. destruct E as [|x (n & ->)|g b x d (m & ->) -> (n & ->) _]; auto.
  - rewrite after_skip; auto. intros s X. injection X as <-. rewrite norm_repeat by auto. apply str_is_neq. congruence.
  - rewrite !after_skip; auto; intros s X; injection X as <-; rewrite ?norm_repeat by auto; apply str_is_neq;
      try congruence. cbn. congruence.
Qed.
Lemma ending_seek tail d k : ending tail d -> ~ In k [oSpace; oPunctuation; oNewline; oWord] -> seek k d = None -> seek k tail = None.
Proof.
  intros E K D. cbn [In] in K.
  destruct E as [|x (n & ->)|g b x d (m & ->) -> (n & ->) _]; auto;
    rewrite !seek_skip; auto; try reflexivity; unfold is_a; apply osk_neq; cbn [skind]; intros X; subst k; tauto.
Qed.
Lemma break_app l tail : Forall (fun x => is_break x = false) l -> after_break (l ++ tail) = after_break tail.
Proof. induction 1 as [|x l H _ IH]; auto. cbn [app after_break]. now rewrite H. Qed.
Lemma first_app k l tail : Forall (fun x => is_a oNewline x = false) l -> firsts k (l ++ tail) = filter (is_a k) l ++ firsts k tail.
Proof.
  unfold firsts. induction 1 as [|x l H _ IH]; auto. cbn [app before_newline]. rewrite H. cbn [filter].
  rewrite IH. now destruct (is_a k x).
Qed.
Lemma fits_line ps l : Forall2 fits ps l -> Forall (fun x => is_a oNewline x = false /\ is_break x = false) l.
Proof.
  induction 1 as [|p x ps l H _ IH]; constructor; auto.
  destruct p; open_fits; auto. destruct (tag_kind t) as (f & ->). auto.
Qed.

Definition the_word (p : piece) : list str := match p with PWord v => [lit v] | _ => [] end.
Lemma fits_words ps l : Forall2 fits ps l -> map (fun x => normalize (leaf x)) (filter (is_a oWord) l) = flat_map the_word ps.
Proof.
  induction 1 as [|p x ps l H _ IH]; auto. cbn [flat_map filter].
  destruct p; open_fits; try exact IH.
  - change (is_a oWord _) with true. cbn [map the_word app]. f_equal; [exact H|exact IH].
  - destruct (tag_kind t) as (f & ->). exact IH.
Qed.
Definition the_time (p : piece) : list str := match p with PTime t => [t] | _ => [] end.
Lemma fits_times ps l : Forall2 fits ps l -> Forall2 is_time (flat_map the_time ps) (filter (is_a oTime) l).
Proof.
  induction 1 as [|p x ps l H _ IH]; [constructor|]. cbn [flat_map filter].
  destruct p; open_fits; try exact IH.
  - change (is_a oTime _) with true. constructor; auto. repeat eexists.
  - destruct (tag_kind t) as (f & ->). exact IH.
Qed.
Lemma static_ok t x : is_time t x -> static_time x = Done t.
Proof. intros (a & r & ->). reflexivity. Qed.

Section Line.
Variables (ps : list piece) (l tail d : list sem).
Hypothesis (F : Forall2 fits ps l) (E : ending tail d).
Lemma line_words : words_of (l ++ tail) = flat_map the_word ps.
Proof.
  unfold words_of. rewrite first_app, (ending_first tail d), app_nil_r; cbn [In]; auto using fits_words.
  eapply Forall_impl; [|exact (fits_line _ _ F)]. now intros x [H _].
Qed.
Lemma line_times : Forall2 is_time (flat_map the_time ps) (firsts oTime (l ++ tail)).
Proof.
  rewrite first_app, (ending_first tail d), app_nil_r; cbn [In]; auto using fits_times.
  eapply Forall_impl; [|exact (fits_line _ _ F)]. now intros x [H _].
Qed.
Lemma line_described more : described (l ++ tail) more = description d more.
Proof.
  unfold described. rewrite break_app, (ending_described tail d); auto; [now destruct d, more|].
  eapply Forall_impl; [|exact (fits_line _ _ F)]. now intros x [_ H].
Qed.
End Line.

Ltac sk := repeat first [rewrite seek_skip by reflexivity | rewrite seek_hit by reflexivity | rewrite seek_word by reflexivity].
Ltac norm := cbn [sdata dtext text List.hd]; match goal with
  | H : normalize ?s = lit _ |- context [normalize ?s] => rewrite H
  | |- context [normalize (repeat _ _)] => rewrite norm_repeat by auto
  | _ => idtac
  end; reflexivity.
Ltac skip1 := match goal with |- context [node_after ?v ?k (?x :: ?r)] =>
  rewrite (after_skip v k x r) by (let z := fresh in let X := fresh in intros z X; first [discriminate X | injection X as <-; norm]) end.
Ltac miss1 := match goal with |- context [node_after ?v ?k (?x :: ?r)] => rewrite (after_miss v k x r) by (sk; first [reflexivity | assumption]) end.
Ltac hit1 := match goal with |- context [node_after ?v ?k (?x :: ?r)] =>
  erewrite (after_hit v k x r); [|reflexivity|norm|sk; reflexivity] end.
Ltac look := repeat first [skip1 | miss1 | hit1].

Section Read.
Variables (tail d : list sem).
Hypothesis (E : ending tail d).
Ltac start F := unfold read_head; rewrite (line_words _ _ tail d F E).
Ltac lay F := cbn [flat_map spaced w app] in F; nodes F; open_fits; cbn [app].
Ltac times F y T1 := let T := fresh in pose proof (line_times _ _ tail d F E) as T;
  cbn [flat_map the_time spaced w app] in T; inversion T as [|? y ? ? T1 ?]; subst; clear T.

Lemma read_note on l ps : sentence (HNote (Some on)) = Some ps -> Forall2 fits ps l -> read_head (l ++ tail) = Done (Some (HNote (Some on))).
Proof.
  intros X F. injection X as <-. start F. times F y T1.
  change (rbind (time_after "on" (l ++ tail)) (fun on0 => Done (Some (HNote on0))) = Done (Some (HNote (Some on)))).
  lay F. unfold time_after. look. reflexivity.
Qed.
Lemma read_tag_line t added on l ps : sentence (HTag t added (Some on)) = Some ps -> Forall2 fits ps l ->
  read_head (l ++ tail) = Done (Some (HTag t added (Some on))).
Proof.
  intros X F. injection X as <-. start F.
  destruct (tag_kind t) as (f & K).
  transitivity (read_tag [lit "tag"; lit (if added then "added" else "removed"); lit "on"] (l ++ tail)); [now destruct added|].
  lay F. unfold read_tag, time_after. destruct added; rewrite <- (tag_back t) at 2; rewrite K; look; reflexivity.
Qed.
Lemma read_refiled on t l ps : sentence (HRefile (Some on) (Some t)) = Some ps -> Forall2 fits ps l ->
  read_head (l ++ tail) = Done (Some (HRefile (Some on) (Some t))).
Proof.
  intros X F. injection X as <-. start F. times F y T1.
  change (read_refile (l ++ tail) = Done (Some (HRefile (Some on) (Some t)))).
  unfold read_refile. match goal with H : _ :: _ = firsts oTime _ |- _ => rewrite <- H; clear H end.
  rewrite first_app by (eapply Forall_impl; [|exact (fits_line _ _ F)]; now intros x [A _]).
  rewrite (ending_first tail d oLink E) by (cbn [In]; auto).
  lay F. look. reflexivity.
Qed.
Lemma read_clocked from to l ps : sentence (HClock from to) = Some ps -> Forall2 fits ps l -> read_head (l ++ tail) = Done (Some (HClock from to)).
Proof.
  intros X F. destruct to as [to|]; injection X as <-; start F; lay F; reflexivity.
Qed.
Lemma read_added new on l ps : sentence (HPriority Added None (Some new) (Some on)) = Some ps -> Forall2 fits ps l ->
  read_head (l ++ tail) = Done (Some (HPriority Added None (Some new) (Some on))).
Proof.
  intros X F. injection X as <-. start F.
  change (read_priority [lit "priority"; lit "added"; lit "on"] (l ++ tail) = Done (Some (HPriority Added None (Some new) (Some on)))).
  unfold read_priority, time_after, text_after. lay F. look. reflexivity.
Qed.
Lemma read_changed old new on l ps : sentence (HPriority Changed (Some old) (Some new) (Some on)) = Some ps -> Forall2 fits ps l ->
  read_head (l ++ tail) = Done (Some (HPriority Changed (Some old) (Some new) (Some on))).
Proof.
  intros X F. injection X as <-. start F.
  change (read_priority [lit "priority"; lit "changed"; lit "from"; lit "on"] (l ++ tail) = Done (Some (HPriority Changed (Some old) (Some new) (Some on)))).
  unfold read_priority, time_after, text_after. lay F. look. reflexivity.
Qed.
Lemma read_stated from to on l ps : undisturbed (HState from to (Some on)) d ->
  sentence (HState from to (Some on)) = Some ps -> Forall2 fits ps l ->
  read_head (l ++ tail) = Done (Some (HState from to (Some on))).
Proof.
  intros [U V] X F. pose proof (ending_after tail d "on" oTime E ltac:(discriminate) (silent_after _ _ _ U)) as Q.
  destruct from as [|c from]; injection X as <-; start F; times F y T1.
  - specialize (V eq_refl). pose proof (seek_none _ _ V) as S. apply (ending_seek tail d) in S; auto;
      [|cbn [In]; intros K; repeat destruct K as [K|K]; discriminate K || destruct K].
    pose proof (ending_after tail d "from" oBigIdent E ltac:(discriminate) (after_kind_none _ _ _ V)) as R.
    change (read_state (l ++ tail) = Done (Some (HState [] to (Some on)))).
    unfold read_state, time_after, text_after. match goal with H : _ :: _ = firsts oTime _ |- _ => rewrite <- H; clear H end.
    lay F. look. rewrite Q, R. cbn [option_map rbind static_opt nth_error]. now rewrite (static_ok on y).
  - change (read_state (l ++ tail) = Done (Some (HState (c :: from) to (Some on)))).
    unfold read_state, time_after, text_after. match goal with H : _ :: _ = firsts oTime _ |- _ => rewrite <- H; clear H end.
    lay F. look. destruct (str_is (normalize (c :: from)) "on") eqn:O.
    { match goal with |- context [node_after ?v ?k (?x :: ?r)] =>
        erewrite (after_hit v k x r); [|reflexivity|exact O|sk; reflexivity] end. reflexivity. }
    match goal with |- context [node_after ?v ?k (?x :: ?r)] =>
      rewrite (after_skip v k x r) by (let z := fresh in let Y := fresh in intros z Y; injection Y as <-; exact O) end.
    look. rewrite Q. cbn [option_map rbind static_opt nth_error]. now rewrite (static_ok on y).
Qed.
End Read.

Lemma sentence_read h ps l tail d : sentence h = Some ps -> Forall2 fits ps l -> ending tail d -> undisturbed h d ->
  read_head (l ++ tail) = Done (Some h) /\ h <> HUnknown.
Proof.
  intros X F E U.
  destruct h as [a old new on|on|on from|from to|from to on|from to on|from to on|t added on|]; try discriminate X;
    (split; [|discriminate]).
  - destruct a, old, new, on; try discriminate X; eauto using read_added, read_changed.
  - destruct on; try discriminate X; eauto using read_note.
  - destruct on, from; try discriminate X; eauto using read_refiled.
  - eauto using read_clocked.
  - destruct on; try discriminate X; eauto using read_stated.
  - destruct on; try discriminate X; eauto using read_tag_line.
Qed.
Lemma item_read item par more h ps l tail d : ssubs item = par :: more -> ssubs par = l ++ tail ->
  sentence h = Some ps -> Forall2 fits ps l -> ending tail d -> undisturbed h d ->
  read_entry item = Done (Logged (Entry h (description d more))).
Proof.
  intros I P X F E U. unfold read_entry. rewrite I. cbn [at_ nth_error rbind]. rewrite P.
  destruct (sentence_read h ps l tail d X F E U) as [R N]. rewrite R. cbn [rbind tl].
  rewrite (line_described ps l tail d F E more). destruct h; congruence.
Qed.

(** ** Writing a sentence *)
Lemma nested_text t : nested t = tag_text t.
Proof. reflexivity. Qed.
Lemma item_written st sn span ep e ps : sentence (ehead e) = Some ps ->
  write_entry st sn span ep e =
  Done (match edesc e with
        | Some d => Wrote (spelled st span (ehead e) ps ++ lit " \\") d
        | None => Wrote (spelled st span (ehead e) ps) []
        end).
Proof.
  intros X.
  assert (H : write_head st sn span ep e = Done (spelled st span (ehead e) ps)).
  { destruct e as [h d]. cbn [ehead] in *. unfold write_head. cbn [ehead].
    destruct h as [a old new on|on|on from|from to|from to on|from to on|from to on|t added on|]; try discriminate X.
    - destruct a, old, new, on; try discriminate X; injection X as <-; cbn [must rbind]; f_equal;
        unfold spelled, show_time, bracketed; cbn; rewrite <- ?app_assoc; cbn; rewrite <- ?app_assoc; cbn; rewrite ?app_nil_r; auto.
    - destruct on; try discriminate X; injection X as <-. f_equal. unfold spelled, show_time. cbn. rewrite ?app_nil_r. auto.
    - destruct on, from; try discriminate X; injection X as <-. f_equal. unfold spelled, show_time, show_from. cbn.
      rewrite <- ?app_assoc. cbn. rewrite ?app_nil_r, <- ?app_assoc. auto.
    - destruct to; injection X as <-; f_equal; unfold spelled, show_time; cbn; rewrite <- ?app_assoc; cbn;
        rewrite ?app_nil_r, <- ?app_assoc; auto.
    - destruct on; try discriminate X. destruct from; injection X as <-; f_equal; unfold spelled, show_time; cbn;
        rewrite ?app_nil_r, <- ?app_assoc; cbn; rewrite <- ?app_assoc; auto.
    - destruct on; try discriminate X. injection X as <-. f_equal. unfold spelled, show_time. rewrite nested_text.
      destruct added; cbn; rewrite ?app_nil_r, <- ?app_assoc; cbn; rewrite <- ?app_assoc; auto. }
  unfold write_entry. rewrite H. now destruct (edesc e).
Qed.

(** ** What stops the reading *)
Lemma is_a_yes k x : skind x = k -> is_a k x = true.
Proof. apply osk_eq. Qed.
Lemma is_a_no k x : skind x <> k -> is_a k x = false.
Proof. apply osk_neq. Qed.
Lemma words_first l ws : first_words l ws -> words_of l = ws.
Proof.
  unfold words_of, firsts. induction 1 as [|x r K|x r ws K _ IH|x r ws N K _ IH]; auto; cbn [before_newline].
  - now rewrite (is_a_yes oNewline x).
  - rewrite (is_a_no oNewline x) by congruence. cbn [filter]. rewrite (is_a_yes oWord x) by auto. cbn [map]. f_equal; auto.
  - rewrite (is_a_no oNewline x) by auto. cbn [filter]. now rewrite (is_a_no oWord x).
Qed.
Lemma seek_some k l : k <> oWord -> (seek k l <> None <-> exists m t c, l = m ++ t :: c /\ Forall (fun y => skind y <> oWord) m /\ skind t = k).
Proof.
  intros K. split.
  - induction l as [|x l IH]; cbn [seek]; [congruence|]. intros N.
    destruct (is_a oWord x) eqn:W; unfold is_a in W.
    + apply osk_neq in K. rewrite K in N. cbn [negb andb] in N. congruence.
    + cbn [andb] in N. destruct (is_a k x) eqn:A.
      * exists [], x, l. repeat split; auto. now apply osk_eq.
      * destruct (IH N) as (m & t & c & -> & M & T). exists (x :: m), t, c. repeat split; auto.
        constructor; auto. now apply osk_neq.
  - intros (m & t & c & -> & M & T). induction M as [|x m X _ IH]; cbn [app seek]; unfold is_a.
    + rewrite T, osk_refl. apply osk_neq in K. rewrite K. cbn. discriminate.
    + apply osk_neq in X. rewrite X. cbn [andb]. now destruct (osk_eqb (skind x) k).
Qed.
Lemma leaf_says v x : says v x <-> exists s, leaf_text x = Some s /\ str_is (normalize s) v = true.
Proof.
  unfold says, leaf_text, leaf_kind. split.
  - intros [K N]. exists (hd [] (dtext (sdata x))). split; [|now apply str_is_eq].
    cbn [In] in K. repeat destruct K as [K|K]; try (rewrite <- K; reflexivity). destruct K.
  - intros (s & L & N). apply str_is_eq in N.
    split; [destruct (skind x); cbn [In]; tauto || discriminate L|destruct (skind x); try discriminate L; now injection L as <-].
Qed.
Lemma after_some v k l : k <> oWord -> (node_after v k l <> None <-> has_after v k l).
Proof.
  intros K. split.
  - induction l as [|x l IH]; [cbn; congruence|]. intros N.
    assert (B : node_after v k l <> None -> has_after v k (x :: l)).
    { intros M. destruct (IH M) as (a & y & m & t & c & -> & R). exists (x :: a), y, m, t, c. auto. }
    cbn [node_after] in N. destruct (leaf_text x) as [s|] eqn:L; auto. destruct (str_is (normalize s) v) eqn:Q; auto.
    destruct (seek k l) eqn:G; auto.
    assert (G' : seek k l <> None) by congruence. apply (proj1 (seek_some k l K)) in G'.
    destruct G' as (m & t & c & -> & M & T). exists [], x, m, t, c. split; [reflexivity|]. split; [apply leaf_says; eauto|auto].
  - intros (a & x & m & t & c & -> & Y & M & T). induction a as [|y a IH].
    + apply leaf_says in Y. destruct Y as (s & L & Q). cbn [app node_after]. rewrite L, Q.
      destruct (seek k (m ++ t :: c)) eqn:G; [discriminate|].
      exfalso. apply (proj2 (seek_some k (m ++ t :: c) K)); eauto 8.
    + cbn [app node_after]. destruct (leaf_text y); auto. destruct (str_is _ _); auto. destruct (seek k _); auto. discriminate.
Qed.
Lemma firsts_some k l : k <> oNewline -> (firsts k l <> [] <-> on_first_line k l).
Proof.
  intros K. unfold firsts. split.
  - induction l as [|x l IH]; [cbn; congruence|]. cbn [before_newline].
    destruct (is_a oNewline x) eqn:N; [cbn; congruence|]. cbn [filter].
    apply osk_neq in N. destruct (is_a k x) eqn:A.
    + intros _. apply osk_eq in A. exists [], x, l. auto.
    + intros M. destruct (IH M) as (a & t & c & -> & R & T). exists (x :: a), t, c. auto.
  - intros (a & t & c & -> & A & T). induction A as [|x a X _ IH]; cbn [app before_newline].
    + rewrite (is_a_no oNewline t) by congruence. cbn [filter]. rewrite (is_a_yes k t) by auto. discriminate.
    + rewrite (is_a_no oNewline x) by auto. cbn [filter]. destruct (is_a k x); [discriminate|auto].
Qed.
Lemma after_in v k l t : node_after v k l = Some t -> In t l /\ skind t = k.
Proof.
  assert (SK : forall m, seek k m = Some t -> In t m /\ skind t = k).
  { induction m as [|x m IH]; cbn [seek]; [discriminate|]. destruct (_ && _); [discriminate|].
    destruct (is_a k x) eqn:A; [intros X; injection X as <-|intros X; destruct (IH X); cbn [In]; auto].
    split; [now left|]. now apply osk_eq. }
  induction l as [|x l IH]; cbn [node_after]; [discriminate|]. intros X.
  assert (R : node_after v k l = Some t -> In t (x :: l) /\ skind t = k) by (intros Y; destruct (IH Y); cbn [In]; auto).
  destruct (leaf_text x); auto. destruct (str_is _ _); auto. destruct (seek k l) eqn:G; auto.
  injection X as ->. destruct (SK l G). cbn [In]. auto.
Qed.
Lemma firsts_in k l t : In t (firsts k l) -> In t l /\ skind t = k.
Proof.
  unfold firsts. intros H. apply filter_In in H. destruct H as [H K]. split; [|now apply osk_eq].
  revert H. induction l as [|x l IH]; cbn [before_newline]; auto. destruct (is_a oNewline x); [intros []|].
  cbn [In]. tauto.
Qed.

(** The head when all times are dates *)
Section Dated.
Variable l : list sem.
Hypothesis (DT : Forall dated l).
Lemma dated_time x : In x l -> skind x = oTime -> exists t, static_time x = Done t.
Proof.
  intros I K. rewrite Forall_forall in DT. destruct (DT x I) as [A _]. destruct (A K) as (t & T). exists t. now apply static_ok.
Qed.
Lemma dated_opt o : (forall x, o = Some x -> In x l /\ skind x = oTime) -> exists t, static_opt o = Done t.
Proof.
  intros H. destruct o as [x|]; [|eexists; reflexivity]. destruct (H x eq_refl) as [I K].
  destruct (dated_time x I K) as (t & T). cbn [static_opt]. rewrite T. eexists. reflexivity.
Qed.
Lemma dated_after v : exists t, time_after v l = Done t.
Proof. apply dated_opt. intros x. apply after_in. Qed.

Lemma clock_stops : (read_clock l = Thrown <-> Forall (fun x => skind x <> oTime /\ skind x <> oTimeRange) l) /\
  (forall r, read_clock l = r -> r = Thrown \/ exists h, r = Done h).
Proof.
  unfold read_clock.
  destruct (filter (fun x => is_a oTime x || is_a oTimeRange x) l) as [|x r] eqn:E.
  - split; [|intros; subst; auto]. split; auto. intros _. apply Forall_forall. intros x I.
    assert (N : ~ In x (filter (fun x => is_a oTime x || is_a oTimeRange x) l)) by (rewrite E; auto).
    rewrite filter_In in N.
    split; intros K; apply N; split; auto; rewrite (is_a_yes _ x K); auto using orb_true_r.
  - assert (I : In x (filter (fun x => is_a oTime x || is_a oTimeRange x) l)) by (rewrite E; now left).
    apply filter_In in I. destruct I as [I K].
    assert (N : ~ Forall (fun x => skind x <> oTime /\ skind x <> oTimeRange) l).
    { intros F. rewrite Forall_forall in F. destruct (F x I) as [A B].
      rewrite (is_a_no _ _ A), (is_a_no _ _ B) in K. discriminate K. }
    assert (H : exists h, (if is_a oTime x then f <- static_time x;; Done (HClock f None)
       else f <- field FFrom x;; t <- field FTo x;; f0 <- static_time f;; t0 <- static_time t;; Done (HClock f0 (Some t0))) = Done h).
    { destruct (is_a oTime x) eqn:A.
      - destruct (dated_time x I) as (t & ->); [now apply osk_eq|]. eexists. reflexivity.
      - cbn [orb] in K. apply osk_eq in K. rewrite Forall_forall in DT. destruct (DT x I) as [_ B].
        destruct (B K) as (f & t & a & b & TA & TB & ->). apply static_ok in TA. apply static_ok in TB.
        cbn [field sfields List.find fst snd rbind]. rewrite TA, TB. eexists. reflexivity. }
    destruct H as (h & ->). split; [|intros ? <-; eauto]. split; [discriminate|tauto].
Qed.

Definition ends (r : res (option lhead)) (P : Prop) : Prop := (r = Thrown <-> P) /\ (r = Thrown \/ exists h, r = Done h).
Lemma ends_done h (P : Prop) : ~ P -> ends (Done h) P.
Proof. intros N. split; [|right; eauto]. split; [discriminate|tauto]. Qed.
Lemma ends_thrown (P : Prop) : P -> ends Thrown P.
Proof. intros N. split; [tauto|auto]. Qed.

Lemma has_word_in v ws : has_word v ws = true <-> In (lit v) ws.
Proof.
  unfold has_word. rewrite existsb_exists. split.
  - intros (s & I & E). apply str_is_eq in E. now subst.
  - intros I. exists (lit v). split; auto. now apply str_is_eq.
Qed.
Lemma has_word_no v ws : has_word v ws = false <-> ~ In (lit v) ws.
Proof. rewrite <- has_word_in. destruct (has_word v ws); split; congruence. Qed.
Lemma lit_neq u v : str_is (lit u) v = false -> lit u <> lit v.
Proof. apply str_is_neq. Qed.

Lemma head_stops ws : first_words l ws -> ends (read_head l) (stops l ws).
Proof.
  intros FW. apply words_first in FW. unfold read_head. rewrite FW.
  destruct ws as [|v r].
  { destruct clock_stops as [C D]. destruct (D _ eq_refl) as [T|(h & T)]; rewrite T in *; cbn [rbind stops].
    - apply ends_thrown. now apply C.
    - apply ends_done. intros F. apply C in F. discriminate F. }
  cbn [stops]. unfold word_is at 1. cbn [nth_error].
  destruct (str_is v "tag") eqn:Tg.
  { apply str_is_eq in Tg. subst v. unfold read_tag.
    assert (Other : forall P, (lit "tag" = lit "refiled" /\ P) \/ (lit "tag" = lit "priority" /\ P) -> False)
      by (intros P [[X _]|[X _]]; discriminate X).
    pose proof (after_some "tag" oHashTag l ltac:(discriminate)) as A.
    destruct (node_after "tag" oHashTag l) as [t|].
    - assert (HA : has_after "tag" oHashTag l) by (apply A; discriminate).
      destruct (dated_after "on") as (on & ->). cbn [rbind]. destruct r as [|u r]; cbn [at_ nth_error rbind].
      + apply ends_thrown. auto.
      + apply ends_done. intros [(_ & X & _)|[(X & _)|(X & _)]]; discriminate X.
    - apply ends_done. intros [(_ & _ & X)|[(X & _)|(X & _)]]; try discriminate X. apply A in X. congruence. }
  apply str_is_neq in Tg. unfold word_is at 1. cbn [nth_error].
  destruct (str_is v "state") eqn:St.
  { apply str_is_eq in St. subst v. unfold read_state.
    assert (No : ~ ((lit "state" = lit "tag" /\ r = [] /\ has_after "tag" oHashTag l) \/
       (lit "state" = lit "refiled" /\ ~ on_first_line oTime l) \/
       (lit "state" = lit "priority" /\ hd [] r <> lit "deadline" /\
        ~ In (lit "added") r /\ ~ In (lit "changed") r /\ ~ In (lit "removed") r)))
      by (intros [(X & _)|[(X & _)|(X & _)]]; discriminate X).
    destruct (text_after "state" oBigIdent l); [|now apply ends_done].
    destruct (dated_after "on") as ([on|] & ->); cbn [rbind]; [now apply ends_done|].
    destruct (dated_opt (nth_error (firsts oTime l) 0)) as (o & ->); [|now apply ends_done].
    intros x X. apply nth_error_In in X. now apply firsts_in. }
  apply str_is_neq in St. unfold word_is at 1. cbn [nth_error].
  destruct (str_is v "refiled") eqn:Rf.
  { apply str_is_eq in Rf. subst v. unfold read_refile.
    pose proof (firsts_some oTime l ltac:(discriminate)) as A.
    destruct (firsts oTime l) as [|y ys].
    - apply ends_thrown. right. left. split; auto. intros X. apply A in X. congruence.
    - assert (OF : on_first_line oTime l) by (apply A; discriminate).
      assert (No : ~ ((lit "refiled" = lit "tag" /\ r = [] /\ has_after "tag" oHashTag l) \/
         (lit "refiled" = lit "refiled" /\ ~ on_first_line oTime l) \/
         (lit "refiled" = lit "priority" /\ hd [] r <> lit "deadline" /\
          ~ In (lit "added") r /\ ~ In (lit "changed") r /\ ~ In (lit "removed") r)))
        by (intros [(X & _)|[(_ & X)|(X & _)]]; [discriminate X|auto|discriminate X]).
      destruct (node_after "on" oTime l) as [t|] eqn:O; [|now apply ends_done].
      apply after_in in O. destruct (dated_time t) as (s & ->); try tauto. now apply ends_done. }
  apply str_is_neq in Rf. unfold word_is at 1.
  destruct (match nth_error (v :: r) 1 with Some s => str_is s "deadline" | None => false end) eqn:Dl.
  { apply ends_done. intros [(X & _)|[(X & _)|(_ & X & _)]]; try congruence.
    destruct r as [|u r]; cbn [nth_error] in Dl; [discriminate Dl|]. apply str_is_eq in Dl. cbn [hd] in X. congruence. }
  assert (ND : hd [] r <> lit "deadline").
  { destruct r as [|u r]; cbn [nth_error] in Dl; [discriminate|]. now apply str_is_neq in Dl. }
  unfold word_is at 1. cbn [nth_error].
  destruct (str_is v "priority") eqn:Pr.
  { apply str_is_eq in Pr. subst v. unfold read_priority. destruct (dated_after "on") as (on & ->). cbn [rbind].
    assert (Hw : forall u, str_is (lit "priority") u = false -> has_word u (lit "priority" :: r) = has_word u r)
      by (intros u U; unfold has_word; cbn [existsb]; now rewrite U).
    rewrite !Hw by reflexivity.
    destruct (has_word "added" r) eqn:A; [apply ends_done|].
    { apply has_word_in in A. intros [(X & _)|[(X & _)|(_ & _ & X & _)]]; try discriminate X. auto. }
    destruct (has_word "changed" r) eqn:B; [apply ends_done|].
    { apply has_word_in in B. intros [(X & _)|[(X & _)|(_ & _ & _ & X & _)]]; try discriminate X. auto. }
    destruct (has_word "removed" r) eqn:C; [apply ends_done|].
    { apply has_word_in in C. intros [(X & _)|[(X & _)|(_ & _ & _ & _ & X)]]; try discriminate X. auto. }
    apply has_word_no in A. apply has_word_no in B. apply has_word_no in C. apply ends_thrown. right. right. auto. }
  apply str_is_neq in Pr.
  assert (No : ~ ((v = lit "tag" /\ r = [] /\ has_after "tag" oHashTag l) \/ (v = lit "refiled" /\ ~ on_first_line oTime l) \/
     (v = lit "priority" /\ hd [] r <> lit "deadline" /\ ~ In (lit "added") r /\ ~ In (lit "changed") r /\ ~ In (lit "removed") r)))
    by (intros [(X & _)|[(X & _)|(X & _)]]; congruence).
  destruct (_ && _); [|now apply ends_done]. destruct (dated_after "on") as (on & ->). cbn [rbind]. now apply ends_done.
Qed.
End Dated.

Lemma item_stops item par more ws : ssubs item = par :: more -> Forall dated (ssubs par) -> first_words (ssubs par) ws ->
  (read_entry item = Thrown <-> stops (ssubs par) ws) /\ (read_entry item = Thrown \/ exists e, read_entry item = Done e).
Proof.
  intros I DT FW. destruct (head_stops (ssubs par) DT ws FW) as [A B]. unfold read_entry. rewrite I. cbn [at_ nth_error rbind].
  destruct B as [B|(h & B)]; rewrite B in *; cbn [rbind].
  - split; [|auto]. split; auto. intros _. now apply A.
  - assert (X : exists e, match h with
      | None => Done Faulty
      | Some HUnknown => Done (Logged (Entry HUnknown (Some (par :: more))))
      | Some h0 => Done (Logged (Entry h0 (described (ssubs par) (tl (par :: more))))) end = Done e)
      by (destruct h as [[]|]; eexists; reflexivity).
    destruct X as (e & ->). split; [|eauto]. split; [discriminate|]. intros X. apply A in X. discriminate X.
Qed.
Lemma item_empty item : ssubs item = [] -> read_entry item = Thrown.
Proof. intros I. unfold read_entry. now rewrite I. Qed.

Lemma item_unknown item par more ws : ssubs item = par :: more -> first_words (ssubs par) ws -> unknown_words ws ->
  read_entry item = Done (Logged (Entry HUnknown (Some (par :: more)))).
Proof.
  intros I FW U. apply words_first in FW. unfold read_entry. rewrite I. cbn [at_ nth_error rbind].
  unfold read_head. rewrite FW. destruct ws as [|v r]; [destruct U|]. destruct U as [N D].
  cbn [map] in N. unfold word_is. cbn [nth_error].
  assert (NV : forall u, In u ["tag"; "state"; "refiled"; "priority"; "note"]%string -> str_is v u = false).
  { intros u U. apply str_is_neq. intros ->. apply N. now apply (in_map lit) in U. }
  rewrite (NV "tag"%string), (NV "state"%string), (NV "refiled"%string), (NV "priority"%string), (NV "note"%string) by (cbn [In]; auto 8).
  assert (ND : match nth_error r 0 with Some s => str_is s "deadline" | None => false end = false).
  { destruct r as [|u r]; auto. now apply str_is_neq. }
  destruct r as [|u r]; cbn [nth_error] in *; [reflexivity|]. rewrite ND. reflexivity.
Qed.
Lemma item_deadline item par more u r : ssubs item = par :: more -> first_words (ssubs par) (u :: lit "deadline" :: r) ->
  ~ In u (map lit ["tag"; "state"; "refiled"]%string) ->
  read_entry item = Done (Logged (Entry (HDeadline None None None) (described (ssubs par) more))).
Proof.
  intros I FW N. apply words_first in FW. unfold read_entry. rewrite I. cbn [at_ nth_error rbind].
  unfold read_head. rewrite FW. unfold word_is. cbn [nth_error].
  assert (NV : forall v, In v ["tag"; "state"; "refiled"]%string -> str_is u v = false).
  { intros v V. apply str_is_neq. intros ->. apply N. now apply (in_map lit) in V. }
  rewrite (NV "tag"%string), (NV "state"%string), (NV "refiled"%string) by (cbn [In]; auto 8). reflexivity.
Qed.
Lemma removed_wrong item par more l p on : ssubs item = par :: more -> ssubs par = l ->
  Forall2 fits (spaced [w "priority"; [PName p]; w "removed"; w "on"; [PTime on]]) l ->
  read_entry item = Done (Logged (Entry (HPriority Removed None None (Some on)) (description [] more))) /\
  (forall st sn sp ep d, write_entry st sn sp ep (Entry (HPriority Removed None None (Some on)) d) = Thrown) /\
  (forall st sn sp ep, write_entry st sn sp ep (Entry (HPriority Removed (Some p) None (Some on)) None) =
     Done (Wrote (spelled st sp (HNote None) (spaced [w "priority"; [PName p]; w "removed"; w "on"; [PTime on]])) [])).
Proof.
  intros I P F. split; [|split; [reflexivity|]].
  - pose proof (line_words _ _ [] [] F end_here) as W. pose proof (line_described _ _ [] [] F end_here more) as D.
    rewrite app_nil_r in W, D. unfold read_entry. rewrite I. cbn [at_ nth_error rbind tl]. rewrite P, D.
    unfold read_head. rewrite W.
    change (flat_map the_word _) with [lit "priority"; lit "removed"; lit "on"].
    change (h <- read_priority [lit "priority"; lit "removed"; lit "on"] l ;; match h with
      | None => Done Faulty
      | Some HUnknown => Done (Logged (Entry HUnknown (Some (par :: more))))
      | Some h0 => Done (Logged (Entry h0 (description [] more))) end =
      Done (Logged (Entry (HPriority Removed None None (Some on)) (description [] more)))).
    unfold read_priority, time_after, text_after. clear W D I P.
    cbn [flat_map spaced w app] in F. nodes F. open_fits. look. reflexivity.
  - intros. unfold write_entry, write_head, spelled, show_time. cbn. f_equal. f_equal.
    rewrite <- ?app_assoc. cbn. rewrite ?app_nil_r. auto.
Qed.
