(** Which words of a tree are in the formatted text. *)
From Coq Require Import String.
From Verif Require Import Base StrModel StrSpec LayoutModel LayoutSpec LayoutTextSpec LayoutBlocks LayoutOrder.
From Verif Require StrProofs.
From Verif Require Import ConvModel ConvSpec ConvProofs FormatModel FormatSpec FormatBlock.
Local Open Scope nat_scope.

(** *** The texts of a block *)
Notation all_texts l := (concat (map texts l)).

Definition interned (b : fblock) : Prop := forall st bl st', intern b st = (bl, st') -> simple bl /\
  forall more, concat (map (fun n => nth n (st' ++ more) []) (block_ids bl)) = texts b.
Lemma interned_all : forall l, Forall interned l -> forall st bs st', interns l st = (bs, st') -> Forall simple bs /\
  forall more, concat (map (fun n => nth n (st' ++ more) []) (flat_map block_ids bs)) = all_texts l.
Proof.
  intros l F. induction F as [|e r He _ IH]; intros st bs st' E; cbn [interns] in E.
  - injection E as <- <-. split; [constructor|reflexivity].
  - destruct (intern e st) as [y st1] eqn:Ey. destruct (interns r st1) as [ys st2] eqn:Er. injection E as <- <-.
    destruct (He _ _ _ Ey) as [S1 G1]. destruct (IH _ _ _ Er) as [S2 G2]. split; [auto|]. intros more. cbn [flat_map map concat]. rewrite map_app, concat_app, G2. f_equal.
    destruct (faithful_all r (proj2 (Forall_forall _ _) (fun b _ => intern_faithful b)) _ _ _ Er) as [[e2 ->] _]. rewrite <- app_assoc. apply G1.
Qed.
Lemma simple_back : forall l, Forall simple l -> (fix all (l : list block) : Prop := match l with [] => True | e :: l' => simple e /\ all l' end) l.
Proof. intros l F. induction F; auto. Qed.
Lemma intern_texts : forall b, interned b.
Proof.
  apply fblock_ind'.
  - intros s st bl st' E. cbn [intern] in E. injection E as <- <-. split; [exact I|]. intros more. cbn [block_ids flat_map str_ids lid app map concat texts].
    rewrite <- app_assoc, app_nth2, Nat.sub_diag by lia. cbn. apply app_nil_r.
  - intros l F st bl st' E. rewrite intern_line in E. destruct (interns l st) as [x st1] eqn:El. injection E as <- <-. destruct (interned_all l F _ _ _ El) as [S G].
    split; [now apply simple_back|]. exact G.
  - intros l F st bl st' E. rewrite intern_stack in E. destruct (interns l st) as [x st1] eqn:El. injection E as <- <-. destruct (interned_all l F _ _ _ El) as [S G].
    split; [now apply simple_back|]. exact G.
Qed.

Lemma visible_app : forall a b, visible (a ++ b) = visible a ++ visible b.
Proof. intros. apply filter_app. Qed.
Lemma visible_pad : forall n, visible (pad n) = [].
Proof. induction n as [|n IH]; [reflexivity|]. exact IH. Qed.
Lemma visible_events : forall tx ev, visible (events_text tx ev) = visible (concat (map tx (flat_map ev_ids ev))).
Proof.
  intros tx. unfold events_text. induction ev as [|e ev IH]; [reflexivity|]. cbn [map concat flat_map]. rewrite visible_app, IH, map_app, concat_app, visible_app. f_equal.
  destruct e; cbn [ev_text ev_ids map concat]; [now rewrite app_nil_r|apply visible_pad|reflexivity].
Qed.
Lemma visible_strip : forall x, visible (strip x (chars []) (chars [32%Z])) = visible x.
Proof.
  intros x. destruct (StrProofs.strip_spec x (chars []) (chars [32%Z])) as (a & b & E & A & B & _ & _).
  assert (a = []) as -> by (inversion A; [reflexivity|discriminate]). rewrite E at 2. cbn [app]. rewrite visible_app.
  assert (visible b = []) as ->; [|now rewrite app_nil_r]. clear - B. induction B as [|c b H _ IH]; [reflexivity|]. unfold chars in H. cbn in H. rewrite Bool.orb_false_r in H. apply Z.eqb_eq in H. subst c. exact IH.
Qed.
Lemma visible_join : forall ls, visible (join [10%Z] ls) = concat (map visible ls).
Proof.
  intros [|h t]; [reflexivity|]. rewrite StrProofs.join_cons, visible_app. cbn [map concat]. f_equal. induction t as [|x t IH]; [reflexivity|]. cbn [flat_map map concat]. rewrite visible_app, IH. reflexivity.
Qed.
Lemma visible_tidy : forall s t, tidy s = Done t -> visible t = visible s.
Proof.
  intros s t H. unfold tidy, split_by in H. change (lit (String (Ascii.ascii_of_nat 10) EmptyString)) with [10%Z] in H.
  destruct (StrProofs.split_str_spec s [10%Z] (S (S (length s))) ltac:(discriminate) ltac:(lia)) as (ts & E & S). rewrite E in H. cbn [lift rbind] in H. injection H as <-.
  apply StrProofs.split_at_join in S. destruct S as [_ <-]. rewrite !visible_join, map_map. f_equal. apply map_ext. exact visible_strip.
Qed.
Lemma leafless : forall b, leaf_count b = 0 -> texts b = [].
Proof.
  apply (fblock_ind' (fun b => leaf_count b = 0 -> texts b = [])).
  - discriminate.
  - intros l F H. cbn [leaf_count texts] in *. induction F as [|e l He _ IH]; [reflexivity|]. cbn [map list_sum fold_right concat] in *. unfold list_sum in IH. rewrite He, IH by lia. reflexivity.
  - intros l F H. cbn [leaf_count texts] in *. induction F as [|e l He _ IH]; [reflexivity|]. cbn [map list_sum fold_right concat] in *. unfold list_sum in IH. rewrite He, IH by lia. reflexivity.
Qed.
Lemma block_string_visible : forall fuel fuel' o b out, block_string fuel fuel' o b = Done out -> visible out = visible (texts b).
Proof.
  intros fuel fuel' o b out H. unfold block_string in H. destruct (Nat.eqb_spec (leaf_count b) 0) as [Z|Z].
  - injection H as <-. now rewrite leafless.
  - destruct (intern b []) as [bl st] eqn:Ei. destruct (intern_texts b [] bl st Ei) as [S G]. specialize (G []). rewrite app_nil_r in G.
    destruct (rbind_done _ _ _ H) as (ls & El & H1). destruct (rbind_done _ _ _ H1) as (l & Al & H2). destruct (rbind_done _ _ _ H2) as (ev & Ev & H3).
    rewrite (visible_tidy _ _ H3), visible_events.
    destruct (to_layouts fuel o bl) as [ls'| | |] eqn:Et; try discriminate. injection El as ->.
    unfold at_ in Al. destruct ls as [|l' ls]; [discriminate|]. cbn in Al. injection Al as <-.
    destruct (format_events fuel' l') as [ev'| | |] eqn:Ef; try discriminate. injection Ev as ->. unfold format_events in Ef. apply format_ids in Ef. cbn [flat_map] in Ef. rewrite app_nil_r in Ef.
    rewrite Ef, (to_layouts_order _ _ _ _ _ S Et (or_introl eq_refl)), G. reflexivity.
Qed.

(** *** Subsequences *)
Lemma within_refl : forall {A} (l : list A), within l l.
Proof. induction l; constructor; auto. Qed.
Lemma within_app : forall {A} (a b c d : list A), within a b -> within c d -> within (a ++ c) (b ++ d).
Proof.
  intros A a b c d H K. induction H as [m|x l m _ IH|x l m _ IH]; cbn [app]; [|now constructor|now constructor].
  induction m as [|x m IHm]; [exact K|]. now constructor.
Qed.
Lemma within_left : forall {A} (x a b : list A), within a b -> within a (x ++ b).
Proof. intros A x a b H. apply (within_app [] x a b); [constructor|exact H]. Qed.
Lemma within_right : forall {A} (x a b : list A), within a b -> within a (b ++ x).
Proof. intros A x a b H. rewrite <- (app_nil_r a). apply within_app; [exact H|constructor]. Qed.
Lemma within_filter : forall {A} (p : A -> bool) l m, within l m -> within (filter p l) (filter p m).
Proof. intros A p l m H. induction H as [m|x l m _ IH|x l m _ IH]; cbn [filter]; [constructor|destruct (p x); [now constructor|exact IH]|destruct (p x); [now constructor|exact IH]]. Qed.
Lemma within_trans : forall {A} (b c : list A), within b c -> forall a, within a b -> within a c.
Proof.
  intros A b c H. induction H as [m|x l m _ IH|x l m _ IH]; intros a Ha.
  - inversion Ha; subst. constructor.
  - inversion Ha; subst; [constructor|constructor; auto|constructor; auto].
  - constructor. auto.
Qed.

(** *** Blocks of a node *)
Lemma texts_adds : forall l, all_texts (adds l) = all_texts l.
Proof.
  unfold adds. induction l as [|b l IH]; [reflexivity|]. cbn [filter map concat]. destruct (hollow b) eqn:E; cbn [negb map concat]; [|now rewrite IH].
  destruct b as [s|[|x r]|[|x r]]; try discriminate; exact IH.
Qed.
Lemma strictly_done : forall l x, strictly l = Done x -> x = l.
Proof. unfold strictly. intros l x. destruct (existsb hollow l); congruence. Qed.
Lemma texts_join : forall l sep, within (all_texts l) (all_texts (join_parts l sep)).
Proof.
  induction l as [|x [|y r] IH]; intros sep; [constructor|apply within_refl|].
  change (join_parts (x :: y :: r) sep) with (WLine [x; sep] :: join_parts (y :: r) sep). cbn [map concat texts].
  apply within_app; [apply within_right, within_refl|apply IH].
Qed.
Lemma join_texts : forall l sep b, join_with l sep = Done b -> within (all_texts l) (texts b).
Proof.
  intros l sep b H. unfold join_with in H. destruct (rbind_done _ _ _ H) as (x & E & H'). apply strictly_done in E. injection H' as <-. subst x. apply texts_join.
Qed.

Fixpoint weight (s : sem) : nat :=
  match s with
  | Sem _ _ f subs att => S (list_sum (map (fun p => match p with (_, x) => weight x end) f) + list_sum (map weight subs) + list_sum (map weight att))
  end.
Lemma weigh_in : forall l x, In x l -> weight x <= list_sum (map weight l).
Proof. induction l as [|y l IH]; intros x H; [contradiction|]. cbn [map list_sum fold_right]. destruct H as [->|H]; [lia|]. specialize (IH x H). unfold list_sum in IH. lia. Qed.
Lemma weigh_field : forall (f : list (fld * sem)) p, In p f -> weight (snd p) <= list_sum (map (fun p => match p with (_, x) => weight x end) f).
Proof. induction f as [|[n y] l IH]; intros p H; [contradiction|]. cbn [map list_sum fold_right]. destruct H as [<-|H]; [cbn; lia|]. specialize (IH p H). unfold list_sum in IH. lia. Qed.

Section Words.
Variable pretty : osk -> str.
Variable time_text : data -> str.
Variable real_text : str -> str.
Variable diagnostic : str.
Variable preamble : list setting -> list fblock.
Variable drawers : list (fld * sem) -> list fblock.
Notation fmt := (fmt pretty time_text real_text diagnostic drawers).

Definition kept (s : sem) : Prop := forall inl b, fmt inl s = Done b -> within (concat (words s)) (texts b).
Lemma kept_all : forall inl l bs, Forall kept l -> each (fmt inl) l = Done bs -> within (concat (flat_map words l)) (all_texts bs).
Proof.
  intros inl l bs F E. apply each_inv in E. induction E as [|x b l bs H _ IH]; [constructor|]. inversion F; subst.
  cbn [flat_map map concat]. rewrite concat_app. apply within_app; [eauto|auto].
Qed.
Lemma kept_lines : forall inl l bs, Forall kept l -> (forall x, In x l -> is_a oNewline x = true -> words x = []) -> each (fmt inl) l = Done bs ->
  within (concat (flat_map words l)) (concat (map (fun x => all_texts x) (split_lines (combine (map (is_a oNewline) l) bs)))).
Proof.
  intros inl l bs F N E. apply each_inv in E. induction E as [|x b l bs H _ IH]; [constructor|]. inversion F; subst. specialize (IH ltac:(auto) ltac:(intros; apply N; [now right|auto])).
  cbn [flat_map map combine split_lines]. destruct (is_a oNewline x) eqn:Ex.
  - rewrite (N x (or_introl eq_refl) Ex). cbn [app map concat]. exact IH.
  - rewrite concat_app. destruct (split_lines (combine (map (is_a oNewline) l) bs)) as [|h t]; cbn [map concat] in *.
    + rewrite ?app_nil_r. rewrite <- (app_nil_r (texts b)). apply within_app; [eauto|exact IH].
    + rewrite <- app_assoc. apply within_app; [eauto|exact IH].
Qed.
Lemma newline_silent : forall x, keeps x -> is_a oNewline x = true -> words x = [].
Proof.
  intros x K E. destruct K; auto; try discriminate; unfold is_a in E; cbn [skind] in E; try (destruct k; discriminate).
  destruct H; subst; discriminate.
Qed.
Lemma attached_texts : forall inl att prev b, Forall kept att ->
  (match att with [] => Done prev | _ => l <- each (fmt inl) att ;; Done (WStack (adds (l ++ [prev]))) end) = Done b ->
  within (concat (flat_map words att)) (concat (flat_map words att)) /\ forall w, within w (texts prev) -> within (concat (flat_map words att) ++ w) (texts b).
Proof.
  intros inl att prev b F H. split; [apply within_refl|]. intros w Hw. destruct att as [|a att]; [injection H as <-; exact Hw|].
  destruct (rbind_done _ _ _ H) as (l & E & H'). injection H' as <-. cbn [texts]. rewrite texts_adds, map_app, concat_app. apply within_app; [now apply (kept_all inl)|]. cbn. now rewrite app_nil_r.
Qed.
Lemma words_fields : forall l : list (fld * sem), Forall (fun p => fst p <> FTitle /\ words (snd p) = []) l -> flat_map (fun p => words (snd p)) l = [].
Proof. intros l F. induction F as [|p l [_ H] _ IH]; [reflexivity|]. cbn [flat_map]. rewrite H, IH. reflexivity. Qed.
Lemma forall_sub : forall (P : sem -> Prop) n l, list_sum (map weight l) <= n -> (forall x, weight x <= n -> keeps x -> P x) -> Forall keeps l -> Forall P l.
Proof. intros P n l L H F. apply Forall_forall. intros x Hx. rewrite Forall_forall in F. apply H; [pose proof (weigh_in l x Hx); lia|auto]. Qed.

Lemma carries_cases : forall k f, carries k f = true ->
  In (k, f) [(oLink, FDescription); (oInlineFootnote, FDefinition); (oCmdCaption, FText); (oCmdCreator, FText); (oCmdAuthor, FText); (oCmdCustomText, FText)].
Proof. intros k f H. destruct k; try discriminate H; destruct f; try discriminate H; cbn; tauto. Qed.
Lemma done_eq : forall {A} (x y : A), Done x = Done y -> y = x.
Proof. congruence. Qed.
Lemma keeps_kept : forall n s, weight s <= n -> keeps s -> kept s.
Proof.
  induction n as [|n IH]; intros s L K; [destruct s; cbn in L; lia|]. intros inl b E.
  destruct K as [s W|k w fs subs att d Hk Hd -> -> ->|k d subs Hk F|k d subs att Hk F Fa|d subs att F Fa Hl|d t rest subs Kt Ht Fr F|d subs F|d h x subs Kh F|d rows att Fr Fa|k d f x Hk Kx|d xs F].
  - rewrite W. constructor.
  - replace (concat (words (Sem k d [] [] []))) with w by (cbn; rewrite Hk, Hd; cbn; now rewrite ?app_nil_r).
    destruct k; try discriminate; cbn [FormatModel.fmt] in E; unfold text_of in E; rewrite Hd in E; injection E as <-; cbn [texts map concat nth]; try apply within_refl.
    + apply within_left. apply within_right, within_refl.
    + apply within_skip, within_refl.
    + apply within_skip, within_refl.
  - assert (G : forall bs, each (fmt inl) subs = Done bs -> within (concat (words (Sem k d [] subs []))) (all_texts bs)).
    { intros bs Eb. replace (words (Sem k d [] subs [])) with (flat_map words subs) by (cbn; destruct k; try discriminate; reflexivity). apply (kept_all inl); [|exact Eb].
      apply (forall_sub kept n); [cbn in L; lia|exact IH|exact F]. }
    destruct k; try discriminate; cbn [FormatModel.fmt] in E; destruct (rbind_done _ _ _ E) as (l & El & E'); injection E' as <-; specialize (G l El); cbn [texts between_marks block_of map concat];
      rewrite ?map_app, ?concat_app; cbn [map concat app]; try (apply within_left, within_right; exact G); try exact G.
    + (* colon example *) rewrite map_map. clear - G. eapply within_trans; [|exact G]. clear. induction l as [|x l IHl]; [constructor|]. cbn [map concat texts]. apply within_app; [apply within_left; cbn; rewrite app_nil_r; apply within_refl|exact IHl].
    + (* document *) rewrite <- texts_adds in G. destruct (adds l); exact G.
  - assert (G : forall bs, each (fmt inl) subs = Done bs -> within (concat (flat_map words subs)) (all_texts bs)).
    { intros bs Eb. apply (kept_all inl); [|exact Eb]. apply (forall_sub kept n); [cbn in L; lia|exact IH|exact F]. }
    assert (Ka : Forall kept att) by (apply (forall_sub kept n); [cbn in L; lia|exact IH|exact Fa]).
    replace (concat (words (Sem k d [] subs att))) with (concat (flat_map words att) ++ concat (flat_map words subs)) by (destruct Hk; subst; cbn; now rewrite concat_app).
    destruct Hk; subst k; cbn [FormatModel.fmt] in E.
    + destruct (rbind_done _ _ _ E) as (l & El & E'). destruct (attached_texts inl att _ b Ka E') as [_ G']. apply G'. cbn [texts]. rewrite texts_adds. now apply G.
    + destruct (rbind_done _ _ _ E) as (g & _ & E1). destruct (rbind_done _ _ _ E1) as (l & El & E'). destruct (attached_texts inl att _ b Ka E') as [_ G']. apply G'. cbn [texts map concat].
      rewrite map_app, concat_app. apply within_left, within_right. now apply G.
  - cbn [FormatModel.fmt] in E. destruct (rbind_done _ _ _ E) as (l & El & E'). clear E.
    assert (Ks : Forall kept subs) by (apply (forall_sub kept n); [cbn in L; lia|exact IH|exact F]).
    assert (Ka : Forall kept att) by (apply (forall_sub kept n); [cbn in L; lia|exact IH|exact Fa]).
    pose proof (kept_lines true subs l Ks ltac:(intros x Hx; apply newline_silent; rewrite Forall_forall in F; now apply F) El) as G.
    set (here := WStack (adds (map (fun x => WLine (adds x)) (split_lines (combine (map (is_a oNewline) subs) l))))) in *.
    assert (Gh : within (concat (flat_map words subs)) (texts here)).
    { unfold here. cbn [texts]. rewrite texts_adds, map_map. eapply within_trans; [|exact G]. clear. induction (split_lines _) as [|x r IHr]; [constructor|]. cbn [map concat texts]. apply within_app; [rewrite texts_adds; apply within_refl|exact IHr]. }
    replace (concat (words (Sem oParagraph d [] subs att))) with (concat (flat_map words att) ++ concat (flat_map words subs)) by (cbn; now rewrite concat_app).
    assert (X : match subs with [x] => is_a oLink x | _ => false end = true \/
      (match att with [] => Done here | _ => al <- each (fmt inl) att ;; Done (WStack (adds (al ++ [here]))) end) = Done b).
    { destruct subs as [|[k d' f' s' a'] [|y r]]; [right; exact E'| |right; destruct k; exact E'].
      destruct k; try (right; exact E'). left. reflexivity. }
    destruct X as [X|X].
    + destruct subs as [|x [|y r]]; try discriminate. destruct (Hl x eq_refl X) as [-> Hx]. destruct x as [k d' f' s' a']. destruct k; try discriminate. cbn [sattached] in Hx. subst a'. injection E' as <-. exact Gh.
    + destruct (attached_texts inl att here b Ka X) as [_ G']. now apply G'.
  - (* heading *)
    assert (Ks : Forall kept subs) by (apply (forall_sub kept n); [cbn in L; lia|exact IH|exact F]).
    assert (Kt' : kept t) by (apply IH; [cbn in L; lia|exact Kt]).
    cbn [FormatModel.fmt] in E. destruct (rbind_done _ _ _ E) as (fs & Ef & E1). clear E. destruct (rbind_done _ _ _ E1) as (tagged & _ & E2). clear E1.
    destruct (rbind_done _ _ _ E2) as (tl & _ & E3). clear E2. destruct (rbind_done _ _ _ E3) as (lead & Ej & E4). clear E3. destruct (rbind_done _ _ _ E4) as (l & El & E5). clear E4.
    apply each_inv in Ef. inversion Ef as [|? [nt bt] ? fr Ht' Hr' E1 E2]; subst. destruct (rbind_done _ _ _ Ht') as (bt' & Et & X). injection X as <- <-. clear Ef.
    replace (concat (words (Sem oSubtree d ((FTitle, t) :: rest) subs []))) with (concat (words t) ++ concat (flat_map words subs))
      by (cbn [words flat_map app snd osk_word]; rewrite (words_fields rest Fr), app_nil_r, concat_app; reflexivity).
    assert (G : within (concat (words t)) (texts lead)).
    { eapply within_trans; [apply (join_texts _ _ _ Ej)|]. rewrite !map_app, !concat_app. do 3 apply within_left. apply within_right.
      destruct (ssubs t) as [|y ys] eqn:Es; [rewrite (Ht eq_refl); constructor|]. cbn [forallb]. rewrite Es. cbn [andb only flat_map fst snd app map concat].
      apply within_right. exact (Kt' inl bt' Et). }
    apply done_eq in E5; subst. cbn [texts map concat]. apply within_app.
    + do 2 apply within_left. apply within_right. cbn [texts map concat]. apply within_right. rewrite texts_adds. cbn [map concat]. rewrite app_nil_r. exact G.
    + destruct subs as [|y ys]; [constructor|]. cbn [map concat]. apply within_left. rewrite texts_adds. exact (kept_all inl (y :: ys) l Ks El).
  - (* item *)
    assert (Ks : Forall kept subs) by (apply (forall_sub kept n); [cbn in L; lia|exact IH|exact F]).
    cbn [FormatModel.fmt each rbind] in E. destruct (rbind_done _ _ _ E) as (l & El & E1). apply done_eq in E1; subst.
    replace (concat (words (Sem oListItem d [] subs []))) with (concat (flat_map words subs)) by reflexivity. cbn [texts only flat_map map concat].
    apply within_left. apply within_right. rewrite texts_adds. exact (kept_all inl subs l Ks El).
  - (* item with a header *)
    assert (Ks : Forall kept (x :: subs)) by (apply (forall_sub kept n); [cbn in L |- *; lia|exact IH|exact F]).
    assert (Kh' : kept h) by (apply IH; [cbn in L; lia|exact Kh]).
    cbn [FormatModel.fmt] in E. destruct (rbind_done _ _ _ E) as (fs & Ef & E1). clear E. destruct (rbind_done _ _ _ E1) as (l & El & E2). clear E1.
    apply each_inv in Ef. inversion Ef as [|? [nt bt] ? fr Ht' Hr' E1 E3]; subst. destruct (rbind_done _ _ _ Ht') as (bt' & Et & X). injection X as <- <-. inversion Hr'; subst. clear Ef.
    pose proof (kept_all inl (x :: subs) l Ks El) as G. apply each_inv in El. inversion El as [|? bx ? r Hx Hr E1 E3]; subst. apply done_eq in E2; subst.
    replace (concat (words (Sem oListItem d [(FHeader, h)] (x :: subs) []))) with (concat (words h) ++ concat (flat_map words (x :: subs)))
      by (change (words (Sem oListItem d [(FHeader, h)] (x :: subs) [])) with ((words h ++ []) ++ flat_map words (x :: subs)); rewrite app_nil_r, concat_app; reflexivity).
    cbn [texts only flat_map map concat app fst snd]. apply within_left. apply within_right. rewrite texts_adds. cbn [texts map concat]. rewrite texts_adds. cbn [map concat].
    rewrite <- !app_assoc. apply within_app; [exact (Kh' inl bt' Et)|]. apply within_left. cbn [app]. exact G.
  - (* table *)
    assert (Ka : Forall kept att) by (apply (forall_sub kept n); [cbn in L; lia|exact IH|exact Fa]).
    cbn [FormatModel.fmt] in E. destruct (rbind_done _ _ _ E) as (bg & _ & E1). clear E. destruct (rbind_done _ _ _ E1) as (rs & Er & E2). clear E1.
    replace (concat (words (Sem oTable d rows [] att))) with (concat (flat_map words att) ++ concat (flat_map (fun p => words (snd p)) rows)) by (cbn [words flat_map app osk_word]; rewrite app_nil_r, concat_app; reflexivity).
    destruct (attached_texts inl att _ b Ka E2) as [_ G]. apply G. cbn [texts]. rewrite !map_app, !concat_app. apply within_left, within_right. clear G E2 b Fa Ka.
    assert (Lr : forall p, In p rows -> weight (snd p) <= n) by (intros p Hp; pose proof (weigh_field rows p Hp); cbn in L; lia). clear L.
    apply each_inv in Er. induction Er as [|p rb rows rs Hp _ IHr]; [constructor|]. inversion Fr as [|? ? Kp Kr]; subst. cbn [flat_map map concat]. rewrite concat_app.
    apply within_app; [|apply IHr; [auto|intros q Hq; apply Lr; now right]]. specialize (Lr p (or_introl eq_refl)). clear IHr Kr Fr.
    inversion Kp as [fr k rd cells Hk Fc]; subst. cbn [snd] in *.
    replace (words (Sem k rd cells [] [])) with (flat_map (fun p => words (snd p)) cells) by (cbn [words flat_map app]; rewrite Hk, app_nil_r; reflexivity).
    assert (C : forall (g : sem -> res (list fblock)) (wrap : data -> list fblock -> res (list fblock)), True) by auto. clear C.
    assert (Lc : forall q, In q cells -> weight (snd q) <= n) by (intros q Hq; pose proof (weigh_field cells q Hq); cbn in Lr; lia).
    assert (K : forall cd cf its l, keeps_cell (FNode, Sem cd cf [] its []) -> weight (Sem cd cf [] its []) <= n -> each (fmt inl) its = Done l ->
              words (Sem cd cf [] its []) = flat_map words its /\ within (concat (flat_map words its)) (all_texts l)).
    { intros ck cd its l Kc Lw Ec. inversion Kc as [? ? ? ? Hck Fi]; subst. split; [cbn; rewrite Hck; reflexivity|]. apply (kept_all inl); [|exact Ec]. apply (forall_sub kept n); [cbn in Lw; lia|exact IH|exact Fi]. }
    destruct (Z.eqb (num_of rd 0) 1).
    + destruct (rbind_done _ _ _ Hp) as (g & _ & H1). destruct (rbind_done _ _ _ H1) as (cs & Ec & H2). apply done_eq in H2; subst. cbn [texts map concat]. apply within_left.
      apply each_inv in Ec. clear Hp H1 Kp Lr. induction Ec as [|q cb cells cs Hq _ IHc]; [constructor|]. inversion Fc as [|? ? Kq Kr]; subst. cbn [flat_map map concat]. rewrite concat_app.
      apply within_app; [|apply IHc; [auto|intros y Hy; apply Lc; now right]]. specialize (Lc q (or_introl eq_refl)). inversion Kq as [fq ck cd its Hck Fi]; subst. cbn [snd] in *.
      destruct (rbind_done _ _ _ Hq) as (l & El & H3). destruct (K ck cd its l ltac:(constructor; auto) Lc El) as [-> Gc].
      destruct (Z.eqb (num_of cd 0) 1).
      * destruct (rbind_done _ _ _ H3) as (h & _ & H4). apply done_eq in H4; subst. cbn [texts map concat]. apply within_left. now rewrite texts_adds.
      * apply done_eq in H3; subst. cbn [texts map concat]. apply within_left. now rewrite texts_adds.
    + destruct (rbind_done _ _ _ Hp) as (cs & Ec & H2). apply done_eq in H2; subst. cbn [texts map concat]. apply within_left.
      apply each_inv in Ec. clear Hp Kp Lr. induction Ec as [|q cb cells cs Hq _ IHc]; [constructor|]. inversion Fc as [|? ? Kq Kr]; subst. cbn [flat_map map concat]. rewrite map_app, !concat_app.
      apply within_app; [|apply IHc; [auto|intros y Hy; apply Lc; now right]]. specialize (Lc q (or_introl eq_refl)). inversion Kq as [fq ck cd its Hck Fi]; subst. cbn [snd] in *.
      destruct (rbind_done _ _ _ Hq) as (l & El & H3). destruct (K ck cd its l ltac:(constructor; auto) Lc El) as [-> Gc]. apply done_eq in H3; subst.
      rewrite texts_adds. cbn [texts map concat]. rewrite texts_adds. apply within_right. eapply within_trans; [|exact Gc]. clear.
      induction l as [|y l IHl]; [constructor|]. cbn [flat_map map concat app]. apply within_left. apply within_app; [apply within_refl|]. apply within_left. exact IHl.
  - (* one tree beside it *)
    assert (Kx' : kept x) by (apply IH; [cbn in L; lia|exact Kx]).
    assert (Wx : concat (words (Sem k d [(f, x)] [] [])) = concat (words x)) by (apply carries_cases in Hk; repeat destruct Hk as [Hk|Hk]; [..|destruct Hk]; injection Hk as <- <-; cbn [words flat_map app snd osk_word]; now rewrite !app_nil_r).
    rewrite Wx. apply carries_cases in Hk. repeat destruct Hk as [Hk|Hk]; [..|destruct Hk]; injection Hk as <- <-; cbn [FormatModel.fmt] in E; destruct (rbind_done _ _ _ E) as (fs & Ef & E1); clear E;
      apply each_inv in Ef; inversion Ef as [|? [nt bt] ? fr Ht' Hr' X1 X3]; subst; destruct (rbind_done _ _ _ Ht') as (bt' & Et & X); injection X as <- <-; inversion Hr'; subst; clear Ef;
      pose proof (Kx' inl bt' Et) as G; cbn [only flat_map fst snd app or_nil] in E1.
    + destruct (dlink d) as [|t r]; [discriminate|]. destruct t; apply done_eq in E1; subst; cbn [texts map concat]; do 3 apply within_left; apply within_right; exact G.
    + apply done_eq in E1; subst. cbn [texts map concat]. apply within_left. apply within_right. exact G.
    + apply done_eq in E1; subst. cbn [texts map concat]. apply within_left. apply within_right. exact G.
    + apply done_eq in E1; subst. cbn [texts map concat]. apply within_left. apply within_right. exact G.
    + apply done_eq in E1; subst. cbn [texts map concat]. apply within_left. apply within_right. exact G.
    + apply done_eq in E1; subst. cbn [texts map concat]. apply within_left. apply within_right. exact G.
  - (* symbol *)
    cbn [FormatModel.fmt] in E. destruct (rbind_done _ _ _ E) as (fs & Ef & E1). clear E. destruct (dtext d) as [|nm ps]; [discriminate|]. apply done_eq in E1; subst. cbn [texts map concat]. apply within_left.
    rewrite texts_adds, map_app, concat_app. apply within_left.
    replace (concat (words (Sem oSymbol d (map (pair FPositional) xs) [] []))) with (concat (flat_map words xs)).
    2:{ cbn [words flat_map app osk_word]. rewrite app_nil_r. clear. induction xs as [|x xs IHx]; [reflexivity|]. cbn [map flat_map snd]. rewrite !concat_app. f_equal. exact IHx. }
    assert (Ks : Forall kept xs).
    { apply (forall_sub kept n); [|exact IH|exact F]. cbn [weight map list_sum] in L. rewrite map_map in L. replace (map weight xs) with (map (fun x => (let (_, x0) := (FPositional, x) in weight x0)) xs) by reflexivity. cbn in L |- *. lia. }
    clear L F. apply each_inv in Ef. revert fs Ef. induction xs as [|x xs IHx]; intros fs Ef; [constructor|]. cbn [map] in Ef. inversion Ef as [|? [nt bt] ? fr Ht' Hr' X1 X3]; subst.
    destruct (rbind_done _ _ _ Ht') as (bt' & Et & X). injection X as <- <-. inversion Ks; subst. cbn [only flat_map fst snd app map concat texts]. rewrite concat_app.
    apply within_app; [|exact (IHx ltac:(auto) fr Hr')]. apply within_left. apply within_right. eauto.
Qed.
End Words.
