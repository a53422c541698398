(** Blocks and the lines they show; numbers, Lisp code and attributes. *)
From Coq Require Import String.
From Verif Require Import Base StrModel StrSpec LayoutModel LayoutSpec LayoutTextSpec LayoutPrint LayoutText LayoutTextProps.
From Verif Require StrProofs AttrModel AttrSpec AttrProofs.
From Verif Require Import ConvModel ConvProofs PlainSpec FormatModel FormatBlock WriteSpec.
Local Open Scope nat_scope.
Notation hang := LayoutTextSpec.attach.
Notation total ls := (list_sum (map (@length byte) ls)).

Definition shows (ls : list str) (b : fblock) : Prop := full b /\ wlines b = ls /\ wsize b <= total ls.
Lemma full_lines : forall b, full b -> wlines b <> [].
Proof.
  apply (fblock_ind' (fun b => full b -> wlines b <> [])); [discriminate| |]; intros l F H; inversion H as [|? N Fl|? N Fl]; subst; cbn [wlines]; destruct l as [|e r]; try congruence; inversion F; subst; inversion Fl; subst.
  - cbn [fold_right]. unfold hang. destruct (fold_right _ _ r); [auto|]. destruct (removelast (wlines e)); discriminate.
  - cbn [flat_map]. specialize (H2 H4). destruct (wlines e); [congruence|discriminate].
Qed.
Lemma shows_ne : forall ls b, shows ls b -> ls <> [].
Proof. intros ls b (F & <- & _). now apply full_lines. Qed.
Lemma shows_hollow : forall ls b, shows ls b -> hollow b = false.
Proof. intros ls b ([s|[|x l] N _|[|x l] N _] & _); try reflexivity; congruence. Qed.
Lemma shows_adds : forall lss bs, Forall2 shows lss bs -> adds bs = bs.
Proof. intros lss bs F. unfold adds. induction F as [|ls b lss bs H _ IH]; [reflexivity|]. cbn [filter]. rewrite (shows_hollow ls b H), IH. reflexivity. Qed.
Lemma shows_strictly : forall lss bs, Forall2 shows lss bs -> strictly bs = Done bs.
Proof.
  intros lss bs F. unfold strictly. replace (existsb hollow bs) with false; [reflexivity|].
  induction F as [|ls b lss bs H _ IH]; [reflexivity|]. cbn [existsb]. rewrite (shows_hollow ls b H), <- IH. reflexivity.
Qed.
Lemma shows_text : forall s, shows [s] (WText s).
Proof. intros s. split; [constructor|]. split; [reflexivity|]. cbn. lia. Qed.
Lemma total_app : forall a b : list str, total (a ++ b) = total a + total b.
Proof. intros. rewrite map_app. apply list_sum_app. Qed.
Lemma total_hang : forall a b : list str, a <> [] -> total a + total b <= total (hang a b).
Proof.
  intros a [|h t] N; [unfold hang; cbn [map]; change (list_sum []) with 0; lia|]. unfold hang. destruct (exists_last N) as (m & c & ->). rewrite removelast_last, last_last, !total_app. cbn [map list_sum fold_right]. rewrite app_length.
  assert (total t <= total (map (app (pad (length c))) t)); [|unfold list_sum in *; lia]. induction t as [|x t IH]; [auto|]. cbn [map list_sum fold_right]. rewrite app_length. unfold list_sum in IH. lia.
Qed.
Lemma shows_line : forall lss bs, bs <> [] -> Forall2 shows lss bs -> shows (side lss) (WLine bs).
Proof.
  intros lss bs N F. split; [|split].
  - constructor; [exact N|]. clear N. induction F as [|s b ss bs [H _] _ IH]; auto.
  - cbn [wlines]. clear N. induction F as [|s b ss bs [_ [E _]] _ IH]; [reflexivity|]. cbn [fold_right side]. rewrite IH, E. reflexivity.
  - cbn [wsize]. clear N. induction F as [|s b ss bs S _ IH]; [auto|]. cbn [map list_sum fold_right side]. pose proof (shows_ne _ _ S) as Ns. destruct S as (_ & _ & L).
    pose proof (total_hang s (side ss) Ns). unfold side, list_sum in *. lia.
Qed.
Lemma shows_stack : forall lss bs, bs <> [] -> Forall2 shows lss bs -> shows (concat lss) (WStack bs).
Proof.
  intros lss bs N F. split; [|split].
  - constructor; [exact N|]. clear N. induction F as [|s b ss bs [H _] _ IH]; auto.
  - cbn [wlines]. clear N. induction F as [|s b ss bs [_ [E _]] _ IH]; [reflexivity|]. cbn [flat_map concat]. rewrite E, IH. reflexivity.
  - cbn [wsize]. clear N. induction F as [|s b ss bs [_ [_ E]] _ IH]; [auto|]. cbn [concat]. rewrite total_app. cbn [map list_sum fold_right]. unfold list_sum in *. lia.
Qed.
Definition single (s : str) : list str := [s].
Lemma side_single : forall ss, ss <> [] -> side (map single ss) = [concat ss].
Proof.
  induction ss as [|s [|t r] IH]; intros N; [congruence|cbn; now rewrite app_nil_r|]. cbn [map side fold_right] in *. rewrite (IH ltac:(discriminate)). reflexivity.
Qed.
Definition shown (s : str) (b : fblock) : Prop := shows [s] b.
Lemma shown_all : forall ss bs, Forall2 shown ss bs -> Forall2 shows (map single ss) bs.
Proof. intros ss bs F. induction F; constructor; auto. Qed.
Lemma shown_line : forall ss bs, bs <> [] -> Forall2 shown ss bs -> shown (concat ss) (WLine bs).
Proof. intros ss bs N F. unfold shown. rewrite <- side_single by (intros ->; inversion F; congruence). apply shows_line; [exact N|now apply shown_all]. Qed.
Lemma concat_single : forall ss, concat (map single ss) = ss.
Proof. induction ss as [|s ss IH]; [reflexivity|]. cbn. now rewrite IH. Qed.
Lemma shown_stack : forall ss bs, bs <> [] -> Forall2 shown ss bs -> shows ss (WStack bs).
Proof. intros ss bs N F. rewrite <- (concat_single ss). apply shows_stack; [exact N|now apply shown_all]. Qed.
Lemma shown_texts : forall ss, Forall2 shown ss (map WText ss).
Proof. induction ss; constructor; auto. apply shows_text. Qed.
(** Joining *)
Lemma shown_join : forall sep ss bs, ss <> [] -> Forall2 shown ss bs -> exists b, join_with bs (WText sep) = Done b /\ shown (sep_by sep ss) b.
Proof.
  intros sep ss bs N F. assert (exists ts, Forall2 shown ts (join_parts bs (WText sep)) /\ concat ts = sep_by sep ss /\ ts <> []) as (ts & T & E & Nt).
  { revert N. induction F as [|s b ss bs H F IH]; intros N; [congruence|]. destruct F as [|t c ss bs Ht F].
    - exists [s]. split; [constructor; [exact H|constructor]|]. split; [apply app_nil_r|discriminate].
    - destruct (IH ltac:(discriminate)) as (ts & T & E & _). exists ((s ++ sep) :: ts). split; [|split; [|discriminate]].
      + cbn [join_parts]. constructor; [|exact T]. replace (s ++ sep) with (concat [s; sep]) by (cbn; now rewrite app_nil_r). apply shown_line; [discriminate|]. repeat constructor; try apply H. cbn; lia.
      + cbn [concat]. rewrite E. cbn [sep_by]. now rewrite <- app_assoc. }
  unfold join_with. rewrite (shows_strictly _ _ (shown_all _ _ T)). cbn [rbind]. eexists. split; [reflexivity|]. rewrite <- E. apply shown_line; [|exact T]. intros X. rewrite X in T. inversion T. congruence.
Qed.
Lemma spaced_sep : forall ws, spaced ws = sep_by [32%Z] ws.
Proof. induction ws as [|w [|v r] IH]; [reflexivity|reflexivity|]. change (w ++ 32%Z :: spaced (v :: r) = w ++ [32%Z] ++ sep_by [32%Z] (v :: r)). rewrite IH. reflexivity. Qed.
Lemma join_sep : forall c l, join [c] l = sep_by [c] l.
Proof. intros c [|x l]; [reflexivity|]. rewrite StrProofs.join_cons. revert x. induction l as [|y l IH]; intros x; [apply app_nil_r|]. change (sep_by [c] (x :: y :: l)) with (x ++ [c] ++ sep_by [c] (y :: l)). rewrite <- (IH y). cbn [flat_map]. now rewrite <- app_assoc. Qed.

(** *** The string *)
Lemma block_string_raw : forall o fuel b, options_ok o -> (right_margin o <= 4096)%Z -> (0 <= linebreak_cost o)%Z -> Z.to_nat (2 ^ 28) < fuel ->
  full b -> (Z.of_nat (wsize b) <= 2 ^ 28)%Z ->
  exists fuel0, forall fuel', fuel0 <= fuel' -> block_string fuel fuel' o b = tidy (in_lines (wlines b)).
Proof.
  intros o fuel b Ho Hr Hc Hfu Hf Hsz. unfold block_string. pose proof (leaf_full b Hf) as Lf. apply Nat.eqb_neq in Lf. rewrite Lf.
  destruct (intern b []) as [bl st] eqn:Ei. destruct (intern_faithful b [] bl st Ei) as [_ G]. destruct (G []) as (A & B & C). rewrite app_nil_r in *.
  destruct (C97_block_text _ o fuel bl Ho Hr Hc Hfu (C Hf) ltac:(rewrite B; exact Hsz)) as (ls & E & Nls & P). rewrite E. cbn [lift rbind].
  destruct ls as [|l ls]; [congruence|]. destruct (P l (or_introl eq_refl)) as (f0 & Q). exists f0. intros f Hle. destruct (Q f Hle) as (ev & Ev & T).
  unfold at_. cbn [nth_error rbind]. rewrite Ev. cbn [lift rbind]. now rewrite T, A.
Qed.
Lemma tidy_trims : forall s, exists out, tidy s = Done out /\ no_trailing s out.
Proof.
  intros s. unfold tidy, split_by. change (lit (String (Ascii.ascii_of_nat 10) EmptyString)) with [10%Z].
  destruct (StrProofs.split_str_spec s [10%Z] (S (S (length s))) ltac:(discriminate) ltac:(lia)) as (ts & E & S). rewrite E. cbn [lift rbind]. eexists. split; [reflexivity|].
  exists ts, (map (fun x => strip x (chars []) (chars [32%Z])) ts). rewrite !in_lines_join. split; [symmetry; apply (StrProofs.split_at_join _ _ _ S)|]. split; [reflexivity|]. split.
  - pose proof (StrProofs.split_at_clean [10%Z] s ts ltac:(discriminate) S) as C. eapply Forall_impl; [|exact C]. intros x H I. apply H. apply in_split in I as (a & b & ->). exists (length a). exists a, b. auto.
  - clear. induction ts as [|x ts IH]; [constructor|]. cbn [map]. constructor; [|exact IH]. destruct (StrProofs.strip_spec x (chars []) (chars [32%Z])) as (a & b & E & A & B & _ & C).
    assert (a = []) as -> by (inversion A; [reflexivity|discriminate]). exists (length b). split.
    + cbn [app] in E. replace (repeat 32%Z (length b)) with b; [exact E|]. clear - B. induction B as [|c b H _ IH]; [reflexivity|]. cbn. unfold chars in H. cbn in H. rewrite Bool.orb_false_r in H. apply Z.eqb_eq in H. now rewrite H, <- IH.
    + intros p Hp. specialize (C p 32%Z Hp). discriminate.
Qed.

(** *** Numbers *)
Lemma value_snoc : forall s c, value (s ++ [c]) = (10 * value s + (c - 48))%Z.
Proof. intros. unfold value. rewrite fold_left_app. reflexivity. Qed.
Lemma value_nonneg : forall s, Forall digit s -> (0 <= value s)%Z.
Proof. induction s as [|c s IH] using rev_ind; intros F; [cbn; lia|]. rewrite value_snoc. apply Forall_app in F as [F Fc]. inversion Fc as [|? ? H _]; subst. unfold digit in H. specialize (IH F). lia. Qed.
Lemma value_grows : forall s c, Forall digit (c :: s) -> c <> 48%Z -> (Z.of_nat (length (c :: s)) <= value (c :: s))%Z.
Proof.
  induction s as [|d s IH] using rev_ind; intros c F N; [inversion F as [|? ? H _]; subst; unfold digit in H; cbn; lia|].
  change (c :: s ++ [d]) with ((c :: s) ++ [d]) in *. apply Forall_app in F as [F Fd]. inversion Fd as [|? ? H _]; subst. unfold digit in H. specialize (IH c F N). rewrite value_snoc, app_length. cbn [length] in *. lia.
Qed.
Lemma dec_digits_ok : forall s c f acc, Forall digit (c :: s) -> c <> 48%Z -> length (c :: s) <= f -> dec_digits f (value (c :: s)) acc = (c :: s) ++ acc.
Proof.
  induction s as [|d s IH] using rev_ind; intros c f acc F N L.
  - destruct f; [cbn in L; lia|]. inversion F as [|? ? H _]; subst. unfold digit in H. cbn [dec_digits]. change (value [c]) with (0 + (c - 48))%Z. rewrite Z.mod_small by lia.
    destruct (Z.ltb_spec (0 + (c - 48)) 10); [|lia]. cbn [app]. f_equal. lia.
  - change (c :: s ++ [d]) with ((c :: s) ++ [d]) in *. rewrite app_length in L. cbn [length] in L. destruct f; [lia|]. pose proof F as F'. apply Forall_app in F' as [F1 Fd]. inversion Fd as [|? ? H _]; subst. unfold digit in H.
    pose proof (value_grows s c F1 N) as G. cbn [length] in G. cbn [dec_digits]. rewrite value_snoc. destruct (Z.ltb_spec (10 * value (c :: s) + (d - 48)) 10); [lia|].
    replace ((10 * value (c :: s) + (d - 48)) / 10)%Z with (value (c :: s)) by (rewrite (Z.add_comm (10 * _)), (Z.mul_comm 10), Z.div_add, Z.div_small by lia; lia).
    replace ((10 * value (c :: s) + (d - 48)) mod 10)%Z with (d - 48)%Z by (rewrite (Z.add_comm (10 * _)), (Z.mul_comm 10), Z.mod_add, Z.mod_small by lia; lia).
    rewrite (IH c f _ F1 N) by (cbn [length]; lia). rewrite <- app_assoc. cbn [app]. do 2 f_equal. f_equal. lia.
Qed.
Lemma dec_ok : forall z s, decimal z s -> dec z = s.
Proof.
  assert (P : forall c s, Forall digit (c :: s) -> c <> 48%Z -> dec_digits (S (Z.to_nat (value (c :: s)))) (value (c :: s)) [] = c :: s).
  { intros c s F N. rewrite dec_digits_ok; [apply app_nil_r|exact F|exact N|]. pose proof (value_grows s c F N). cbn [length] in *. lia. }
  intros z s H. destruct H as [|c s F N|z s H Hz]; [reflexivity| |].
  - unfold dec. pose proof (value_nonneg _ F). destruct (Z.ltb_spec (value (c :: s)) 0); [lia|]. now apply P.
  - unfold dec. destruct (Z.ltb_spec (- z) 0); [|lia]. rewrite Z.opp_involutive. f_equal. destruct H as [|c s F N|z s H Hz']; [lia|now apply P|lia].
Qed.

(** *** Lisp code and attributes *)
Section Attrs.
Variable real_text : str -> str.
Lemma lisp_args : forall args ss, Forall2 (fun a s => shown s (lisp_block real_text a)) args ss ->
  Forall2 shown (flat_map (fun s => [[32%Z]; s]) ss) (flat_map (fun a => [txt " "; lisp_block real_text a]) args).
Proof. intros args ss F. induction F as [|a s args ss H _ IH]; [constructor|]. cbn [flat_map app]. constructor; [apply shows_text|]. constructor; auto. Qed.
Lemma spaced_flat : forall w ss, spaced (w :: ss) = w ++ concat (flat_map (fun s => [[32%Z]; s]) ss).
Proof. intros w ss. revert w. induction ss as [|s ss IH]; intros w; [cbn; now rewrite app_nil_r|]. change (spaced (w :: s :: ss)) with (w ++ 32%Z :: spaced (s :: ss)). rewrite IH. reflexivity. Qed.
Lemma lisp_shown : forall c s, lisp_says real_text c s -> shown s (lisp_block real_text c).
Proof.
  fix IH 3. intros c s H. destruct H as [| |s|s|z s D|s|name args ss F|args ss F].
  - apply shows_text.
  - apply shows_text.
  - apply shows_text.
  - apply shows_text.
  - cbn [lisp_block]. rewrite (dec_ok _ _ D). apply shows_text.
  - apply (shows_text (34%Z :: s ++ [34%Z])).
  - assert (G : Forall2 (fun a s => shown s (lisp_block real_text a)) args ss) by (clear - IH F; induction F; constructor; auto). clear IH F.
    cbn [lisp_block]. replace (40%Z :: spaced (name :: ss) ++ [41%Z]) with (concat (lit "(" :: name :: flat_map (fun s => [[32%Z]; s]) ss ++ [lit ")"])).
    2:{ rewrite spaced_flat. cbn [concat]. rewrite concat_app. cbn [concat app]. rewrite <- !app_assoc. reflexivity. }
    apply shown_line; [discriminate|]. constructor; [apply shows_text|]. constructor; [apply shows_text|]. apply Forall2_app; [now apply lisp_args|]. constructor; [apply shows_text|constructor].
  - assert (G : Forall2 (fun a s => shown s (lisp_block real_text a)) args ss) by (clear - IH F; induction F; constructor; auto). clear IH F.
    cbn [lisp_block].
    assert (X : exists ts, Forall2 shown ts ((fix go (l : list lisp) := match l with [] => [] | [x] => [lisp_block real_text x] | x :: r => lisp_block real_text x :: txt " " :: go r end) args) /\ concat ts = spaced ss).
    { induction G as [|a s args ss H G IHg]; [exists []; split; [constructor|reflexivity]|]. destruct G as [|a' s' args ss H' G].
      - exists [s]. split; [constructor; [exact H|constructor]|apply app_nil_r].
      - destruct IHg as (ts & T & E). exists (s :: [32%Z] :: ts). split; [constructor; [exact H|constructor; [apply shows_text|exact T]]|]. cbn [concat]. rewrite E. reflexivity. }
    destruct X as (ts & T & <-). replace (40%Z :: concat ts ++ [41%Z]) with (concat (lit "(" :: ts ++ [lit ")"])) by (cbn [concat]; rewrite concat_app; reflexivity).
    apply shown_line; [discriminate|]. constructor; [apply shows_text|]. apply Forall2_app; [exact T|]. constructor; [apply shows_text|constructor].
Qed.
Lemma escape_none : forall s, ~ In 34%Z s -> escape_quotes s = s.
Proof.
  unfold escape_quotes. induction s as [|c s IH]; intros N; [reflexivity|]. cbn [map concat]. destruct (Z.eqb_spec c 34) as [->|_]; [exfalso; apply N; now left|]. cbn [app]. f_equal. apply IH. intros I. apply N. now right.
Qed.
Lemma attr_shown : forall x s, attr_says real_text x s -> shown s (attr_block real_text x).
Proof.
  intros x s H. destruct H as [n v q x sp s H]. unfold attr_block. cbn [an avar adata aquoted].
  assert (X : exists ts bs, match x with AText s => [WText (if q then escape_quoted (escape_quotes s) else escape_quotes s)] | AFile f r => [WText f; txt ":"; WText r] | ALisp c => [lisp_block real_text c] end = bs /\ bs <> [] /\ Forall2 shown ts bs /\ concat ts = s).
  { destruct H as [s N|q f r|q c s H].
    - exists [s]. eexists. split; [reflexivity|]. split; [discriminate|]. rewrite escape_none by exact N. split; [constructor; [apply shows_text|constructor]|apply app_nil_r].
    - exists [f; lit ":"; r]. eexists. split; [reflexivity|]. split; [discriminate|]. split; [repeat (constructor; [apply shows_text|]); constructor|]. cbn [concat]. now rewrite app_nil_r.
    - exists [s]. eexists. split; [reflexivity|]. split; [discriminate|]. split; [constructor; [now apply lisp_shown|constructor]|apply app_nil_r]. }
  destruct X as (ts & bs & -> & N & F & <-).
  set (a := match n with Some n => [lit ":" ++ n ++ lit " "] | None => [] end). set (b := match v with Some v => [v; lit "="] | None => [] end).
  match goal with |- shown ?s _ => replace s with (concat (a ++ b ++ ts)) end.
  2:{ rewrite !concat_app. unfold a, b. destruct n, v; cbn [concat app]; rewrite ?app_nil_r, <- ?app_assoc; reflexivity. }
  apply shown_line.
  - intros E. apply app_eq_nil in E as [_ E]. apply app_eq_nil in E as [_ E]. congruence.
  - apply Forall2_app; [unfold a; destruct n; repeat (constructor; [apply shows_text|]); constructor|]. apply Forall2_app; [|exact F]. unfold b. destruct v; repeat (constructor; [apply shows_text|]); constructor.
Qed.
(** Groups *)
Lemma add_last : forall x key m, (forall k, In k (map fst m) -> AttrModel.str_ltb k key = true) -> add_named x key m = m ++ [(key, [x])].
Proof.
  induction m as [|[k l] m IH]; intros H; [reflexivity|]. cbn [add_named app]. pose proof (H k (or_introl eq_refl)) as L. pose proof L as L'. apply AttrProofs.str_ltb_lt in L.
  assert (A : ~ AttrSpec.str_lt k k) by (intros X; clear - X; remember k as j eqn:E in X at 2; revert E; induction X; intros E; subst; try discriminate; try (injection E as ? ?; subst; lia); try (injection E as E; auto)).
  destruct (AttrModel.str_eqb k key) eqn:E; [apply AttrProofs.str_eqb_eq in E; subst; contradiction|].
  destruct (AttrModel.str_ltb key k) eqn:E'; [apply AttrProofs.str_ltb_lt in E'; exfalso; apply A; eapply AttrProofs.str_lt_trans; eauto|].
  rewrite IH; [reflexivity|]. intros j Hj. apply H. now right.
Qed.
Lemma groups_sorted : forall nm ks, map (fun x => option_map normalize (an x)) nm = map Some ks -> forall m, increasing ks ->
  (forall k j, In k (map fst m) -> hd_error ks = Some j -> AttrModel.str_ltb k j = true) ->
  map snd (fold_left (fun m x => match an x with Some s => add_named x (normalize s) m | None => m end) nm m) = map snd m ++ map (fun x => [x]) nm.
Proof.
  induction nm as [|x nm IH]; intros ks E m I H; [cbn; now rewrite app_nil_r|]. destruct ks as [|k ks]; [discriminate|]. cbn [map] in E. injection E as E1 E2. destruct (an x) as [s|] eqn:Ex; [|discriminate]. cbn [option_map] in E1. injection E1 as E1.
  cbn [fold_left]. rewrite Ex, E1, add_last by (intros j Hj; now apply H). rewrite (IH ks E2).
  - rewrite map_app. cbn [map snd]. rewrite <- app_assoc. reflexivity.
  - destruct ks; [exact Logic.I|]. apply I.
  - intros j j' Hj Hj'. destruct ks as [|k' ks]; [discriminate|]. injection Hj' as <-. destruct I as [I _]. rewrite map_app in Hj. apply in_app_or in Hj as [Hj|[<-|[]]]; [|exact I].
    apply AttrProofs.str_ltb_lt. eapply AttrProofs.str_lt_trans; apply AttrProofs.str_ltb_lt; [|exact I]. now apply H.
Qed.
Lemma group_shown : forall l s, attrs_say real_text l s -> exists b, group_block real_text l = Done b /\ shown s b.
Proof.
  intros l s (free & nm & ss & El & Hf & (ks & Ek & Hk) & F & ->).
  assert (P : positional l = free).
  { subst l. unfold positional. rewrite filter_app. replace (filter _ nm) with (@nil attrv).
    - rewrite app_nil_r. clear - Hf. induction free as [|x free IH]; [reflexivity|]. cbn [filter]. rewrite (Hf x (or_introl eq_refl)). f_equal. apply IH. intros y Hy. apply Hf. now right.
    - clear - Ek. revert ks Ek. induction nm as [|x nm IH]; intros ks Ek; [reflexivity|]. destruct ks; [discriminate|]. cbn [map] in Ek. injection Ek as E1 E2. cbn [filter]. destruct (an x); [eauto|discriminate]. }
  assert (G : map snd (named_groups l) = map (fun x => [x]) nm).
  { subst l. unfold named_groups. rewrite fold_left_app. replace (fold_left _ free []) with (@nil (str * list attrv)).
    - exact (groups_sorted nm ks Ek [] Hk ltac:(intros ? ? [])).
    - clear - Hf. induction free as [|x free IH]; [reflexivity|]. cbn [fold_left]. rewrite (Hf x (or_introl eq_refl)). apply IH. intros y Hy. apply Hf. now right. }
  unfold group_block. rewrite P. replace (map (fun p => attr_list real_text (snd p)) (named_groups l)) with (map (attr_list real_text) (map snd (named_groups l))) by apply map_map. rewrite G, map_map. subst l.
  assert (S : Forall2 shown ss (map (attr_block real_text) free ++ map (fun x => attr_list real_text [x]) nm)).
  { apply Forall2_app_inv_l in F as (s1 & s2 & F1 & F2 & ->). apply Forall2_app.
    - clear - F1. induction F1 as [|x s free s1 H _ IH]; [constructor|]. cbn [map]. constructor; [now apply attr_shown|exact IH].
    - clear - F2. induction F2 as [|x s nm s2 H _ IH]; [constructor|]. cbn [map]. constructor; [|exact IH]. unfold shown, attr_list. cbn [map apart_by]. change [s] with (concat [[s]]). apply shows_stack; [discriminate|]. constructor; [now apply attr_shown|constructor]. }
  destruct S as [|s b ss bs H S]; [eexists; split; [reflexivity|apply (shows_text [])]|]. rewrite spaced_sep. apply (shown_join [32%Z] (s :: ss) (b :: bs)); [discriminate|]. now constructor.
Qed.
End Attrs.
