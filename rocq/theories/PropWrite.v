(** Proofs for C120, part three: what is written is read back. *)
From Coq Require Import String Lia.
From Verif Require Import Base StrModel StrSpec StrProofs AttrModel TokModel TimeModel PropModel PropSpec PropProofs PropRead.
From Verif Require JsonModel ConvModel ConvSpec ConvProofs ConvTexts AttrProofs Utf8Proofs TokRun TimeSpec TimeProofs.
Local Open Scope Z_scope.

(** ** Texts on one line *)
Definition safe (s : str) : Prop := Forall (fun c => c <> 10) s.
Lemma safe_line : forall s, safe s <-> one_line s.
Proof.
  intros s. unfold safe, one_line. rewrite Forall_forall. split; [intros F I; exact (F 10 I eq_refl)|intros N x I ->; exact (N I)].
Qed.
Lemma safe_app : forall a b, safe a -> safe b -> safe (a ++ b).
Proof. intros. apply Forall_app. now split. Qed.
Lemma safe_join : forall d l, safe d -> Forall safe l -> safe (join d l).
Proof.
  intros d l D F. destruct l as [|x r]; [constructor|]. inversion F; subst. rewrite join_cons. apply safe_app; [assumption|].
  match goal with H : Forall safe r |- _ => clear - D H; induction r as [|y r IH]; cbn [flat_map]; [constructor|]; inversion H; subst end.
  apply safe_app; [apply safe_app; assumption|]. apply IH. assumption.
Qed.
Lemma safe_decimal : forall z, safe (decimal z).
Proof. intros z. destruct (decimal_ends z) as [_ F]. eapply Forall_impl; [|exact F]. cbn. intros c H. lia. Qed.
Lemma safe_ident : forall a, ident a -> safe a.
Proof. intros a [_ F]. eapply Forall_impl; [|exact F]. cbn. unfold letter. intros c H. lia. Qed.
Lemma digits_solid : forall f z acc, ~ In 32 acc -> ~ In 32 (JsonModel.dec_digits f z acc).
Proof.
  intros f. induction f as [|f IH]; intros z acc A; [exact A|]. cbn [JsonModel.dec_digits]. pose proof (Z.mod_pos_bound z 10 ltac:(lia)).
  assert (~ In 32 (48 + z mod 10 :: acc)) by (intros [X|X]; [lia|exact (A X)]). destruct (z <? 10); [assumption|]. now apply IH.
Qed.

Lemma json_trimmed : forall j t, scalar j -> JsonModel.dump j = Ok t -> trimmed t /\ dump0 j = Ok t.
Proof.
  intros j t S E. destruct j as [|[]|z|x|x|l|l]; try contradiction; cbn [JsonModel.dump dump0] in *.
  1-3: injection E as <-; (split; [|reflexivity]); apply trimmed_all; vm_compute; intuition discriminate.
  - injection E as <-. split; [|reflexivity]. apply trimmed_all. unfold JsonModel.int_text. destruct (z <? 0); [intros [X|X]; [discriminate|]; revert X|]; apply digits_solid; intros [].
  - split; [|exact E]. unfold JsonModel.dump_str in E. destruct (JsonModel.readable x); [|discriminate]. injection E as <-. unfold JsonModel.quote. split.
    + intros m X. discriminate.
    + intros m X. rewrite app_comm_cons in X. apply app_inj_tail in X. destruct X as [_ X]. discriminate.
Qed.
Lemma essence_app : forall a b, essence (a ++ b) = essence a ++ essence b.
Proof. intros a b. rewrite <- !essence_is, TokRun.norm_app. reflexivity. Qed.
Lemma short_essence : forall n, short_name n -> essence n = n.
Proof.
  intros n [_ F]. induction F as [|c r H F IH]; [reflexivity|]. cbn [essence]. rewrite IH.
  replace (((97 <=? c) && (c <=? 122)) || ((65 <=? c) && (c <=? 90)) || ((48 <=? c) && (c <=? 57))) with true by (symmetry; rewrite !orb_true_iff, !andb_true_iff, !Z.leb_le; lia).
  f_equal. unfold low. replace ((65 <=? c) && (c <=? 90)) with false; [reflexivity|]. symmetry. apply andb_false_iff. rewrite !Z.leb_gt. lia.
Qed.
Lemma short_ident : forall n, short_name n -> ident n.
Proof. intros n [N F]. split; [exact N|]. eapply Forall_impl; [|exact F]. cbn. unfold letter. intros c H. lia. Qed.
Lemma ident_no_colon : forall n, ident n -> ~ In 58 n.
Proof. intros n [_ F] I. rewrite Forall_forall in F. specialize (F 58 I). unfold letter in F. lia. Qed.
(** The second part of a name of two parts *)
Lemma second_of : forall a b, ident a -> ident b -> second_part (a ++ 58 :: b) = Ok (Some b).
Proof.
  intros a b I J. unfold second_part. destruct (colon_stripped _ (ends_two a b I J)) as [-> _].
  change (a ++ 58 :: b) with (a ++ [58] ++ b). replace (a ++ [58] ++ b) with (join [58] [a; b]) by (rewrite join_cons; cbn [flat_map]; now rewrite app_nil_r).
  rewrite split_char_joined; [reflexivity|discriminate|exact (proj1 J)|]. repeat constructor; apply ident_no_colon; assumption.
Qed.

(** ** Splitting at two colons *)
Lemma no_double : forall s, ~ double_colon s -> ~ occurs [58; 58] s.
Proof. intros s N (i & a & b & -> & _). apply N. now exists a, b. Qed.
Lemma double_first : forall a b, ~ double_colon a -> (forall m, a <> m ++ [58]) -> first_occurrence [58; 58] (a ++ [58; 58] ++ b) (length a).
Proof.
  intros a b N M. split; [exists a, b; auto|]. intros j J (x & y & E & L). subst j. cbn [app] in E.
  assert (X : nth_error (a ++ 58 :: 58 :: b) (length x) = Some 58) by (rewrite E, nth_error_app2, Nat.sub_diag by lia; reflexivity).
  rewrite nth_error_app1 in X by exact J. destruct (nth_error_split _ _ X) as (p & q & Ea & Lp). subst a. destruct q as [|c q].
  - exact (M p eq_refl).
  - rewrite <- app_assoc in E. assert (p = x /\ 58 :: (c :: q) ++ 58 :: 58 :: b = 58 :: 58 :: y) as [-> E2].
    { clear - E Lp. revert x Lp E. induction p as [|d p IH]; intros [|e x] L E; try discriminate L; [now split|]. injection E as -> E. injection L as L. destruct (IH x L E) as [-> Q]. now split. }
    injection E2 as -> _. apply N. now exists x, q.
Qed.
Lemma join_double : forall path, Forall (fun x => ~ double_colon x) path -> ~ double_colon (join [47] path).
Proof.
  intros path F. destruct path as [|x r]; [intros (a & b & E); destruct a; discriminate|]. revert x F. induction r as [|y r IH]; intros x F.
  - rewrite join_cons. cbn [flat_map]. rewrite app_nil_r. now inversion F.
  - inversion F as [|? ? Nx Fr]; subst. rewrite join_cons. cbn [flat_map]. rewrite <- app_assoc, <- (join_cons [47] y r). specialize (IH y Fr). set (w := join [47] (y :: r)) in *. clearbody w. clear F Fr.
    intros (a & b & E). revert x Nx E. induction a as [|c a IHa]; intros x Nx E.
    + destruct x as [|d [|e x]]; cbn in E; try discriminate. injection E as -> -> _. apply Nx. now exists [], x.
    + destruct x as [|d x]; cbn [app] in E.
      * injection E as <- E. apply IH. now exists a, b.
      * injection E as <- E. apply (IHa x); [|exact E]. intros (p & q & ->). apply Nx. now exists (d :: p), q.
Qed.
Lemma split_double : forall a b, ~ double_colon a -> (forall m, a <> m ++ [58]) -> ~ double_colon b -> split_by (a ++ [58; 58] ++ b) "::" = Ok [a; b].
Proof.
  intros a b N M B. destruct (split_by_inv (a ++ [58; 58] ++ b) "::") as (ts & E & Q); [discriminate|]. rewrite E. f_equal.
  eapply split_at_functional; [exact Q|]. apply split_more; [now apply double_first|]. constructor. now apply no_double.
Qed.

(** ** Ends of joined texts *)
Lemma join_head : forall d l c m, join [d] l = c :: m -> (exists m', hd [] l = c :: m') \/ c = d.
Proof.
  intros d l c m E. destruct l as [|x r]; [discriminate|]. rewrite join_cons in E. destruct x as [|e x].
  - destruct r as [|y r]; [discriminate|]. cbn in E. injection E as -> _. now right.
  - cbn in E. injection E as -> _. left. now exists x.
Qed.
Lemma join_last : forall d l c m, join [d] l = m ++ [c] -> (exists m', last l [] = m' ++ [c]) \/ c = d.
Proof.
  intros d l c m E. destruct l as [|x0 r0] using rev_ind; [destruct m; discriminate|]. clear IHr0. rewrite last_last.
  assert (H : exists p, join [d] (r0 ++ [x0]) = p ++ x0 /\ (p = [] \/ exists q, p = q ++ [d])).
  { destruct r0 as [|y r0]; [exists []; split; [cbn [app]; rewrite join_cons; cbn [flat_map]; now rewrite app_nil_r|now left]|]. rewrite join_snoc by discriminate. exists (join [d] (y :: r0) ++ [d]). split; [now rewrite <- app_assoc|right; eauto]. }
  destruct H as (p & Ep & Hp). rewrite Ep in E. destruct x0 as [|e0 u0] using rev_ind.
  - rewrite app_nil_r in E. subst p. destruct Hp as [Hp|(q & Hp)]; [destruct m; discriminate|]. apply app_inj_tail in Hp. right. apply Hp.
  - rewrite app_assoc in E. apply app_inj_tail in E. destruct E as [_ ->]. left. eauto.
Qed.

(** ** Names of arguments *)
Lemma ident_low : forall n, ident (map low n) -> ident n.
Proof.
  intros n [N F]. split; [intros ->; now apply N|]. rewrite Forall_map in F. eapply Forall_impl; [|exact F]. cbn. intros c H. unfold letter, low in *.
  destruct ((65 <=? c) && (c <=? 90)) eqn:E; [apply andb_true_iff in E; rewrite !Z.leb_le in E; lia|exact H].
Qed.
Lemma header_name : forall n, In (map low n) [lit "header-args"; lit "header_args"] -> ident n /\ essence n = lit "headerargs" /\ length n = 11%nat.
Proof.
  intros n H. split; [|split].
  - apply ident_low. destruct H as [<-|[<-|[]]]; apply ident_wordy; (split; [discriminate|]); apply Forall_forall, forallb_forall; reflexivity.
  - rewrite <- essence_is, <- Utf8Proofs.normalize_case, lows_are. destruct H as [<-|[<-|[]]]; reflexivity.
  - rewrite <- (map_length low n). destruct H as [<-|[<-|[]]]; reflexivity.
Qed.
Lemma header_line : forall n r, In (map low n) [lit "header-args"; lit "header_args"] ->
  property_line (58 :: n ++ 58 :: r) = let e := with_subname (58 :: n ++ 58 :: r) 13 in Some (KArguments, firstn e (58 :: n ++ 58 :: r), skipn e (58 :: n ++ 58 :: r)).
Proof.
  intros n r H. unfold property_line. change (run_len (Z.eqb c_sp) (58 :: n ++ 58 :: r)) with 0%nat. change (skipn 0 (58 :: n ++ 58 :: r)) with (58 :: n ++ 58 :: r).
  rewrite (ilit_lower (lit ":end:")), (ilit_lower (lit ":properties:")), (ilit_lower (lit ":logbook:")), arguments_lower, lower_name. generalize (map to_lower r). intros q.
  destruct H as [<-|[<-|[]]]; reflexivity.
Qed.
Lemma header_one : forall n r, In (map low n) [lit "header-args"; lit "header_args"] ->
  property_line (58 :: n ++ 58 :: 32 :: r) = Some (KArguments, 58 :: n ++ [58], 32 :: r).
Proof.
  intros n r H. rewrite header_line by exact H. cbv zeta. destruct (header_name n H) as (_ & _ & L).
  replace (58 :: n ++ 58 :: 32 :: r) with ((58 :: n ++ [58]) ++ 32 :: r) by (cbn [app]; now rewrite <- app_assoc).
  replace 13%nat with (length (58 :: n ++ [58])) by (cbn [length]; rewrite app_length; cbn [length]; lia).
  rewrite subname_one by reflexivity. now rewrite firstn_here, skipn_here.
Qed.
Lemma header_two : forall n b r, In (map low n) [lit "header-args"; lit "header_args"] -> ident b ->
  property_line (58 :: n ++ 58 :: b ++ 58 :: r) = Some (KArguments, 58 :: (n ++ 58 :: b) ++ [58], r).
Proof.
  intros n b r H I. rewrite header_line by exact H. cbv zeta. destruct (header_name n H) as (_ & _ & L).
  replace (58 :: n ++ 58 :: b ++ 58 :: r) with ((58 :: n ++ [58]) ++ b ++ 58 :: r) by (cbn [app]; now rewrite <- app_assoc).
  replace 13%nat with (length (58 :: n ++ [58])) by (cbn [length]; rewrite app_length; cbn [length]; lia).
  rewrite subname_two by exact I. replace ((58 :: n ++ [58]) ++ b ++ 58 :: r) with (((58 :: n ++ [58]) ++ b ++ [58]) ++ r) by (cbn [app]; rewrite <- !app_assoc; cbn [app]; reflexivity).
  rewrite firstn_here, skipn_here. cbn [app]. now rewrite <- !app_assoc.
Qed.

Section Lines.
Variable paragraph : str -> list item.
Variable arguments : str -> group.
Variable json_of : str -> outcome JsonModel.json.
Variable attrs_text : group -> str.
Notation read_property := (read_property json_of).
Notation read_line := (read_line paragraph arguments json_of).
Notation write := (write attrs_text).
Notation writable := (writable paragraph arguments json_of attrs_text).

Lemma args_read : forall k n sub g, essence n = lit "headerargs" -> ident n -> match sub with Some b => ident b | None => True end ->
  k = n ++ match sub with Some b => 58 :: b | None => [] end ->
  read_property (58 :: k ++ [58]) (VArgs g) = Ok (RProp (PArgs n sub g)).
Proof.
  intros k n sub g E I J K.
  assert (N : named_ends k) by (subst k; destruct sub as [b|]; [now apply ends_two|rewrite app_nil_r; now apply ident_ends]).
  assert (Q : exists r, essence k = lit "headerargs" ++ r) by (subst k; rewrite essence_app, E; eauto). destruct Q as (r & Q).
  unfold PropModel.read_property. pose proof (basename_of 0 k N) as B. cbn [repeat app] in B. rewrite B. cbv zeta. rewrite essence_is, Q.
  do 15 (rewrite eqb_neq by (let X := fresh in intros X; vm_compute in X; discriminate X)). rewrite !starts_not by (let X := fresh in intros ? X; vm_compute in X; discriminate X).
  destruct (colon_stripped k N) as [_ ->]. destruct sub as [b|].
  - replace k with (join [58] [n; b]) by (rewrite join_cons; cbn [flat_map]; rewrite app_nil_r; now subst k).
    rewrite split_char_joined; [reflexivity|discriminate|exact (proj1 J)|]. repeat constructor; apply ident_no_colon; assumption.
  - rewrite app_nil_r in K. replace k with (join [58] [n]) by (rewrite join_cons; cbn [flat_map]; rewrite app_nil_r; now subst k).
    rewrite split_char_joined; [reflexivity|discriminate|exact (proj1 I)|]. repeat constructor; apply ident_no_colon; assumption.
Qed.
Lemma line_read : forall l k tok v, property_line l = Some (k, tok, v) -> read_line l = Some (read_property tok (values_of paragraph arguments k v)).
Proof. intros l k tok v H. unfold PropModel.read_line. now rewrite H. Qed.
Lemma line_one0 : forall a r, ident a -> ~ special a -> p_seq p_ident (p_chr c_colon) r = None -> property_line (58 :: a ++ 58 :: r) = Some (KLiteral, 58 :: a ++ [58], r).
Proof. intros a r. exact (line_one 0 a r). Qed.
Lemma line_two0 : forall a b r, ident a -> ident b -> ~ special a -> property_line (58 :: a ++ 58 :: b ++ 58 :: r) = Some (KLiteral, 58 :: (a ++ 58 :: b) ++ [58], r).
Proof. intros a b r. rewrite <- app_assoc. exact (line_two 0 a b r). Qed.
Lemma base0 : forall n, named_ends n -> strip (58 :: n ++ [58]) (ConvModel.chars [32; 58]) (ConvModel.chars [58]) = n.
Proof. exact (basename_of 0). Qed.
(** A line written under a name without a meaning of its own *)
Lemma plain_read : forall n v, plain_name n -> clean v -> read_line (58 :: n ++ 58 :: 32 :: v) = Some (Ok (RProp (PRaw n v))).
Proof.
  intros n v N [T _]. inversion N as [a I S R|a b I J S R]; subst.
  - rewrite (line_read _ _ _ _ (line_one0 n (32 :: v) I S eq_refl)). cbn [values_of]. rewrite (raw_read json_of _ n); [now rewrite strip_lead|apply base0; now apply ident_ends|exact R].
  - rewrite <- app_assoc. cbn [app]. rewrite (line_read _ _ _ _ (line_two0 a b (32 :: v) I J S)). cbn [values_of].
    rewrite (raw_read json_of _ (a ++ 58 :: b)); [now rewrite strip_lead|apply base0; now apply ends_two|exact R].
Qed.

Lemma join_trimmed : forall d l, d <> 32 -> (forall m, hd [] l <> 32 :: m) -> (forall m, last l [] <> m ++ [32]) -> trimmed (join [d] l).
Proof.
  intros d l D A B. split; intros m E.
  - apply join_head in E. destruct E as [(m' & E)|E]; [exact (A m' E)|congruence].
  - apply join_last in E. destruct E as [(m' & E)|E]; [exact (B m' E)|congruence].
Qed.
Lemma hd_in : forall (l : list str), l <> [] -> In (hd [] l) l.
Proof. intros [|x l] H; [congruence|now left]. Qed.
Lemma last_in : forall (l : list str), l <> [] -> In (last l []) l.
Proof. intros l H. destruct (exists_last H) as (q & x & ->). rewrite last_last. apply in_or_app. right. now left. Qed.

Lemma target_read : forall path pattern, writable (PArchiveTarget path pattern) ->
  read_line (lit ":archive: " ++ pattern ++ lit "::* " ++ join [47] path) = Some (Ok (RProp (PArchiveTarget path pattern))).
Proof.
  intros path pattern (N & F & H1 & H2 & H3 & O & D & M & T).
  change (read_line (lit ":archive: " ++ pattern ++ lit "::* " ++ join [47] path)) with
    (Some (obind (Ok (ConvModel.strip_space (32 :: pattern ++ lit "::* " ++ join [47] path))) (fun s => obind (split_by s "::") (fun dsl =>
      obind (at_out dsl 0) (fun pattern => obind (at_out dsl 1) (fun rest =>
        omap (fun path => RProp (PArchiveTarget path pattern)) (split_by (ConvModel.lstrip rest [42; 32]%Z) "/"))))))).
  f_equal. cbn [obind]. assert (Fd : ~ double_colon (join [47] path)) by (apply join_double; eapply Forall_impl; [|exact F]; cbn; tauto).
  assert (Fs : split_by (join [47] path) "/" = Ok path) by (apply (split_by_joined 47); [reflexivity|exact N|eapply Forall_impl; [|exact F]; cbn; tauto]).
  assert (X : exists y, ConvModel.strip_space (32 :: pattern ++ lit "::* " ++ join [47] path) = pattern ++ [58; 58] ++ y /\ ~ double_colon y /\ ConvModel.lstrip y [42; 32] = join [47] path).
  { destruct (join [47] path) as [|c m] eqn:E.
    - exists [42]. rewrite app_nil_r. split; [|split; [intros ([|? [|? ?]] & b & X); discriminate|reflexivity]].
      change (32 :: pattern ++ lit "::* ") with (32 :: pattern ++ [58; 58] ++ [42; 32]). replace (32 :: pattern ++ [58; 58] ++ [42; 32]) with ((32 :: pattern ++ [58; 58; 42]) ++ [32]) by (cbn [app]; rewrite <- app_assoc; reflexivity).
      apply ConvProofs.strip_trims. exists [32], [32]. split; [reflexivity|]. split; [repeat constructor|]. split; [repeat constructor|]. cbn [app]. split.
      + destruct pattern as [|e q]; [exists 58, [58; 42]; split; [reflexivity|intros [|[]]; discriminate]|]. exists e, (q ++ [58; 58; 42]). split; [reflexivity|]. intros [<-|[]]. exact (T q eq_refl).
      + exists 42, (pattern ++ [58; 58]). split; [now rewrite <- app_assoc|intros [|[]]; discriminate].
    - exists ([42; 32] ++ c :: m). split; [|split].
      + change (lit "::* ") with ([58; 58] ++ [42; 32]). rewrite <- (app_assoc [58; 58]). apply strip_lead. split; intros r Er.
        * destruct pattern as [|e q]; [discriminate|]. injection Er as -> _. exact (T q eq_refl).
        * destruct (exists_last (l := c :: m)) as (q & d & Eq); [discriminate|]. rewrite Eq in Er. rewrite !app_assoc in Er. apply app_inj_tail in Er. destruct Er as [_ ->]. rewrite Eq in E. apply join_last in E. destruct E as [(m' & E)|E]; [exact (H3 m' E)|discriminate].
      + intros (a & b & X). apply Fd. destruct a as [|? [|? a]]; try discriminate; cbn [app] in X; injection X as _ _ X. now exists a, b.
      + apply ConvProofs.lstrip_trims. exists [42; 32], []. split; [now rewrite app_nil_r|]. split; [constructor; [now left|constructor; [right; now left|constructor]]|]. split; [constructor|]. split.
        * exists c, m. split; [reflexivity|]. apply join_head in E. destruct E as [(m' & E)|E]; [|subst c; cbn; intuition discriminate].
          intros [<-|[<-|[]]]; [exact (H1 m' E)|exact (H2 m' E)].
        * destruct (exists_last (l := c :: m)) as (q & d & Eq); [discriminate|]. exists d, q. split; [exact Eq|intros []]. }
  destruct X as (y & -> & Dy & Ly). rewrite split_double by assumption. cbn [obind at_out nth_error]. rewrite Ly, Fs. reflexivity.
Qed.
Lemma olpath_read : forall path, writable (PArchiveOlpath path) -> read_line (lit ":archive_olpath: " ++ join [47] path) = Some (Ok (RProp (PArchiveOlpath path))).
Proof.
  intros path (N & F & H).
  change (read_line (lit ":archive_olpath: " ++ join [47] path)) with (Some (obind (Ok (ConvModel.strip_space (32 :: join [47] path))) (fun s => omap (fun path => RProp (PArchiveOlpath path)) (subtree_path s)))).
  f_equal. cbn [obind]. pose proof F as G. rewrite Forall_forall in G. assert (T : trimmed (join [47] path)).
  { apply join_trimmed; [discriminate| |]; [apply (G _ (hd_in path N))|apply (G _ (last_in path N))]. }
  rewrite strip_lead by exact T. unfold subtree_path. rewrite strip_end_trimmed.
  - rewrite (split_by_joined 47); [|reflexivity|exact N|eapply Forall_impl; [|exact F]; cbn; tauto]. cbn [omap obind]. do 3 f_equal.
    rewrite <- (map_id path) at 2. apply map_ext_in. intros x I. apply strip_same. apply (G _ I).
  - intros m c E [<-|[<-|[]]]; [|exact (proj1 T m E)]. apply join_head in E. destruct E as [(m' & E)|E]; [exact (H m' E)|discriminate].
  - intros m c E [<-|[]]. exact (proj2 T m E).
Qed.
Lemma radio_read : forall ws, writable (PRadioId ws) -> read_line (lit ":radio_id: " ++ join [32] ws) = Some (Ok (RProp (PRadioId ws))).
Proof.
  intros ws (F & [->|[A B]]); [reflexivity|].
  change (read_line (lit ":radio_id: " ++ join [32] ws)) with (Some (obind (Ok (ConvModel.strip_space (32 :: join [32] ws))) (fun s => omap (fun l => RProp (PRadioId l)) (split_char s 32)))).
  f_equal. cbn [obind]. assert (N : ws <> []) by (intros ->; now apply A). rewrite Forall_forall in F.
  rewrite strip_lead.
  - rewrite split_char_joined; [reflexivity|exact N|exact B|]. apply Forall_forall. intros x I. apply (F x I).
  - split; intros m E.
    + destruct ws as [|x r]; [congruence|]. rewrite join_cons in E. cbn [hd] in A. destruct x as [|c x]; [congruence|]. injection E as -> _. destruct (F (32 :: x) (or_introl eq_refl)) as [X _]. apply X. now left.
    + destruct (exists_last B) as (u & c & Eu). destruct (F _ (last_in ws N)) as [X _]. rewrite Eu in X.
      destruct (exists_last N) as (q & w & Ew). rewrite Ew, last_last in Eu. subst ws w.
      assert (Y : exists p, join [32] (q ++ [u ++ [c]]) = p ++ [c]).
      { destruct q as [|y q]; [exists u; cbn [app]; rewrite join_cons; cbn [flat_map]; now rewrite app_nil_r|]. rewrite join_snoc by discriminate. exists (join [32] (y :: q) ++ [32] ++ u). now rewrite <- !app_assoc. }
      destruct Y as (p & Y). rewrite Y in E. apply app_inj_tail in E. destruct E as [_ ->]. apply X. apply in_or_app. right. now left.
Qed.
Lemma effort_read : forall h m, writable (PEffort h m) -> read_line (lit ":EFFORT: " ++ decimal h ++ 58 :: decimal m) = Some (Ok (RProp (PEffort h m))).
Proof.
  intros h m [H M]. destruct (decimal_ends h) as [Nh Fh]. destruct (decimal_ends m) as [Nm Fm]. rewrite Forall_forall in Fh, Fm.
  change (read_line (lit ":EFFORT: " ++ decimal h ++ 58 :: decimal m)) with (Some (obind (Ok (ConvModel.strip_space (32 :: decimal h ++ 58 :: decimal m))) (fun s => obind (split_by s ":") (fun l =>
      match l with
      | [m] => omap (fun m => RProp (PEffort 0 m)) (to_int m)
      | [h; m] => obind (to_int m) (fun m => omap (fun h => RProp (PEffort h m)) (to_int h))
      | _ => Ok (RProp (PEffort 0 0))
      end)))).
  f_equal. cbn [obind]. rewrite strip_lead.
  - replace (decimal h ++ 58 :: decimal m) with (join [58] [decimal h; decimal m]) by (rewrite join_cons; cbn [flat_map]; now rewrite app_nil_r).
    rewrite (split_by_joined 58); [|reflexivity|discriminate|]; [|repeat constructor; intros I; [apply Fh in I|apply Fm in I]; lia].
    cbn [obind]. rewrite !to_int_decimal by assumption. reflexivity.
  - apply trimmed_all. intros I. apply in_app_or in I. destruct I as [I|[I|I]]; [apply Fh in I; lia|discriminate|apply Fm in I; lia].
Qed.
Lemma json_read : forall n j, writable (PJson n j) -> exists t, write (PJson n j) = Ok t /\ one_line t /\ read_line t = Some (Ok (RProp (PJson n j))).
Proof.
  intros n j (N & S & t & E & O & R). destruct (json_trimmed j t S E) as [T D]. pose proof (short_ident n N) as I. cbn [PropModel.write]. rewrite D. cbn [omap obind].
  exists (lit ":prop_json:" ++ n ++ lit ": " ++ t). split; [reflexivity|]. split.
  - apply safe_line. apply safe_app; [repeat constructor; discriminate|]. apply safe_app; [now apply safe_ident|]. apply safe_app; [repeat constructor; discriminate|now apply safe_line].
  - assert (J : ident (lit "prop_json")) by (apply ident_wordy; split; [discriminate|]; apply Forall_forall, forallb_forall; reflexivity).
    change (lit ":prop_json:" ++ n ++ lit ": " ++ t) with (58 :: lit "prop_json" ++ 58 :: n ++ 58 :: 32 :: t).
    rewrite (line_read _ _ _ _ (line_two0 (lit "prop_json") n (32 :: t) J I ltac:(cbn; intuition discriminate))). f_equal. cbn [values_of].
    unfold PropModel.read_property. rewrite base0 by now apply ends_two. cbv zeta. rewrite essence_is.
    replace (essence (lit "prop_json" ++ 58 :: n)) with (lit "propjson" ++ n) by (rewrite essence_app; change (essence (58 :: n)) with (essence n); rewrite (short_essence n N); reflexivity).
    do 15 (rewrite eqb_neq by (let X := fresh in intros X; vm_compute in X; discriminate X)). replace (starts_with (lit "propjson" ++ n) (lit "propjson")) with true by (symmetry; apply starts_with_spec; now exists n).
    rewrite second_of by assumption. cbn [obind values_text text_of omap]. rewrite strip_lead by exact T. cbn [obind omap]. rewrite R. cbn [obind omap]. rewrite essence_is, (short_essence n N). reflexivity.
Qed.
Lemma flags_read : forall n g, writable (PFlags n g) -> read_line (lit ":prop_args:" ++ n ++ lit ":" ++ attrs_text g) = Some (Ok (RProp (PFlags n g))).
Proof.
  intros n g (N & O & A). pose proof (short_ident n N) as I. assert (J : ident (lit "prop_args")) by (apply ident_wordy; split; [discriminate|]; apply Forall_forall, forallb_forall; reflexivity).
  assert (P : property_line (lit ":prop_args:" ++ n ++ lit ":" ++ attrs_text g) = Some (KArguments, 58 :: (lit "prop_args" ++ 58 :: n) ++ [58], attrs_text g)).
  { change (property_line (lit ":prop_args:" ++ n ++ lit ":" ++ attrs_text g)) with
      (let e := with_subname (lit ":prop_args:" ++ n ++ 58 :: attrs_text g) (length (lit ":prop_args:")) in Some (KArguments, firstn e (lit ":prop_args:" ++ n ++ 58 :: attrs_text g), skipn e (lit ":prop_args:" ++ n ++ 58 :: attrs_text g))).
    cbv zeta. rewrite subname_two by exact I. replace (lit ":prop_args:" ++ n ++ 58 :: attrs_text g) with ((lit ":prop_args:" ++ n ++ [58]) ++ attrs_text g) by (rewrite <- !app_assoc; reflexivity).
    rewrite firstn_here, skipn_here. reflexivity. }
  rewrite (line_read _ _ _ _ P). f_equal. cbn [values_of]. rewrite A. unfold PropModel.read_property.
  rewrite base0 by now apply ends_two. cbv zeta. rewrite essence_is.
  replace (essence (lit "prop_args" ++ 58 :: n)) with (lit "propargs" ++ n) by (rewrite essence_app; change (essence (58 :: n)) with (essence n); rewrite (short_essence n N); reflexivity).
  do 15 (rewrite eqb_neq by (let X := fresh in intros X; vm_compute in X; discriminate X)). rewrite starts_not by (let X := fresh in intros ? X; vm_compute in X; discriminate X). replace (starts_with (lit "propargs" ++ n) (lit "propargs")) with true by (symmetry; apply starts_with_spec; now exists n).
  rewrite second_of by assumption. cbn [obind attrs_of_values omap]. rewrite essence_is, (short_essence n N). reflexivity.
Qed.
Lemma args_line : forall n sub g, writable (PArgs n sub g) ->
  read_line (58 :: n ++ 58 :: match sub with Some s => s ++ [58] | None => [] end ++ 32 :: attrs_text g) = Some (Ok (RProp (PArgs n sub g))).
Proof.
  intros n sub g (H & J & _ & A). destruct (header_name n H) as (I & E & _). destruct sub as [b|]; cbn [app].
  - rewrite <- app_assoc. cbn [app]. rewrite (line_read _ _ _ _ (header_two n b (32 :: attrs_text g) H J)). f_equal. cbn [values_of]. rewrite A. now apply args_read.
  - rewrite (line_read _ _ _ _ (header_one n (attrs_text g) H)). f_equal. cbn [values_of]. rewrite A. apply args_read; auto. now rewrite app_nil_r.
Qed.
Lemma created_read : forall t, writable (PCreated t) -> read_line (lit ":CREATED: [" ++ format_org t ++ lit "]") = Some (Ok (RProp (PCreated t))).
Proof.
  intros t (_ & r & E).
  change (read_line (lit ":CREATED: [" ++ format_org t ++ lit "]")) with (Some (match paragraph (lit " [" ++ format_org t ++ lit "]") with
    | [] => Throw | ITime (Some t) :: _ => Ok (RProp (PCreated t)) | ITime None :: _ => Throw | _ => Ok RError end)). now rewrite E.
Qed.

Ltac lined := apply safe_line; repeat first [apply safe_line; assumption | apply safe_ident; assumption | apply safe_decimal | apply safe_app | apply Forall_cons; [discriminate|] | apply Forall_nil ]; auto.
Lemma kept : forall p, writable p -> exists t, write p = Ok t /\ one_line t /\ read_line t = Some (Ok (RProp p)).
Proof.
  intros p W. destruct p; try contradiction.
  - eexists. split; [reflexivity|]. destruct W as [T O]. split; [lined|]. change (Some (Ok (RProp (PArchiveFile (ConvModel.strip_space (32 :: v))))) = Some (Ok (RProp (PArchiveFile v)))). now rewrite strip_lead.
  - eexists. split; [reflexivity|]. split; [|now apply olpath_read]. destruct W as (_ & F & _). lined. apply safe_join; [repeat constructor; discriminate|]. eapply Forall_impl; [|exact F]. intros x [[_ O] _]. now apply safe_line.
  - eexists. split; [reflexivity|]. split; [|now apply target_read]. destruct W as (_ & F & _ & _ & _ & O & _). lined. apply safe_join; [repeat constructor; discriminate|]. eapply Forall_impl; [|exact F]. intros x [Ox _]. now apply safe_line.
  - eexists. split; [reflexivity|]. destruct W as [T O]. split; [lined|]. change (Some (Ok (RProp (PArchiveCategory (ConvModel.strip_space (32 :: v))))) = Some (Ok (RProp (PArchiveCategory v)))). now rewrite strip_lead.
  - eexists. split; [reflexivity|]. destruct W as [T O]. split; [lined|]. change (Some (Ok (RProp (PArchiveTodo (ConvModel.strip_space (32 :: v))))) = Some (Ok (RProp (PArchiveTodo v)))). now rewrite strip_lead.
  - eexists. split; [reflexivity|]. split; [lined|now apply effort_read].
  - eexists. split; [reflexivity|]. split; [destruct l; apply safe_line; repeat constructor; discriminate|destruct l; reflexivity].
  - eexists. split; [reflexivity|]. split; [|now apply created_read]. destruct W as [O _]. lined.
  - eexists. split; [reflexivity|]. split; [|now apply radio_read]. destruct W as [F _]. lined. apply safe_join; [repeat constructor; discriminate|]. eapply Forall_impl; [|exact F]. intros x [_ O]. now apply safe_line.
  - eexists. split; [reflexivity|]. split; [|exact (args_line _ _ _ W)]. destruct W as (H & J & O & _). destruct (header_name name H) as (I & _). destruct sub; lined.
  - eexists. split; [reflexivity|]. destruct W as [N V]. split; [|exact (plain_read _ _ N V)]. destruct V as [_ O]. inversion N; subst; lined.
  - eexists. split; [reflexivity|]. destruct W as [T O]. split; [lined|]. change (Some (Ok (RProp (PCustomId (ConvModel.strip_space (32 :: v))))) = Some (Ok (RProp (PCustomId v)))). now rewrite strip_lead.
  - now apply json_read.
  - eexists. split; [reflexivity|]. split; [|now apply flags_read]. destruct W as (N & O & _). pose proof (short_ident _ N). lined.
Qed.
End Lines.
