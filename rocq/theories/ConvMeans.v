(** The converter gives the meaning of a tree. *)
From Coq Require Import String.
From Verif Require Import Base StrModel NodeKind.
From Verif Require StrProofs AttrProofs Utf8Proofs TreeProofs.
From Verif Require RegroupModel TreeSpec ParseModel AttrModel.
From Verif Require Import ConvModel ConvSpec ConvProofs ConvTexts.
Import TreeSpec.
Local Open Scope nat_scope.

Lemma sub_size : forall (x : ptree) l, In x l -> tsize x <= fsize l.
Proof.
  intros x l. induction l as [|y l IH]; intros I; [destruct I|]. rewrite TreeProofs.fsize_cons. destruct I as [<-|I]; [lia|]. specialize (IH I). lia.
Qed.
Lemma f2_in_r : forall (A B : Type) (P : A -> B -> Prop) l m y, Forall2 P l m -> In y m -> exists x, P x y.
Proof. intros A B P l m y F I. induction F as [|a b l m E _ IHF]; [destruct I|]. destruct I as [<-|I]; eauto. Qed.

Section Means.
Variable toks : list RegroupModel.otok.
Variable time_ok : str -> option Z -> bool.
Variable float_ok tblfm_ok columns_ok : str -> bool.
Variable log_entry : ptree -> res sem.
Variable property : ptree -> res (list sem).
Notation convert := (convert toks time_ok float_ok tblfm_ok columns_ok log_entry property).
Notation means := (means toks time_ok).

Lemma one_at : forall k sub nme l i x, error_kind k = false -> spec k = Some l -> lookup l nme = Some (Pt i) -> nth_error sub i = Some x ->
  one (Branch k sub) nme = Done x.
Proof.
  intros k sub nme l i x E S L N. unfold one, slice_of. cbn [kind_of]. rewrite E, S, L. cbn [sub_of to_slice].
  rewrite (proj2 (Nat.leb_le _ _)). { cbn. unfold at_. rewrite N. reflexivity. }
  apply Nat.lt_le_incl. apply nth_error_Some. congruence.
Qed.
Lemma many_from : forall k sub nme l i, error_kind k = false -> spec k = Some l -> lookup l nme = Some (From i) -> i < length sub ->
  many (Branch k sub) nme = Done (skipn i sub).
Proof.
  intros k sub nme l i E S L N. unfold many, slice_of. cbn [kind_of]. rewrite E, S, L. cbn [sub_of to_slice].
  rewrite (proj2 (Nat.leb_le _ _)) by lia. cbn [rbind fst snd].
  replace (Datatypes.S (length sub - 1) - i) with (length sub - i) by lia.
  apply each_ok. clear - N. assert (H : forall m j, j + m = length sub -> Forall2 (fun x y => at_ sub x = Done y) (seq j m) (skipn j sub)).
  { intros m. induction m as [|m IH]; intros j Ej.
    - rewrite skipn_all2 by lia. constructor.
    - destruct (nth_error sub j) as [x|] eqn:Ex. 2:{ apply nth_error_None in Ex. lia. }
      assert (skipn j sub = x :: skipn (S j) sub) as ->.
      { clear - Ex. revert sub Ex. induction j as [|j IH]; intros [|y sub] Ex; try discriminate.
        - injection Ex as ->. reflexivity.
        - cbn in Ex. cbn [skipn]. rewrite (IH sub Ex). reflexivity. }
      cbn [seq]. constructor. { unfold at_. rewrite Ex. reflexivity. } apply IH. lia. }
  apply H. lia.
Qed.
Lemma many_none : forall k sub nme l i, error_kind k = false -> spec k = Some l -> lookup l nme = Some (From i) -> length sub <= i ->
  many (Branch k sub) nme = NoField.
Proof.
  intros k sub nme l i E S L N. unfold many, slice_of. cbn [kind_of]. rewrite E, S, L. cbn [sub_of to_slice].
  rewrite (proj2 (Nat.leb_gt _ _)) by lia. reflexivity.
Qed.
Lemma get_text_of : forall a s, text_of toks a s -> get_text toks a = Done s.
Proof. intros a s (k & i & x & -> & E & <-). cbn. rewrite E. reflexivity. Qed.
Lemma text_leaf : forall a s, text_of toks a s -> is_error a = false.
Proof. intros a s (k & i & x & -> & _). reflexivity. Qed.
Lemma not_empty : forall a, kind_of a <> nEmpty -> is_empty a = false.
Proof. intros a H. unfold is_empty, is_kind. apply nk_eqb_neq. exact H. Qed.
Lemma tag_leaf : forall a s, tag_means toks a s -> is_error a = false.
Proof. intros a s H. destruct H. reflexivity. Qed.
Lemma means_leaf_err : forall a s, means a s -> is_error a = false.
Proof.
  intros a s H. destruct H; try reflexivity.
  - unfold absent in *. subst. reflexivity.
  - eapply tag_leaf. eauto.
  - destruct H. reflexivity.
Qed.
Lemma means_bare : forall a s, means a s -> sattached s = [].
Proof. intros a s H. destruct H; try reflexivity; destruct H; reflexivity. Qed.
Lemma f2_no_error : forall l ss, Forall2 means l ss -> existsb is_error l = false.
Proof. intros l ss H. induction H as [|x y l ss E _ IH]; auto. cbn. rewrite (means_leaf_err _ _ E). exact IH. Qed.

Lemma hash_tag_ok : forall n a s, tag_means toks a s -> tsize a <= S n -> hash_tag toks n a = Done s.
Proof.
  intros n. induction n as [|n IH]; intros a s H L; destruct H as [h sub s t tags Th Tr F].
  - exfalso. destruct Th as (k & i & x & -> & _). cbn in L. lia.
  - cbn [hash_tag sub_of]. unfold at_. cbn [nth_error rbind]. rewrite (get_text_of _ _ Th). cbn [rbind tl].
    rewrite (each_ok (hash_tag toks n) sub tags).
    + cbn [rbind]. rewrite (strip_trims [35%Z] [] s t Tr). reflexivity.
    + clear - F L IH. assert (Ls : list_sum (map tsize sub) <= n) by (cbn [tsize map list_sum fold_right] in L; fold (list_sum (map tsize sub)) in L; pose proof (TreeProofs.tsize_pos h); lia).
      clear L. induction F as [|x y sub tags E _ IHF]; constructor.
      * apply IH; auto. cbn in Ls. lia.
      * apply IHF. cbn in Ls. fold (list_sum (map tsize sub)) in Ls. lia.
Qed.

Lemma means_not_tblfm : forall a s, means a s -> kind_of a <> nCmdTblfm.
Proof.
  intros a s H. destruct H; cbn [kind_of]; try discriminate; try (intros ->; discriminate).
  - unfold absent in *. subst. discriminate.
  - destruct H; subst; discriminate.
  - destruct H. discriminate.
  - destruct H. destruct H; subst; discriminate.
Qed.
Section Step.
Variable n : nat.
Hypothesis IH : forall a s, means a s -> tsize a <= n -> convert n a = Done s.
Lemma kids_f2 : forall sub ss, Forall2 means sub ss -> fsize sub <= n -> Forall2 (fun x s => convert n x = Done s) sub ss.
Proof.
  intros sub ss F L. eapply f2_impl; [|exact F]. intros x s Ix _ M. apply IH; auto. pose proof (sub_size x sub Ix). lia.
Qed.
Lemma kids : forall sub ss, Forall2 means sub ss -> fsize sub <= n -> each (convert n) sub = Done ss.
Proof. intros. apply each_ok. apply kids_f2; assumption. Qed.
Lemma gather_kids : forall sub ss l, Forall2 means sub ss -> fsize sub <= n -> gathered (combine (map kind_of sub) ss) l ->
  attached_all toks tblfm_ok (convert n) sub = Done l.
Proof.
  intros sub ss l F L G. eapply gather_ok; [exact G|exact (kids_f2 _ _ F L)| |].
  - apply Forall_forall. intros x Ix K. exfalso. assert (exists s, means x s) as (s & M).
    { clear - F Ix. induction F as [|y s l' m E _ IHF]; [destruct Ix|]. destruct Ix as [->|Ix]; eauto. }
    eapply means_not_tblfm; eauto.
  - clear - F. induction F as [|y s l' m E _ IHF]; constructor; auto. eapply means_bare. exact E.
Qed.
Lemma drop_blank_ok : forall tail rest, Forall blank tail -> (forall x l, rest = x :: l -> ~ blank x) -> drop_blank (tail ++ rest) = rest.
Proof.
  intros tail rest F N. induction F as [|x tail B _ IHF]; cbn [app].
  - destruct rest as [|x l]; auto. cbn. specialize (N x l eq_refl). unfold is_a, osk_eqb, blank in *.
    destruct (osk_dec (skind x) oNewline); [exfalso; auto|]. destruct (osk_dec (skind x) oSpace); [exfalso; auto|]. reflexivity.
  - cbn. unfold is_a, osk_eqb. destruct B as [E|E]; rewrite E; exact IHF.
Qed.
Lemma paragraph_ok : forall a ss tail, Forall2 means (sub_of a) (ss ++ tail) -> Forall blank tail ->
  (forall l x, ss = l ++ [x] -> ~ blank x) -> fsize (sub_of a) <= n -> paragraph (convert n) a = Done (node oParagraph ss).
Proof.
  intros a ss tail F B N L. unfold paragraph. rewrite (kids _ _ F L). cbn [rbind]. rewrite rev_app_distr.
  rewrite drop_blank_ok, rev_involutive; auto.
  - apply Forall_rev. exact B.
  - intros x l E. apply (N (rev l) x). apply (f_equal (@rev sem)) in E. rewrite rev_involutive in E. exact E.
Qed.
(** A paragraph is converted by convertParagraph. *)
Lemma paragraph_means : forall a p, kind_of a = nParagraph -> means a p -> tsize a <= n -> paragraph (convert n) a = Done p.
Proof.
  intros a p K M L. rewrite (TreeProofs.tsize_sub a) in L. inversion M; subst; cbn [kind_of] in K; try discriminate; try (subst; discriminate).
  - unfold absent in *. subst. discriminate.
  - cbn [sub_of] in *. eapply (paragraph_ok (Branch nParagraph sub)); cbn [sub_of]; eauto; lia.
  - destruct H; subst; discriminate.
  - destruct H. discriminate.
  - destruct H. destruct H; subst; discriminate.
Qed.
End Step.
Lemma zoned : forall n, convert (S n) = step toks time_ok float_ok tblfm_ok columns_ok log_entry property (convert n) n.
Proof. reflexivity. Qed.
Ltac fields := repeat (erewrite one_at; [|reflexivity|reflexivity|reflexivity|reflexivity]; cbn [rbind]).
Lemma absent_leaf : forall a, absent a -> is_error a = false.
Proof. intros a ->. reflexivity. Qed.
Lemma absent_empty : forall a, absent a -> is_empty a = true.
Proof. intros a ->. reflexivity. Qed.
Lemma opt_text_absent : forall a, absent a -> opt_text toks a = Done [].
Proof. intros a ->. reflexivity. Qed.
Lemma opt_text_text : forall a s, text_of toks a s -> kind_of a <> nEmpty -> opt_text toks a = Done s.
Proof. intros a s T K. unfold opt_text. rewrite (not_empty _ K). apply get_text_of. exact T. Qed.
Lemma box_ok : forall a st, box_state toks a st -> is_error a = false /\ checkbox toks a = Done (Some st).
Proof.
  intros a st [[-> ->]|(s & T & K & H)]; [split; reflexivity|]. split; [eapply text_leaf; eauto|].
  unfold checkbox. rewrite not_empty by congruence. rewrite (get_text_of _ _ T). cbn [rbind].
  decompose [or and] H; subst; reflexivity.
Qed.
Lemma keyword_ok : forall a kw c, keyword toks a kw c -> is_error a = false /\ exists t, opt_text toks a = Done t /\
  AttrModel.str_eqb t (lit "COMMENT") = c /\ (if c then [] else t) = kw.
Proof.
  intros a kw c [(A & -> & ->)|(s & T & K & [(-> & -> & ->)|(N & -> & ->)])].
  - split; [apply absent_leaf; auto|]. exists []. rewrite opt_text_absent by assumption. auto.
  - split; [eapply text_leaf; eauto|]. exists (lit "COMMENT"). rewrite (opt_text_text _ _ T K). auto.
  - split; [eapply text_leaf; eauto|]. exists s. rewrite (opt_text_text _ _ T K). split; auto. split; auto.
    pose proof (str_is_neq s "COMMENT" N) as E. exact E.
Qed.
Lemma priority_ok : forall a p, priority toks a p -> is_error a = false /\ exists t, opt_text toks a = Done t /\
  strip t (chars [91; 35]%Z) (chars [93%Z]) = p.
Proof.
  intros a p [(A & ->)|(s & T & K & Tr)].
  - split; [apply absent_leaf; auto|]. exists []. rewrite opt_text_absent by assumption. auto.
  - split; [eapply text_leaf; eauto|]. exists s. rewrite (opt_text_text _ _ T K). split; auto. apply strip_trims. exact Tr.
Qed.
Lemma tags_ok : forall n a tags, tagged toks a tags -> tsize a <= n -> is_error a = false /\ each (hash_tag toks n) (sub_of a) = Done tags.
Proof.
  intros n a tags [(-> & ->)|(sub & -> & F)] L; [split; reflexivity|]. split; [reflexivity|]. cbn [sub_of]. rewrite TreeProofs.tsize_sub in L. cbn [sub_of] in L.
  apply each_ok. eapply f2_impl; [|exact F]. intros x s Ix _ M. apply hash_tag_ok; auto. pose proof (sub_size x sub Ix). lia.
Qed.
Lemma archive_head : forall a s, tag_means toks a s -> AttrModel.str_eqb (head_of s) (lit "ARCHIVE") = is_archive s.
Proof. intros a s H. destruct H. unfold head_of, is_archive. cbn [sdata dtext text concat]. rewrite app_nil_r. reflexivity. Qed.
Lemma archive_part : forall l tags, Forall2 (tag_means toks) l tags ->
  exists arch, partition (fun s => AttrModel.str_eqb (head_of s) (lit "ARCHIVE")) tags = (arch, filter (fun t => negb (is_archive t)) tags) /\
    negb (length arch =? 0) = existsb is_archive tags.
Proof.
  intros l tags F. induction F as [|x s l tags M _ (arch & E & X)]; [exists []; auto|].
  cbn [partition filter existsb]. rewrite E, (archive_head _ _ M). destruct (is_archive s); cbn [negb orb].
  - exists (s :: arch). auto.
  - exists arch. auto.
Qed.
Lemma spaces_ok : forall sp l, Forall (fun s => skind s = oSpace) sp -> (forall x r, l = x :: r -> skind x <> oSpace) -> spaces (sp ++ l) = l.
Proof.
  intros sp l F N. induction F as [|x sp E _ IHF]; cbn [app].
  - destruct l as [|x r]; auto. cbn. unfold is_a, osk_eqb. destruct (osk_dec (skind x) oSpace) as [E|E]; auto. exfalso. eapply N; eauto.
  - cbn. unfold is_a, osk_eqb. rewrite E. exact IHF.
Qed.
Lemma leaf_shape : forall a s, means a s -> skind s = oBigIdent -> exists t, s = Sem oBigIdent (text [t]) [] [] [].
Proof.
  intros a s M K. destruct M; cbn in K; try discriminate.
  - subst. eexists. reflexivity.
  - subst. destruct k; discriminate.
  - subst. destruct k; discriminate.
  - destruct H. discriminate.
  - destruct H. discriminate.
Qed.
Lemma titled_ok : forall title c l, Forall (fun s => skind s = oBigIdent -> exists t, s = Sem oBigIdent (text [t]) [] [] []) title ->
  titled title c l -> drop_comment title = (c, l).
Proof.
  intros title c l F [(-> & -> & N)|(-> & sp & -> & Fs & Nx)].
  - destruct title as [|x r]; auto. inversion F as [|? ? X _]. subst. unfold drop_comment. destruct x as [k d f sb at_]. destruct k; auto.
    destruct (X eq_refl) as (t & E). injection E as -> -> -> ->. cbn [text dtext concat]. rewrite app_nil_r.
    destruct (AttrModel.str_eqb t (lit "COMMENT")) eqn:E; auto. apply AttrProofs.str_eqb_eq in E. subst. exfalso. eapply N. reflexivity.
  - cbn [drop_comment comment_word]. cbn [text dtext concat]. rewrite app_nil_r.
    rewrite (proj2 (AttrProofs.str_eqb_eq _ _) eq_refl). rewrite spaces_ok; auto.
Qed.

Lemma par_inv : forall a p, kind_of a = nParagraph -> means a p -> exists sub ss tail, a = Branch nParagraph sub /\ p = node oParagraph ss /\
  Forall2 means sub (ss ++ tail) /\ Forall blank tail /\ (forall l x, ss = l ++ [x] -> ~ blank x).
Proof.
  intros a p K M. destruct M; cbn [kind_of] in K; try discriminate; try (subst; discriminate).
  - unfold absent in *. subst. discriminate.
  - exists sub, ss, tail. auto.
  - destruct H; subst; discriminate.
  - destruct H. discriminate.
  - destruct H. destruct H; subst; discriminate.
Qed.
Lemma cell_ok : forall n, (forall a s, means a s -> tsize a <= n -> convert n a = Done s) ->
  forall a s, cell_means toks time_ok a s -> tsize a <= n -> cell toks float_ok (convert n) n a = Done s.
Proof.
  intros n IH a s M L. destruct M as [args sub ss -> F]. rewrite TreeProofs.tsize_sub in L. cbn [sub_of] in L. rewrite !TreeProofs.fsize_cons, (TreeProofs.tsize_sub (Branch nStmtList sub)) in L. cbn [sub_of] in L.
  unfold cell, block_args. fields. cbn [is_kind kind_of]. change (nk_eqb nEmpty nInlineStmtList) with false. cbn [rbind].
  fields. cbn [sub_of]. rewrite (kids n IH sub ss F) by lia. reflexivity.
Qed.
Lemma row_ok : forall n, (forall a s, means a s -> tsize a <= n -> convert n a = Done s) ->
  forall a s, row_means toks time_ok a s -> tsize a <= n -> row toks float_ok (convert n) n a = Done s.
Proof.
  intros n IH a s M L. destruct M as [args txt cells ss -> _ F]. rewrite TreeProofs.tsize_sub in L. cbn [sub_of] in L. rewrite !TreeProofs.fsize_cons, (TreeProofs.tsize_sub (Branch nStmtList cells)) in L. cbn [sub_of] in L.
  unfold row, block_args. fields. cbn [is_kind kind_of]. change (nk_eqb nEmpty nInlineStmtList) with false. cbn [rbind].
  fields. cbn [sub_of]. rewrite (each_ok _ cells ss); [reflexivity|].
  eapply f2_impl; [|exact F]. intros x s Ix _ M. apply cell_ok; auto. pose proof (sub_size x cells Ix). lia.
Qed.
Lemma line_ok : forall a s, line_means toks time_ok a s -> (l <- each (code_part toks) (sub_of a) ;; Done (concat l)) = Done s.
Proof.
  intros a s M. destruct M as [k parts texts F]. cbn [sub_of]. rewrite (each_ok _ parts texts); [reflexivity|].
  eapply f2_impl; [|exact F]. intros x t _ _ P. destruct P as [x t T K]. unfold code_part. rewrite K. apply get_text_of. exact T.
Qed.
Lemma link_ok : forall proto tgt desc t, link_to toks proto tgt t -> is_error proto = false /\ is_error tgt = false /\
  link_target toks (Branch nLink [proto; tgt; desc]) = Done t.
Proof.
  intros proto tgt desc t (s & u & Ts & Tr & H). unfold link_target. cbn [kind_of]. fields. rewrite (get_text_of _ _ Ts). cbn [rbind].
  rewrite (lstrip_trims _ _ _ Tr). destruct H as [(A & H)|(w & Tw & Kw & H)].
  - split; [apply absent_leaf; auto|]. split; [eapply text_leaf; eauto|]. rewrite (absent_empty _ A). cbn [rbind].
    destruct H as [([E|E] & ->)|[(E1 & E2 & E3 & ->)|(m & v & parts & -> & Nv & Np & Tv & Fp & ->)]].
    + rewrite E. reflexivity.
    + rewrite E, orb_true_r. reflexivity.
    + rewrite E1, E2, E3. reflexivity.
    + change (starts_with (repeat 42%Z (S m) ++ v) (lit ".")) with false. change (starts_with (repeat 42%Z (S m) ++ v) (lit "/")) with false.
      assert (starts_with (repeat 42%Z (S m) ++ v) (lit "*") = true) as -> by (apply StrProofs.starts_with_spec; eexists; reflexivity). cbn [orb].
      assert (lstrip (repeat 42%Z (S m) ++ v) [42; 32]%Z = join [47%Z] parts) as ->.
      { apply lstrip_trims. destruct Tv as (x & y & Ev & Fx & Fy & H1 & H2). exists (repeat 42%Z (S m) ++ x), y. rewrite Ev. split; [rewrite <- app_assoc; reflexivity|].
        split; [apply Forall_app; split; [|exact Fx]; apply Forall_forall; intros c Ic; apply repeat_spec in Ic; left; congruence|]. auto. }
      rewrite split_by_joined by assumption. cbn [rbind]. do 2 f_equal.
      assert (forall j, stars (repeat 42%Z j ++ v) = j) as St; [|apply St].
      induction j as [|j IHj]; [|cbn; rewrite IHj; reflexivity]. cbn. destruct v as [|c r]; [reflexivity|]. specialize (Nv c r eq_refl). cbn.
      destruct c as [|q|q]; try reflexivity. do 6 (destruct q as [q|q|]; try reflexivity; try contradiction).
  - split; [eapply text_leaf; eauto|]. split; [eapply text_leaf; eauto|]. rewrite (not_empty _ Kw). rewrite (get_text_of _ _ Tw). cbn [rbind].
    destruct H as [([->| ->] & ->)|[(-> & ->)|[(-> & ->)|[(-> & ->)|(-> & v & Tv & ->)]]]]; try reflexivity.
    change (str_is (normalize (lit "id")) "http" || str_is (normalize (lit "id")) "https") with false. cbv iota.
    change (str_is (normalize (lit "id")) "id") with true. cbv iota. cbn [rbind]. unfold strip_space. rewrite (strip_trims _ _ _ _ Tv). reflexivity.
Qed.
Lemma joined : forall c (f r : str), In c (join [c] [f; r]).
Proof. intros c f r. cbn. apply in_or_app. right. left. reflexivity. Qed.
Lemma plain_value : forall s, ~ In 58%Z s -> starts_with s [34%Z] = false -> text_value s = Done (false, AText s).
Proof.
  intros s N Q. unfold text_value. assert (quoted s = false) as ->.
  { unfold quoted. rewrite Q. reflexivity. }
  destruct (StrProofs.split_char_spec s 58%Z) as (ts & E & _ & E0 & E1 & E2).
  unfold split_on. rewrite E. cbn [lift rbind negb andb]. destruct ts as [|f [|r [|x l]]]; auto.
  exfalso. apply N. destruct s as [|c s']; [discriminate E0; auto|]. destruct (Z.eq_dec (last (c :: s') 0%Z) 58%Z) as [Ec|Ec].
  - rewrite E1 by (auto; discriminate). apply in_or_app. left. apply joined.
  - rewrite E2 by (auto; discriminate). apply joined.
Qed.
Lemma quoted_value : forall t, text_value ([34%Z] ++ t ++ [34%Z]) = Done (true, AText t).
Proof.
  intros t. unfold text_value. assert (quoted ([34%Z] ++ t ++ [34%Z]) = true) as ->.
  { unfold quoted. apply andb_true_iff. split; [apply StrProofs.starts_with_spec; eexists; reflexivity|]. apply StrProofs.ends_with_spec. exists ([34%Z] ++ t). rewrite <- app_assoc. reflexivity. }
  assert (unquote ([34%Z] ++ t ++ [34%Z]) = t) as ->.
  { unfold unquote, substr. cbn [app skipn length]. rewrite app_length. cbn [length]. replace (S (length t + 1) - 2) with (length t) by lia.
    rewrite firstn_app, firstn_all, Nat.sub_diag. apply app_nil_r. }
  destruct (StrProofs.split_char_spec t 58%Z) as (ts & E & _). unfold split_on. rewrite E. cbn [lift rbind negb andb].
  destruct ts as [|f [|r [|x l]]]; reflexivity.
Qed.
Lemma value_ok : forall m v q t, value_means toks v q t ->
  match kind_of v with
  | nRawText => s <- get_text toks v ;; text_value s
  | nAttrLisp => c <- lisp_of toks float_ok m v ;; Done (false, ALisp c)
  | _ => s <- get_text toks v ;; Done (false, AText s)
  end = Done (q, AText t).
Proof.
  intros m v q t [(s & T & -> & H)|(sub & ts & -> & F & -> & ->)].
  - rewrite (get_text_of _ _ T). cbn [rbind]. destruct H as [(-> & -> & N1 & N2)|(-> & ->)]; [apply plain_value; assumption|apply quoted_value].
  - cbn [kind_of get_text]. rewrite (proj1 (texts_done _ _ _ F)). reflexivity.
Qed.
Lemma argument_ok : forall m a x, argument toks a x -> attr_of toks float_ok m a = Done x.
Proof.
  intros m a x [nm var v cells name vn q t Hn Hv V C]. unfold attr_of. fields.
  assert ((if is_empty nm then Done None else s <- get_text toks nm ;; Done (Some (lstrip s [58%Z]))) = Done name) as ->.
  { destruct Hn as [(A & ->)|(u & w & T & K & Tr & ->)]; [rewrite (absent_empty _ A); reflexivity|].
    rewrite (not_empty _ K), (get_text_of _ _ T). cbn [rbind]. rewrite (lstrip_trims _ _ _ Tr). reflexivity. }
  cbn [rbind]. fields.
  assert ((if is_empty var then Done None else s <- get_text toks var ;; Done (Some s)) = Done vn) as ->.
  { destruct Hv as [(A & ->)|(u & T & K & ->)]; [rewrite (absent_empty _ A); reflexivity|]. rewrite (not_empty _ K), (get_text_of _ _ T). reflexivity. }
  cbn [rbind]. fields. rewrite (value_ok m v q t V). cbn [rbind]. rewrite (absent_empty _ C). reflexivity.
Qed.
Lemma push_at : forall raw last i x, nth_error raw i = Some x ->
  nth_error (push_args last raw) i =
    Some (Attrv (fold_left (fun o x => match an x with Some s => Some s | None => o end) (firstn (S i) raw) last) (avar x) (aquoted x) (adata x) (aspan x)).
Proof.
  intros raw. induction raw as [|y r IHr]; intros last i x E; [destruct i; discriminate|]. cbn [push_args firstn fold_left].
  destruct i as [|i].
  - injection E as ->. destruct x as [nme vr qd dt sp]. cbn. destruct nme; reflexivity.
  - cbn in E. destruct (an y); cbn [nth_error]; apply IHr; exact E.
Qed.
Lemma push_length : forall raw last, length (push_args last raw) = length raw.
Proof. intros raw. induction raw as [|y r IHr]; intros last; [reflexivity|]. cbn [push_args]. destruct (an y); cbn; rewrite IHr; reflexivity. Qed.
Lemma named_by_ok : forall raw l, named_by raw l -> push_args None raw = l.
Proof.
  intros raw l (E & H). assert (G : forall (a b : list attrv), length a = length b -> (forall i, i < length a -> nth_error a i = nth_error b i) -> a = b).
  { intros a. induction a as [|x a IHa]; intros [|y b] L N; try discriminate; [reflexivity|]. f_equal.
    - specialize (N 0 ltac:(cbn; lia)). cbn in N. congruence.
    - apply IHa; [cbn in L; lia|]. intros i I. apply (N (S i)). cbn. lia. }
  apply G; rewrite push_length; [congruence|]. intros i I. destruct (nth_error raw i) as [x|] eqn:X; [|apply nth_error_None in X; lia].
  rewrite (push_at raw None i x X), (H i x X). reflexivity.
Qed.
Lemma arguments_ok : forall m a l, arguments toks a l -> is_error a = false /\ attrs_of toks float_ok m a = Done l.
Proof.
  intros m a l [(-> & ->)|(sub & raw & S & F & N)]; [split; reflexivity|].
  assert (E : each (attr_of toks float_ok m) sub = Done raw) by (apply each_ok; eapply f2_impl; [|exact F]; intros x v _ _ V; apply argument_ok; exact V).
  destruct S as [->|(flags & k & ->)]; (split; [reflexivity|]); unfold attrs_of; cbn [kind_of]; fields; cbn [sub_of]; rewrite E; cbn [rbind]; rewrite (named_by_ok _ _ N); reflexivity.
Qed.
Lemma time_ok_means : forall m a s, time_means toks time_ok a s -> is_error a = false /\ existsb is_error (sub_of a) = false /\ (kind_of a = nStaticActiveTime \/ kind_of a = nStaticInactiveTime) /\ time toks time_ok float_ok m a = Done s /\ value s = Done s /\ nth 1 (dnum (sdata s)) 0%Z = 1%Z.
Proof.
  intros m a s [k y c z r w ys cs dt o reps warn Ek Ty Ky Hc Hz Ok Hr Hw]. split; [reflexivity|].
  assert (Ec : is_error c = false) by (destruct Hc as [(A & _)|(T & _)]; [apply absent_leaf; auto|eapply text_leaf; eauto]).
  destruct (zone_ok _ _ _ Hz) as (Ez & Oz).
  assert (Er : is_error r = false) by (destruct Hr as [(A & _)|(kr & rs & -> & _)]; [apply absent_leaf; auto|reflexivity]).
  assert (Ew : is_error w = false) by (destruct Hw as [(A & _)|(u & p & T & _)]; [apply absent_leaf; auto|eapply text_leaf; eauto]).
  split; [cbn [sub_of existsb]; rewrite (text_leaf _ _ Ty), Ec, Ez, Er, Ew; reflexivity|]. split; [exact Ek|].
  assert (Qr : (if is_empty r then Done [] else each (repeat_of toks) (sub_of r)) = Done reps).
  { destruct Hr as [(A & ->)|(kr & rs & -> & Kr & F)]; [rewrite (absent_empty _ A); reflexivity|]. rewrite not_empty by exact Kr. cbn [sub_of].
    apply each_ok. eapply f2_impl; [|exact F]. intros x v _ _ V. apply repetition_ok. exact V. }
  assert (Qw : (if is_empty w then Done [] else s <- get_text toks w ;; p <- period_of s ;; Done [p]) = Done warn).
  { destruct Hw as [(A & ->)|(u & p & T & K & P & ->)]; [rewrite (absent_empty _ A); reflexivity|]. rewrite (not_empty _ K), (get_text_of _ _ T). cbn [rbind].
    rewrite (period_ok _ _ P). reflexivity. }
  assert (Qc : exists cs', (if is_empty c then Done [] else get_text toks c) = Done cs' /\ (if is_empty c then ys else match ys with [] => cs' | _ => ys ++ 32%Z :: cs' end) = dt).
  { destruct Hc as [(A & ->)|(T & K & Ny & ->)]; [rewrite (absent_empty _ A); eauto|]. rewrite (not_empty _ K), (get_text_of _ _ T).
    exists cs. split; [reflexivity|]. destruct ys; [contradiction|reflexivity]. }
  destruct Qc as (cs' & Qc & Qd).
  split; [|split; reflexivity].
  unfold time. destruct Ek as [-> | ->]; cbn [kind_of]; fields; rewrite (not_empty _ Ky), (get_text_of _ _ Ty); cbn [rbind]; fields;
    rewrite Qc; cbn [rbind]; rewrite Qd; fields; rewrite Oz; cbn [rbind]; rewrite Ok; fields; rewrite Qr; cbn [rbind]; fields; rewrite Qw; reflexivity.
Qed.
Lemma times_ok : forall m a l, times_of toks time_ok a l -> is_error a = false /\ subtree_times toks time_ok float_ok m (sub_of a) = Done (inl l).
Proof.
  intros m a l [(-> & ->)|(k & sub & -> & F)]; [split; reflexivity|]. split; [reflexivity|]. cbn [sub_of].
  induction F as [|x [f s] sub l T _ IHF]; [reflexivity|]. cbn [subtree_times].
  assert (subtree_time toks time_ok float_ok m x = Done (inl (f, s))) as ->; [|cbn [rbind]; rewrite IHF; reflexivity].
  inversion T as [kx w t rest word f' s' Tw Kw M H]; subst. unfold subtree_time, at_. cbn [sub_of nth_error rbind].
  assert (is_kind nBigIdent w || is_kind nWord w = true) as -> by (unfold is_kind; destruct Kw as [->| ->]; reflexivity).
  assert (sem_leaf toks oWord w = Done (Sem oWord (text [word]) [] [] [])) as ->.
  { destruct Tw as (kw & i & tk & -> & Et & <-). cbn. rewrite Et. reflexivity. }
  destruct (time_ok_means m t s M) as (_ & _ & _ & -> & Ev & E1). cbn [rbind]. rewrite Ev. cbn [rbind]. rewrite E1. change (1 =? 0)%Z with false. cbv iota zeta.
  decompose [or and] H; subst; reflexivity.
Qed.
Lemma raw_text_means : forall a s, means a s -> kind_of a = nRawText -> sem_leaf toks oRawText a = Done s.
Proof.
  intros a s M K. destruct M; cbn [kind_of] in K; try discriminate; subst; try discriminate.
  - injection H as <-. cbn. rewrite H0. reflexivity.
  - unfold absent in *. subst. discriminate.
  - destruct H; discriminate.
  - destruct H; discriminate.
  - destruct H; destruct H; subst; discriminate.
Qed.
Ltac errs := unfold step; cbn [sub_of existsb];
  repeat match goal with
  | H : absent ?a |- context [is_error ?a] => rewrite (absent_leaf a H)
  | H : text_of _ ?a _ |- context [is_error ?a] => rewrite (text_leaf a _ H)
  | |- context [is_error (Branch ?k ?s)] => change (is_error (Branch k s)) with false
  end; cbn [orb].
Lemma means_convert : forall n a s, means a s -> tsize a <= n -> convert n a = Done s.
Proof.
  intros n. induction n as [|n IH]; intros a s M L; [pose proof (TreeProofs.tsize_pos a); lia|].
  rewrite zoned. rewrite TreeProofs.tsize_sub in L.
  destruct M as [k o i x Ek Ex|a A|t|k o sub ss Ek F|sub ss tail F B N|k sub ss l Ek F G
    |bullet counter box header body b bl st hd ss Tb Kb Ac Tr Bs Hd F
    |prefix todo urgency title compl tags times drw body stars kw c1 pr tl c2 ttl cl tgs tms ss l Tp Kw Pr Ti Tt Ac Tg At Ad F G
    |k o args sub ss l Ek A F G|args sub ss A F|args sub ss A N F|args rows ss A N F
    |proto tgt desc t hd Lk D|nm def s A T|def s M|a s T
    |a s T
    |lang args al kb body lines l res Tl Kl Aa F A
    |p q Kp Mq|k e1 e2 v e3 rest s A1 A2 A3 T Kv N1 N2
    |f t df sf st Tf Tt Ad|sub ts ws F W|sub ts F|nm old new s l z T Ho Mz|nm args s l T Aa|nm args s l T Ns Aa
    |i x Ex|nm k body c s ss T F|sub ss Ns Fk F]; cbn [sub_of] in L.
  - destruct k; try discriminate; injection Ek as <-; unfold step, dispatch, sem_leaf; cbn [sub_of existsb kind_of token_text rbind]; rewrite Ex; reflexivity.
  - unfold absent in A. subst. reflexivity.
  - reflexivity.
  - unfold step. cbn [sub_of]. rewrite (f2_no_error _ _ F). unfold dispatch. cbn [kind_of].
    assert (Q : all_subnodes (convert n) o (Branch k sub) = Done (node o ss)).
    { unfold all_subnodes. cbn [sub_of]. rewrite (kids n IH sub ss F) by lia. reflexivity. }
    destruct k; try discriminate; injection Ek as <-; exact Q.
  - unfold step. cbn [sub_of]. rewrite (f2_no_error _ _ F). unfold dispatch. cbn [kind_of].
    eapply paragraph_ok; cbn [sub_of]; eauto; lia.
  - unfold step. cbn [sub_of]. rewrite (f2_no_error _ _ F). unfold dispatch.
    destruct Ek as [-> | ->]; cbn [kind_of sub_of]; rewrite (gather_kids n IH sub ss l F) by (auto; lia); reflexivity.
  - rewrite !TreeProofs.fsize_cons, (TreeProofs.tsize_sub (Branch nStmtList body)) in L. cbn [sub_of] in L.
    destruct (box_ok _ _ Bs) as (Eb & Ob). errs. rewrite Eb.
    assert (Eh : is_error header = false) by (destruct Hd as [(A & _)|(p & _ & Mp & _)]; [apply absent_leaf; auto|eapply means_leaf_err; eauto]).
    rewrite Eh. cbn [orb]. unfold dispatch. cbn [kind_of]. unfold list_item. fields.
    assert (Eq : (if is_empty header then Done [] else p <- paragraph (convert n) header ;; Done [(FHeader, p)]) = Done hd).
    { destruct Hd as [(A & ->)|(p & K & Mp & ->)].
      - rewrite (absent_empty _ A). reflexivity.
      - rewrite not_empty by congruence. rewrite (paragraph_means n IH header p K Mp) by lia. reflexivity. }
    rewrite Eq. cbn [rbind]. fields. rewrite (not_empty _ Kb), (get_text_of _ _ Tb). cbn [rbind]. fields. rewrite Ob. cbn [rbind].
    fields. cbn [sub_of]. rewrite (kids n IH body ss F) by lia. cbn [rbind]. unfold strip_space. rewrite (strip_trims _ _ _ _ Tr). reflexivity.
  - rewrite !TreeProofs.fsize_cons, (TreeProofs.tsize_sub (Branch nStmtList body)) in L. cbn [sub_of] in L.
    destruct (keyword_ok _ _ _ Kw) as (Ek & td & Otd & Ctd & Etd). destruct (priority_ok _ _ Pr) as (Ep & pt & Opt & Spt).
    destruct (tags_ok n _ _ Tg ltac:(lia)) as (Et & Otg).
    assert (Eti : is_error title = false) by (destruct Ti as [(A & _)|(_ & Mp)]; [apply absent_leaf; auto|eapply means_leaf_err; eauto]).
    destruct (completion_ok _ _ _ Ac) as (Eco & Oco). destruct (times_ok n _ _ At) as (Etm & Otm).
    errs. rewrite Ek, Ep, Eti, Eco, Et, Etm. cbn [orb]. unfold dispatch. cbn [kind_of]. unfold subtree. fields. rewrite (get_text_of _ _ Tp). cbn [rbind].
    fields.
    assert (Eq : paragraph (convert n) title = Done (node oParagraph tl)).
    { destruct Ti as [(-> & ->)|(K & Mp)]; [reflexivity|]. apply (paragraph_means n IH title _ K Mp). lia. }
    rewrite Eq. cbn [rbind ssubs node].
    assert (Fl : Forall (fun s => skind s = oBigIdent -> exists t, s = Sem oBigIdent (text [t]) [] [] []) tl).
    { destruct Ti as [(_ & ->)|(K & Mp)]; [constructor|]. destruct (par_inv _ _ K Mp) as (sub & ss' & tail & _ & Ep' & Fp & _ & _).
      injection Ep' as <-. apply Forall_forall. intros x Ix Kx. destruct (f2_in_r _ _ _ _ _ x Fp) as (y & My); [apply in_or_app; auto|].
      eapply leaf_shape; eauto. }
    rewrite (titled_ok _ _ _ Fl Tt). cbv beta iota zeta. fields. rewrite Opt. cbn [rbind]. fields.
    rewrite Oco. cbn [rbind]. fields. rewrite Otd. cbn [rbind]. fields. rewrite Otg. cbn [rbind].
    assert (exists arch, partition (fun s => AttrModel.str_eqb (head_of s) (lit "ARCHIVE")) tgs = (arch, filter (fun t => negb (is_archive t)) tgs) /\
      negb (length arch =? 0) = existsb is_archive tgs) as (arch & Ea & Xa).
    { destruct Tg as [(_ & ->)|(sub & _ & Fg)]; [exists []; auto|]. eapply archive_part; eauto. }
    rewrite Ea. fields. rewrite Otm. cbn [rbind]. fields.
    unfold drawer. rewrite (absent_empty _ Ad). cbn [rbind]. fields. cbn [sub_of].
    rewrite (gather_kids n IH body ss l F) by (auto; lia). cbn [rbind fst snd app]. rewrite app_nil_r.
    rewrite Xa, Spt, Ctd, Etd. reflexivity.
  - rewrite TreeProofs.fsize_cons in L. errs. rewrite (f2_no_error _ _ F). cbn [orb].
    assert (Q : attached_all toks tblfm_ok (convert n) sub = Done l) by (apply (gather_kids n IH sub ss l F); [lia|exact G]).
    assert (Qm : forall k, spec k = Some [(NArgs, Pt 0); (NBody, From 1)] -> error_kind k = false ->
      caught (b <- many (Branch k (args :: sub)) NBody ;; attached_all toks tblfm_ok (convert n) b) = Done l).
    { intros k0 Ek0 Ee. destruct sub as [|x r].
      - rewrite (many_none k0 [args] NBody _ 1 Ee Ek0 eq_refl) by (cbn; lia). cbn. inversion F. subst. inversion G; subst; auto; destruct cmds; discriminate.
      - rewrite (many_from k0 _ NBody _ 1 Ee Ek0 eq_refl) by (cbn; lia). cbn [rbind skipn]. rewrite Q. reflexivity. }
    destruct k; try discriminate; injection Ek as <-; unfold dispatch; cbn [kind_of].
    + unfold block_quote. fields. rewrite (absent_empty _ A). cbn [rbind]. rewrite Qm by reflexivity. reflexivity.
    + unfold block_comment. rewrite Qm by reflexivity. reflexivity.
  - rewrite TreeProofs.fsize_cons in L. errs. rewrite (f2_no_error _ _ F). cbn [orb]. unfold dispatch. cbn [kind_of]. unfold block_center.
    destruct sub as [|x r].
    + erewrite many_none; [|reflexivity|reflexivity|reflexivity|cbn; lia]. inversion F. reflexivity.
    + erewrite many_from; [|reflexivity|reflexivity|reflexivity|cbn; lia]. cbn [rbind skipn].
      assert (Q : forall l m, Forall2 means l m -> fsize l <= n -> each_until (convert n) l = Done m).
      { clear - IH. intros l m F. induction F as [|y t l m E _ IHF]; intros L; auto. rewrite TreeProofs.fsize_cons in L. cbn [each_until].
        rewrite (IH y t E) by lia. cbn [rbind]. rewrite IHF by lia. reflexivity. }
      rewrite (Q _ _ F) by lia. reflexivity.
  - rewrite TreeProofs.fsize_cons in L.
    assert (Ea : is_error args = false) by (destruct A as [->| ->]; reflexivity). unfold step. cbn [sub_of existsb]. rewrite Ea, (f2_no_error _ _ F). cbn [orb].
    unfold dispatch. cbn [kind_of]. unfold block_example.
    erewrite many_from; [|reflexivity|reflexivity|reflexivity|destruct sub; [contradiction|cbn; lia]]. cbn [rbind skipn].
    rewrite (kids n IH sub ss F) by lia. reflexivity.
  - rewrite TreeProofs.fsize_cons in L. errs.
    assert (Er : existsb is_error rows = false).
    { clear - F. induction F as [|x s l m E _ IHF]; auto. cbn. destruct E. exact IHF. }
    rewrite Er. cbn [orb]. unfold dispatch. cbn [kind_of]. unfold table, block_args. fields. unfold absent in A. subst args.
    cbn [is_kind kind_of]. change (nk_eqb nEmpty nInlineStmtList) with false. cbn [rbind].
    erewrite many_from; [|reflexivity|reflexivity|reflexivity|destruct rows; [contradiction|cbn; lia]]. cbn [rbind skipn].
    rewrite (each_ok _ rows ss); [reflexivity|]. eapply f2_impl; [|exact F]. intros x s Ix _ M. apply row_ok; auto. pose proof (sub_size x rows Ix). lia.
  - rewrite !TreeProofs.fsize_cons in L. destruct (link_ok _ _ desc _ Lk) as (E1 & E2 & E3).
    assert (E4 : is_error desc = false) by (destruct D as [(A & _)|(p & _ & Mp & _)]; [apply absent_leaf; auto|eapply means_leaf_err; eauto]).
    unfold step. cbn [sub_of existsb]. rewrite E1, E2, E4. cbn [orb]. unfold dispatch. cbn [kind_of]. unfold link. rewrite E3. cbn [rbind is_kind kind_of].
    change (nk_eqb nLink nLink) with true. cbv iota. fields. destruct D as [(-> & ->)|(p & K & Mp & ->)].
    + reflexivity.
    + unfold is_kind. rewrite K. change (nk_eqb nParagraph nParagraph) with true. cbv iota.
      rewrite (paragraph_means n IH desc p K Mp) by lia. reflexivity.
  - errs. unfold dispatch. cbn [kind_of]. unfold link, link_target. cbn [kind_of]. fields. rewrite (get_text_of _ _ T). reflexivity.
  - rewrite !TreeProofs.fsize_cons in L. unfold step. cbn [sub_of existsb]. rewrite (means_leaf_err _ _ M). cbn [orb]. unfold dispatch. cbn [kind_of].
    unfold inline_footnote. fields. rewrite (IH def s M) by lia. reflexivity.
  - assert (E : existsb is_error (sub_of a) = false).
    { destruct T as [h sub s t tags Th _ F]. cbn [sub_of existsb]. rewrite (text_leaf _ _ Th). cbn [orb].
      clear - F. induction F as [|x y l m E _ IHF]; auto. cbn. rewrite (tag_leaf _ _ E). exact IHF. }
    unfold step. rewrite E. unfold dispatch. assert (kind_of a = nHashTag) as -> by (destruct T; reflexivity).
    apply hash_tag_ok; auto. rewrite TreeProofs.tsize_sub. lia.
  - destruct (time_ok_means n a s T) as (_ & E & K & Q & _). unfold step. rewrite E. unfold dispatch. destruct K as [-> | ->]; exact Q.
  - destruct (arguments_ok n args al Aa) as (Ea & Oa). errs. rewrite Ea. cbn [orb]. unfold dispatch. cbn [kind_of]. unfold block_code. fields. rewrite (opt_text_text _ _ Tl Kl). cbn [rbind]. fields.
    assert ((if is_empty args then Done [] else attrs_of toks float_ok n args) = Done al) as ->.
    { destruct (is_empty args) eqn:Ee; [|exact Oa]. destruct Aa as [(-> & ->)|(vs & raw & [->|(fl & k & ->)] & _)]; [reflexivity|discriminate|discriminate]. }
    cbn [rbind]. fields. change (is_kind nSrcInlineCode (Branch nBlockCode [lang; args; Branch kb body; res])) with false.
    cbv iota. cbn [sub_of]. rewrite (each_ok _ body lines).
    + cbn [rbind]. fields. rewrite (absent_empty _ A). reflexivity.
    + eapply f2_impl; [|exact F]. intros x t _ _ Ml. apply line_ok. exact Ml.
  - rewrite !TreeProofs.fsize_cons, (TreeProofs.tsize_sub (Branch nAttrs [p])) in L. cbn [sub_of] in L. rewrite TreeProofs.fsize_cons in L.
    errs. unfold dispatch. cbn [kind_of]. unfold cmd_caption. fields. unfold at_. cbn [sub_of nth_error rbind].
    rewrite (paragraph_means n IH p q Kp Mq) by lia. reflexivity.
  - errs. unfold dispatch. cbn [kind_of]. unfold cmd_name, at_. cbn [sub_of nth_error rbind]. unfold attr_of. fields.
    rewrite (absent_empty _ A1). cbn [rbind]. fields. rewrite (absent_empty _ A2). cbn [rbind]. fields. rewrite Kv. rewrite (get_text_of _ _ T). cbn [rbind].
    rewrite (plain_value s N1 N2). cbn [rbind]. rewrite (absent_empty _ A3). reflexivity.
  - destruct (time_ok_means n f sf Tf) as (E1 & _ & _ & Q1 & V1 & _). destruct (time_ok_means n t st Tt) as (E2 & _ & _ & Q2 & V2 & _).
    unfold step. cbn [sub_of existsb]. rewrite E1, E2, (absent_leaf _ Ad). cbn [orb]. unfold dispatch. cbn [kind_of]. unfold time_range. fields. rewrite Q1. cbn [rbind]. rewrite V1. cbn [rbind].
    fields. rewrite Q2. cbn [rbind]. rewrite V2. reflexivity.
  - unfold step. cbn [sub_of]. rewrite (proj2 (texts_done _ _ _ F)). unfold dispatch. cbn [kind_of]. unfold radio_target, is_kind. cbn [sub_of].
    destruct (texts_done _ _ _ W) as [E _]. rewrite E. reflexivity.
  - unfold step. cbn [sub_of]. rewrite (proj2 (texts_done _ _ _ F)). unfold dispatch. cbn [kind_of]. unfold text_target. cbn [sub_of].
    rewrite (proj1 (texts_done _ _ _ F)). reflexivity.
  - rewrite !TreeProofs.fsize_cons in L.
    assert (Eo : is_error old = false) by (destruct Ho as [(A & _)|(y & _ & My & _)]; [apply absent_leaf; auto|eapply means_leaf_err; eauto]).
    errs. rewrite Eo, (means_leaf_err _ _ Mz). cbn [orb]. unfold dispatch. cbn [kind_of]. unfold critic. fields. rewrite (get_text_of _ _ T). cbn [rbind]. fields.
    assert ((if is_empty old then Done [] else y <- convert n old ;; Done [y]) = Done l) as ->.
    { destruct Ho as [(A & ->)|(y & K & My & ->)]; [rewrite (absent_empty _ A); reflexivity|]. rewrite (not_empty _ K), (IH old y My) by lia. reflexivity. }
    cbn [rbind]. rewrite (IH new z Mz) by lia. reflexivity.
  - destruct (arguments_ok n args l Aa) as (Ea & Oa). errs. rewrite Ea. cbn [orb]. unfold dispatch. cbn [kind_of]. unfold macro. fields. rewrite (get_text_of _ _ T). cbn [rbind].
    assert (one (Branch nMacro [nm; args]) NArgs = Done args) as -> by reflexivity. cbn [rbind]. rewrite Oa. reflexivity.
  - destruct (arguments_ok n args l Aa) as (Ea & Oa). errs. rewrite Ea. cbn [orb]. unfold dispatch. cbn [kind_of]. unfold cmd_attr. fields. rewrite (get_text_of _ _ T). cbn [rbind].
    fields. rewrite Oa. cbn [rbind]. rewrite Ns. reflexivity.
  - unfold step, dispatch, link, link_target. cbn [sub_of existsb kind_of get_text token_text]. rewrite Ex. reflexivity.
  - errs. unfold dispatch. cbn [kind_of]. unfold symbol. fields. rewrite (get_text_of _ _ T). cbn [rbind]. fields.
    cbn [sub_of each rbind concat]. fields. cbn [sub_of]. rewrite (each_ok _ body ss); [reflexivity|].
    rewrite !TreeProofs.fsize_cons, (TreeProofs.tsize_sub (Branch nInlineStmtList body)) in L. cbn [sub_of] in L.
    eapply f2_impl; [|exact F]. intros x y Ix _ M. apply IH; auto. pose proof (sub_size x body Ix). lia.
  - unfold step. cbn [sub_of]. rewrite (f2_no_error _ _ F). unfold dispatch. cbn [kind_of]. unfold colon_example.
    erewrite many_from; [|reflexivity|reflexivity|reflexivity|destruct sub; [contradiction|cbn; lia]]. cbn [rbind skipn].
    rewrite (each_ok _ sub ss); [reflexivity|]. eapply f2_impl; [|exact F]. intros x s Ix _ M. rewrite Forall_forall in Fk. specialize (Fk x Ix).
    assert (Q : sem_leaf toks oRawText x = Done s) by (apply raw_text_means; assumption). destruct x; [exact Q|exact Q|discriminate Q].
Qed.
End Means.
