(** The words and the outline of a converted document are those of its parse tree. *)
From Coq Require Import String.
From Verif Require Import Base StrModel NodeKind.
From Verif Require StrProofs AttrProofs TreeProofs.
From Verif Require RegroupModel TreeSpec ParseModel AttrModel.
From Verif Require Import ConvModel ConvSpec ConvProofs ConvMeans.
Import TreeSpec.
Local Open Scope nat_scope.

Section Words.
Variable toks : list RegroupModel.otok.
Variable time_ok : str -> option Z -> bool.
Notation means := (means toks time_ok).
Notation words_of := (words_of toks).
Notation outline_of := (outline_of toks).

Fixpoint wgo (k : nk) (i : nat) (l : list ptree) : list str :=
  match l with
  | [] => []
  | x :: r => (if shown k i then if nk_eqb k nSubtree && (i =? 3) && commented toks x then tl (words_of x) else words_of x else []) ++ wgo k (S i) r
  end.
Lemma wgo_ok : forall k sub i,
  (fix go (i : nat) (l : list ptree) := match l with [] => [] | x :: r =>
     (if shown k i then if nk_eqb k nSubtree && (i =? 3) && commented toks x then tl (words_of x) else words_of x else []) ++ go (S i) r end) i sub = wgo k i sub.
Proof. intros k sub. induction sub as [|x sub IH]; intros i; [reflexivity|]. cbn [wgo]. rewrite <- IH. reflexivity. Qed.
Lemma words_branch : forall k sub, words_of (Branch k sub) = wgo k 0 sub.
Proof. intros k sub. rewrite <- wgo_ok. reflexivity. Qed.
Fixpoint ogo (k : nk) (i : nat) (l : list ptree) : list outline :=
  match l with [] => [] | x :: r => (if shown k i then outline_of x else []) ++ ogo k (S i) r end.
Lemma ogo_ok : forall k sub i,
  (fix go (i : nat) (l : list ptree) := match l with [] => [] | x :: r => (if shown k i then outline_of x else []) ++ go (S i) r end) i sub = ogo k i sub.
Proof. intros k sub. induction sub as [|x sub IH]; intros i; [reflexivity|]. cbn [ogo]. rewrite <- IH. reflexivity. Qed.
Lemma outline_branch : forall k sub, k <> nSubtree -> outline_of (Branch k sub) = ogo k 0 sub.
Proof. intros k sub N. rewrite <- ogo_ok. destruct k; try reflexivity. contradiction. Qed.
Lemma outline_heading : forall kp i a b title r, outline_of (Branch nSubtree (Leaf kp i :: a :: b :: title :: r)) =
  [Heading (Z.of_nat (length (leaf_text toks i))) (if commented toks title then tl (words_of title) else words_of title)
    (ogo nSubtree 0 (Leaf kp i :: a :: b :: title :: r))].
Proof. intros. rewrite <- ogo_ok. reflexivity. Qed.

Definition plain (k : nk) : Prop := k <> nSubtree /\ forall i, shown k i = true.
Lemma wgo_plain : forall k sub i, plain k -> wgo k i sub = flat_map words_of sub.
Proof.
  intros k sub i (N & P). revert i. induction sub as [|x sub IH]; intros i; auto. cbn [wgo flat_map]. rewrite P, IH.
  rewrite (proj2 (nk_eqb_neq _ _) N). reflexivity.
Qed.
Lemma ogo_plain : forall k sub i, plain k -> ogo k i sub = flat_map outline_of sub.
Proof.
  intros k sub i (N & P). revert i. induction sub as [|x sub IH]; intros i; auto. cbn [ogo flat_map]. rewrite P, IH. reflexivity.
Qed.
Definition same (a : ptree) (s : sem) : Prop := words s = words_of a /\ headings s = outline_of a.
Definition same_all (l : list ptree) (ss : list sem) : Prop := flat_map words ss = flat_map words_of l /\ flat_map headings ss = flat_map outline_of l.
Lemma same_f2 : forall l ss, Forall2 same l ss -> same_all l ss.
Proof.
  intros l ss F. induction F as [|a s l ss (E & H) _ (E' & H')]; [split; reflexivity|]. split; cbn [flat_map]; congruence.
Qed.
Lemma same_node : forall k sub s, plain k -> words s = flat_map words_of sub -> headings s = flat_map outline_of sub -> same (Branch k sub) s.
Proof.
  intros k sub s P W H. split.
  - rewrite words_branch, wgo_plain; auto.
  - rewrite outline_branch, ogo_plain; auto. apply P.
Qed.
Lemma node_words : forall o l, osk_word o = false -> words (node o l) = flat_map words l.
Proof. intros o l E. cbn. rewrite E. reflexivity. Qed.
Lemma node_headings : forall o l, o <> oSubtree -> headings (node o l) = flat_map headings l.
Proof. intros o l E. destruct o; try reflexivity. contradiction. Qed.

Lemma absent_same : forall a, absent a -> words_of a = [] /\ outline_of a = [].
Proof. intros a ->. split; reflexivity. Qed.
Lemma text_same : forall a s, text_of toks a s -> outline_of a = [].
Proof. intros a s (k & i & x & -> & _). reflexivity. Qed.
Lemma tag_same : forall n a s, tsize a <= n -> tag_means toks a s -> words s = [] /\ headings s = [].
Proof.
  intros n. induction n as [|n IH]; intros a s L H; [pose proof (TreeProofs.tsize_pos a); lia|].
  destruct H as [h sub s t tags _ _ F]. rewrite TreeProofs.tsize_sub in L. cbn [sub_of] in L. rewrite TreeProofs.fsize_cons in L.
  assert (Fa : Forall (fun t => words t = [] /\ headings t = []) tags).
  { assert (Ls : fsize sub <= n) by lia. clear - F Ls IH. induction F as [|x y sub tags E _ IHF]; constructor; rewrite TreeProofs.fsize_cons in Ls.
    - eapply IH; [|exact E]. lia.
    - apply IHF. lia. }
  cbn. rewrite !app_nil_r. clear - Fa. induction Fa as [|x tags (E & H) _ (IH1 & IH2)]; auto. cbn. rewrite E, H. auto.
Qed.
Lemma blank_words : forall a s, means a s -> blank s -> words s = [] /\ headings s = [].
Proof.
  intros a s M [K|K]; destruct M; cbn in K; try discriminate; subst; auto;
    try (destruct k; discriminate); destruct H; discriminate.
Qed.
Definition link_bare (s : sem) : Prop := sattached s = [] /\ forall d f x at_, s = Sem oParagraph d f [x] at_ -> f = [] /\ sattached x = [].
Lemma cmds_map : forall (B : Type) (f : sem -> list B) (cmds : list (nk * sem)), flat_map f (map snd cmds) = flat_map (fun p => f (snd p)) cmds.
Proof. intros B f cmds. induction cmds as [|c cmds IH]; auto. cbn. rewrite IH. reflexivity. Qed.
Lemma attached_words : forall s cmds, link_bare s -> is_stmt (skind s) = true -> skind s <> oSubtree ->
  words (with_attached s cmds []) = flat_map words cmds ++ words s /\ headings (with_attached s cmds []) = flat_map headings cmds ++ headings s.
Proof.
  intros [k d f subs att] cmds (B & L) St N. cbn in B. subst att.
  assert (G : words (Sem k d f subs (cmds ++ [])) = flat_map words cmds ++ words (Sem k d f subs []) /\
    headings (Sem k d f subs (cmds ++ [])) = flat_map headings cmds ++ headings (Sem k d f subs [])).
  { rewrite app_nil_r. cbn [words headings flat_map]. split; auto. destruct k; auto. exfalso. apply N. reflexivity. }
  destruct k; try exact G. destruct subs as [|[kl dl fl sl al] [|y r]]; try exact G; destruct kl; try exact G.
  destruct (L _ _ _ _ eq_refl) as (-> & E). cbn in E. subst al. cbn. rewrite !app_nil_r. auto.
Qed.
Lemma gathered_words : forall items l, gathered items l -> Forall (fun p => fst p <> nCmdTblfm) items ->
  Forall (fun p => link_bare (snd p)) items ->
  flat_map words l = flat_map (fun p => words (snd p)) items /\ flat_map headings l = flat_map (fun p => headings (snd p)) items.
Proof.
  intros items l G. induction G as [cmds k s forms rest l Fc Is Ia Ff Nf G IH|cmds k s rest l Fc Is G IH|cmds Fc]; intros Nt B.
  - assert (forms = []) as ->.
    { destruct forms as [|p r]; auto. exfalso. inversion Ff; subst. rewrite Forall_forall in Nt. apply (Nt p); auto. apply in_or_app. right. right. left. reflexivity. }
    cbn [app map] in *. apply Forall_app in Nt as (_ & Nt). inversion Nt as [|? ? _ Nr]; subst. apply Forall_app in B as (_ & B). inversion B as [|? ? Bs Br]; subst.
    destruct (IH Nr Br) as (E1 & E2). rewrite !flat_map_app. cbn [flat_map snd]. rewrite E1, E2, !app_assoc.
    destruct (attached_words s (map snd cmds) Bs Is) as (W1 & W2).
    { intros K. rewrite K in Is. discriminate. }
    rewrite W1, W2, !cmds_map. auto.
  - apply Forall_app in Nt as (_ & Nt). inversion Nt as [|? ? _ Nr]; subst. apply Forall_app in B as (_ & B). inversion B as [|? ? Bs Br]; subst.
    destruct (IH Nr Br) as (E1 & E2). rewrite !flat_map_app. cbn [flat_map snd]. rewrite E1, E2, !cmds_map. auto.
  - rewrite !cmds_map. auto.
Qed.

Lemma means_link_bare : forall a s, means a s -> link_bare s.
Proof.
  intros a s M. split; [eapply means_bare; eauto|]. intros d f x at_ ->.
  remember (Sem oParagraph d f [x] at_) as t eqn:Et. destruct M; try discriminate; try (injection Et as -> _ _ _; destruct k; discriminate).
  - injection Et as <- <- -> <-. split; auto. inversion H as [|y z r m E _]; subst. eapply means_bare. exact E.
  - subst. inversion H.
  - subst. inversion H.
Qed.
Lemma gathered_same : forall sub ss l, Forall2 means sub ss -> gathered (combine (map kind_of sub) ss) l -> same_all sub ss -> same_all sub l.
Proof.
  intros sub ss l F G (S1 & S2). destruct (gathered_words _ _ G) as (W1 & W2).
  - clear - F. induction F as [|x s sub ss E _ IHF]; constructor; auto. eapply means_not_tblfm. exact E.
  - clear - F. induction F as [|x s sub ss E _ IHF]; constructor; auto. eapply means_link_bare. exact E.
  - assert (forall (B : Type) (f : sem -> list B), flat_map (fun p => f (snd p)) (combine (map kind_of sub) ss) = flat_map f ss) as E.
    { intros B f. clear - F. induction F as [|x s sub ss _ _ IHF]; auto. cbn. rewrite IHF. reflexivity. }
    rewrite E in W1, W2. split; congruence.
Qed.
Section Step.
Variable n : nat.
Hypothesis IH : forall a s, tsize a <= n -> means a s -> same a s.
Lemma same_kids : forall sub ss, Forall2 means sub ss -> fsize sub <= n -> same_all sub ss.
Proof.
  intros sub ss F L. apply same_f2. eapply f2_impl; [|exact F]. intros x s Ix _ M. apply IH; auto. pose proof (sub_size x sub Ix). lia.
Qed.
Lemma plain_stmts : plain nStmtList.
Proof. split; [discriminate|reflexivity]. Qed.
Lemma stmts_same : forall sub, words_of (Branch nStmtList sub) = flat_map words_of sub /\ outline_of (Branch nStmtList sub) = flat_map outline_of sub.
Proof. intros sub. rewrite words_branch, wgo_plain, outline_branch, ogo_plain; auto using plain_stmts. discriminate. Qed.
Lemma inline_same : forall sub, words_of (Branch nInlineStmtList sub) = flat_map words_of sub /\ outline_of (Branch nInlineStmtList sub) = flat_map outline_of sub.
Proof. intros sub. assert (plain nInlineStmtList) by (split; [discriminate|reflexivity]). rewrite words_branch, wgo_plain, outline_branch, ogo_plain; auto. discriminate. Qed.
Lemma fields_map : forall (B : Type) (f : sem -> list B) (g : fld) l, flat_map (fun p => f (snd p)) (map (pair g) l) = flat_map f l.
Proof. intros B f g l. induction l as [|x l IHl]; auto. cbn. rewrite IHl. reflexivity. Qed.
Lemma cell_same : forall a s, cell_means toks time_ok a s -> tsize a <= n -> same a s.
Proof.
  intros a s M L. destruct M as [args sub ss A F]. rewrite TreeProofs.tsize_sub in L. cbn [sub_of] in L. rewrite !TreeProofs.fsize_cons, (TreeProofs.tsize_sub (Branch nStmtList sub)) in L. cbn [sub_of] in L.
  destruct (same_kids sub ss F ltac:(lia)) as (W & H). destruct (absent_same _ A) as (Wa & Ha). destruct (stmts_same sub) as (Ws & Hs).
  apply same_node; [split; [discriminate|reflexivity]| |]; cbn [flat_map]; rewrite ?Wa, ?Ha, ?Ws, ?Hs, ?app_nil_r; cbn; auto.
Qed.
Lemma row_same : forall a s, row_means toks time_ok a s -> tsize a <= n -> same a s.
Proof.
  intros a s M L. destruct M as [args txt cells ss A At F]. rewrite TreeProofs.tsize_sub in L. cbn [sub_of] in L. rewrite !TreeProofs.fsize_cons, (TreeProofs.tsize_sub (Branch nStmtList cells)) in L. cbn [sub_of] in L.
  assert (same_all cells ss) as (W & H).
  { apply same_f2. eapply f2_impl; [|exact F]. intros x s Ix _ M. apply cell_same; auto. pose proof (sub_size x cells Ix). lia. }
  destruct (absent_same _ A) as (Wa & Ha). destruct (absent_same _ At) as (Wt & Ht). destruct (stmts_same cells) as (Ws & Hs).
  apply same_node; [split; [discriminate|reflexivity]| |]; cbn [flat_map]; rewrite ?Wa, ?Ha, ?Wt, ?Ht, ?Ws, ?Hs, ?app_nil_r; cbn; rewrite fields_map, ?app_nil_r; auto.
Qed.
End Step.
Lemma par_same : forall sub ss tail, Forall2 means sub (ss ++ tail) -> Forall blank tail -> same_all sub (ss ++ tail) -> same_all sub ss.
Proof.
  intros sub ss tail F B (W & H). assert (flat_map words tail = [] /\ flat_map headings tail = []) as (W' & H').
  { assert (Forall (fun s => exists a, means a s) tail) as M.
    { apply Forall_forall. intros x Ix. eapply f2_in_r; [exact F|]. apply in_or_app. auto. }
    clear - B M. induction B as [|x tail Bx _ IHB]; auto. inversion M as [|? ? (a & Ma) Mr]; subst. destruct (IHB Mr) as (E1 & E2).
    cbn. destruct (blank_words a x Ma Bx) as (E3 & E4). rewrite E1, E2, E3, E4. auto. }
  rewrite flat_map_app in W, H. rewrite W', app_nil_r in W. rewrite H', app_nil_r in H. split; assumption.
Qed.
Lemma opt_same : forall n, (forall a s, tsize a <= n -> means a s -> same a s) -> forall a g (hd : list (fld * sem)), tsize a <= n ->
  absent a /\ hd = [] \/ (exists p, kind_of a = nParagraph /\ means a p /\ hd = [(g, p)]) ->
  flat_map (fun p => words (snd p)) hd = words_of a /\ flat_map (fun p => headings (snd p)) hd = outline_of a.
Proof.
  intros n IH a g hd L [(A & ->)|(p & _ & M & ->)].
  - destruct (absent_same _ A) as (-> & ->). auto.
  - destruct (IH a p L M) as (E1 & E2). cbn. rewrite !app_nil_r. auto.
Qed.
Lemma tags_same : forall a tgs, tagged toks a tgs -> forall tgs', (forall t, In t tgs' -> In t tgs) -> flat_map words tgs' = [] /\ flat_map headings tgs' = [].
Proof.
  intros a tgs T tgs' I. assert (N : forall t, In t tgs' -> words t = [] /\ headings t = []).
  { intros t It. destruct T as [(_ & ->)|(sub & _ & F)]; [destruct (I t It)|]. destruct (f2_in_r _ _ _ _ _ t F (I t It)) as (x & Mx). eapply tag_same; eauto. }
  clear I. induction tgs' as [|t l IHl]; auto. destruct (N t (or_introl eq_refl)) as (E1 & E2). destruct IHl as (E3 & E4). { intros x Ix. apply N. right. exact Ix. }
  cbn. rewrite E1, E2, E3, E4. auto.
Qed.
Lemma ident_inv : forall i s, means (Leaf nBigIdent i) s ->
  exists j x, i = Some j /\ nth_error toks j = Some x /\ s = Sem oBigIdent (text [RegroupModel.otext x]) [] [] [].
Proof.
  intros i s M. inversion M; subst; try discriminate.
  - injection H1 as <-. eauto.
  - inversion H.
  - inversion H.
Qed.
(** A title and its words without COMMENT *)
Lemma title_same : forall title tl c ttl, (absent title /\ tl = [] \/ kind_of title = nParagraph /\ means title (node oParagraph tl)) ->
  same title (node oParagraph tl) -> titled tl c ttl ->
  words (node oParagraph ttl) = (if commented toks title then List.tl (words_of title) else words_of title) /\ headings (node oParagraph ttl) = outline_of title.
Proof.
  intros title tl c ttl T (W & H) [(-> & -> & N)|(-> & sp & -> & Fs & _)].
  - assert (commented toks title = false) as ->; [|auto].
    destruct T as [(-> & _)|(K & M)]; [reflexivity|]. destruct (par_inv _ _ _ _ K M) as (sub & ss & tail & -> & E & F & B & _). injection E as <-.
    unfold commented. cbn [sub_of]. destruct sub as [|x sub]; auto. destruct x as [|k i|]; auto. destruct k; auto.
    destruct (str_is (leaf_text toks i) "COMMENT") eqn:Es; auto. exfalso. apply str_is_eq in Es.
    inversion F as [|? s ? m M1 Fr E1 E2]; subst. destruct (ident_inv _ _ M1) as (j & x & -> & Ex & ->). cbn in Es. rewrite Ex in Es.
    destruct tl as [|y r].
    { cbn in E2. subst tail. inversion B as [|? ? [Bx|Bx] _]; discriminate. }
    injection E2 as <- _. apply (N r). rewrite Es. reflexivity.
  - destruct T as [(_ & T)|(K & M)]; [discriminate|]. destruct (par_inv _ _ _ _ K M) as (sub & ss & tail & -> & E & F & B & _). injection E as <-.
    assert (flat_map words sp = [] /\ flat_map headings sp = []) as (W' & H').
    { assert (Ms : Forall (fun s => exists a, means a s) sp).
      { apply Forall_forall. intros x Ix. eapply f2_in_r; [exact F|]. apply in_or_app. left. right. apply in_or_app. auto. }
      clear - Fs Ms. induction Fs as [|x sp Bx _ IHB]; auto. inversion Ms as [|? ? (a & Ma) Mr]; subst. destruct (IHB Mr) as (E1 & E2).
      cbn. destruct (blank_words a x Ma (or_introl Bx)) as (E3 & E4). rewrite E1, E2, E3, E4. auto. }
    inversion F as [|x ? sub' ? M1 _ E1 E2]; subst. rewrite node_words in W by reflexivity. rewrite node_headings in H by discriminate.
    cbn [flat_map] in W, H. rewrite flat_map_app, W' in W. rewrite flat_map_app, H' in H.
    assert (commented toks (Branch nParagraph (x :: sub')) = true) as ->.
    { remember comment_word as cw eqn:Ec. destruct M1 as [kx o i x Ek Ex| | | | | | | | | | | | | | |a s Ta|a s Ta| | | | | | | | | | | |]; try discriminate.
      - injection Ec as -> Et. destruct kx; try discriminate. unfold commented. cbn [sub_of leaf_text]. rewrite Ex, Et. reflexivity.
      - subst. inversion Ta.
      - subst. inversion Ta. }
    rewrite node_words, node_headings by (reflexivity || discriminate). rewrite <- W, <- H. auto.
Qed.
Lemma hidden_same : forall k sub, (forall i, shown k i = false) -> k <> nSubtree -> words_of (Branch k sub) = [] /\ outline_of (Branch k sub) = [].
Proof.
  intros k sub H N. rewrite words_branch, outline_branch by exact N. generalize 0. induction sub as [|x sub IHs]; intros i; [split; reflexivity|].
  cbn [wgo ogo]. rewrite H. apply IHs.
Qed.
Lemma time_same : forall a s, time_means toks time_ok a s -> same a s /\ words s = [] /\ headings s = [].
Proof.
  intros a s [k y c z r w ys cs dt o reps warn Ek Ty Ky Hc Hz Ok Hr Hw]. split; [|split; reflexivity].
  destruct (hidden_same k [y; c; z; r; w]) as (E1 & E2); [destruct Ek as [-> | ->]; reflexivity|destruct Ek as [-> | ->]; discriminate|].
  split; rewrite ?E1, ?E2; reflexivity.
Qed.
Lemma times_same : forall a l, times_of toks time_ok a l ->
  flat_map (fun p => words (snd p)) l = [] /\ flat_map (fun p => headings (snd p)) l = [] /\
  flat_map (fun p : fld * sem => match p with (FTitle, t) => words t | _ => [] end) l = [].
Proof.
  intros a l [(_ & ->)|(k & sub & _ & F)]; [repeat split; reflexivity|]. induction F as [|x [f s] sub l T _ (E1 & E2 & E3)]; [repeat split; reflexivity|].
  cbn [flat_map snd]. rewrite E1, E2, E3. inversion T as [kx w t rest word f' s' Tw Kw M H]; subst. destruct (time_same _ _ M) as (_ & -> & ->).
  decompose [or and] H; subst; repeat split; reflexivity.
Qed.
Lemma means_same : forall n a s, tsize a <= n -> means a s -> same a s.
Proof.
  intros n. induction n as [|n IH]; intros a s L M; [pose proof (TreeProofs.tsize_pos a); lia|].
  rewrite TreeProofs.tsize_sub in L.
  destruct M as [k o i x Ek Ex|a A|t|k o sub ss Ek F|sub ss tail F B N|k sub ss l Ek F G
    |bullet counter box header body b bl st hd ss Tb Kb Ac Tr Bs Hd F
    |prefix todo urgency title compl tags times drw body stars kw c1 pr tl c2 ttl cl tgs tms ss l Tp Kw Pr Ti Tt Ac Tg At Ad F G
    |k o args sub ss l Ek A F G|args sub ss A F|args sub ss A N F|args rows ss A N F
    |proto tgt desc t hd Lk D|nm def s A T|def s M|a s T
    |a s T
    |lang args al kb body lines l res Tl Kl Aa F A
    |p q Kp Mq|k e1 e2 v e3 rest s A1 A2 A3 T Kv N1 N2
    |f t df sf st Tf Tt Ad|sub ts ws F W|sub ts F|nm old new s l z T Ho Mz|nm args s l T Aa|nm args s l T Ns Aa
    |i x Ex|nm k body c s ss T F|sub ss Ns Fk F]; cbn [sub_of] in L.
  - split; [|destruct k; try discriminate; injection Ek as <-; reflexivity]. cbn [ConvSpec.words_of leaf_text]. unfold word_kind. rewrite Ek, Ex.
    destruct k; try discriminate; injection Ek as <-; reflexivity.
  - destruct (absent_same _ A) as (E1 & E2). split; rewrite ?E1, ?E2; reflexivity.
  - split; reflexivity.
  - destruct (same_kids n IH sub ss F ltac:(lia)) as (W & H). apply same_node.
    + split; [|intros i]; destruct k; discriminate || reflexivity.
    + rewrite node_words; auto. destruct k; try discriminate; injection Ek as <-; reflexivity.
    + rewrite node_headings; auto. destruct k; try discriminate; injection Ek as <-; discriminate.
  - destruct (par_same sub ss tail F B (same_kids n IH _ _ F ltac:(lia))) as (W & H). apply same_node; rewrite ?node_words, ?node_headings; auto; try discriminate. split; [discriminate|reflexivity].
  - destruct (gathered_same _ _ _ F G (same_kids n IH _ _ F ltac:(lia))) as (W & H). apply same_node; rewrite ?node_words, ?node_headings; auto; [|discriminate].
    destruct Ek as [-> | ->]; split; discriminate || reflexivity.
  - rewrite !TreeProofs.fsize_cons, (TreeProofs.tsize_sub (Branch nStmtList body)) in L. cbn [sub_of] in L.
    destruct (same_kids n IH _ _ F ltac:(lia)) as (W & H). destruct (opt_same n IH header FHeader hd ltac:(lia) Hd) as (Wh & Hh). destruct (stmts_same body) as (Ws & Hs).
    split.
    + rewrite words_branch. cbn [wgo shown Nat.eqb orb app]. change (nk_eqb nListItem nSubtree) with false. cbn [andb]. rewrite app_nil_r, Ws. cbn. rewrite Wh, W. reflexivity.
    + rewrite outline_branch by discriminate. cbn [ogo shown Nat.eqb orb app]. rewrite app_nil_r, Hs. cbn. rewrite Hh, H. reflexivity.
  - rewrite !TreeProofs.fsize_cons, (TreeProofs.tsize_sub (Branch nStmtList body)) in L. cbn [sub_of] in L.
    destruct (gathered_same _ _ _ F G (same_kids n IH _ _ F ltac:(lia))) as (W & H). destruct (stmts_same body) as (Ws & Hs).
    assert (St : same title (node oParagraph tl)).
    { destruct Ti as [(A & ->)|(K & Mp)]; [|apply IH; auto; lia]. destruct (absent_same _ A) as (E1 & E2). split; rewrite ?E1, ?E2; reflexivity. }
    destruct (title_same _ _ _ _ Ti St Tt) as (Wt & Ht).
    destruct (tags_same _ _ Tg (filter (fun t => negb (is_archive t)) tgs)) as (Wg & Hg). { intros t It. apply filter_In in It. tauto. }
    destruct (times_same _ _ At) as (Wm & Hm & Tm).
    split.
    + rewrite words_branch. cbn [wgo shown Nat.eqb orb app]. change (nk_eqb nSubtree nSubtree) with true. cbn [andb]. rewrite app_nil_r, Ws, <- Wt, <- W.
      cbn [words osk_word flat_map snd app]. rewrite flat_map_app, fields_map, Wg, Wm, app_nil_r. reflexivity.
    + destruct Tp as (kp & ip & xp & -> & Ep & <-).
      rewrite outline_heading. cbn [ogo shown Nat.eqb orb app leaf_text]. rewrite Ep, app_nil_r, Hs, <- Ht, <- Wt, <- H.
      cbn [headings flat_map snd app dnum nth]. rewrite !flat_map_app, fields_map, Hg, Hm, Tm, app_nil_r.
      assert (flat_map (fun p : fld * sem => match p with (FTitle, t) => words t | _ => [] end) (map (pair FTag) (filter (fun t => negb (is_archive t)) tgs)) = []) as E.
      { generalize (filter (fun t => negb (is_archive t)) tgs). intros m. induction m as [|x m IHm]; auto. }
      rewrite E. cbn [app]. rewrite !app_nil_r. reflexivity.
  - rewrite TreeProofs.fsize_cons in L. destruct (gathered_same _ _ _ F G (same_kids n IH _ _ F ltac:(lia))) as (W & H). destruct (absent_same _ A) as (Wa & Ha).
    apply same_node; cbn [flat_map]; rewrite ?Wa, ?Ha.
    + split; [|intros i]; destruct k; discriminate || reflexivity.
    + destruct k; try discriminate; injection Ek as <-; cbn; auto.
    + destruct k; try discriminate; injection Ek as <-; cbn; auto.
  - rewrite TreeProofs.fsize_cons in L. destruct (same_kids n IH _ _ F ltac:(lia)) as (W & H). destruct (absent_same _ A) as (Wa & Ha).
    apply same_node; cbn [flat_map]; rewrite ?Wa, ?Ha; cbn; auto. split; discriminate || reflexivity.
  - rewrite TreeProofs.fsize_cons in L. destruct (same_kids n IH _ _ F ltac:(lia)) as (W & H).
    assert (words_of args = [] /\ outline_of args = []) as (Wa & Ha) by (destruct A as [->| ->]; split; reflexivity).
    apply same_node; cbn [flat_map]; rewrite ?Wa, ?Ha; cbn; auto. split; discriminate || reflexivity.
  - rewrite TreeProofs.fsize_cons in L. destruct (absent_same _ A) as (Wa & Ha).
    assert (same_all rows ss) as (W & H).
    { apply same_f2. eapply f2_impl; [|exact F]. intros x s Ix _ M. apply (row_same n IH); auto. pose proof (sub_size x rows Ix). lia. }
    apply same_node; cbn [flat_map]; rewrite ?Wa, ?Ha; cbn; rewrite ?fields_map, ?app_nil_r; auto. split; discriminate || reflexivity.
  - rewrite !TreeProofs.fsize_cons in L. destruct (opt_same n IH desc FDescription hd ltac:(lia) D) as (Wh & Hh).
    split.
    + rewrite words_branch. cbn [wgo shown Nat.eqb orb app]. change (nk_eqb nLink nSubtree) with false. cbn [andb]. cbn. rewrite Wh, !app_nil_r. reflexivity.
    + rewrite outline_branch by discriminate. cbn [ogo shown Nat.eqb orb app]. cbn. rewrite Hh. reflexivity.
  - split; [rewrite words_branch|rewrite outline_branch by discriminate]; reflexivity.
  - rewrite TreeProofs.fsize_cons in L. destruct (IH def s ltac:(lia) M) as (W & H).
    apply same_node; cbn; rewrite ?app_nil_r; auto. split; discriminate || reflexivity.
  - destruct (tag_same _ _ _ (le_n _) T) as (W & H). destruct T as [h sub s t tgs Th _ F]. split.
    + rewrite words_branch, W. symmetry. clear. generalize 0. generalize (h :: sub). intros l. induction l as [|x l IHl]; intros i; auto. apply (IHl (S i)).
    + rewrite outline_branch, H by discriminate. symmetry. clear. generalize 0. generalize (h :: sub). intros l. induction l as [|x l IHl]; intros i; auto. apply (IHl (S i)).
  - apply time_same. exact T.
  - split; [rewrite words_branch|rewrite outline_branch by discriminate]; reflexivity.
  - rewrite !TreeProofs.fsize_cons, (TreeProofs.tsize_sub (Branch nAttrs [p])) in L. cbn [sub_of] in L. rewrite TreeProofs.fsize_cons in L.
    destruct (IH p q ltac:(lia) Mq) as (W & H). assert (same (Branch nAttrs [p]) (Sem oCmdCaption nothing [(FText, q)] [] [])) as (E1 & E2).
    { apply same_node; cbn; rewrite ?app_nil_r; auto. split; discriminate || reflexivity. }
    apply same_node; cbn [flat_map]; rewrite ?app_nil_r; auto. split; discriminate || reflexivity.
  - split; [rewrite words_branch|rewrite outline_branch by discriminate]; reflexivity.
  - destruct (hidden_same nTimeRange [f; t; df]) as (E1 & E2); [reflexivity|discriminate|]. destruct (time_same _ _ Tf) as (_ & W1 & H1). destruct (time_same _ _ Tt) as (_ & W2 & H2).
    split; [rewrite E1|rewrite E2]; cbn; rewrite ?W1, ?W2, ?H1, ?H2; reflexivity.
  - destruct (hidden_same nRadioTarget sub) as (E1 & E2); [reflexivity|discriminate|]. split; [rewrite E1|rewrite E2]; reflexivity.
  - destruct (hidden_same nTarget sub) as (E1 & E2); [reflexivity|discriminate|]. split; [rewrite E1|rewrite E2]; reflexivity.
  - rewrite !TreeProofs.fsize_cons in L. destruct (IH new z ltac:(lia) Mz) as (W & H).
    assert (flat_map words l = words_of old /\ flat_map headings l = outline_of old) as (Wl & Hl).
    { destruct Ho as [(A & ->)|(y & _ & My & ->)]; [destruct (absent_same _ A) as (-> & ->); auto|]. destruct (IH old y ltac:(lia) My) as (E1 & E2). cbn. rewrite !app_nil_r. auto. }
    split.
    + rewrite words_branch. cbn [wgo shown Nat.eqb orb app]. change (nk_eqb nCriticMarkStructure nSubtree) with false. cbn [andb]. cbn [words osk_word flat_map app].
      rewrite flat_map_app. cbn [flat_map]. rewrite Wl, W. reflexivity.
    + rewrite outline_branch by discriminate. cbn [ogo shown Nat.eqb orb app headings flat_map]. rewrite flat_map_app. cbn [flat_map]. rewrite Hl, H. reflexivity.
  - destruct (hidden_same nMacro [nm; args]) as (E1 & E2); [reflexivity|discriminate|]. split; [rewrite E1|rewrite E2]; reflexivity.
  - destruct (hidden_same nCmdAttr [nm; args]) as (E1 & E2); [reflexivity|discriminate|]. split; [rewrite E1|rewrite E2]; reflexivity.
  - split; reflexivity.
  - rewrite !TreeProofs.fsize_cons, (TreeProofs.tsize_sub (Branch nInlineStmtList body)) in L. cbn [sub_of] in L.
    destruct (same_kids n IH _ _ F ltac:(lia)) as (W & H). destruct (inline_same body) as (Ws & Hs). split.
    + rewrite words_branch. cbn [wgo shown Nat.eqb orb app]. change (nk_eqb nSymbol nSubtree) with false. cbn [andb]. rewrite Ws, <- W. cbn [words osk_word app flat_map]. rewrite fields_map, !app_nil_r. reflexivity.
    + rewrite outline_branch by discriminate. cbn [ogo shown Nat.eqb orb app]. rewrite Hs, <- H. cbn [headings app flat_map]. rewrite fields_map, !app_nil_r. reflexivity.
  - destruct (same_kids n IH _ _ F ltac:(lia)) as (W & H). apply same_node; rewrite ?node_words, ?node_headings; auto; try discriminate. split; [discriminate|reflexivity].
Qed.
End Words.
