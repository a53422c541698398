(** Formatting the tree of a plain document. *)
From Coq Require Import String.
From Verif Require Import Base StrModel LayoutModel LayoutTextSpec LayoutText TokSpec RecombSpec.
From Verif Require Import ConvModel ConvProofs PlainSpec FormatModel FormatSpec FormatBlock.
Local Open Scope nat_scope.
Notation hang := LayoutTextSpec.attach.

(** *** Blocks that print given lines *)
Definition prints (ls : list str) (b : fblock) : Prop :=
  full b /\ wlines b = ls /\ wsize b = list_sum (map (@length byte) ls).
Lemma prints_text : forall s, prints [s] (WText s).
Proof. intros s. split; [constructor|]. split; [reflexivity|]. cbn. lia. Qed.
Lemma prints_line : forall ss bs, bs <> [] -> Forall2 (fun s b => prints [s] b) ss bs -> prints [concat ss] (WLine bs).
Proof.
  intros ss bs N F. split; [|split].
  - constructor; [exact N|]. clear N. induction F as [|s b ss bs [H _] _ IH]; auto.
  - cbn [wlines]. assert (fold_right (fun e r => hang (wlines e) r) [] bs = [concat ss]) as ->; [|reflexivity].
    destruct bs as [|b bs]; [congruence|]. clear N. revert ss b F. induction bs as [|c bs IH]; intros ss b F; inversion F as [|s ? ss' ? [_ [E _]] F' E1 E2]; subst.
    + inversion F'; subst. cbn [fold_right]. rewrite E. cbn. now rewrite app_nil_r.
    + cbn [fold_right] in *. rewrite (IH _ _ F'), E. cbn. reflexivity.
  - cbn [wsize map list_sum fold_right]. rewrite Nat.add_0_r. clear N. induction F as [|s b ss bs [_ [_ E]] _ IH]; [reflexivity|].
    cbn [map list_sum fold_right concat] in *. rewrite app_length, E. cbn [length map list_sum fold_right] in *. unfold list_sum in IH. rewrite IH. lia.
Qed.
Lemma prints_stack : forall lss bs, bs <> [] -> Forall2 prints lss bs -> prints (concat lss) (WStack bs).
Proof.
  intros lss bs N F. split; [|split].
  - constructor; [exact N|]. clear N. induction F as [|s b ss bs [H _] _ IH]; auto.
  - cbn [wlines]. clear N. induction F as [|s b ss bs [_ [E _]] _ IH]; [reflexivity|]. cbn [flat_map concat]. rewrite E, IH. reflexivity.
  - cbn [wsize]. clear N. induction F as [|s b ss bs [_ [_ E]] _ IH]; [reflexivity|].
    cbn [map concat]. rewrite map_app, list_sum_app. unfold list_sum in *. cbn [fold_right]. rewrite E, IH. reflexivity.
Qed.
Lemma full_hollow : forall b, full b -> hollow b = false.
Proof. intros b [s|[|x l] N _|[|x l] N _]; try reflexivity; congruence. Qed.
Lemma adds_full : forall bs, Forall full bs -> adds bs = bs.
Proof. intros bs F. unfold adds. induction F as [|b bs H _ IH]; [reflexivity|]. cbn [filter]. rewrite (full_hollow b H), IH. reflexivity. Qed.
Lemma prints_full : forall lss bs, Forall2 prints lss bs -> Forall full bs.
Proof. intros lss bs F. induction F as [|s b ss bs [H _] _ IH]; auto. Qed.
Lemma strictly_full : forall bs, Forall full bs -> strictly bs = Done bs.
Proof.
  intros bs F. unfold strictly. replace (existsb hollow bs) with false; [reflexivity|].
  induction F as [|b bs H _ IH]; [reflexivity|]. cbn [existsb]. rewrite (full_hollow b H), <- IH. reflexivity.
Qed.
Lemma singles : forall ss bs, Forall2 (fun s b => prints [s] b) ss bs -> Forall2 prints (map (fun s => [s]) ss) bs.
Proof. intros ss bs F. induction F; constructor; auto. Qed.
Lemma concat_singles : forall {A} (l : list A), concat (map (fun x => [x]) l) = l.
Proof. induction l as [|x l IH]; [reflexivity|]. cbn. now rewrite IH. Qed.

Section Plain.
Variable pretty : osk -> str.
Variable time_text : data -> str.
Variable real_text : str -> str.
Variable diagnostic : str.
Variable preamble : list setting -> list fblock.
Variable drawers : list (fld * sem) -> list fblock.
Notation fmt := (fmt pretty time_text real_text diagnostic drawers).

(** *** Lines of words *)
Definition calm (x : sem) : Prop := is_a oNewline x = false /\ is_a oLink x = false.
Definition spells (l : list sem) (s : str) : Prop :=
  Forall calm l /\ forall inl, exists ss bs, Forall2 (fun x b => fmt inl x = Done b) l bs /\ Forall2 (fun t b => prints [t] b) ss bs /\ concat ss = s.
Lemma spells_app : forall l m s t, spells l s -> spells m t -> spells (l ++ m) (s ++ t).
Proof.
  intros l m s t [A B] [C D]. split; [apply Forall_app; auto|]. intros inl.
  destruct (B inl) as (ss & bs & X & Y & <-). destruct (D inl) as (ss' & bs' & X' & Y' & <-). exists (ss ++ ss'), (bs ++ bs').
  split; [now apply Forall2_app|]. split; [now apply Forall2_app|]. apply concat_app.
Qed.
Lemma spells_one : forall x s, calm x -> (forall inl, exists b, fmt inl x = Done b /\ prints [s] b) -> spells [x] s.
Proof.
  intros x s C H. split; [auto|]. intros inl. destruct (H inl) as (b & E & P). exists [s], [b]. repeat split; auto. cbn. apply app_nil_r.
Qed.
Lemma spells_nil : spells [] [].
Proof. split; [constructor|]. intros inl. exists [], []. auto. Qed.
Lemma spells_word : forall w, spells [word_tree w] w.
Proof.
  intros w. apply spells_one; [unfold calm, word_tree; destruct (upper_word w); split; reflexivity|].
  intros inl. exists (WText w). split; [unfold word_tree; destruct (upper_word w); reflexivity|apply prints_text].
Qed.
Lemma spells_space : spells [space_tree] [32%Z].
Proof. apply spells_one; [split; reflexivity|]. intros inl. exists (WText [32%Z]). split; [reflexivity|apply prints_text]. Qed.
Lemma spells_between : forall {A} (f : A -> list sem) (g : A -> str) xs, (forall x, In x xs -> spells (f x) (g x)) ->
  spells (between space_tree (map f xs)) (spaced (map g xs)).
Proof.
  intros A f g xs H. induction xs as [|x [|y r] IH]; [apply spells_nil|apply H; now left|].
  change (between space_tree (map f (x :: y :: r))) with (f x ++ [space_tree] ++ between space_tree (map f (y :: r))).
  change (spaced (map g (x :: y :: r))) with (g x ++ [32%Z] ++ spaced (map g (y :: r))).
  apply spells_app; [apply H; now left|]. apply spells_app; [apply spells_space|]. apply IH. intros z Hz. apply H. now right.
Qed.
Lemma spells_marked : forall m l s, spells l s -> spells [node (mark_kind m) l] (mark_char m :: s ++ [mark_char m]).
Proof.
  intros m l s [_ B]. apply spells_one; [destruct m; split; reflexivity|]. intros inl. destruct (B inl) as (ss & bs & X & Y & <-).
  pose proof (each_ok _ _ _ X) as E. exists (WLine (WText [mark_char m] :: bs ++ [WText [mark_char m]])). split.
  - destruct m; cbn [node mark_kind FormatModel.fmt]; rewrite E; reflexivity.
  - replace (mark_char m :: concat ss ++ [mark_char m]) with (concat ([mark_char m] :: ss ++ [[mark_char m]])) by (cbn; rewrite concat_app; reflexivity).
    apply prints_line; [discriminate|]. constructor; [apply prints_text|]. apply Forall2_app; [exact Y|]. constructor; [apply prints_text|constructor].
Qed.
Lemma spells_span : forall s, spells (span_tree s) (span_text s).
Proof.
  intros [h ws]. unfold span_tree, span_text. cbn [how said]. assert (W : spells (between space_tree (map (fun w => [word_tree w]) ws)) (spaced ws)).
  { rewrite <- (map_id ws) at 2. apply spells_between. intros w _. apply spells_word. }
  destruct h as [m|]; cbn [around app]; [apply spells_marked; exact W|rewrite app_nil_r; exact W].
Qed.
Lemma spells_line : forall l, spells (line_tree l) (spaced (map span_text l)).
Proof. intros l. apply spells_between. intros s _. apply spells_span. Qed.

(** *** Paragraphs *)
Lemma between_ne : forall {A} (x : A) ls, ls <> [] -> Forall (fun l => l <> []) ls -> between x ls <> [].
Proof. intros A x [|l [|m r]] N F; [congruence| |]; inversion F; subst; [exact H1|]. cbn. destruct l; [congruence|discriminate]. Qed.
Lemma line_tree_ne : forall l, line_ok l -> line_tree l <> [].
Proof.
  intros l [N F]. unfold line_tree. apply between_ne; [destruct l; [congruence|discriminate]|]. apply Forall_map. eapply Forall_impl; [|exact F].
  intros [h ws] [Nw _]. unfold span_tree. cbn in *. destruct h; [discriminate|]. apply between_ne; [destruct ws; [congruence|discriminate]|].
  apply Forall_map, Forall_forall. discriminate.
Qed.
Lemma split_calm : forall l (bs : list fblock), Forall calm l -> length l = length bs -> split_lines (combine (map (is_a oNewline) l) bs) = [bs].
Proof.
  induction l as [|x l IH]; intros [|b bs] F L; try discriminate; [reflexivity|]. inversion F as [|? ? [C _] F']; subst.
  cbn [map combine split_lines]. rewrite C, IH by (auto; cbn in L; lia). reflexivity.
Qed.
Lemma split_then : forall l (bs : list fblock) nb rest, Forall calm l -> length l = length bs ->
  split_lines (combine (map (is_a oNewline) l) bs ++ (true, nb) :: rest) = bs :: split_lines rest.
Proof.
  induction l as [|x l IH]; intros [|b bs] nb rest F L; try discriminate; [reflexivity|]. inversion F as [|? ? [C _] F']; subst.
  cbn [map combine split_lines app]. rewrite C, IH by (auto; cbn in L; lia). reflexivity.
Qed.
Lemma combine_app : forall {A B} (a c : list A) (b d : list B), length a = length b -> combine (a ++ c) (b ++ d) = combine a b ++ combine c d.
Proof. induction a as [|x a IH]; intros c [|y b] d L; try discriminate; [reflexivity|]. cbn. rewrite IH by (cbn in L; lia). reflexivity. Qed.
Lemma split_between : forall nl nb ls (bss : list (list fblock)), is_a oNewline nl = true -> ls <> [] -> Forall (Forall calm) ls ->
  Forall2 (fun l bs => length l = length bs) ls bss ->
  split_lines (combine (map (is_a oNewline) (between nl ls)) (between nb bss)) = bss.
Proof.
  intros nl nb ls bss E. revert bss. induction ls as [|l [|m r] IH]; intros bss N F G; [congruence| |]; inversion F as [|? ? Fl Fr]; subst; inversion G as [|? bs ? bss' L G']; subst.
  - inversion G'; subst. cbn [between]. now apply split_calm.
  - inversion G' as [|? bm ? br Lm Gr]; subst.
    change (between nl (l :: m :: r)) with (l ++ nl :: between nl (m :: r)). change (between nb (bs :: bm :: br)) with (bs ++ nb :: between nb (bm :: br)).
    rewrite map_app, combine_app by now rewrite map_length. cbn [map combine]. rewrite E, split_then by auto. f_equal. apply IH; [discriminate|auto|auto].
Qed.
Lemma not_link : forall {A} (l : list sem) (x y : A) (g : sem -> A), Forall (fun x => is_a oLink x = false) l ->
  match l with [Sem oLink d f su la] => g (Sem oLink d f su la) | _ => y end = y.
Proof.
  intros A [|[k d f su la] [|z r]] x y g F; try reflexivity; [|destruct k; reflexivity].
  inversion F as [|? ? H _]; subst. destruct k; try reflexivity. discriminate.
Qed.
Definition nl_tree : sem := leaf oNewline [10%Z].
Lemma f2_between : forall {A B} (R : A -> B -> Prop) x y ls ms, R x y -> Forall2 (Forall2 R) ls ms -> Forall2 R (between x ls) (between y ms).
Proof.
  intros A B R x y ls ms H F. induction F as [|l m ls ms G F IH]; [constructor|]. destruct F as [|l' m' ls ms G' F]; [exact G|].
  change (between x (l :: l' :: ls)) with (l ++ x :: between x (l' :: ls)). change (between y (m :: m' :: ms)) with (m ++ y :: between y (m' :: ms)).
  apply Forall2_app; [exact G|]. constructor; [exact H|exact IH].
Qed.
Lemma fmt_paragraph : forall inl subs bs, each (fmt true) subs = Done bs -> Forall (fun x => is_a oLink x = false) subs ->
  fmt inl (node oParagraph subs) = Done (WStack (adds (map (fun x => WLine (adds x)) (split_lines (combine (map (is_a oNewline) subs) bs))))).
Proof.
  intros inl subs bs E F. cbn [node FormatModel.fmt]. rewrite E. cbn [rbind].
  destruct subs as [|[k d f su la] [|z r]]; try reflexivity; [|destruct k; reflexivity].
  inversion F as [|? ? H _]; subst. destruct k; try reflexivity. discriminate.
Qed.
Lemma prints_paragraph : forall inl ls ss, ls <> [] -> Forall (fun l => l <> []) ls -> Forall2 spells ls ss ->
  exists b, fmt inl (node oParagraph (between nl_tree ls)) = Done b /\ prints ss b.
Proof.
  intros inl ls ss N Ne F.
  assert (exists bss, Forall2 (Forall2 (fun x b => fmt true x = Done b)) ls bss /\ Forall2 (fun s bs => bs <> [] /\ exists ts, Forall2 (fun t b => prints [t] b) ts bs /\ concat ts = s) ss bss) as (bss & X & Y).
  { clear N. induction F as [|l s ls ss [_ Hl] F IH]; [exists []; auto|]. inversion Ne as [|? ? Nl Nr]; subst. destruct (IH Nr) as (bss & X & Y). destruct (Hl true) as (ts & bs & A & B & C).
    exists (bs :: bss). split; [constructor; auto|]. constructor; [|exact Y]. split; [|eauto]. intros ->. inversion A; subst. congruence. }
  assert (Cl : Forall (Forall calm) ls) by (clear - F; induction F as [|l s ls ss [H _] F IH]; auto).
  rewrite (fmt_paragraph inl _ (between (WStack []) bss)).
  - rewrite split_between; [|reflexivity|exact N|exact Cl|eapply f2_impl; [|exact X]; intros; now apply (f2_len _ _ _ H1)].
    assert (Z : Forall2 (fun s b => prints [s] b) ss (map (fun x => WLine (adds x)) bss)).
    { clear - Y. induction Y as [|s bs ss bss [Nb (ts & P & <-)] _ IH]; [constructor|]. cbn [map]. constructor; [|exact IH].
      rewrite adds_full by (eapply prints_full, singles; exact P). now apply prints_line. }
    eexists. split; [reflexivity|]. rewrite adds_full by (eapply prints_full, singles; exact Z).
    rewrite <- (concat_singles ss). apply prints_stack; [|now apply singles].
    pose proof (f2_len _ _ _ X) as L. destruct ls; [congruence|]. destruct bss; [discriminate|discriminate].
  - apply each_ok, f2_between; [reflexivity|exact X].
  - clear - Cl. induction Cl as [|l ls C _ IH]; [constructor|]. destruct ls as [|m r].
    + eapply Forall_impl; [|exact C]. intros x [_ H]. exact H.
    + change (between nl_tree (l :: m :: r)) with (l ++ nl_tree :: between nl_tree (m :: r)). apply Forall_app. split; [eapply Forall_impl; [|exact C]; intros x [_ H]; exact H|].
      constructor; [reflexivity|exact IH].
Qed.

(** The lines of a plain document *)
Definition line_str (l : line) : str := spaced (map span_text l).
Definition par_lines (p : par) : list str := map line_str (lines p) ++ repeat [] (gap p).
Fixpoint section_lines (s : section) : list str :=
  match s with
  | Sec n t g ps l => (repeat 42%Z n ++ 32%Z :: line_str t) :: repeat [] g ++ flat_map par_lines ps ++ flat_map section_lines l
  end.
Definition written (x : list sem) (ls : list str) : Prop :=
  x <> [] /\ forall inl, exists lss bs, each (fmt inl) x = Done bs /\ Forall2 prints lss bs /\ concat lss = ls.
Lemma each_app : forall {A B} (f : A -> res B) l m x y, each f l = Done x -> each f m = Done y -> each f (l ++ m) = Done (x ++ y).
Proof. intros A B f l m x y H K. apply each_ok. apply Forall2_app; now apply each_inv. Qed.
Lemma written_par : forall p, par_ok p -> written (par_tree p) (par_lines p).
Proof.
  intros [ls g] [N F]. cbn [lines] in *. split; [discriminate|]. intros inl. unfold par_tree, par_lines. cbn [lines gap].
  destruct (prints_paragraph inl (map line_tree ls) (map line_str ls)) as (b & E & P).
  - destruct ls; [congruence|discriminate].
  - apply Forall_map. eapply Forall_impl; [|exact F]. exact line_tree_ne.
  - clear. induction ls as [|l ls IH]; [constructor|]. cbn [map]. constructor; [apply spells_line|exact IH].
  - assert (E1 : each (fmt inl) [node oParagraph (between nl_tree (map line_tree ls))] = Done [b]) by (cbn [each]; rewrite E; reflexivity).
    destruct g as [|g]; [exists [map line_str ls], [b]|exists [map line_str ls; repeat [] (S g)], [b; WStack (repeat (txt "") (S g))]]; (split; [|split]).
    + exact E1.
    + auto.
    + reflexivity.
    + change (each (fmt inl) ([node oParagraph (between nl_tree (map line_tree ls))] ++ [leaf oNewline (repeat 10%Z (S (S g)))]) = Done ([b] ++ [WStack (repeat (txt "") (S g))])).
      apply each_app; [exact E1|]. unfold leaf. cbn [each FormatModel.fmt rbind]. unfold text_of. cbn [dtext text nth]. rewrite repeat_length. reflexivity.
    + constructor; [exact P|]. constructor; [|constructor]. rewrite <- (concat_singles (repeat [] (S g))). apply prints_stack; [discriminate|].
      clear. induction (S g) as [|n IH]; [constructor|]. cbn [repeat map]. constructor; [apply prints_text|exact IH].
    + cbn [concat]. now rewrite app_nil_r.
Qed.
Lemma written_app : forall x y a b, written x a -> written y b -> written (x ++ y) (a ++ b).
Proof.
  intros x y a b [N A] [_ B]. split; [destruct x; [congruence|discriminate]|]. intros inl. destruct (A inl) as (l & bs & E & F & <-). destruct (B inl) as (l' & bs' & E' & F' & <-).
  exists (l ++ l'), (bs ++ bs'). split; [now apply each_app|]. split; [now apply Forall2_app|apply concat_app].
Qed.
Definition maybe (x : list sem) (ls : list str) : Prop := (x = [] /\ ls = []) \/ written x ls.
Lemma maybe_app : forall x y a b, maybe x a -> maybe y b -> maybe (x ++ y) (a ++ b).
Proof.
  intros x y a b [[-> ->]|A] [[-> ->]|B]; [left; auto|right; exact B|right; now rewrite !app_nil_r|right; now apply written_app].
Qed.
Lemma maybe_pars : forall ps, Forall par_ok ps -> maybe (flat_map par_tree ps) (flat_map par_lines ps).
Proof. intros ps F. induction F as [|p ps H _ IH]; [left; auto|]. cbn [flat_map]. apply maybe_app; [right; now apply written_par|exact IH]. Qed.

(** *** Headings *)
Lemma unmarked : forall x, span_text (Span None x) = spaced x.
Proof. intros x. unfold span_text. cbn [how said around app]. apply app_nil_r. Qed.
Lemma comment_title : forall t, line_ok t -> is_comment t = true ->
  (line_str t = lit "COMMENT" /\ title_tree t = []) \/
  exists s, line_str t = lit "COMMENT" ++ 32%Z :: s /\ title_tree t <> [] /\ spells (title_tree t) s.
Proof.
  intros t Ok C. unfold title_tree. rewrite C. destruct t as [|[[m|] [|w ws]] r]; try discriminate. cbn [is_comment] in C.
  apply AttrProofs.str_eqb_eq in C. subst w.
  destruct ws as [|w2 ws].
  - destruct r as [|s2 r]; [left; split; reflexivity|]. right. exists (line_str (s2 :: r)).
    split; [reflexivity|]. change (skipn 2 (line_tree (Span None [lit "COMMENT"] :: s2 :: r))) with (line_tree (s2 :: r)).
    split; [|apply spells_line]. apply line_tree_ne. destruct Ok as [_ F]. inversion F; subst. split; [discriminate|auto].
  - right. exists (line_str (Span None (w2 :: ws) :: r)). split.
    + unfold line_str. cbn [map]. rewrite !unmarked.
      change (spaced (lit "COMMENT" :: w2 :: ws)) with (lit "COMMENT" ++ 32%Z :: spaced (w2 :: ws)). destruct r as [|s2 r]; reflexivity.
    + assert (skipn 2 (line_tree (Span None (lit "COMMENT" :: w2 :: ws) :: r)) = line_tree (Span None (w2 :: ws) :: r)) as ->.
      { destruct r as [|s2 r]; reflexivity. }
      split; [|apply spells_line]. apply line_tree_ne. destruct Ok as [_ F]. inversion F as [|? ? [_ Ws] Fr]; subst. split; [discriminate|].
      constructor; [|exact Fr]. split; [discriminate|]. cbn [said] in *. inversion Ws; subst. assumption.
Qed.
Lemma fmt_heading : forall inl n c T b subs bs, fmt inl T = Done b -> (ssubs T <> [] -> full b) -> each (fmt inl) subs = Done bs -> (c = true \/ ssubs T <> []) ->
  exists lead, join_with ((if c then [txt "COMMENT"] else []) ++ (match ssubs T with [] => [] | _ => [b] end)) (txt " ") = Done lead /\ full lead /\
  fmt inl (Sem oSubtree (D [[]; []] [n; flag c; 0%Z] [] []) [(FTitle, T)] subs []) =
  Done (WStack (WLine [WText (repeat 42%Z (Z.to_nat n)); txt " "; WStack [WLine [lead]]] :: match subs with [] => [] | _ => txt "" :: adds bs end)).
Proof.
  intros inl n c T b subs bs E Fb Es H.
  assert (exists lead, join_with ((if c then [txt "COMMENT"] else []) ++ (match ssubs T with [] => [] | _ => [b] end)) (txt " ") = Done lead /\ full lead) as (lead & J & Fl).
  { unfold join_with. destruct c, (ssubs T) as [|x r] eqn:Et; try (destruct H; congruence); cbn [app join_parts];
      (rewrite strictly_full by (repeat constructor; try discriminate; try (apply Fb; discriminate); repeat constructor)); (eexists; split; [reflexivity|]);
      (constructor; [discriminate|]); (repeat constructor; try discriminate; try (apply Fb; discriminate); repeat constructor). }
  exists lead. split; [exact J|]. split; [exact Fl|].
  cbn [FormatModel.fmt each rbind]. rewrite E. cbn [rbind]. rewrite Es. cbn [rbind].
  unfold text_of, num_of. cbn [dtext dnum nth flat_map app only fst snd forallb]. change (Z.eqb 0 1) with false. cbv iota. cbn [app rbind].
  replace (if Z.eqb (flag c) 1 then [txt "COMMENT"] else []) with (if c then [txt "COMMENT"] else []) by (destruct c; reflexivity).
  replace (if (match ssubs T with [] => true | _ :: _ => false end) && true then [] else [b]) with (match ssubs T with [] => [] | _ => [b] end)
    by (destruct (ssubs T); reflexivity).
  rewrite !app_nil_r. rewrite J. cbn [rbind firstn map app filter is_drawer fst adds negb].
  rewrite (full_hollow lead Fl). cbn [negb]. reflexivity.
Qed.
Lemma written_section : forall n t g ps l ls, line_ok t -> maybe (flat_map par_tree ps ++ map section_tree l) ls ->
  written [section_tree (Sec n t g ps l)] ((repeat 42%Z n ++ 32%Z :: line_str t) :: (match ps, l with [], [] => [] | _, _ => [[]] end) ++ ls).
Proof.
  intros n t g ps l ls Ht M. split; [discriminate|]. intros inl. cbn [section_tree].
  set (subs := flat_map par_tree ps ++ map section_tree l) in *.
  assert (exists bs lss, each (fmt inl) subs = Done bs /\ Forall2 prints lss bs /\ concat lss = ls) as (bs & lss & Es & Pb & El).
  { destruct M as [[-> ->]|[_ W]]; [exists [], []; auto|]. destruct (W inl) as (a & b & ?). exists b, a. tauto. }
  assert (Hs : match subs with [] => true | _ => false end = match ps, l with [], [] => true | _, _ => false end).
  { unfold subs. destruct ps as [|p ps]; [destruct l; reflexivity|reflexivity]. }
  assert (exists b ts, fmt inl (node oParagraph (title_tree t)) = Done b /\ (title_tree t <> [] -> full b) /\
            (is_comment t = true \/ title_tree t <> []) /\
            prints [line_str t] (WLine (join_parts ((if is_comment t then [txt "COMMENT"] else []) ++ (match title_tree t with [] => [] | _ => [b] end)) (txt " "))) /\ ts = tt) as (b & _ & Et & Fb & Hc & Pt & _).
  { assert (Q : forall x s, x <> [] -> spells x s -> exists b, fmt inl (node oParagraph x) = Done b /\ prints [s] b).
    { intros x s Nx Sx. apply (prints_paragraph inl [x] [s]); auto. discriminate. }
    destruct (is_comment t) eqn:Ec.
    - destruct (comment_title t Ht Ec) as [[A B]|(s & A & B & C)].
      + rewrite A, B. exists (WStack []), tt. split; [reflexivity|]. split; [congruence|]. split; [now left|]. split; [|reflexivity].
        cbn [app join_parts]. replace (lit "COMMENT") with (concat [lit "COMMENT"]) at 1 by reflexivity. apply prints_line; [discriminate|]. repeat constructor; apply prints_text.
      + destruct (Q _ _ B C) as (b & E & P). exists b, tt. split; [exact E|]. split; [intros _; apply P|]. split; [now left|]. split; [|reflexivity].
        destruct (title_tree t); [congruence|]. cbn [app join_parts]. rewrite A. replace (lit "COMMENT" ++ 32%Z :: s) with (concat [lit "COMMENT" ++ [32%Z]; s]) by (cbn [concat]; rewrite app_nil_r, <- app_assoc; reflexivity).
        apply prints_line; [discriminate|]. constructor; [|constructor; [exact P|constructor]].
        replace (lit "COMMENT" ++ [32%Z]) with (concat [lit "COMMENT"; [32%Z]]) by reflexivity. apply prints_line; [discriminate|]. repeat constructor; apply prints_text.
    - assert (title_tree t = line_tree t) as -> by (unfold title_tree; rewrite Ec; reflexivity).
      destruct (Q _ _ (line_tree_ne t Ht) (spells_line t)) as (b & E & P). exists b, tt. split; [exact E|]. split; [intros _; apply P|].
      pose proof (line_tree_ne t Ht) as Nt. split; [now right|]. split; [|reflexivity]. destruct (line_tree t); [congruence|]. cbn [app join_parts].
      replace (line_str t) with (concat [line_str t]) by (cbn; apply app_nil_r). apply prints_line; [discriminate|]. constructor; [exact P|constructor]. }
  set (T := node oParagraph (title_tree t)) in *.
  destruct (fmt_heading inl (Z.of_nat n) (is_comment t) T b subs bs Et Fb Es Hc) as (lead & J & Fl & E).
  change (ssubs T) with (title_tree t) in J. unfold join_with in J. destruct (rbind_done _ _ _ J) as (x & Sx & Ex). injection Ex as <-.
  assert (x = join_parts ((if is_comment t then [txt "COMMENT"] else []) ++ (match title_tree t with [] => [] | _ => [b] end)) (txt " ")) as -> by (unfold strictly in Sx; destruct (existsb _ _); congruence).
  set (lead := WLine _) in *. rewrite Nat2Z.id in E.
  assert (Ph : prints [repeat 42%Z n ++ 32%Z :: line_str t] (WLine [WText (repeat 42%Z n); txt " "; WStack [WLine [lead]]])).
  { replace (repeat 42%Z n ++ 32%Z :: line_str t) with (concat [repeat 42%Z n; [32%Z]; line_str t]) by (cbn [concat]; rewrite app_nil_r; reflexivity).
    apply prints_line; [discriminate|]. constructor; [apply prints_text|]. constructor; [apply prints_text|]. constructor; [|constructor].
    apply (prints_stack [[line_str t]]); [discriminate|]. constructor; [|constructor].
    replace (line_str t) with (concat [line_str t]) by (cbn [concat]; apply app_nil_r). apply prints_line; [discriminate|]. constructor; [exact Pt|constructor]. }
  rewrite adds_full in E by (eapply prints_full; exact Pb).
  exists [(repeat 42%Z n ++ 32%Z :: line_str t) :: (match ps, l with [], [] => [] | _, _ => [[]] end) ++ ls]. eexists. split; [cbn [each]; rewrite E; reflexivity|].
  split; [|cbn [concat]; apply app_nil_r]. constructor; [|constructor]. destruct subs as [|y ys] eqn:Ey.
  - injection Es as <-. inversion Pb; subst. cbn [concat]. replace (match ps, l with [], [] => [] | _, _ => [[]] end) with (@nil str) by (destruct ps, l; try discriminate; reflexivity).
    apply (prints_stack [[_]]); [discriminate|]. constructor; [exact Ph|constructor].
  - replace (match ps, l with [], [] => [] | _, _ => [[]] end) with [@nil byte] by (destruct ps, l; try discriminate; reflexivity).
    subst ls. apply (prints_stack ([_] :: [[]] :: lss)); [discriminate|]. constructor; [exact Ph|]. constructor; [apply (prints_text [])|exact Pb].
Qed.
Lemma maybe_sections : forall outer ss, sections_ok outer ss -> maybe (map section_tree ss) (flat_map section_lines (map tidied ss)).
Proof.
  intros outer ss H. induction H as [outer|outer n t g ps l rest Hn Ht Hp Ha _ IHl _ _ IHr]; [left; auto|].
  cbn [map flat_map]. change (section_tree (Sec n t g ps l) :: map section_tree rest) with ([section_tree (Sec n t g ps l)] ++ map section_tree rest).
  apply maybe_app; [|exact IHr]. right. cbn [tidied section_lines].
  replace (repeat [] (match ps, l with [], [] => 0 | _, _ => 1 end)) with (match ps, l with [], [] => [] | _, _ => [@nil byte] end) by (destruct ps, l; reflexivity).
  apply written_section; [exact Ht|]. apply maybe_app; [now apply maybe_pars|exact IHl].
Qed.
Definition document_lines (ps : list par) (ss : list section) : list str := flat_map par_lines ps ++ flat_map section_lines ss.
Lemma fmt_plain_document : forall ps ss, plain_document ps ss -> ps <> [] \/ ss <> [] ->
  exists b, fmt_document pretty time_text real_text diagnostic preamble drawers [] (document_tree ps ss) = Done b /\ prints (document_lines ps (map tidied ss)) b.
Proof.
  intros ps ss (Hp & _ & Hs) N. destruct (maybe_app _ _ _ _ (maybe_pars ps Hp) (maybe_sections 0 ss Hs)) as [[A B]|[Nx W]].
  - exfalso. apply app_eq_nil in A. destruct A as [A A']. destruct ps as [|p ps]; [|destruct p; discriminate]. destruct ss; [|discriminate]. destruct N; congruence.
  - destruct (W false) as (lss & bs & E & P & C). exists (WStack bs). split.
    + unfold fmt_document, document_tree, node. cbn [flat_map filter existsb app rbind ssubs]. rewrite E. cbn [rbind]. rewrite adds_full by (eapply prints_full; exact P).
      destruct bs; [|reflexivity]. apply each_inv in E. inversion E; congruence.
    + unfold document_lines. rewrite <- C. apply prints_stack; [|exact P]. intros ->. apply each_inv in E. inversion E; congruence.
Qed.
End Plain.

(** *** The lines and the text *)
Definition ended (ls : list str) : str := concat (map (fun x => x ++ [10%Z]) ls).
Lemma ended_app : forall a b, ended (a ++ b) = ended a ++ ended b.
Proof. intros. unfold ended. rewrite map_app. apply concat_app. Qed.
Lemma in_lines_ended : forall ls, ls <> [] -> in_lines ls ++ [10%Z] = ended ls.
Proof.
  induction ls as [|x [|y r] IH]; intros N; [congruence|cbn; now rewrite app_nil_r|].
  change (in_lines (x :: y :: r)) with (x ++ 10%Z :: in_lines (y :: r)). rewrite <- app_assoc, <- app_comm_cons, IH by discriminate. change (ended (x :: y :: r)) with ((x ++ [10%Z]) ++ ended (y :: r)). rewrite <- app_assoc. reflexivity.
Qed.
Lemma ended_empty : forall n, ended (repeat [] n) = repeat 10%Z n.
Proof. induction n as [|n IH]; [reflexivity|]. cbn [repeat]. change (ended ([] :: repeat [] n)) with ([10%Z] ++ ended (repeat [] n)). rewrite IH. reflexivity. Qed.
Lemma ended_par : forall p, ended (par_lines p) = par_text p.
Proof.
  intros [ls g]. unfold par_lines, par_text. cbn [lines gap]. rewrite ended_app, ended_empty. f_equal. unfold ended. rewrite map_map. reflexivity.
Qed.
Lemma ended_pars : forall ps, ended (flat_map par_lines ps) = concat (map par_text ps).
Proof. induction ps as [|p ps IH]; [reflexivity|]. cbn [flat_map map concat]. rewrite ended_app, ended_par, IH. reflexivity. Qed.
Fixpoint ended_section (s : section) : ended (section_lines s) = section_text s.
Proof.
  destruct s as [n t g ps l]. cbn [section_lines section_text].
  assert (ended (flat_map section_lines l) = concat (map section_text l)) as E.
  { clear - ended_section. induction l as [|s l IH]; [reflexivity|]. cbn [flat_map map concat]. rewrite ended_app, ended_section, IH. reflexivity. }
  change (ended (?x :: ?r)) with ((x ++ [10%Z]) ++ ended r). rewrite !ended_app, ended_empty, ended_pars, E. unfold line_written, line_str. rewrite <- !app_assoc. reflexivity.
Qed.
Lemma ended_document : forall ps ss, ended (document_lines ps ss) = document_text ps ss.
Proof.
  intros. unfold document_lines, document_text. rewrite ended_app, ended_pars. f_equal.
  induction ss as [|s l IH]; [reflexivity|]. cbn [flat_map map concat]. rewrite ended_app, ended_section, IH. reflexivity.
Qed.
Lemma size_ended : forall ls, list_sum (map (@length byte) ls) <= length (ended ls).
Proof. induction ls as [|x ls IH]; [auto|]. change (ended (x :: ls)) with ((x ++ [10%Z]) ++ ended ls). cbn [map list_sum fold_right]. rewrite !app_length. unfold list_sum in IH. lia. Qed.

(** *** No line ends with a space *)
Definition firm (x : str) : Prop := x <> [] /\ neat x.
Lemma neat_nil : neat []. Proof. split; [auto|]. intros [|]; discriminate. Qed.
Lemma app_last : forall {A} (x y m : list A) c, y <> [] -> x ++ y = m ++ [c] -> exists m', y = m' ++ [c].
Proof.
  intros A x y m c N E. destruct (exists_last_or y) as [->|(m' & d & ->)]; [congruence|]. rewrite app_assoc in E. apply app_inj_tail in E. destruct E as [_ ->]. eauto.
Qed.
Lemma firm_app : forall x y, ~ In 10%Z x -> firm y -> firm (x ++ y).
Proof.
  intros x y Hx [N [A B]]. split; [destruct x; [exact N|discriminate]|]. split.
  - intros H. apply in_app_or in H. tauto.
  - intros m E. destruct (app_last x y m _ N E) as [m' E']. now apply (B m').
Qed.
Lemma firm_word : forall w, plain_word w -> firm w.
Proof.
  intros w (N & F & _). split; [exact N|]. rewrite Forall_forall in F. split.
  - intros H. specialize (F _ H). discriminate.
  - intros m ->. specialize (F 32%Z). discriminate F. apply in_or_app. right. now left.
Qed.
Lemma firm_spaced : forall ws, ws <> [] -> Forall firm ws -> firm (spaced ws).
Proof.
  induction ws as [|w [|v r] IH]; intros N F; [congruence| |]; inversion F as [|? ? Hw Hr]; subst; [exact Hw|].
  change (spaced (w :: v :: r)) with (w ++ [32%Z] ++ spaced (v :: r)). rewrite app_assoc. apply firm_app; [|apply IH; [discriminate|auto]].
  intros H. apply in_app_or in H. destruct H as [H|[H|[]]]; [now apply (proj1 (proj2 Hw))|discriminate].
Qed.
Lemma firm_span : forall s, span_ok s -> firm (span_text s).
Proof.
  intros [h ws] [N F]. cbn [said] in *. unfold span_text. cbn [how said].
  assert (W : firm (spaced ws)) by (apply firm_spaced; [exact N|]; eapply Forall_impl; [|exact F]; exact firm_word).
  destruct h as [m|]; cbn [around]; [|now rewrite app_nil_r]. rewrite app_assoc. apply firm_app.
  - intros H. apply in_app_or in H. destruct H as [[H|[]]|H]; [destruct m; discriminate|now apply (proj1 (proj2 W))].
  - split; [discriminate|]. split; [intros [H|[]]; destruct m; discriminate|]. intros x E. change ([mark_char m]) with ([] ++ [mark_char m]) in E. apply app_inj_tail in E. destruct E as [_ E]. destruct m; discriminate.
Qed.
Lemma firm_line : forall l, line_ok l -> firm (line_str l).
Proof.
  intros l [N F]. unfold line_str. apply firm_spaced; [destruct l; [congruence|discriminate]|]. apply Forall_map. eapply Forall_impl; [|exact F]. exact firm_span.
Qed.
Lemma neat_par : forall p, par_ok p -> Forall neat (par_lines p).
Proof.
  intros [ls g] [_ F]. cbn [lines] in *. unfold par_lines. cbn [lines gap]. apply Forall_app. split.
  - apply Forall_map. eapply Forall_impl; [|exact F]. intros l Hl. apply (firm_line l Hl).
  - apply Forall_forall. intros x Hx. apply repeat_spec in Hx. subst. apply neat_nil.
Qed.
Lemma neat_sections : forall outer ss, sections_ok outer ss -> Forall neat (flat_map section_lines (map tidied ss)).
Proof.
  intros outer ss H. induction H as [outer|outer n t g ps l rest Hn Ht Hp Ha _ IHl _ _ IHr]; [constructor|].
  cbn [map flat_map tidied section_lines]. apply Forall_app. split; [|exact IHr]. constructor; [|apply Forall_app; split; [|apply Forall_app; split; [|exact IHl]]].
  - change (32%Z :: line_str t) with ([32%Z] ++ line_str t). rewrite app_assoc. apply firm_app; [|now apply firm_line].
    intros I. apply in_app_or in I. destruct I as [I|[I|[]]]; [apply repeat_spec in I|]; discriminate.
  - apply Forall_forall. intros x Hx. apply repeat_spec in Hx. subst. apply neat_nil.
  - clear - Hp. induction Hp as [|p ps H _ IH]; [constructor|]. cbn [flat_map]. apply Forall_app. split; [now apply neat_par|exact IH].
Qed.
