(** The formatter writes every construct in its syntax. *)
From Coq Require Import String.
From Verif Require Import Base StrModel LayoutModel LayoutTextSpec.
From Verif Require AttrModel AttrProofs FormatWords.
From Verif Require Import ConvModel ConvProofs PlainSpec FormatModel FormatBlock WriteSpec WriteBlock.
Local Open Scope nat_scope.

Lemma f2_app : forall {A B} (R : A -> B -> Prop) a b c d, Forall2 R a c -> Forall2 R b d -> Forall2 R (a ++ b) (c ++ d).
Proof. intros. now apply Forall2_app. Qed.
Lemma txt_shows : forall w, shows [lit w] (txt w).
Proof. intros w. apply shows_text. Qed.
Lemma txt_shown : forall w, shown (lit w) (txt w).
Proof. intros w. apply shows_text. Qed.
Lemma text_shown : forall s, shown s (WText s).
Proof. apply shows_text. Qed.
#[local] Hint Resolve txt_shows txt_shown text_shown shows_text : shows.
Ltac f2 := repeat first [apply Forall2_nil | apply Forall2_cons | apply f2_app]; auto with shows.
(** *** Lines *)
Lemma one_line : forall ls b, shows ls b -> shows ls (WLine [b]).
Proof. intros ls b H. change ls with (side [ls]). apply shows_line; [discriminate|f2]. Qed.
Lemma one_stack : forall ls b, shows ls b -> shows ls (WStack [b]).
Proof. intros ls b H. replace ls with (concat [ls]) by apply app_nil_r. apply shows_stack; [discriminate|f2]. Qed.
Lemma pad_app : forall m n, pad (m + n) = pad m ++ pad n.
Proof. induction m; intros n; [reflexivity|]. cbn. f_equal. apply IHm. Qed.
Lemma hang_twice : forall a b ls, ls <> [] -> hang [a] (hang [b] ls) = hang [a ++ b] ls.
Proof.
  intros a b [|h t] N; [congruence|]. unfold hang. cbn [removelast last app map]. rewrite <- app_assoc. f_equal. rewrite map_map. apply map_ext. intros x. rewrite app_length, pad_app. now rewrite <- app_assoc.
Qed.
Lemma to_line : forall ss s bs, concat ss = s -> bs <> [] -> Forall2 shown ss bs -> shows [s] (WLine bs).
Proof. intros ss s bs <- N F. now apply shown_line. Qed.

Lemma join_shown : forall w ss bs, ss <> [] -> Forall2 shown ss bs -> exists b, join_with bs (txt w) = Done b /\ shown (sep_by (lit w) ss) b.
Proof. intros w ss bs N F. exact (shown_join (lit w) ss bs N F). Qed.

(** *** Tags *)
Lemma tag_ok : forall x s, tag_says x s -> nested_tag x = s.
Proof.
  fix IH 3. intros x s H. destruct H as [s|s x t H|s x y r ss F].
  - cbn. apply app_nil_r.
  - cbn [nested_tag map text dtext concat]. rewrite (IH _ _ H), app_nil_r. reflexivity.
  - assert (G : map nested_tag (x :: y :: r) = ss) by (clear - IH F; induction F as [|a b l m H _ IHF]; [reflexivity|cbn [map]; rewrite (IH _ _ H), IHF; reflexivity]). clear IH F.
    cbn [nested_tag text dtext concat]. rewrite map_map. change (map (fun x0 : sem => nested_tag x0) (x :: y :: r)) with (map nested_tag (x :: y :: r)). subst ss. cbn [map]. rewrite app_nil_r.
    rewrite (join_sep 44%Z (nested_tag x :: nested_tag y :: map nested_tag r)). reflexivity.
Qed.
Lemma tag_kind : forall x s, tag_says x s -> skind x = oHashTag.
Proof. intros x s [| |]; reflexivity. Qed.
Lemma target_ok : forall t s, target_says t s -> target_text t = s.
Proof. intros t s []; try reflexivity. cbn [target_text]. rewrite join_sep. reflexivity. Qed.

Lemma words_ok : forall ws, exists ss, Forall2 shown ss (map WText (between_words ws)) /\ concat ss = spaced ws.
Proof.
  induction ws as [|w [|v r] IH]; [exists []; split; [constructor|reflexivity]|exists [w]; split; [f2|apply app_nil_r]|].
  destruct IH as (ss & F & E). exists (w :: [32%Z] :: ss). split; [cbn [between_words map]; constructor; [auto with shows|]; constructor; [auto with shows|exact F]|]. cbn [concat]. rewrite E. reflexivity.
Qed.

(** *** Splitting a paragraph at its newlines *)
Lemma split_calm' : forall l (bs : list fblock), Forall (fun x => skind x <> oNewline) l -> length l = length bs -> split_lines (combine (map (is_a oNewline) l) bs) = [bs].
Proof.
  induction l as [|x l IH]; intros [|b bs] F L; try discriminate; [reflexivity|]. inversion F as [|? ? C F']; subst.
  cbn [map combine split_lines]. replace (is_a oNewline x) with false by (unfold is_a; destruct (skind x); try reflexivity; congruence). rewrite IH by (auto; cbn in L; lia). reflexivity.
Qed.
Lemma split_then' : forall l (bs : list fblock) nb rest, Forall (fun x => skind x <> oNewline) l -> length l = length bs ->
  split_lines (combine (map (is_a oNewline) l) bs ++ (true, nb) :: rest) = bs :: split_lines rest.
Proof.
  induction l as [|x l IH]; intros [|b bs] nb rest F L; try discriminate; [reflexivity|]. inversion F as [|? ? C F']; subst.
  cbn [map combine split_lines app]. replace (is_a oNewline x) with false by (unfold is_a; destruct (skind x); try reflexivity; congruence). rewrite IH by (auto; cbn in L; lia). reflexivity.
Qed.
Lemma combine_app' : forall {A B} (a c : list A) (b d : list B), length a = length b -> combine (a ++ c) (b ++ d) = combine a b ++ combine c d.
Proof. induction a as [|x a IH]; intros c [|y b] d L; try discriminate; [reflexivity|]. cbn. rewrite IH by (cbn in L; lia). reflexivity. Qed.
Lemma split_rows : forall nl nb ls (bss : list (list fblock)), is_a oNewline nl = true -> ls <> [] -> Forall (Forall (fun x => skind x <> oNewline)) ls ->
  Forall2 (fun l bs => length l = length bs) ls bss ->
  split_lines (combine (map (is_a oNewline) (between nl ls)) (between nb bss)) = bss.
Proof.
  intros nl nb ls bss E. revert bss. induction ls as [|l [|m r] IH]; intros bss N F G; [congruence| |]; inversion F as [|? ? Fl Fr]; subst; inversion G as [|? bs ? bss' L G']; subst.
  - inversion G'; subst. cbn [between]. now apply split_calm'.
  - inversion G' as [|? bm ? br Lm Gr]; subst.
    change (between nl (l :: m :: r)) with (l ++ nl :: between nl (m :: r)). change (between nb (bs :: bm :: br)) with (bs ++ nb :: between nb (bm :: br)).
    rewrite map_app, combine_app' by now rewrite map_length. cbn [map combine]. rewrite E, split_then' by auto. f_equal. apply IH; [discriminate|auto|auto].
Qed.
Lemma rows_between : forall {A B} (R : A -> B -> Prop) x y ls ms, R x y -> Forall2 (Forall2 R) ls ms -> Forall2 R (between x ls) (between y ms).
Proof.
  intros A B R x y ls ms H F. induction F as [|l m ls ms G F IH]; [constructor|]. destruct F as [|l' m' ls ms G' F]; [exact G|].
  change (between x (l :: l' :: ls)) with (l ++ x :: between x (l' :: ls)). change (between y (m :: m' :: ms)) with (m ++ y :: between y (m' :: ms)).
  apply Forall2_app; [exact G|]. constructor; [exact H|exact IH].
Qed.
Lemma in_between : forall {A} (x y : A) rows r, In r rows -> In y r -> In y (between x rows).
Proof.
  induction rows as [|r [|r' rows] IH]; intros q I J; [contradiction|destruct I as [->|[]]; exact J|].
  change (between x (r :: r' :: rows)) with (r ++ x :: between x (r' :: rows)). apply in_or_app. destruct I as [->|I]; [now left|right; right; eapply IH; eauto].
Qed.
Lemma between_one : forall {A} (x y : A) rows, rows <> [] -> Forall (fun r => r <> []) rows -> between x rows = [y] -> rows = [[y]].
Proof.
  intros A x y [|r [|r' rows]] N F E; [congruence|cbn in E; now subst|]. exfalso. inversion F as [|? ? Fr F']; subst. inversion F' as [|? ? Fr' _]; subst.
  change (between x (r :: r' :: rows)) with (r ++ x :: between x (r' :: rows)) in E. destruct r as [|a [|b r]]; [congruence|discriminate|discriminate].
Qed.

Notation heft := FormatWords.weight.
Notation heft_in := FormatWords.weigh_in.
Notation heft_field := FormatWords.weigh_field.

Section Write.
Variable pretty : osk -> str.
Variable time_text : data -> str.
Variable real_text : str -> str.
Variable diagnostic : str.
Variable drawers : list (fld * sem) -> list fblock.
Notation fmt := (fmt pretty time_text real_text diagnostic drawers).
Notation writes := (writes time_text real_text).
Definition good (x : sem) : Prop := forall i ls, writes i x ls -> exists b, fmt i x = Done b /\ shows ls b.

Lemma each_good : forall i l lss, (forall x, In x l -> good x) -> Forall2 (writes i) l lss -> exists bs, each (fmt i) l = Done bs /\ Forall2 shows lss bs.
Proof.
  intros i l lss G F. assert (exists bs, Forall2 (fun x b => fmt i x = Done b) l bs /\ Forall2 shows lss bs) as (bs & E & S).
  { induction F as [|x ls l lss H _ IH]; [exists []; auto|]. destruct IH as (bs & A & B); [intros y Hy; apply G; now right|]. destruct (G x (or_introl eq_refl) i ls H) as (b & E & S). exists (b :: bs). auto. }
  exists bs. split; [now apply each_ok|exact S].
Qed.
Lemma loud_good : forall i l lss, (forall x, In x l -> good x) -> Forall2 (writes i) (filter loud l) lss -> exists bs, each (fmt i) l = Done bs /\ Forall2 shows lss (adds bs).
Proof.
  intros i l. assert (X : forall lss, (forall x, In x l -> good x) -> Forall2 (writes i) (filter loud l) lss -> exists bs, Forall2 (fun x b => fmt i x = Done b) l bs /\ Forall2 shows lss (adds bs)).
  { induction l as [|x l IH]; intros lss G F; [inversion F; subst; exists []; split; constructor|]. cbn [filter] in F. destruct (loud x) eqn:E.
    - inversion F as [|? ls ? rest H F']; subst. destruct (IH rest) as (bs & A & B); [intros y Hy; apply G; now right|exact F'|]. destruct (G x (or_introl eq_refl) i ls H) as (b & Eb & Sb).
      exists (b :: bs). split; [now constructor|]. unfold adds. cbn [filter]. rewrite (shows_hollow _ _ Sb). constructor; [exact Sb|exact B].
    - destruct (IH lss) as (bs & A & B); [intros y Hy; apply G; now right|exact F|]. exists (WStack [] :: bs). split; [|exact B]. constructor; [|exact A].
      destruct x as [k d f su la]. destruct k; try discriminate. cbn [loud] in E. apply Nat.ltb_ge in E. cbn [FormatModel.fmt]. unfold text_of. destruct (length (nth 0 (dtext d) [])) as [|[|]]; try reflexivity. lia. }
  intros lss G F. destruct (X lss G F) as (bs & A & B). exists bs. split; [now apply each_ok|exact B].
Qed.
(** Attached lines above *)
Lemma attached_shows : forall i att ass ls here, (forall x, In x att -> good x) -> Forall2 (writes i) att ass -> shows ls here ->
  exists b, match att with [] => Done here | _ => l <- each (fmt i) att ;; Done (WStack (adds (l ++ [here]))) end = Done b /\ shows (concat ass ++ ls) b.
Proof.
  intros i att ass ls here G F S. destruct (each_good i att ass G F) as (bs & E & B). destruct att as [|a att]; [inversion F; subst; eauto|]. rewrite E. cbn [rbind]. eexists. split; [reflexivity|].
  assert (X : Forall2 shows (ass ++ [ls]) (bs ++ [here])) by f2. rewrite (shows_adds _ _ X). replace (concat ass ++ ls) with (concat (ass ++ [ls])) by (rewrite concat_app; cbn; now rewrite app_nil_r).
  apply shows_stack; [|exact X]. destruct bs; discriminate.
Qed.
Ltac done_with := eexists; split; [reflexivity|].

Lemma leaf_case : forall i k o c t, leaf_marks k = Some (o, c) -> exists b, fmt i (Sem k (text [t]) [] [] []) = Done b /\ shows [lit o ++ t ++ lit c] b.
Proof.
  intros i k o c t H. destruct k; try discriminate; injection H as <- <-; done_with; cbn [text_of text dtext nth].
  all: try (change (lit "") with (@nil Z); rewrite ?app_nil_r; apply shows_text).
  all: try (change (lit "") with (@nil Z); rewrite ?app_nil_r; apply one_line, shows_text).
  all: try (eapply (to_line [_; _; _]); [|discriminate|f2]; cbn [concat app]; rewrite ?app_nil_r; reflexivity).
  all: eapply (to_line [_; _]); [|discriminate|f2]; cbn [concat app]; rewrite ?app_nil_r; reflexivity.
Qed.
Lemma breaks_case : forall n, shows (repeat [] (S n)) (WStack (repeat (txt "") (S n))).
Proof. intros n. apply shown_stack; [discriminate|]. induction (S n); cbn; f2. apply shows_text. Qed.
Lemma heading_case : forall i stars todo prio comment archived cnt done T title tags tts dates dts subs lss,
  (forall p, In p ((FTitle, T) :: field_of FTag tags ++ dates) -> good (snd p)) -> (forall x, In x subs -> good x) ->
  ssubs T <> [] -> writes i T [title] -> completion cnt done -> Forall2 tag_says tags tts ->
  Forall2 (fun p s => writes i (snd p) [s]) dates dts -> dates_in_order (map fst dates) -> Forall2 (writes i) (filter loud subs) lss ->
  exists b, fmt i (Sem oSubtree (D [todo; prio] ([Z.of_nat stars; flag comment; flag archived] ++ cnt) [] []) ((FTitle, T) :: field_of FTag tags ++ dates) subs []) = Done b /\
    shows (hang [repeat 42%Z stars ++ [32%Z]] (heading_text todo prio comment archived title done tts :: date_texts (map fst dates) dts)
       ++ match subs with [] => [] | _ => [] :: concat lss end) b.
Proof.
  intros i stars todo prio comment archived cnt done T title tags tts dates dts subs lss Gf Gs NT WT C Ft Fd Od Fs.
  destruct (Gf (FTitle, T) (or_introl eq_refl) i _ WT) as (tb & ET & ST). cbn [snd] in ET.
  destruct (loud_good i subs lss Gs Fs) as (bs & Es & Ss).
  assert (Td : Forall2 (fun p s => exists b, fmt i (snd p) = Done b /\ shown s b) dates dts).
  { assert (Gd : forall p, In p dates -> good (snd p)) by (intros p Hp; apply Gf; right; apply in_or_app; now right). clear - Fd Gd.
    induction Fd as [|p s dates dts H _ IH]; constructor; [exact (Gd p (or_introl eq_refl) i _ H)|apply IH; intros q Hq; apply Gd; now right]. }
  assert (Dd : exists dbs, each (fun p => match p with (n, x) => b <- fmt i x ;; Done (n, b) end) dates = Done (combine (map fst dates) dbs) /\ Forall2 shown dts dbs /\ length dates = length dbs).
  { clear - Td. induction Td as [|[n x] s dates dts (b & E & S) _ (dbs & IE & IS & IL)]; [exists []; auto|]. exists (b :: dbs). split; [|split; [constructor; auto|cbn; lia]].
    cbn [each map combine fst]. cbn [snd] in E. rewrite E. cbn [rbind]. fold (each (fun p : fld * sem => let (n0, x0) := p in b0 <- fmt i x0 ;; Done (n0, b0)) dates). rewrite IE. reflexivity. }
  destruct Dd as (dbs & Ed & Sd & Ld).
  set (tagb := map (fun x => (FTag, WText (lit "#" ++ nested_tag x))) tags).
  assert (Ef : each (fun p => match p with (n, x) => b <- fmt i x ;; Done (n, b) end) ((FTitle, T) :: field_of FTag tags ++ dates) = Done ((FTitle, tb) :: tagb ++ combine (map fst dates) dbs)).
  { apply each_ok. constructor; [rewrite ET; reflexivity|]. apply Forall2_app; [|now apply each_inv]. unfold tagb, field_of. clear - Ft. induction Ft as [|x s tags tts H _ IH]; [constructor|]. cbn [map]. constructor; [|exact IH].
    destruct H; reflexivity. }
  assert (Nt : forall f, f <> FTag -> only f tagb = []).
  { intros f Nf. unfold tagb, only. clear - Nf. induction tags as [|x tags IH]; [reflexivity|]. cbn [map flat_map fst snd]. rewrite IH. destruct f; try reflexivity. congruence. }
  assert (Nt' : filter is_drawer ((FTitle, T) :: field_of FTag tags ++ dates) = []).
  { cbn [filter is_drawer fst]. rewrite filter_app. replace (filter is_drawer (field_of FTag tags)) with (@nil (fld * sem)).
    - destruct Od as (a & b & c & Od). clear - Od. destruct a, b, c; repeat (destruct dates as [|[? ?] dates]; try discriminate); cbn in Od; repeat (injection Od as ?; try discriminate); try injection Od as -> ->; subst; reflexivity.
    - unfold field_of. clear. induction tags; [reflexivity|exact IHtags]. }
  assert (Tg : flat_map (fun p : fld * sem => match p with (FTag, x) => [WText (nested_tag x)] | _ => [] end) ((FTitle, T) :: field_of FTag tags ++ dates) = map WText tts).
  { cbn [flat_map app]. rewrite flat_map_app. replace (flat_map (fun p : fld * sem => match p with (FTag, x) => [WText (nested_tag x)] | _ => [] end) dates) with (@nil fblock).
    - rewrite app_nil_r. unfold field_of. clear - Ft. induction Ft as [|x s tags tts H _ IH]; [reflexivity|]. cbn [map flat_map app]. rewrite IH, (tag_ok _ _ H). reflexivity.
    - destruct Od as (a & b & c & Od). clear - Od. destruct a, b, c; repeat (destruct dates as [|[? ?] dates]; try discriminate); cbn in Od; repeat (injection Od as ?; try discriminate); try injection Od as -> ->; subst; reflexivity. }
  assert (Te : forallb (fun p : fld * sem => match p with (FTitle, x) => match ssubs x with [] => true | _ => false end | _ => true end) ((FTitle, T) :: field_of FTag tags ++ dates) = false).
  { cbn [forallb]. destruct (ssubs T); [congruence|reflexivity]. }
  (* tags *)
  assert (Tl : exists l ts, (tagged <- (match map WText tts with [] => Done [] | _ => x <- join_with (map WText tts) (txt ":") ;; Done [x] end) ;;
      (match (if archived then [txt "ARCHIVE"] else []) ++ tagged with [] => Done [] | _ => x <- join_with ((if archived then [txt "ARCHIVE"] else []) ++ tagged) (txt ":") ;; Done [WLine [txt ":"; x; txt ":"]] end)) = Done l /\ Forall2 shown ts l /\
      ts = match when archived (lit "ARCHIVE") ++ tts with [] => [] | l => [lit ":" ++ sep_by (lit ":") l ++ lit ":"] end).
  { assert (W : forall s b, shown s b -> shown (lit ":" ++ s ++ lit ":") (WLine [txt ":"; b; txt ":"])).
    { intros s b H. eapply (to_line [_; _; _]); [|discriminate|f2; exact H]. cbn [concat]. now rewrite app_nil_r. }
    destruct tts as [|t tts].
    - cbn [map rbind]. rewrite !app_nil_r. destruct archived; [|exists [], []; repeat split; constructor]. destruct (join_shown ":"%string [lit "ARCHIVE"] [txt "ARCHIVE"] ltac:(discriminate) ltac:(f2)) as (b & E & S). rewrite E. cbn [rbind].
      eexists. eexists. split; [reflexivity|]. split; [|reflexivity]. constructor; [|constructor]. apply W. exact S.
    - destruct (join_shown ":"%string (t :: tts) (map WText (t :: tts)) ltac:(discriminate) (shown_texts _)) as (b & E & S). cbn [map] in *. rewrite E. cbn [rbind].
      destruct archived.
      + cbn [app]. destruct (join_shown ":"%string [lit "ARCHIVE"; sep_by (lit ":") (t :: tts)] [txt "ARCHIVE"; b] ltac:(discriminate) ltac:(f2; exact S)) as (c & E' & S'). rewrite E'. cbn [rbind].
        eexists. eexists. split; [reflexivity|]. split; [|reflexivity]. constructor; [|constructor]. apply W. exact S'.
      + cbn [app]. destruct (join_shown ":"%string [sep_by (lit ":") (t :: tts)] [b] ltac:(discriminate) ltac:(f2; exact S)) as (c & E' & S'). rewrite E'. cbn [rbind].
        eexists. eexists. split; [reflexivity|]. split; [|reflexivity]. constructor; [|constructor]. apply W. exact S'. }
  destruct Tl as (tl & tls & El & Sl & Etl).
  (* the first line *)
  destruct (join_shown " "%string (unless_empty todo todo ++ when comment (lit "COMMENT") ++ unless_empty prio (lit "[#" ++ prio ++ lit "]") ++ [title] ++ done ++ tls)
    ((match todo with [] => [] | _ => [WText todo] end) ++ (if Z.eqb (flag comment) 1 then [txt "COMMENT"] else [])
             ++ (match prio with [] => [] | _ => [WText (lit "[#" ++ prio ++ lit "]")] end) ++ [tb] ++ map WText done ++ tl)) as (lead & Elead & Slead).
  { destruct todo, comment, prio; discriminate. }
  { apply f2_app; [destruct todo; cbn [unless_empty]; f2|]. apply f2_app; [destruct comment; cbn [when flag Z.eqb Pos.eqb]; f2|]. apply f2_app; [destruct prio; cbn [unless_empty]; f2|]. apply f2_app; [f2|]. apply f2_app; [apply shown_texts|exact Sl]. }
  
  assert (Cd : (match ([Z.of_nat stars; flag comment; flag archived] ++ cnt)%list with
                 | _ :: _ :: _ :: a :: b :: _ =>
                     [WText (if Z.eqb b 100 then lit "[" ++ dec a ++ lit "%]" else lit "[" ++ dec a ++ lit "/" ++ dec b ++ lit "]")]
                 | _ => [] end) = map WText done).
  { destruct C as [|a b s t Nb Da Db|a s Da]; [reflexivity| |]; cbn [app map].
    - apply Z.eqb_neq in Nb. rewrite Nb, (dec_ok _ _ Da), (dec_ok _ _ Db). reflexivity.
    - rewrite (dec_ok _ _ Da). reflexivity. }
  assert (Ft1 : only FTitle ((FTitle, tb) :: tagb ++ combine (map fst dates) dbs) = [tb]).
  { unfold only. cbn [flat_map fst snd]. rewrite flat_map_app. fold (only FTitle tagb). fold (only FTitle (combine (map fst dates) dbs)). rewrite Nt by discriminate.
    destruct Od as (a & b & c & ->). clear - Ld. destruct a, b, c; destruct dbs as [|d1 [|d2 [|d3 dbs]]]; reflexivity. }
  assert (Dt : exists l, (forall f, map (fun x => WLine [txt (match f with FScheduled => "SCHEDULED: " | FDeadline => "DEADLINE: " | FClosed => "CLOSED: " | _ => "" end)%string; x]) (firstn 1 (only f ((FTitle, tb) :: tagb ++ combine (map fst dates) dbs))) = l f) /\
     Forall2 shown (date_texts (map fst dates) dts) (l FScheduled ++ l FDeadline ++ l FClosed)).
  { eexists. split; [intros f; reflexivity|]. cbv beta.
    assert (Z : forall f, f = FScheduled \/ f = FDeadline \/ f = FClosed -> only f ((FTitle, tb) :: tagb ++ combine (map fst dates) dbs) = only f (combine (map fst dates) dbs)).
    { intros f Hf. unfold only. cbn [flat_map fst snd]. rewrite flat_map_app. fold (only f tagb). rewrite Nt by (destruct Hf as [->|[->| ->]]; discriminate). destruct Hf as [->|[->| ->]]; reflexivity. }
    rewrite !Z by auto. clear - Od Sd Ld.
    assert (W : forall w s b, shown s b -> shown (lit w ++ s) (WLine [txt w; b])).
    { intros w s b H. eapply (to_line [_; _]); [|discriminate|f2; exact H]. cbn [concat]. now rewrite app_nil_r. }
    assert (Ld' : length (map fst dates) = length dbs) by now rewrite map_length. clear Ld. destruct Od as (a & b & c & Od). rewrite Od in *. clear dates Od.
    destruct a, b, c; repeat (destruct dbs as [|? dbs]; try discriminate); repeat match goal with H : Forall2 _ _ (_ :: _) |- _ => inversion H; clear H; subst | H : Forall2 _ _ [] |- _ => inversion H; clear H; subst end; cbn [app map only flat_map combine fst snd firstn date_texts]; repeat (apply Forall2_cons; [apply W; assumption|]); apply Forall2_nil. }
  destruct Dt as (dt & Edt & Sdt).
  eexists. split.
  { cbn [FormatModel.fmt]. rewrite Ef. cbn [rbind]. rewrite Tg, Te, Nt', Ft1. unfold num_of, text_of. cbn [dnum dtext nth]. rewrite Cd.
    replace (if Z.eqb (nth 2 ([Z.of_nat stars; flag comment; flag archived] ++ cnt) 0%Z) 1 then [txt "ARCHIVE"] else []) with (if archived then [txt "ARCHIVE"] else []) by (destruct archived; reflexivity).
    change (nth 1 ([Z.of_nat stars; flag comment; flag archived] ++ cnt) 0%Z) with (flag comment).
    destruct (match map WText tts with [] => Done [] | _ => x <- join_with (map WText tts) (txt ":") ;; Done [x] end) as [tgd| | | |] eqn:Etg; try discriminate. cbn [rbind] in El |- *. rewrite El. cbn [rbind]. rewrite Elead. cbn [rbind]. rewrite Es. cbn [rbind].
    rewrite (Edt FScheduled), (Edt FDeadline), (Edt FClosed). reflexivity. }
  cbn [nth app]. rewrite Nat2Z.id. change (adds []) with (@nil fblock). rewrite app_nil_r. rewrite (shows_adds [[_]] [lead]) by (f2; exact Slead).
  assert (H1 : shows (heading_text todo prio comment archived title done tts :: date_texts (map fst dates) dts) (WStack (WLine [lead] :: dt FScheduled ++ dt FDeadline ++ dt FClosed))).
  { apply shown_stack; [discriminate|]. constructor; [|exact Sdt]. apply one_line. unfold heading_text. rewrite <- Etl. rewrite spaced_sep. exact Slead. }
  set (head := WStack (WLine [lead] :: dt FScheduled ++ dt FDeadline ++ dt FClosed)) in *.
  assert (H2 : shows (hang [repeat 42%Z stars ++ [32%Z]] (heading_text todo prio comment archived title done tts :: date_texts (map fst dates) dts)) (WLine [WText (repeat 42%Z stars); txt " "; head])).
  { rewrite <- hang_twice by discriminate. apply (shows_line [[repeat 42%Z stars]; [[32%Z]]; _]); [discriminate|]. constructor; [apply shows_text|]. constructor; [apply shows_text|]. constructor; [exact H1|constructor]. }
  destruct subs as [|x subs].
  { rewrite app_nil_r. now apply one_stack. }
  apply (shows_stack (_ :: [[]] :: lss)); [discriminate|]. constructor; [exact H2|]. constructor; [apply shows_text|exact Ss].
Qed.

Lemma paragraph_here : forall rows rss, rows <> [] -> Forall (fun r => r <> []) rows -> Forall (Forall (fun x => skind x <> oNewline)) rows ->
  (forall r x, In r rows -> In x r -> good x) -> Forall2 (Forall2 (writes true)) rows rss ->
  exists l here, each (fmt true) (between (leaf oNewline [10%Z]) rows) = Done l /\
    WStack (adds (map (fun x => WLine (adds x)) (split_lines (combine (map (is_a oNewline) (between (leaf oNewline [10%Z]) rows)) l)))) = here /\ shows (concat (map side rss)) here.
Proof.
  intros rows rss N Ne Nn G F.
  assert (exists bss, Forall2 (Forall2 (fun x b => fmt true x = Done b)) rows bss /\ Forall2 (Forall2 shows) rss bss) as (bss & E & S).
  { clear N Ne Nn. induction F as [|r ls rows rss H _ IH]; [exists []; auto|]. destruct IH as (bss & A & B); [intros q x Hq; apply G; now right|].
    destruct (each_good true r ls ltac:(intros x Hx; apply (G r x); [now left|exact Hx]) H) as (bs & C & D). apply each_inv in C. exists (bs :: bss). auto. }
  exists (between (WStack []) bss). eexists. split; [apply each_ok, rows_between; [reflexivity|exact E]|]. split; [reflexivity|].
  rewrite split_rows; [|reflexivity|exact N|exact Nn|clear - E; induction E as [|a b rows bss H _ IH]; constructor; [now apply f2_len in H|exact IH]].
  assert (L : Forall2 shows (map side rss) (map (fun x => WLine (adds x)) bss)).
  { assert (Nb : Forall (fun b => b <> []) bss) by (clear - E Ne; induction E as [|r b rows bss H _ IH]; [constructor|]; inversion Ne; subst; constructor; [inversion H; subst; congruence|auto]).
    clear - S Nb. induction S as [|ls bs rss bss H _ IH]; [constructor|]. inversion Nb; subst. cbn [map]. constructor; [|auto]. rewrite (shows_adds _ _ H). now apply shows_line. }
  rewrite (shows_adds _ _ L). apply shows_stack; [|exact L]. inversion E; subst; [congruence|discriminate].
Qed.
Lemma subs_ne : forall {A B C} (R : A -> B -> Prop) (Q : B -> C -> Prop) l m n, l <> [] -> Forall2 R l m -> Forall2 Q m n -> n <> [].
Proof. intros A B C R Q l m n N F G. destruct F; [congruence|]. inversion G; discriminate. Qed.
Lemma marked_case : forall lss bs o c, Forall2 shows lss bs -> shows (side ([lit o] :: lss ++ [[lit c]])) (between_marks o c bs).
Proof. intros lss bs o c F. apply shows_line; [discriminate|f2]. Qed.
Lemma block_case : forall lss bs name, Forall2 shows lss bs -> shows ((lit "#+begin_" ++ name) :: concat lss ++ [lit "#+end_" ++ name]) (block_of name bs).
Proof.
  intros lss bs name F. replace (_ :: _) with (concat ([lit "#+begin_" ++ name] :: lss ++ [[lit "#+end_" ++ name]])) by (cbn [concat]; rewrite concat_app; reflexivity).
  apply shows_stack; [discriminate|f2].
Qed.
Lemma cells_shown : forall i cells tss, (forall q x, In q cells -> In x (ssubs (snd q)) -> good x) -> Forall2 (cell_texts time_text real_text i) cells tss ->
  exists cbs, each (fun q => match q with (_, Sem _ _ _ items _) => l <- each (fmt i) items ;; Done (adds [WLine (adds (flat_map (fun x => [txt " "; x; txt " "]) l)); txt "|"]) end) cells = Done cbs /\
    shown (lit "| " ++ concat (map (fun c => concat (map (fun s => lit " " ++ s ++ lit " ") c) ++ lit "|") tss)) (WLine (txt "| " :: concat cbs)).
Proof.
  intros i cells tss G F.
  assert (exists cbs, Forall2 (fun q b => match q with (_, Sem _ _ _ items _) => l <- each (fmt i) items ;; Done (adds [WLine (adds (flat_map (fun x => [txt " "; x; txt " "]) l)); txt "|"]) end = Done b) cells cbs /\
    exists ss, Forall2 shown ss (concat cbs) /\ concat ss = concat (map (fun c => concat (map (fun s => lit " " ++ s ++ lit " ") c) ++ lit "|") tss)) as (cbs & E & ss & S & Es).
  { induction F as [|q t cells tss H _ IH]; [exists []; split; [constructor|]; exists []; split; [constructor|reflexivity]|].
    destruct IH as (cbs & E & ss & S & Es); [intros p x Hp; apply G; now right|]. specialize (G q). destruct H as [i f k d items ts H]. cbn [snd ssubs] in G.
    destruct (each_good i items (map single ts)) as (bs & Eb & Sb); [intros x Hx; apply G; [now left|exact Hx]|clear - H; induction H; constructor; auto|].
    assert (X : Forall2 shown (flat_map (fun s => [lit " "; s; lit " "]) ts) (flat_map (fun x => [txt " "; x; txt " "]) bs)).
    { clear - Sb. revert bs Sb. induction ts as [|s ts IH]; intros bs Sb; inversion Sb as [|? b ? bs' Hb Sb']; subst; [constructor|]. cbn [flat_map app]. constructor; [apply shows_text|]. constructor; [exact Hb|]. constructor; [apply shows_text|]. now apply IH. }
    assert (Y : concat (flat_map (fun s => [lit " "; s; lit " "]) ts) = concat (map (fun s => lit " " ++ s ++ lit " ") ts)).
    { clear. induction ts as [|s ts IH]; [reflexivity|]. cbn [flat_map map concat app]. rewrite IH, <- !app_assoc. reflexivity. }
    exists (adds [WLine (adds (flat_map (fun x => [txt " "; x; txt " "]) bs)); txt "|"] :: cbs). split; [constructor; [rewrite Eb; reflexivity|exact E]|].
    rewrite (shows_adds _ _ (shown_all _ _ X)). destruct ts as [|t ts].
    - inversion Sb; subst. exists (lit "|" :: ss). split; [|cbn [map concat]; rewrite Es; reflexivity]. cbn [flat_map concat adds filter hollow negb app]. constructor; [apply shows_text|exact S].
    - inversion Sb as [|? b ? bs' Hb Sb']; subst. change (adds [WLine (flat_map (fun x => [txt " "; x; txt " "]) (b :: bs')); txt "|"]) with [WLine (flat_map (fun x => [txt " "; x; txt " "]) (b :: bs')); txt "|"].
      exists (concat (map (fun s => lit " " ++ s ++ lit " ") (t :: ts)) :: lit "|" :: ss). split.
      + cbn [concat]. constructor; [rewrite <- Y; apply shown_line; [discriminate|exact X]|]. constructor; [apply shows_text|exact S].
      + cbn [concat] in *. cbn [map concat] in *. rewrite Es. now rewrite <- !app_assoc. }
  exists cbs. split; [now apply each_ok|]. rewrite <- Es. apply (to_line (lit "| " :: ss)); [reflexivity|discriminate|]. constructor; [apply shows_text|exact S].
Qed.
Lemma group_after : forall o c a t, attrs_after real_text o c a t -> exists g, group_block real_text a = Done g /\
  ((a = [] /\ t = []) \/ (a <> [] /\ exists s, t = o ++ s ++ c /\ shown s g)).
Proof.
  intros o c a t [[-> ->]|(N & s & S & ->)]; [exists (txt ""); auto|]. destruct (group_shown real_text a s S) as (g & E & H). exists g. split; [exact E|]. right. eauto.
Qed.

Lemma all_good : forall n s, heft s <= n -> good s.
Proof.
  induction n as [|n IH]; intros s L i ls H; [destruct s; cbn in L; lia|].
  assert (P : (forall p, In p (sfields s) -> good (snd p)) /\ (forall x, In x (ssubs s) -> good x) /\ (forall x, In x (sattached s) -> good x) /\ (forall y x, In y (ssubs s) -> In x (sattached y) -> good x) /\
     (forall p q x, In p (sfields s) -> In q (sfields (snd p)) -> In x (ssubs (snd q)) -> good x)).
  { assert (Z : forall y, heft y <= n -> forall x, In x (sattached y) -> heft x <= n) by (intros [yk yd yf ys ya] Hy x Hx; cbn in Hx; pose proof (heft_in ya x Hx); cbn in Hy; lia).
    assert (Z1 : forall y, heft y <= n -> forall x, In x (ssubs y) -> heft x <= n) by (intros [yk yd yf ys ya] Hy x Hx; cbn in Hx; pose proof (heft_in ys x Hx); cbn in Hy; lia).
    assert (Z2 : forall y, heft y <= n -> forall p, In p (sfields y) -> heft (snd p) <= n) by (intros [yk yd yf ys ya] Hy p Hp; cbn in Hp; pose proof (heft_field yf p Hp); cbn in Hy; lia).
    destruct s as [k d f su at']. cbn [FormatWords.weight] in L. cbn [sfields ssubs sattached].
    assert (Lf : forall p, In p f -> heft (snd p) <= n) by (intros p Hp; pose proof (heft_field f p Hp); lia).
    assert (Ls : forall x, In x su -> heft x <= n) by (intros p Hp; pose proof (heft_in su p Hp); lia).
    assert (La : forall x, In x at' -> heft x <= n) by (intros p Hp; pose proof (heft_in at' p Hp); lia).
    repeat split; intros; eauto. }
  clear IH L. destruct P as (Gf & Gs & Ga & Gl & Gc).
  destruct H; cbn [sfields ssubs sattached snd] in *.
  - now apply leaf_case.
  - done_with. cbn [text_of leaf text dtext nth]. rewrite repeat_length. cbn [Nat.sub]. apply breaks_case.
  - done_with. apply shows_text.
  - destruct (each_good i subs lss Gs H0) as (bs & E & S). destruct k; try discriminate; injection H as <- <-; cbn [FormatModel.fmt]; rewrite E; done_with; now apply marked_case.
  - destruct (Gs x (or_introl eq_refl) i ls H0) as (b & E & S). assert (exists bs, each (fmt i) y = Done bs) as (bs & Ey).
    { assert (exists lss, Forall2 (writes i) y lss) as (lss & F) by (clear - H1; induction H1 as [|z y (ls & H) _ (lss & IH)]; [exists []; constructor|exists (ls :: lss); auto]).
      destruct (each_good i y lss ltac:(intros z Hz; apply Gs; now right) F) as (bs & Eb & _). eauto. }
    cbn [FormatModel.fmt each]. rewrite E. cbn [rbind]. fold (each (fmt i) y). rewrite Ey. cbn [rbind].
    assert (X : forall o' c', shows (side [[lit o']; ls; [lit c']]) (WLine [txt o'; b; txt c'])) by (intros; apply shows_line; [discriminate|f2]).
    unfold edit_mark in H.
    destruct (String.eqb_spec w "{--"); [subst; injection H as <- <-; done_with; apply X|].
    destruct (String.eqb_spec w "{++"); [subst; injection H as <- <-; done_with; apply X|].
    destruct (String.eqb_spec w "{=="); [subst; injection H as <- <-; done_with; apply X|].
    destruct (String.eqb_spec w "{>>"); [subst; injection H as <- <-; done_with; apply X|discriminate].
  - destruct (Gs x (or_introl eq_refl) i ls H) as (b & E & S). destruct (Gs y (or_intror (or_introl eq_refl)) i ms H0) as (c & E' & S'). cbn [FormatModel.fmt each]. rewrite E, E'. done_with.
    apply shows_line; [discriminate|f2].
  - destruct (Gf (f, x) (or_introl eq_refl) i ls H0) as (b & E & S). cbn [snd] in E. destruct k; try discriminate; injection H as <- <- <-; cbn [FormatModel.fmt each]; rewrite E; done_with; apply shows_line; try discriminate; f2.
  - destruct (Gf (FDescription, x) (or_introl eq_refl) i ls H1) as (b & E & S). cbn [snd] in E. cbn [FormatModel.fmt each]. rewrite E. cbn [rbind]. rewrite H, <- (target_ok _ _ H0).
    assert (X : shows (side [[lit "[["]; [target_text t]; [lit "]["]; ls; [lit "]]"]]) (WLine [txt "[["; WText (target_text t); txt "]["; b; txt "]]"])) by (apply shows_line; [discriminate|f2]).
    destruct t; done_with; exact X.
  - cbn [FormatModel.fmt each rbind]. rewrite H. done_with. apply shows_text.
  - cbn [FormatModel.fmt each rbind]. rewrite H. done_with. eapply (to_line [_; _; _]); [|discriminate|f2]. cbn [concat target_text]. rewrite app_nil_r. reflexivity.
  - cbn [FormatModel.fmt each rbind]. rewrite H, <- (target_ok _ _ H0).
    assert (X : shows [lit "[[" ++ target_text t ++ lit "]]"] (WLine [txt "[["; WText (target_text t); txt "]]"])) by (eapply (to_line [_; _; _]); [|discriminate|f2]; cbn [concat]; now rewrite app_nil_r).
    destruct t; try (now specialize (H1 s0)); try (now specialize (H2 s0)); done_with; exact X.
  - cbn [FormatModel.fmt]. unfold num_of. rewrite H. done_with. unfold bracket. destruct (Z.eqb (nth 0 (dnum d) 0%Z) 1); (eapply (to_line [_; _; _]); [|discriminate|f2]); cbn [concat fst snd]; rewrite app_nil_r; reflexivity.
  - cbn [FormatModel.fmt]. unfold num_of. apply Z.eqb_neq in H. rewrite H, H0, H1. done_with. pose proof (lisp_shown real_text c s H2). unfold bracket. destruct (Z.eqb (nth 0 (dnum d) 0%Z) 1); (eapply (to_line [_; _; _; _]); [|discriminate|f2; eassumption]); cbn [concat fst snd]; rewrite app_nil_r; reflexivity.
  - destruct (Gf (FFrom, x) (or_introl eq_refl) i ls H) as (b & E & S). destruct (Gf (FTo, y) (or_intror (or_introl eq_refl)) i ms H0) as (c & E' & S'). cbn [snd] in *. cbn [FormatModel.fmt each]. rewrite E, E'. done_with. apply shows_line; [discriminate|f2].
  - done_with. apply shows_text.
  - assert (Ea : all_attrs (a :: l) = a :: l).
    { unfold all_attrs. replace (positional (a :: l)) with (a :: l); [replace (named_groups (a :: l)) with (@nil (str * list attrv)); [apply app_nil_r|]|].
      - unfold named_groups. clear - H0. induction H0 as [|x m E _ IH]; [reflexivity|]. cbn [fold_left]. rewrite E. exact IH.
      - unfold positional. clear - H0. induction H0 as [|x m E _ IH]; [reflexivity|]. cbn [filter]. rewrite E, <- IH. reflexivity. }
    assert (F : Forall2 shown ss (map (attr_block real_text) (a :: l))) by (clear - H; induction H as [|x t m ts H _ IH]; [constructor|cbn [map]; constructor; [now apply attr_shown|exact IH]]).
    destruct (join_shown ", "%string ss _ ltac:(inversion H; discriminate) F) as (b & E & S).
    cbn [FormatModel.fmt group_of dattr nth text_of dtext]. rewrite Ea. cbn [map] in *. rewrite E. done_with. eapply (to_line [_; _; _]); [|discriminate|f2; exact S]. cbn [concat]. rewrite app_nil_r, <- !app_assoc. reflexivity.
  - replace (fmt i x) with (Done (WText (lit "#" ++ nested_tag x))) by (destruct H; reflexivity). done_with. rewrite (tag_ok _ _ H). apply shows_text.
  - done_with. cbn [text dtext]. destruct (words_ok ws) as (ss & F & E). eapply (to_line (_ :: ss ++ [_])); [|discriminate|constructor; [apply shows_text|apply f2_app; [exact F|f2]]]. cbn [concat]. rewrite concat_app, E. reflexivity.
  - destruct (each_good i xs lss) as (bs & E & S); [intros x Hx; apply (Gf (FPositional, x)); unfold field_of; now apply in_map|exact H|].
    assert (Ef : each (fun p => match p with (n, x) => b <- fmt i x ;; Done (n, b) end) (field_of FPositional xs) = Done (map (pair FPositional) bs)).
    { apply each_ok. apply each_inv in E. clear - E. unfold field_of. induction E as [|x b xs bs H _ IH]; [constructor|]. cbn [map]. constructor; [rewrite H; reflexivity|exact IH]. }
    assert (Eo : only FPositional (map (pair FPositional) bs) = bs) by (clear; unfold only; induction bs as [|b bs IH]; [reflexivity|]; cbn [map flat_map fst snd app]; f_equal; exact IH).
    cbn [FormatModel.fmt]. rewrite Ef. cbn [rbind text dtext length symbol_params app]. rewrite Eo. done_with.
    assert (W : Forall2 shows (map (fun ls => side [[lit "{"]; ls; [lit "}"]]) lss) (map (fun x => WLine [txt "{"; x; txt "}"]) bs)).
    { clear - S. induction S as [|ls b lss bs H _ IH]; [constructor|]. cbn [map]. constructor; [|exact IH]. apply shows_line; [discriminate|f2]. }
    rewrite (shows_adds _ _ W).
    apply shows_line; [discriminate|]. constructor; [apply shows_text|exact W].
  - done_with. apply shows_text.
  - destruct (group_after _ _ _ _ H) as (g & E & K). cbn [FormatModel.fmt group_of dattr nth text_of dtext tl map app each]. rewrite E. cbn [rbind concat]. change (adds []) with (@nil fblock).
    done_with. eapply (to_line [lit "src_" ++ s ++ t; lit "{"; l; lit "}"]); [cbn [concat]; rewrite app_nil_r, <- !app_assoc; reflexivity|discriminate|].
    constructor; [|f2; apply one_line, shows_text].
    assert (Hs : exists ts, Forall2 shown ts (match s with [] => [] | _ => [WText s] end) /\ concat ts = s) by (destruct s; [exists []; split; [constructor|reflexivity]|eexists [_]; split; [f2|apply app_nil_r]]).
    destruct Hs as (ts & Fs & Es). destruct K as [[-> ->]|(N & q & -> & Sg)].
    + eapply (to_line (lit "src_" :: ts ++ [])); [|discriminate|constructor; [apply shows_text|apply f2_app; [exact Fs|constructor]]]. cbn [concat]. now rewrite !app_nil_r, Es.
    + destruct a as [|a0 a]; [congruence|]. eapply (to_line (lit "src_" :: ts ++ [lit "["; q; lit "]"])); [|discriminate|constructor; [apply shows_text|apply f2_app; [exact Fs|f2; now apply one_line]]].
      cbn [concat]. rewrite concat_app, Es. cbn [concat]. now rewrite app_nil_r.
  - destruct (paragraph_here rows rss H H0 H1) as (bl & here & E & Eh & S); [intros r x Hr Hx; apply Gs; eapply in_between; eauto|exact H2|].
    cbn [FormatModel.fmt]. rewrite E. cbn [rbind]. rewrite Eh.
    destruct (attached_shows i att ass _ here Ga H3 S) as (b & Eb & Sb).
    assert (X : forall (y : res fblock) (g : list sem -> res fblock), match between (leaf oNewline [10%Z]) rows with [Sem oLink _ _ _ latt] => g latt | _ => y end = y).
    { intros y g. destruct (between (leaf oNewline [10%Z]) rows) as [|[k kd kf ks ka] [|]] eqn:Eq; try reflexivity; [|destruct k; reflexivity].
      pose proof (H4 _ (between_one _ _ rows H H0 Eq)) as Nk. cbn in Nk. destruct k; try reflexivity. congruence. }
    rewrite X. eauto.
  - destruct (Gs x (or_introl eq_refl) true ls H0) as (b & E & S).
    cbn [FormatModel.fmt each]. rewrite E. cbn [rbind map combine]. replace (is_a oNewline x) with false by (unfold is_a; rewrite H; reflexivity). cbn [split_lines map].
    rewrite (shows_adds [ls] [b]) by f2. rewrite (shows_adds [ls] [WLine [b]]) by (f2; now apply one_line).
    assert (Sh : shows ls (WStack [WLine [b]])) by now apply one_stack, one_line.
    destruct (attached_shows i (sattached x) ass _ _ ltac:(intros z Hz; apply (Gl x z); [now left|exact Hz]) H1 Sh) as (c & Ec & Sc).
    destruct x as [k kd kf ks ka]. cbn [skind sattached] in *. subst k. rewrite Ec. eauto.
  - now apply heading_case.
  - destruct (loud_good i subs lss Gs H0) as (bs & E & S). cbn [FormatModel.fmt]. rewrite E. cbn [rbind]. apply attached_shows; [exact Ga|exact H1|]. apply shows_stack; [eapply subs_ne; eauto|exact S].
  - destruct (loud_good i subs lss Gs H0) as (bs & E & S). cbn [FormatModel.fmt each rbind]. rewrite E. cbn [rbind only flat_map]. done_with. cbn [dtext dnum]. fold (checkbox box). rewrite <- app_assoc.
    apply (shows_line [_; concat lss]); [discriminate|]. f2. apply shows_stack; [eapply subs_ne; eauto|exact S].
  - destruct (Gf (FHeader, h) (or_introl eq_refl) i hs H) as (hb & Eh & Sh). cbn [snd] in Eh.
    destruct (Gs x (or_introl eq_refl) i ls H0) as (xb & E & S). destruct (loud_good i subs lss ltac:(intros z Hz; apply Gs; now right) H1) as (bs & Es & Ss).
    cbn [FormatModel.fmt each]. rewrite Eh. cbn [rbind]. rewrite E. cbn [rbind]. fold (each (fmt i) subs). rewrite Es. cbn [rbind only flat_map fst snd app].
    rewrite (shows_adds [hs; [lit " :: "]; ls] [hb; txt " :: "; xb]) by f2.
    assert (A : Forall2 shows (side [hs; [lit " :: "]; ls] :: [[]] :: lss) (WLine [hb; txt " :: "; xb] :: txt "" :: adds bs)).
    { constructor; [apply shows_line; [discriminate|f2]|]. constructor; [apply shows_text|exact Ss]. }
    change (adds (WLine [hb; txt " :: "; xb] :: txt "" :: bs)) with (WLine [hb; txt " :: "; xb] :: txt "" :: adds bs). done_with. cbn [dtext dnum]. fold (checkbox box). rewrite <- app_assoc. apply (shows_line [_; _]); [discriminate|]. constructor; [apply shows_text|]. constructor; [|constructor].
    exact (shows_stack _ (_ :: _) ltac:(discriminate) A).
  - cbn [FormatModel.fmt]. change (num_of d 0) with (nth 0 (dnum d) 0%Z). apply Z.eqb_neq in H0. rewrite H0. cbn [rbind].
    match goal with |- context [each ?f rows] => assert (R : exists bs, each f rows = Done bs /\ Forall2 shown (map (fun r => lit "| " ++ concat (map (fun c => concat (map (fun s => lit " " ++ s ++ lit " ") c) ++ lit "|") r)) tss) bs) end.
    { match goal with |- context [each ?f rows] => assert (R : exists bs, Forall2 (fun x b => f x = Done b) rows bs /\ Forall2 shown (map (fun r => lit "| " ++ concat (map (fun c => concat (map (fun s => lit " " ++ s ++ lit " ") c) ++ lit "|") r)) tss) bs) end.
      - clear - Gc H1. induction H1 as [|p t rows tss H _ IH]; [exists []; split; constructor|]. destruct IH as (bs & A & B); [intros p' q x Hp; apply Gc; now right|].
        specialize (Gc p). destruct H as [i f k d cells ts Hd Hc]. destruct (cells_shown i cells ts) as (cbs & E & S); [intros q x Hq Hx; apply (Gc q x); [now left|exact Hq|exact Hx]|exact Hc|].
        eexists (_ :: bs). split; [constructor; [|exact A]|cbn [map]; constructor; [exact S|exact B]]. cbv beta iota. unfold num_of at 1. apply Z.eqb_neq in Hd. rewrite Hd, E. reflexivity.
      - destruct R as (bs & A & B). exists bs. split; [now apply each_ok|exact B]. }
    destruct R as (bs & E & S). rewrite E. cbn [rbind app]. rewrite app_nil_r. apply attached_shows; [exact Ga|exact H2|]. apply shown_stack; [|exact S].
    clear - S H H1. inversion H1; subst; [congruence|]. inversion S. discriminate.
  - destruct (group_after _ _ _ _ H) as (g & E & K). cbn [FormatModel.fmt group_of dattr nth text_of dtext tl each]. rewrite E. cbn [rbind concat]. change (adds []) with (@nil fblock). cbn [app]. rewrite ?app_nil_r.
    apply attached_shows; [exact Ga|exact H0|]. apply shown_stack; [discriminate|]. constructor.
    2:{ apply f2_app; [clear; induction lines as [|x l IH]; [constructor|cbn [map]; constructor; [apply one_line, shows_text|exact IH]]|f2]. }
    assert (Hs : exists ts, Forall2 shown ts (match s with [] => [] | _ => [WText (lit " " ++ s)] end) /\ concat ts = match s with [] => [] | _ => lit " " ++ s end) by (destruct s; [exists []; split; [constructor|reflexivity]|eexists [_]; split; [f2|apply app_nil_r]]).
    destruct Hs as (ts & Fs & Es). destruct K as [[-> ->]|(N & q & -> & Sg)].
    + eapply (to_line (lit "#+begin_src" :: ts ++ [])); [|discriminate|constructor; [apply shows_text|apply f2_app; [exact Fs|constructor]]]. cbn [concat]. now rewrite !app_nil_r, Es.
    + destruct a as [|a0 a]; [congruence|]. eapply (to_line (lit "#+begin_src" :: ts ++ [lit " "; q])); [|discriminate|constructor; [apply shows_text|apply f2_app; [exact Fs|f2; now apply one_line]]].
      cbn [concat]. rewrite concat_app, Es. cbn [concat]. now rewrite !app_nil_r.
  - destruct (group_after _ _ _ _ H) as (g & E & K). cbn [FormatModel.fmt group_of dattr nth text_of dtext]. rewrite E. cbn [rbind]. done_with. apply shown_stack; [discriminate|]. constructor; [|f2].
    destruct K as [[-> ->]|(N & q & -> & Sg)].
    + rewrite app_nil_r. apply one_line, shows_text.
    + destruct a as [|a0 a]; [congruence|]. eapply (to_line [_; lit " "; q]); [|discriminate|f2; exact Sg]. cbn [concat]. rewrite !app_nil_r, <- !app_assoc. reflexivity.
  - destruct (each_good i subs lss Gs H0) as (bs & E & S). destruct k; try discriminate; injection H as <-; cbn [FormatModel.fmt]; rewrite E; done_with; now apply block_case.
  - destruct (each_good i subs lss Gs H0) as (bs & E & S). cbn [FormatModel.fmt]. rewrite E. done_with. unfold text_of. rewrite H. now apply block_case.
  - destruct (each_good i subs lss Gs H0) as (bs & E & S). cbn [FormatModel.fmt]. rewrite H, E. cbn [opt_group rbind]. apply attached_shows; [exact Ga|exact H1|].
    replace (_ :: _) with (concat ([lit "#+begin_quote "] :: lss ++ [[lit "#+end_quote"]])) by (cbn [concat]; rewrite concat_app; reflexivity).
    apply shows_stack; [discriminate|]. constructor; [|apply f2_app; [exact S|f2]]. eapply (to_line [_; _]); [|discriminate|f2]. reflexivity.
  - destruct (each_good i subs lss Gs H0) as (bs & E & S). cbn [FormatModel.fmt]. rewrite E. done_with. apply shows_stack; [pose proof (subs_ne _ _ _ _ _ H H0 S); destruct bs; [congruence|discriminate]|].
    clear - S. induction S as [|ls b lss bs H _ IH]; [constructor|]. cbn [map]. constructor; [|exact IH]. apply (shows_line [_; ls]); [discriminate|f2].
  - done_with. apply one_line, shows_text.
  - destruct (Gf (FText, x) (or_introl eq_refl) i ls H) as (b & E & S). cbn [snd] in E. cbn [FormatModel.fmt each]. rewrite E. done_with. apply shows_line; [discriminate|f2].
  - destruct (group_shown real_text a t H) as (g & E & S). cbn [FormatModel.fmt group_of dattr nth]. rewrite E. done_with. eapply (to_line [_; _]); [|discriminate|f2; exact S]. cbn [concat text_of dtext nth]. rewrite app_nil_r, <- !app_assoc. reflexivity.
  - destruct (loud_good i subs lss Gs H0) as (bs & E & S). cbn [FormatModel.fmt]. rewrite E. done_with. pose proof (subs_ne _ _ _ _ _ H H0 S). destruct (adds bs); [congruence|]. apply shows_stack; [discriminate|exact S].
Qed.
End Write.
