(** The lexer, the regrouping and the recombination on plain documents. *)
From Coq Require Import String.
From Verif Require Import Base StrModel TokKind TokModel TokSpec TokProofs TokRun TokProse RegroupModel RegroupSpec RegroupProofs RecombSpec MarkProofs.
From Verif Require PlainSpec.
Import PlainSpec(mark, Bold, Italic, Underline, Strike, span, how, said, par, lines, gap, section, Sec, stars_of, mark_char, spaced, around, span_text, line_written, par_text, section_text, span_ok, line_ok, par_ok, apart, sections_ok, no_sections, one_section).
Local Open Scope nat_scope.

(** ** A document as a list of headings and paragraphs *)
Inductive item := IHead (n : nat) (t : list span) (g : nat) | IPar (p : par).
Fixpoint section_items (s : section) : list item :=
  match s with Sec n t g ps l => IHead n t g :: map IPar ps ++ flat_map section_items l end.
Definition items_of (ps : list par) (ss : list section) : list item := map IPar ps ++ flat_map section_items ss.
Definition item_text (i : item) : str :=
  match i with IHead n t g => repeat 42%Z n ++ 32%Z :: line_written t ++ repeat 10%Z g | IPar p => par_text p end.
Definition item_ok (i : item) : Prop := match i with IHead n t g => 0 < n /\ line_ok t | IPar p => par_ok p end.
(** a paragraph is followed by an empty line, by a heading or by the end *)
Inductive items_ok : list item -> Prop :=
| items_nil : items_ok []
| items_cons i r : item_ok i -> (forall p q r', i = IPar p -> r = IPar q :: r' -> gap p <> 0) -> items_ok r -> items_ok (i :: r).

Lemma section_items_text : forall s, concat (map item_text (section_items s)) = section_text s.
Proof.
  fix IH 1. intros [n t g ps l]. cbn [section_items section_text map concat item_text]. rewrite map_app, concat_app, map_map. cbn [item_text].
  rewrite <- !app_assoc. cbn [app]. rewrite <- !app_assoc. do 5 f_equal. induction l as [|s l IHl]; [reflexivity|].
  cbn [flat_map map concat]. rewrite map_app, concat_app, IH, IHl. reflexivity.
Qed.
Lemma items_text : forall ps ss, concat (map item_text (items_of ps ss)) = PlainSpec.document_text ps ss.
Proof.
  intros ps ss. unfold items_of, PlainSpec.document_text. rewrite map_app, concat_app, map_map. f_equal.
  induction ss as [|s ss IH]; [reflexivity|]. cbn [flat_map map concat]. rewrite map_app, concat_app, section_items_text, IH. reflexivity.
Qed.
Lemma pars_ok : forall ps r, Forall par_ok ps -> apart ps -> (forall q r', r <> IPar q :: r') -> items_ok r -> items_ok (map IPar ps ++ r).
Proof.
  induction ps as [|p ps IH]; intros r F A N R; [exact R|]. inversion F; subst. cbn [map app]. constructor; [assumption| |].
  - intros p' q r' E E'. injection E as <-. destruct ps as [|p2 ps]; cbn in E'; [exfalso; eapply N; eauto|]. apply A.
  - apply IH; auto. destruct ps; [exact I|apply A].
Qed.
Lemma sections_items : forall o ss, sections_ok o ss -> items_ok (flat_map section_items ss) /\ (forall q r, flat_map section_items ss <> IPar q :: r).
Proof.
  intros o ss S. induction S as [o|o n t g ps l rest Ho Ht Hp Ha _ [IHl Nl] _ _ [IHr Nr]]; [split; [constructor|discriminate]|].
  split; [|cbn; discriminate]. cbn [flat_map section_items app]. constructor; [split; [lia|auto]|discriminate|].
  rewrite <- app_assoc. apply pars_ok; auto.
  - intros q r' E. destruct (flat_map section_items l) as [|[]] eqn:El; cbn in E; try discriminate; [eapply Nr; eauto|injection E as -> _; eapply Nl; eauto].
  - clear - IHl IHr Nr. induction IHl as [|i r Hi Hg _ IH]; [exact IHr|]. cbn [app]. constructor; auto.
    intros p q r' E E'. destruct r as [|j r]; cbn in E'; [exfalso; eapply Nr; eauto|]. injection E' as -> E'. eapply Hg; eauto.
Qed.
Lemma document_items : forall ps ss, PlainSpec.plain_document ps ss -> items_ok (items_of ps ss).
Proof. intros ps ss (P & A & S). apply sections_items in S as [S N]. apply pars_ok; auto. Qed.

(** ** Spans as marked words *)
Definition mark_entry (m : mark) : byte * (tk * tk) :=
  (mark_char m, match m with Bold => (kBoldBegin, kBoldEnd) | Italic => (kItalicBegin, kItalicEnd) | Underline => (kUnderlineBegin, kUnderlineEnd) | Strike => (kStrikeBegin, kStrikeEnd) end).
Definition entry (m : option mark) : option (byte * (tk * tk)) := option_map mark_entry m.
Fixpoint pieces_from (o c : option (byte * (tk * tk))) (ws : list str) : list piece :=
  match ws with [] => [] | [w] => [Piece o w c] | w :: r => Piece o w None :: pieces_from None c r end.
Definition pieces (s : span) : list piece := pieces_from (entry (how s)) (entry (how s)) (said s).
Definition line_pieces (l : list span) : list piece := flat_map pieces l.
Lemma entry_in : forall m x, entry m = Some x -> In x mark_kinds.
Proof. intros [[]|] x E; try discriminate; injection E as <-; cbn; tauto. Qed.
Lemma pieces_plain : forall ws o c, Forall plain_word ws -> (forall m, o = Some m -> In m mark_kinds) -> (forall m, c = Some m -> In m mark_kinds) ->
  Forall plain_piece (pieces_from o c ws).
Proof.
  induction ws as [|w ws IH]; intros o c F O C; [constructor|]. inversion F; subst. destruct ws as [|w2 ws].
  - constructor; [|constructor]. split; auto.
  - cbn [pieces_from]. constructor; [split; [auto|]; split; [auto|discriminate]|]. apply IH; auto. discriminate.
Qed.
Lemma line_plain : forall l, Forall span_ok l -> Forall plain_piece (line_pieces l).
Proof.
  induction 1 as [|s l [_ W] _ IH]; [constructor|]. cbn. apply Forall_app. split; [|exact IH]. apply pieces_plain; auto; apply entry_in.
Qed.
Lemma pieces_nil : forall s, span_ok s -> pieces s <> [].
Proof. intros s [N _]. unfold pieces. destruct (said s) as [|w [|]]; [congruence|discriminate|discriminate]. Qed.
Lemma line_nil : forall l, line_ok l -> line_pieces l <> [].
Proof.
  intros l [N F]. destruct F as [|s l S _]; [congruence|]. cbn. pose proof (pieces_nil s S). destruct (pieces s); [congruence|discriminate].
Qed.
Lemma spaced_cons : forall w ws, ws <> [] -> spaced (w :: ws) = w ++ 32%Z :: spaced ws.
Proof. intros w [|x ws] N; [congruence|reflexivity]. Qed.
Lemma spaced_app : forall a b, a <> [] -> b <> [] -> spaced (a ++ b) = spaced a ++ 32%Z :: spaced b.
Proof.
  induction a as [|w a IH]; intros b Na Nb; [congruence|]. destruct a as [|w2 a].
  - cbn [app]. now rewrite spaced_cons.
  - cbn [app] in *. rewrite (spaced_cons w (w2 :: a ++ b)), (spaced_cons w (w2 :: a)) by discriminate. rewrite IH by (auto; discriminate). now rewrite <- app_assoc.
Qed.
Lemma pieces_text : forall ws o c, ws <> [] -> spaced (map piece_text (pieces_from o c ws)) = mark_text o ++ spaced ws ++ mark_text c.
Proof.
  induction ws as [|w ws IH]; intros o c N; [congruence|]. destruct ws as [|w2 ws]; [reflexivity|].
  change (pieces_from o c (w :: w2 :: ws)) with (Piece o w None :: pieces_from None c (w2 :: ws)). cbn [map].
  rewrite spaced_cons, IH by (try discriminate; destruct ws; discriminate). rewrite (spaced_cons w) by discriminate. unfold piece_text at 1. cbn [opening body closing mark_text app].
  rewrite !app_nil_r, <- !app_assoc. reflexivity.
Qed.
Lemma line_pieces_text : forall l, line_ok l -> spaced (map piece_text (line_pieces l)) ++ [10%Z] = line_written l.
Proof.
  intros l [N F]. unfold line_written. f_equal. induction F as [|s l S F IH]; [congruence|]. pose proof (pieces_nil s S) as Ns. destruct S as [Ws _].
  assert (Et : spaced (map piece_text (pieces s)) = span_text s).
  { unfold pieces. rewrite pieces_text by exact Ws. unfold span_text. destruct (how s) as [m|]; reflexivity. }
  destruct l as [|s2 l]; cbn [line_pieces flat_map map] in *.
  - rewrite app_nil_r. exact Et.
  - rewrite map_app, spaced_app, Et, IH; [reflexivity|discriminate|destruct (pieces s); [congruence|discriminate]|].
    inversion F; subst. pose proof (pieces_nil s2 ltac:(auto)). destruct (pieces s2); [congruence|discriminate].
Qed.

(** ** The tokens *)
Fixpoint raw_words (ps : list piece) : list (tk * str) :=
  match ps with [] => [] | [p] => raw_piece p | p :: r => raw_piece p ++ (kWhitespace, [32%Z]) :: raw_words r end.
Fixpoint piece_words (ps : list piece) : list (tk * str) :=
  match ps with [] => [] | [p] => piece_tokens p | p :: r => piece_tokens p ++ (kWhitespace, [32%Z]) :: piece_words r end.
Definition line_break (g : nat) : tk * str :=
  (match g with 0 => kNewline | 1 => kMediumNewline | _ => kLongNewline end, repeat 10%Z (S g)).
Section Lines.
Variable f : list piece -> list (tk * str).
Fixpoint lines_with (ls : list (list span)) (g : nat) : list (tk * str) :=
  match ls with
  | [] => []
  | [l] => f (line_pieces l) ++ [line_break g]
  | l :: r => f (line_pieces l) ++ line_break 0 :: lines_with r g
  end.
Definition item_with (i : item) : list (tk * str) :=
  match i with
  | IHead n t g => (kSubtreeStars, repeat 42%Z n) :: (kWhitespace, [32%Z]) :: lines_with [t] g
  | IPar p => lines_with (lines p) (gap p)
  end.
End Lines.
Notation raw_item := (item_with raw_words).
Notation item_tokens := (item_with piece_words).

Lemma raw_words_text : forall ps, concat (map snd (raw_words ps)) = spaced (map piece_text ps).
Proof.
  induction ps as [|p ps IH]; [reflexivity|]. destruct ps as [|q ps]; [apply raw_piece_text|].
  change (raw_words (p :: q :: ps)) with (raw_piece p ++ (kWhitespace, [32%Z]) :: raw_words (q :: ps)). rewrite map_app, concat_app, raw_piece_text.
  cbn [map concat snd] in *. rewrite IH. reflexivity.
Qed.
Lemma lines_raw_text : forall ls g, ls <> [] -> Forall line_ok ls -> concat (map snd (lines_with raw_words ls g)) = concat (map line_written ls) ++ repeat 10%Z g.
Proof.
  intros ls g N F. induction F as [|l ls L F IH]; [congruence|]. pose proof (line_pieces_text l L) as T. destruct ls as [|l2 ls].
  - cbn [lines_with map concat]. rewrite map_app, concat_app, raw_words_text. cbn [map concat snd line_break]. rewrite app_nil_r, app_nil_r, <- T, <- app_assoc. reflexivity.
  - change (lines_with raw_words (l :: l2 :: ls) g) with (raw_words (line_pieces l) ++ line_break 0 :: lines_with raw_words (l2 :: ls) g).
    rewrite map_app, concat_app, raw_words_text. cbn [map concat snd] in *. rewrite IH by discriminate. unfold line_break. cbn [snd repeat]. rewrite <- T, <- !app_assoc. reflexivity.
Qed.
Lemma raw_item_text : forall i, item_ok i -> concat (map snd (raw_item i)) = item_text i.
Proof.
  intros [n t g|p] O; cbn [item_with item_text].
  - destruct O as [_ O]. cbn [map concat snd]. rewrite lines_raw_text; [|discriminate|auto]. cbn [map concat app]. rewrite app_nil_r. reflexivity.
  - destruct O as [N O]. rewrite lines_raw_text by auto. reflexivity.
Qed.

(** ** Lexemes *)
Section More.
Variable txt : str.
Hypothesis PC : Forall text_char txt.
Definition starts_text (r : str) : Prop := forall c, hd_error r = Some c -> c <> 32%Z /\ c <> 10%Z.
Lemma newlines_exact : forall g r n p l k c, skipn p txt = repeat 10%Z (S g) ++ r -> starts_text r -> S g <= n ->
  newlines txt n (Cu p l k) c = (Cu (p + S g) (l + S g) 0, c + S g).
Proof.
  induction g as [|g IH]; intros r n p l k c E H L; (destruct n; [lia|]); cbn [newlines repeat app] in *;
    unfold is_at at 1, is_pred at 1; rewrite peek_skip, E; cbn [nth_error]; change (10 =? 10)%Z with true; cbv iota;
    (assert (NX : next txt (Cu p l k) = Cu (S p) (S l) 0) by (unfold next; rewrite peek_skip, E; reflexivity)); rewrite NX;
    pose proof (skip_step _ _ _ _ E) as E'.
  - rewrite (run_exact txt [] (Z.eqb 32) (S p) (S l) 0 r); [|exact E'|constructor|].
    + cbn [length]. rewrite !Nat.add_0_r. unfold is_at, is_pred. rewrite peek_skip, E'.
      assert (Z : match nth_error r 0 with Some x => (x =? 10)%Z | None => false end = false).
      { destruct r as [|x r]; [reflexivity|]. cbn. apply Z.eqb_neq. now apply H. }
      rewrite Z. f_equal; [f_equal; lia|lia].
    + intros x X. rewrite Z.eqb_sym. apply Z.eqb_neq. now apply H.
  - rewrite (run_exact txt [] (Z.eqb 32) (S p) (S l) 0 (10%Z :: repeat 10%Z g ++ r)); [|exact E'|constructor|].
    + cbn [length]. rewrite !Nat.add_0_r. unfold is_at, is_pred. rewrite peek_skip, E'. cbn [nth_error]. change (10 =? 10)%Z with true. cbv iota.
      rewrite (IH r n (S p) (S l) 0 (S c) E' H) by lia. f_equal; [f_equal; lia|lia].
    + intros x X. injection X as <-. reflexivity.
Qed.
Lemma l_break : forall g r, starts_text r -> lexeme txt false (fst (line_break g)) (snd (line_break g)) r true.
Proof.
  intros g r X f p l k o E B. unfold line_break in *. cbn [fst snd] in *. rewrite repeat_length. exists (l + S g), 0. eexists. split; [|split].
  - apply go; [|cbn; lia|auto]. unfold switch_char. cbv zeta. cbn [cur]. unfold get. rewrite peek_skip, E. cbn [repeat app nth_error obind].
    match goal with |- _ = ?R => change (newline_token txt (St (Cu p l k) o) = R) end.
    unfold newline_token. cbn [cur]. assert (LL := len_left txt p _ r l k E). rewrite repeat_length in LL.
    rewrite (newlines_exact g r (left txt (Cu p l k)) p l k 0 E X LL). cbn [pos col line out]. reflexivity.
  - unfold shown. cbn [kind text]. f_equal.
    + destruct g as [|[|g]]; reflexivity.
    + unfold sub, substr. rewrite E. replace (p + S g - p) with (S g) by lia. rewrite firstn_app, firstn_all2, repeat_length, Nat.sub_diag by (rewrite repeat_length; lia). apply app_nil_r.
  - reflexivity.
Qed.
Lemma l_stars : forall n r, lexeme txt true kSubtreeStars (repeat 42%Z (S n)) (32%Z :: r) false.
Proof.
  intros n r f p l k o E B. cbn in B. subst k. eexists l, (S n), _. split; [|split].
  - apply go; [|cbn; rewrite repeat_length; lia|].
    + unfold switch_char. cbv zeta. cbn [cur]. unfold get. rewrite peek_skip, E. cbn [repeat app nth_error obind].
      match goal with |- (if (42 =? ?a)%Z then _ else _) = _ => idtac end || idtac.
      assert (P : patt txt (p_seq (p_many1 (Z.eqb 42)) (p_chr 32%Z)) (Cu p l 0) 0 = Some (S (S n))).
      { unfold patt. cbn [pos]. rewrite Nat.add_0_r, E. unfold p_seq, p_many1.
        assert (R : forall m, run_len (Z.eqb 42) (repeat 42%Z m ++ 32%Z :: r) = m).
        { induction m as [|m IH]; [reflexivity|]. cbn [repeat app run_len]. change (42 =? 42)%Z with true. cbv iota. now rewrite IH. }
        rewrite R. rewrite skipn_app, skipn_all2, repeat_length, Nat.sub_diag by (rewrite repeat_length; lia). cbn [app skipn]. unfold p_chr, p_cls. change (32 =? 32)%Z with true. cbv iota. f_equal. lia. }
      repeat match goal with |- context [(?a =? ?b)%Z] => let v := eval vm_compute in (a =? b)%Z in change (a =? b)%Z with v end. cbv iota. cbn [col]. change (0 =? 0) with true. cbv iota.
      rewrite P. unfold tokt, tok. cbn [cur out obind]. rewrite (run_exact txt (repeat 42%Z (S n)) (Z.eqb 42) p l 0 (32%Z :: r)); [|exact E| |].
      * cbn [length]. rewrite !repeat_length. cbn [Nat.add]. reflexivity.
      * apply Forall_forall. intros x X. apply repeat_spec in X. subst x. split; [reflexivity|discriminate].
      * intros x X. injection X as <-. reflexivity.
    + right. intros self m. cbn [repeat app] in E. unfold line_start. cbv zeta. cbn [cur].
      assert (CA : count_at txt (Z.eqb 32) (Cu p l 0) 0 = 0) by (unfold count_at; cbn [pos]; rewrite Nat.add_0_r, E; reflexivity). rewrite CA.
      assert (IA : forall ch, (42 =? ch)%Z = false -> is_at txt (Cu p l 0) 0 ch = false).
      { intros ch H. unfold is_at, is_pred. rewrite peek_skip, E. cbn [nth_error]. exact H. }
      assert (CL : forall ch, (42 =? ch)%Z = false -> check_leading txt (Cu p l 0) ch 0 = false) by (intros; unfold check_leading; rewrite IA; auto).
      rewrite !CL by reflexivity.
      assert (TS : table_separator txt (Cu p l 0) 0 = None).
      { unfold table_separator. rewrite IA by reflexivity. destruct (left txt (Cu p l 0)); cbn [sep_columns]; [reflexivity|]. now rewrite IA by reflexivity. }
      rewrite TS. rewrite !(no_ilit txt PC) by (cbn; tauto).
      assert (DG : forall q, patt txt (p_seq p_digits q) (Cu p l 0) 0 = None) by (intros q; unfold patt; cbn [pos]; rewrite Nat.add_0_r, E; reflexivity).
      rewrite DG.
      assert (CO : forall q, patt txt (p_seq (p_chr 58%Z) q) (Cu p l 0) 0 = None) by (intros q; unfold patt; cbn [pos]; rewrite Nat.add_0_r, E; reflexivity).
      rewrite !CO. cbn [is_str]. unfold lit. cbn [AttrModel.lit is_str]. now rewrite IA by reflexivity.
  - unfold shown, mk. cbn [kind text pos]. f_equal. unfold sub, substr. rewrite E. replace (p + S n - p) with (S n) by lia.
    rewrite firstn_app, firstn_all2, repeat_length, Nat.sub_diag by (rewrite repeat_length; lia). apply app_nil_r.
  - cbn. lia.
Qed.

Lemma words_head : forall ps r, ps <> [] -> Forall plain_piece ps -> starts_text (concat (map snd (raw_words ps ++ r))).
Proof.
  intros ps r N F c H. rewrite map_app, concat_app, raw_words_text in H. destruct F as [|p ps P F]; [congruence|]. destruct (piece_head p P) as (x & s & E & X1 & X2).
  destruct ps; cbn [map spaced] in H; rewrite E in H; cbn in H; injection H as <-; auto.
Qed.
Lemma chain_words : forall ps s r k, ps <> [] -> Forall plain_piece ps -> chain txt false ((k, 10%Z :: s) :: r) -> forall b, chain txt b (raw_words ps ++ (k, 10%Z :: s) :: r).
Proof.
  intros ps s r k N F C. induction F as [|p ps P F IH]; [congruence|]. intros b. destruct ps as [|q ps].
  - cbn [raw_words]. apply chain_piece with (d := 10%Z); auto. eexists. reflexivity.
  - change (raw_words (p :: q :: ps)) with (raw_piece p ++ (kWhitespace, [32%Z]) :: raw_words (q :: ps)). rewrite <- app_assoc. apply chain_piece with (d := 32%Z); auto; [eexists; reflexivity|].
    cbn [app]. apply chain_cons with (b' := false); [discriminate| |apply (IH ltac:(discriminate))].
    pose proof (words_head (q :: ps) ((k, 10%Z :: s) :: r) ltac:(discriminate) F) as H. destruct (concat _) as [|x z] eqn:E.
    + exfalso. rewrite map_app, concat_app in E. apply app_eq_nil in E as [_ E]. discriminate E.
    + apply l_space. apply (H x eq_refl).
Qed.
Lemma chain_lines : forall ls g r, ls <> [] -> Forall line_ok ls -> starts_text (concat (map snd r)) -> chain txt true r -> forall b, chain txt b (lines_with raw_words ls g ++ r).
Proof.
  intros ls g r N F H C. assert (BR : forall g r, starts_text (concat (map snd r)) -> chain txt true r -> chain txt false (line_break g :: r)).
  { intros g' r' H' C'. unfold line_break. apply chain_cons with (b' := true); [discriminate|exact (l_break g' _ H')|exact C']. }
  induction F as [|l ls L F IH]; [congruence|]. intros b. pose proof (line_nil l L) as Nl. destruct L as [_ L]. apply line_plain in L. destruct ls as [|l2 ls].
  - cbn [lines_with]. rewrite <- app_assoc. cbn [app]. apply chain_words; auto. exact (BR g r H C).
  - change (lines_with raw_words (l :: l2 :: ls) g) with (raw_words (line_pieces l) ++ line_break 0 :: lines_with raw_words (l2 :: ls) g).
    rewrite <- app_assoc. cbn [app]. apply chain_words; auto. apply (BR 0); [|apply IH; discriminate].
    inversion F as [|? ? L2 _]; subst. pose proof (line_nil l2 L2). destruct L2 as [_ L2]. apply line_plain in L2.
    destruct ls; cbn [lines_with]; rewrite <- app_assoc; apply words_head; auto.
Qed.
Lemma item_head : forall i r, item_ok i -> starts_text (concat (map snd (raw_item i ++ r))).
Proof.
  intros [n t g|p] r O.
  - destruct O as [O _]. destruct n; [lia|]. intros c H. cbn in H. injection H as <-. split; discriminate.
  - destruct O as [N F]. cbn [item_with]. destruct F as [|l ls L _]; [congruence|]. pose proof (line_nil l L) as Nl. destruct L as [_ L]. apply line_plain in L.
    destruct ls; cbn [lines_with]; rewrite <- app_assoc; apply words_head; auto.
Qed.
Lemma items_head : forall is_, items_ok is_ -> starts_text (concat (map snd (flat_map raw_item is_))).
Proof. intros is_ [|i r O _ _]; [intros c H; discriminate H|]. cbn [flat_map]. apply item_head; auto. Qed.
Lemma chain_items : forall is_, items_ok is_ -> chain txt true (flat_map raw_item is_).
Proof.
  induction 1 as [|i r O G R IH]; [constructor|]. cbn [flat_map]. pose proof (items_head r R) as H. destruct i as [n t g|p].
  - destruct O as [On O]. cbn [item_with app]. destruct n as [|n]; [lia|]. apply chain_cons with (b' := false); [discriminate|apply l_stars|].
    apply chain_cons with (b' := false); [discriminate| |apply chain_lines; auto; discriminate].
    pose proof (line_nil t O) as Nl. pose proof O as [_ L]. apply line_plain in L. cbn [lines_with]. rewrite <- app_assoc.
    pose proof (words_head (line_pieces t) ([line_break g] ++ flat_map raw_item r) Nl L) as Hd. clear H; destruct (concat _) as [|x z] eqn:E.
    + exfalso. rewrite map_app, concat_app in E. apply app_eq_nil in E as [_ E]. discriminate E.
    + apply l_space. apply (Hd x eq_refl).
  - destruct O as [N O]. apply chain_lines; auto.
Qed.
End More.
Lemma items_raw_text : forall is_, items_ok is_ -> concat (map snd (flat_map raw_item is_)) = concat (map item_text is_).
Proof. induction 1 as [|i r O _ _ IH]; [reflexivity|]. cbn [flat_map map concat]. rewrite map_app, concat_app, raw_item_text, IH by exact O. reflexivity. Qed.
Lemma spaced_chars : forall ws, Forall (Forall text_char) ws -> Forall text_char (spaced ws).
Proof. induction 1 as [|w ws W _ IH]; [constructor|]. destruct ws; [exact W|]. rewrite spaced_cons by discriminate. apply Forall_app. split; [exact W|]. constructor; [unfold text_char; auto|exact IH]. Qed.
Lemma line_chars' : forall l, line_ok l -> Forall text_char (line_written l).
Proof.
  intros l L. rewrite <- line_pieces_text by exact L. destruct L as [_ L]. apply line_plain in L. apply Forall_app. split; [|constructor; [unfold text_char; auto|constructor]].
  apply spaced_chars. apply Forall_map. eapply Forall_impl; [|exact L]. apply piece_chars.
Qed.
Lemma repeat_chars : forall c n, text_char c -> Forall text_char (repeat c n).
Proof. intros c n H. apply Forall_forall. intros x X. apply repeat_spec in X. now subst. Qed.
Lemma items_chars : forall is_, items_ok is_ -> Forall text_char (concat (map item_text is_)).
Proof.
  assert (C10 : text_char 10%Z) by (unfold text_char; auto). assert (C42 : text_char 42%Z) by (unfold text_char, marker; cbn; tauto).
  induction 1 as [|i r O _ _ IH]; [constructor|]. cbn [map concat]. apply Forall_app. split; [|exact IH]. destruct i as [n t g|p]; cbn [item_text].
  - destruct O as [_ O]. apply Forall_app. split; [now apply repeat_chars|]. constructor; [unfold text_char; auto|]. apply Forall_app. split; [now apply line_chars'|now apply repeat_chars].
  - destruct O as [_ O]. unfold par_text. apply Forall_app. split; [|now apply repeat_chars]. clear - O. induction O; [constructor|]. cbn. apply Forall_app. split; [now apply line_chars'|auto].
Qed.
Lemma items_tokenize : forall is_ fuel, items_ok is_ -> length (concat (map item_text is_)) < fuel ->
  exists ts, tokenize (concat (map item_text is_)) fuel = Ok ts /\ map shown ts = flat_map raw_item is_.
Proof.
  intros is_ fuel O L. destruct is_ as [|i r] eqn:E; [exists []; split; reflexivity|]. rewrite <- E in *. clear E.
  assert (X : is_ = [] \/ flat_map raw_item is_ <> []).
  { destruct O as [|j r' Oj _ _]; [auto|]. right. destruct j as [n t g|p]; [discriminate|]. destruct Oj as [N F]. cbn [flat_map item_with]. destruct (lines p) as [|l ls]; [congruence|].
    intros X. apply app_eq_nil in X as [X _]. destruct ls; cbn [lines_with] in X; apply app_eq_nil in X as [_ X]; discriminate X. }
  destruct X as [->|X]; [exists []; split; reflexivity|]. rewrite <- (items_raw_text is_ O) in *. apply chain_tokenize; auto. apply chain_items; auto.
  rewrite items_raw_text by exact O. now apply items_chars.
Qed.

(** ** Roles *)
Definition plain_kind (k : tk) : bool :=
  match k with kSubtreeStars | kMediumNewline | kLongNewline => true | k => simple k end.
Lemma recombine_plain : forall l fuel p d, Forall (fun t => plain_kind (okind t) = true) l -> length l < fuel ->
  exists p' o, recombine_loop fuel (Rs p l d) = Ok (Rs p' [] (d ++ o)) /\ map oshown o = assign_roles (empty_at p) (map oshown l).
Proof.
  induction l as [|t l IH]; intros fuel p d F L; (destruct fuel; [cbn in L; lia|]).
  - exists p, []. cbn. rewrite app_nil_r. auto.
  - inversion F as [|? ? T F']; subst. cbn [length] in L.
    assert (NX : empty_at (next_tok (Rs p (t :: l) d)) = nempty (map oshown l)) by (unfold next_tok; cbn [rest]; destruct l as [|[]]; reflexivity).
    assert (ST : map_token (2 * length (t :: l) + 2) (Rs p (t :: l) d) =
      Ok (Rs (Some t) l (d ++ [OTok (role_of (empty_at p) (okind t) (otext t) (nempty (map oshown l))) (otext t) (opos t)]))).
    { rewrite Nat.add_comm. cbn [Nat.add map_token rest]. rewrite <- NX. destruct t as [k w q]. cbn [okind otext opos] in *. destruct k; try discriminate T; reflexivity. }
    cbn [recombine_loop rest]. rewrite ST. cbn [obind rest].
    destruct (length l =? length (t :: l)) eqn:Z; [apply Nat.eqb_eq in Z; cbn in Z; lia|].
    destruct (IH fuel (Some t) (d ++ [OTok (role_of (empty_at p) (okind t) (otext t) (nempty (map oshown l))) (otext t) (opos t)]) F' ltac:(lia)) as (p' & o & E & S).
    rewrite E. eexists p', (_ :: o). rewrite <- app_assoc. split; [reflexivity|]. cbn [map]. rewrite S. destruct t. reflexivity.
Qed.
Lemma convert_plain : forall ts, Forall (fun t => plain_kind (kind t) = true) ts -> exists o, convert_tokens ts = Ok o /\ map oshown o = assign_roles true (map shown ts).
Proof.
  intros ts F. unfold convert_tokens. rewrite regroup_text.
  - cbn [obind]. unfold recombine. destruct (recombine_plain (map otok_of (map Base ts)) (S (length (map Base ts))) None []) as (p & o & E & S).
    + rewrite map_map. apply Forall_map. exact F.
    + rewrite map_length. lia.
    + rewrite E. exists o. split; [reflexivity|]. rewrite S, !map_map. reflexivity.
  - eapply Forall_impl; [|exact F]. intros t H. cbv beta in H. unfold is_tk. destruct (kind t); try discriminate H; reflexivity.
Qed.
Lemma roles_words : forall ps g r, Forall plain_piece ps -> ps <> [] ->
  assign_roles true (raw_words ps ++ line_break g :: r) = piece_words ps ++ line_break g :: assign_roles true r.
Proof.
  intros ps g r F N. assert (BR : forall b r, assign_roles b (line_break g :: r) = line_break g :: assign_roles true r) by (intros; destruct g as [|[|g]]; reflexivity).
  assert (NE : forall r, nempty (line_break g :: r) = true) by (intros; destruct g as [|[|g]]; reflexivity).
  induction F as [|p ps P F IH]; [congruence|]. destruct ps as [|q ps].
  - cbn [raw_words piece_words]. rewrite roles_piece by auto. now rewrite BR.
  - change (raw_words (p :: q :: ps)) with (raw_piece p ++ (kWhitespace, [32%Z]) :: raw_words (q :: ps)).
    change (piece_words (p :: q :: ps)) with (piece_tokens p ++ (kWhitespace, [32%Z]) :: piece_words (q :: ps)).
    rewrite <- !app_assoc. cbn [app]. rewrite roles_piece by auto. cbn [assign_roles]. change (empty_token kWhitespace) with true. rewrite IH by discriminate. reflexivity.
Qed.
Lemma roles_lines : forall ls g r, ls <> [] -> Forall line_ok ls -> assign_roles true (lines_with raw_words ls g ++ r) = lines_with piece_words ls g ++ assign_roles true r.
Proof.
  intros ls g r N F. induction F as [|l ls L F IH]; [congruence|]. pose proof (line_nil l L) as Nl. destruct L as [_ L]. apply line_plain in L. destruct ls as [|l2 ls].
  - cbn [lines_with]. rewrite <- !app_assoc. cbn [app]. now apply roles_words.
  - change (lines_with raw_words (l :: l2 :: ls) g) with (raw_words (line_pieces l) ++ line_break 0 :: lines_with raw_words (l2 :: ls) g).
    change (lines_with piece_words (l :: l2 :: ls) g) with (piece_words (line_pieces l) ++ line_break 0 :: lines_with piece_words (l2 :: ls) g).
    rewrite <- !app_assoc. cbn [app]. rewrite roles_words by auto. now rewrite IH.
Qed.
Lemma roles_items : forall is_, items_ok is_ -> assign_roles true (flat_map raw_item is_) = flat_map item_tokens is_.
Proof.
  induction 1 as [|i r O _ _ IH]; [reflexivity|]. cbn [flat_map]. destruct i as [n t g|p].
  - destruct O as [_ O]. cbn [item_with app]. cbn [assign_roles]. change (empty_token kSubtreeStars) with false. change (empty_token kWhitespace) with true.
    rewrite roles_lines by (auto; discriminate). rewrite IH. reflexivity.
  - destruct O as [N O]. cbn [item_with]. rewrite roles_lines by auto. now rewrite IH.
Qed.
Lemma raw_words_plain : forall ps, Forall (fun x => plain_kind (fst x) = true) (raw_words ps).
Proof.
  assert (B : forall m, Forall (fun x => plain_kind (fst x) = true) (base_of m)).
  { intros [[c k]|]; constructor; [|constructor]. cbn [fst]. unfold mark_base. repeat match goal with |- context [if ?b then _ else _] => destruct b end; reflexivity. }
  assert (R : forall p, Forall (fun x => plain_kind (fst x) = true) (raw_piece p)) by (intros p; apply Forall_app; split; [apply B|constructor; [reflexivity|apply B]]).
  induction ps as [|p ps IH]; [constructor|]. destruct ps as [|q ps]; [apply R|].
  change (raw_words (p :: q :: ps)) with (raw_piece p ++ (kWhitespace, [32%Z]) :: raw_words (q :: ps)). apply Forall_app. split; [apply R|]. constructor; [reflexivity|exact IH].
Qed.
Lemma raw_items_plain : forall is_, Forall (fun x => plain_kind (fst x) = true) (flat_map raw_item is_).
Proof.
  assert (B : forall g, plain_kind (fst (line_break g)) = true) by (intros [|[|g]]; reflexivity).
  assert (L : forall ls g, Forall (fun x => plain_kind (fst x) = true) (lines_with raw_words ls g)).
  { induction ls as [|l ls IH]; intros g; [constructor|]. destruct ls as [|l2 ls].
    - apply Forall_app. split; [apply raw_words_plain|]. constructor; [apply B|constructor].
    - change (lines_with raw_words (l :: l2 :: ls) g) with (raw_words (line_pieces l) ++ line_break 0 :: lines_with raw_words (l2 :: ls) g).
      apply Forall_app. split; [apply raw_words_plain|]. constructor; [reflexivity|apply IH]. }
  induction is_ as [|i r IH]; [constructor|]. cbn [flat_map]. apply Forall_app. split; [|exact IH]. destruct i as [n t g|p]; [|apply L].
  constructor; [reflexivity|]. constructor; [reflexivity|apply L].
Qed.
Lemma items_tokens : forall is_ fuel, items_ok is_ -> length (concat (map item_text is_)) < fuel ->
  exists ts o, tokenize (concat (map item_text is_)) fuel = Ok ts /\ convert_tokens ts = Ok o /\ map oshown o = flat_map item_tokens is_.
Proof.
  intros is_ fuel O L. destruct (items_tokenize is_ fuel O L) as (ts & T & S). destruct (convert_plain ts) as (o & C & R).
  - assert (X : Forall (fun x => plain_kind (fst x) = true) (map shown ts)) by (rewrite S; apply raw_items_plain). rewrite Forall_map in X. exact X.
  - exists ts, o. split; [exact T|]. split; [exact C|]. rewrite R, S. now apply roles_items.
Qed.
