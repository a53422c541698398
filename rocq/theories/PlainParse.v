(** The parser on plain documents: what it does is followed forward. *)
From Verif Require Import Base StrModel TokKind KindEq NodeKind.
From Verif Require RegroupModel TreeModel TreeSpec TreeProofs.
From Verif Require Import ParseModel ParseSpec ParseLogic.
From Verif Require ParseProofs.
Local Open Scope nat_scope.

(** The kinds of token of a plain document *)
Definition plain_token (k : tk) : bool :=
  match k with
  | kWord | kBigIdent | kWhitespace | kNewline | kMediumNewline | kLongNewline | kSubtreeStars
  | kBoldBegin | kBoldEnd | kItalicBegin | kItalicEnd | kUnderlineBegin | kUnderlineEnd | kStrikeBegin | kStrikeEnd => true
  | _ => false
  end.

Section Forward.
Variable toks : list RegroupModel.otok.
Hypothesis PK : Forall (fun t => plain_token (okind t) = true) toks.
Notation rest := (ParseLogic.rest toks).
Notation okl := (ParseLogic.okl toks).
Notation gapped := (ParseLogic.gapped toks).
Notation at_ := (ParseModel.at_ toks).
Definition kd (i : nat) : option tk := option_map okind (nth_error toks i).

(** From the tokens [is_], the step returns [a], leaves the tokens [is'] and adds the trees [ts]. *)
Definition goes {A} (m : M A) (is_ : list nat) (a : A) (is' : list nat) (ts : list tree) : Prop :=
  forall l g, okl l -> rest l = is_ -> exists l' g', m l g = Ok (Some a, l', g') /\ okl l' /\ rest l' = is' /\
    nodes g' = nodes g ++ fflat ts /\ pending g' = pending g.
(** What a test says about a lexer with the tokens [is_] *)
Definition says (c : lx -> bool) (is_ : list nat) (b : bool) : Prop := forall l, okl l -> rest l = is_ -> c l = b.

Lemma at_says : forall f i r, says (at_ 0 f) (i :: r) (match kd i with Some k => f k | None => false end).
Proof.
  intros f i r l O E. unfold ParseModel.at_. rewrite has_next_rest, E by auto. unfold ParseModel.kind_at, ParseModel.tok_at. rewrite (pos_rest _ _ _ _ O E), Nat.add_0_r. reflexivity.
Qed.
Lemma at_end : forall off f, says (at_ off f) [] false.
Proof. intros off f l O E. unfold ParseModel.at_. rewrite has_next_rest, E by auto. reflexivity. Qed.
(** Other kinds are nowhere. *)
Lemma at_none : forall off f l, (forall k, plain_token k = true -> f k = false) -> at_ off f l = false.
Proof.
  intros off f l H. unfold ParseModel.at_, ParseModel.kind_at, ParseModel.tok_at. apply andb_false_iff. right. destruct (lpos l) as [p|]; [|reflexivity].
  destruct (nth_error toks (p + off)) as [t|] eqn:E; [|reflexivity]. cbn. apply H. rewrite Forall_forall in PK. apply PK. eapply nth_error_In. exact E.
Qed.
Ltac none := let q := fresh in let Pq := fresh in intros q Pq; destruct q; try discriminate Pq; reflexivity.
Lemma vec_none : forall l, at_vec toks [kBigIdent; kWhitespace; kSubtreePriority] l = false.
Proof.
  intros l. unfold at_vec. cbn [at_vec_from]. rewrite (at_none 2 (is kSubtreePriority)) by none. rewrite !andb_false_r. reflexivity.
Qed.
Lemma finished_says : forall is_, says (fun l => negb (finished toks l)) is_ (match is_ with [] => false | _ => true end).
Proof. intros is_ l O E. rewrite finished_rest, E by auto. destruct is_; reflexivity. Qed.

Lemma g_ret : forall A (a : A) is_, goes (ret a) is_ a is_ [].
Proof. intros A a is_ l g O E. exists l, g. rewrite app_nil_r. auto 10. Qed.
Lemma g_bind : forall A B (m : M A) (k : A -> M B) is_ a is1 t1 b is2 t2, goes m is_ a is1 t1 -> goes (k a) is1 b is2 t2 -> goes (bind m k) is_ b is2 (t1 ++ t2).
Proof.
  intros A B m k is_ a is1 t1 b is2 t2 H1 H2 l g O E. destruct (H1 l g O E) as (l1 & g1 & E1 & O1 & R1 & N1 & P1). destruct (H2 l1 g1 O1 R1) as (l2 & g2 & E2 & O2 & R2 & N2 & P2).
  exists l2, g2. unfold bind. rewrite E1, E2. split; [reflexivity|]. split; [auto|]. split; [auto|]. rewrite N2, N1, TreeProofs.fflat_app, app_assoc. split; congruence.
Qed.
(** the same for steps that add nothing *)
Lemma g_then : forall A B (m : M A) (k : A -> M B) is_ a is1 b is2 t2, goes m is_ a is1 [] -> goes (k a) is1 b is2 t2 -> goes (bind m k) is_ b is2 t2.
Proof. intros. change t2 with ([] ++ t2). eapply g_bind; eauto. Qed.
Lemma g_last : forall A B (m : M A) (k : A -> M B) is_ a is1 b is2 t1, goes m is_ a is1 t1 -> goes (k a) is1 b is2 [] -> goes (bind m k) is_ b is2 t1.
Proof. intros. rewrite <- (app_nil_r t1). eapply g_bind; eauto. Qed.
Lemma g_test : forall A c (a b : M A) is_ v x is' ts, says c is_ v -> goes (if v then a else b) is_ x is' ts -> goes (test c a b) is_ x is' ts.
Proof. intros A c a b is_ v x is' ts S H l g O E. unfold test. rewrite (S l O E). destruct v; apply H; auto. Qed.
Lemma g_when_no : forall c a is_, says c is_ false -> goes (when_ c a) is_ tt is_ [].
Proof. intros c a is_ S. unfold when_. eapply g_test; [exact S|]. apply g_ret. Qed.
Lemma g_next : forall i r, goes (next_ toks) (i :: r) tt r [].
Proof.
  intros i r l g O E. destruct (advance_rest toks l O) as (O1 & R1 & _). exists (advance toks l), g. rewrite E in R1. rewrite app_nil_r. split; [reflexivity|]. auto.
Qed.
Lemma g_pop : forall i r, goes (pop_ toks) (i :: r) (Some i) r [].
Proof.
  intros i r l g O E. destruct (advance_rest toks l O) as (O1 & R1 & _). exists (advance toks l), g. rewrite E in R1. rewrite app_nil_r. unfold pop_. rewrite (pos_rest _ _ _ _ O E). auto 10.
Qed.
Lemma g_tok : forall k t is_, goes (tok_ k t) is_ tt is_ [Leaf k t].
Proof. intros k t is_ l g O E. eexists l, _. split; [reflexivity|]. auto. Qed.
Lemma g_empty : forall is_, goes empty_ is_ tt is_ [MonoLeaf nEmpty MNone].
Proof. intros is_ l g O E. eexists l, _. split; [reflexivity|]. auto. Qed.
Lemma g_take : forall k i r, goes (take toks k) (i :: r) tt r [Leaf k (Some i)].
Proof. intros k i r. unfold take. eapply g_then; [apply g_pop|apply g_tok]. Qed.
Lemma g_kind : forall i r k, kd i = Some k -> goes (kind_ toks 0) (i :: r) k (i :: r) [].
Proof.
  intros i r k K l g O E. exists l, g. unfold kind_, ParseModel.kind_at, ParseModel.tok_at. rewrite (pos_rest _ _ _ _ O E), Nat.add_0_r. unfold kd in K. rewrite K, app_nil_r. auto 10.
Qed.
Lemma g_attempt : forall A (m : M A) is_ a is' ts, goes m is_ a is' ts -> goes (attempt m) is_ true is' ts.
Proof. intros A m is_ a is' ts H l g O E. destruct (H l g O E) as (l1 & g1 & E1 & Q). exists l1, g1. unfold attempt. rewrite E1. auto. Qed.
Lemma g_ignore : forall A (m : M A) is_ a is' ts, goes m is_ a is' ts -> goes (ignore m) is_ tt is' ts.
Proof. intros A m is_ a is' ts H. unfold ignore. eapply g_last; [eapply g_attempt; exact H|apply g_ret]. Qed.
Lemma g_sub_parse : forall A (m : M A) is_ a is' ts, goes m is_ a is' ts -> goes (sub_parse toks m) is_ a is' ts.
Proof. intros A m is_ a is' ts H l g O E. destruct (H l g O E) as (l1 & g1 & E1 & Q). exists l1, g1. unfold sub_parse. rewrite E1. auto. Qed.
Lemma g_expect : forall f i r k, kd i = Some k -> f k = true -> goes (expect toks f) (i :: r) tt (i :: r) [].
Proof. intros f i r k K F. unfold expect. eapply g_test; [apply at_says|]. rewrite K, F. apply g_ret. Qed.
Lemma g_try_take : forall f i r k n, kd i = Some k -> f k = true -> goes (try_take toks n f) (i :: r) tt r [Leaf n (Some i)].
Proof. intros. unfold try_take. eapply g_then; [eapply g_expect; eauto|apply g_take]. Qed.

(** closing the tree that was opened last *)
Lemma end_ok : forall (N : list node) k (ts : list tree) P, TreeModel.end_tree (TreeModel.mkGroup (N ++ TreeModel.mkNode k (TreeModel.Ext 0) :: fflat ts) (length N :: P)) 0 =
  Ok (TreeModel.mkGroup (N ++ fflat [Branch k ts]) P, length N).
Proof.
  intros N k ts P. rewrite TreeProofs.end_tree_closes, TreeProofs.fflat_length. unfold TreeProofs.fflat. cbn. rewrite app_nil_r. reflexivity.
Qed.
Lemma group_eta : forall g : TreeModel.group nk (option nat) mono, g = TreeModel.mkGroup (nodes g) (pending g).
Proof. intros []. reflexivity. Qed.
Lemma g_guard : forall A k (m : M A) is_ a is' ts, goes m is_ a is' ts -> goes (guard k m) is_ a is' [Branch k ts].
Proof.
  intros A k m is_ a is' ts H l g O E. destruct (H l (fst (TreeModel.start_tree g (TreeModel.mkNode k (TreeModel.Ext 0)))) O E) as (l1 & g1 & E1 & O1 & R1 & N1 & P1).
  cbn [TreeModel.start_tree fst TreeModel.nodes TreeModel.pending] in N1, P1. rewrite <- app_assoc in N1. cbn [app] in N1.
  exists l1, (TreeModel.mkGroup (nodes g ++ fflat [Branch k ts]) (pending g)). unfold guard. rewrite E1, (group_eta g1), N1, P1, end_ok. cbn [obind TreeModel.pending TreeModel.nodes].
  rewrite Nat.eqb_refl. auto 10.
Qed.
Lemma g_while_stop : forall n c body is_, says c is_ false -> 0 < n -> goes (while_ n c body) is_ tt is_ [].
Proof. intros n c body is_ S L. destruct n; [lia|]. cbn [while_]. eapply g_test; [exact S|]. apply g_ret. Qed.
Lemma g_while_step : forall n c body is_ is1 t1 is2 t2, says c is_ true -> goes body is_ tt is1 t1 -> goes (while_ n c body) is1 tt is2 t2 -> goes (while_ (S n) c body) is_ tt is2 (t1 ++ t2).
Proof. intros. cbn [while_]. eapply g_test; [eassumption|]. cbv iota. eapply g_bind; eauto. Qed.

(** Blanks and line ends *)
Definition head_not (f : tk -> bool) (is_ : list nat) : Prop := forall i r k, is_ = i :: r -> kd i = Some k -> f k = false.
Lemma not_says : forall f is_, head_not f is_ -> says (at_ 0 f) is_ false.
Proof.
  intros f [|i r] H; [apply at_end|]. intros l O E. rewrite (at_says f i r l O E). destruct (kd i) as [k|] eqn:K; [|reflexivity]. eapply H; eauto.
Qed.
Lemma g_skip0 : forall f n is_, head_not f is_ -> 0 < n -> goes (while_ n (at_ 0 f) (next_ toks)) is_ tt is_ [].
Proof. intros. apply g_while_stop; auto. now apply not_says. Qed.
Lemma g_skip1 : forall f n i r k, kd i = Some k -> f k = true -> head_not f r -> 1 < n -> goes (while_ n (at_ 0 f) (next_ toks)) (i :: r) tt r [].
Proof.
  intros f n i r k K F H L. destruct n as [|n]; [lia|]. change (@nil tree) with (@nil tree ++ []). eapply g_while_step; [|apply g_next|apply g_skip0; auto; lia].
  intros l O E. rewrite (at_says f i r l O E), K. exact F.
Qed.
(** Collecting tokens for a sub-lexer *)
Lemma g_collect : forall stop a b n, (forall i r, In i a -> says stop (i :: r) false) -> (b = [] \/ says stop b true) -> length a < n ->
  goes (collect toks n stop) (a ++ b) (map Some a) b [].
Proof.
  intros stop a b. induction a as [|i a IH]; intros n H B L; (destruct n as [|n]; [cbn in L; lia|]); cbn [collect app map].
  - eapply (g_test _ _ _ _ _ false); [|apply g_ret]. intros l O E. unfold can_search. rewrite finished_rest, E by auto.
    destruct B as [-> |B]; [reflexivity|]. rewrite (B l O E). rewrite andb_false_r. reflexivity.
  - eapply (g_test _ _ _ _ _ true).
    + intros l O E. unfold can_search. rewrite finished_rest, E by auto. rewrite (H i (a ++ b) (or_introl eq_refl) l O E). reflexivity.
    + cbv iota. eapply g_then; [apply g_pop|]. eapply g_then; [apply IH; auto; [intros j r J; apply H; right; exact J|cbn in L; lia]|]. apply g_ret.
Qed.
Lemma g_in_sub : forall A (m : M A) js a is' ts is_, js <> [] -> gapped js -> goes m js a is' ts -> goes (in_sub (map Some js) m) is_ a is_ ts.
Proof.
  intros A m js a is' ts is_ N G H l g O E. destruct js as [|j js]; [congruence|]. cbn [in_sub map]. unfold run_sub.
  destruct (H (sub_lexer (Some j :: map Some js)) g) as (l1 & g1 & E1 & _ & _ & N1 & P1).
  - unfold ParseLogic.okl, sub_lexer. cbn. exists (j :: js). auto.
  - unfold ParseLogic.rest, sub_lexer. cbn. now rewrite olist_map.
  - rewrite E1. exists l, g1. auto.
Qed.

(** *** Running text *)
Definition takes (i : nat) (t : tree) : Prop := exists k b, kd i = Some k /\ text_class k = CTake b /\ t = Leaf b (Some i).
Inductive inl : list nat -> list tree -> Prop :=
| inl_nil : inl [] []
| inl_take i t r ts : takes i t -> inl r ts -> inl (i :: r) (t :: ts)
| inl_mark i kb m ws wt j ke r ts : kd i = Some kb -> text_class kb = CBegin m -> Forall2 takes ws wt -> kd j = Some ke -> text_class ke = CEnd m -> inl r ts ->
    inl (i :: ws ++ j :: r) (Branch m wt :: ts).
Lemma inl_app : forall a ta b tb, inl a ta -> inl b tb -> inl (a ++ b) (ta ++ tb).
Proof.
  intros a ta b tb H B. induction H as [|i t r ts T _ IH|i kb m ws wt j ke r ts Ki Ci F Kj Cj _ IH]; [exact B|constructor; auto|]. cbn [app]. rewrite <- app_assoc. cbn [app].
  eapply inl_mark; eauto.
Qed.
Lemma inl_takes : forall a ta, Forall2 takes a ta -> inl a ta.
Proof. induction 1; constructor; auto. Qed.

Notation text_loop m n := (while_ m (fun l => negb (finished toks l)) (ignore (single toks n (fold_text toks n) (guard nParagraph (balanced (fold_text toks n))) (balanced (fold_text toks n))))).
Lemma g_single_take : forall n aux p q i r t, takes i t -> goes (single toks n aux p q) (i :: r) tt r [t].
Proof.
  intros n aux p q i r t (k & b & K & C & ->). unfold single. eapply g_then; [eapply g_kind; exact K|]. rewrite C. apply g_take.
Qed.
(** Inside an open mark: the words of it are added to the open tree. *)
Lemma open_words : forall n ws wt, Forall2 takes ws wt -> forall m l g r, okl l -> rest l = ws ++ r -> length ws <= m ->
  exists l1 g1, text_loop m n l g = text_loop (m - length ws) n l1 g1 /\ okl l1 /\ rest l1 = r /\ nodes g1 = nodes g ++ fflat wt /\ pending g1 = pending g.
Proof.
  intros n ws wt F. induction F as [|i t ws wt T F IH]; intros m l g r O E L.
  - exists l, g. rewrite Nat.sub_0_r, app_nil_r. auto.
  - destruct m as [|m]; [cbn in L; lia|]. cbn [length Nat.sub app] in *.
    destruct (g_ignore _ _ _ _ _ _ (g_single_take n (fold_text toks n) (guard nParagraph (balanced (fold_text toks n))) (balanced (fold_text toks n)) i (ws ++ r) t T) l g O E) as (l1 & g1 & E1 & O1 & R1 & N1 & P1).
    destruct (IH m l1 g1 r O1 R1 ltac:(lia)) as (l2 & g2 & E2 & O2 & R2 & N2 & P2).
    exists l2, g2. rewrite <- E2. split; [|split; [exact O2|]; split; [exact R2|]; split; [|congruence]].
    + cbn [while_]. unfold test at 1. rewrite (finished_says _ l O E). unfold bind at 1. rewrite E1. reflexivity.
    + rewrite N2, N1, <- app_assoc. f_equal. cbn. rewrite app_nil_r. reflexivity.
Qed.
Lemma text_loop_ok : forall is_ ts, inl is_ ts -> forall m n, length is_ < m -> length is_ < n -> goes (text_loop m n) is_ tt [] ts.
Proof.
  intros is_ ts H. induction H as [|i t r ts T _ IH|i kb m ws wt j ke r ts Ki Ci F Kj Cj _ IH]; intros x n Lx Ln.
  - apply g_while_stop; [apply (finished_says [])|cbn in Lx; lia].
  - destruct x as [|x]; [lia|]. cbn [length] in *. change (t :: ts) with ([t] ++ ts). eapply g_while_step; [apply (finished_says (i :: r))| |apply IH; lia].
    eapply g_ignore. now apply g_single_take.
  - cbn [length] in *. rewrite app_length in *. cbn [length] in *. destruct x as [|x]; [lia|]. destruct n as [|n]; [lia|].
    rewrite <- (app_nil_r (Branch m wt :: ts)). eapply g_while_step; [apply (finished_says (i :: ws ++ j :: r))| |apply g_while_stop; [apply (finished_says [])|lia]].
    eapply g_ignore. unfold single. eapply g_then; [eapply g_kind; exact Ki|]. rewrite Ci.
    intros l g O E. unfold begin_. destruct (advance_rest toks l O) as (O1 & R1 & _). rewrite E in R1. cbn [tl] in R1.
    set (g0 := fst (TreeModel.start_tree g (TreeModel.mkNode m (TreeModel.Ext 0)))).
    destruct (open_words n ws wt F n (advance toks l) g0 (j :: r) O1 R1 ltac:(lia)) as (l2 & g2 & E2 & O2 & R2 & N2 & P2).
    assert (Ej : exists l3, text_loop (n - length ws) n l2 g2 = text_loop (n - length ws - 1) n l3 (TreeModel.mkGroup (nodes g ++ fflat [Branch m wt]) (pending g)) /\ okl l3 /\ rest l3 = r).
    { destruct (n - length ws) as [|y] eqn:Ey; [lia|]. cbn [Nat.sub]. rewrite Nat.sub_0_r. destruct (advance_rest toks l2 O2) as (O3 & R3 & _). rewrite R2 in R3. cbn [tl] in R3.
      exists (advance toks l2). split; [|auto]. cbn [while_]. unfold test at 1. rewrite (finished_says _ l2 O2 R2). unfold bind at 1, ignore at 1, bind at 1, attempt at 1, single at 1, bind at 1.
      unfold kind_, ParseModel.kind_at, ParseModel.tok_at. rewrite (pos_rest _ _ _ _ O2 R2), Nat.add_0_r. unfold kd in Kj. rewrite Kj, Cj.
      unfold end_, with_pending. rewrite P2, N2. unfold g0. cbn [TreeModel.start_tree fst TreeModel.pending TreeModel.nodes]. rewrite <- app_assoc. cbn [app].
      rewrite nth_error_app2, Nat.sub_diag by lia. cbn [nth_error TreeModel.kind]. rewrite (proj2 (nk_eqb_eq m m) eq_refl). unfold end_tree_, bind at 1.
      rewrite (group_eta g2), P2, N2. unfold g0. cbn [TreeModel.start_tree fst TreeModel.pending TreeModel.nodes]. rewrite <- app_assoc. cbn [app]. rewrite end_ok. cbn [omap obind]. reflexivity. }
    destruct Ej as (l3 & E3 & O3 & R3). destruct (IH (n - length ws - 1) n ltac:(lia) ltac:(lia) l3 (TreeModel.mkGroup (nodes g ++ fflat [Branch m wt]) (pending g)) O3 R3) as (l4 & g4 & E4 & O4 & R4 & N4 & P4).
    exists l4, g4.
    assert (EA : ignore (fold_text toks (S n)) (advance toks l) g0 = Ok (Some tt, l4, g4)).
    { unfold ignore, bind, attempt. cbn [fold_text]. unfold fold_text_. rewrite E2, E3, E4. reflexivity. }
    rewrite EA. cbn [TreeModel.nodes TreeModel.pending] in N4, P4. rewrite P4, Nat.ltb_irrefl. split; [reflexivity|]. split; [exact O4|]. split; [exact R4|]. split; [|reflexivity].
    rewrite N4, <- app_assoc. f_equal. cbn. rewrite app_nil_r. reflexivity.
Qed.
Lemma g_paragraph : forall is_ ts n, inl is_ ts -> S (length is_) < n -> goes (paragraph toks n) is_ tt [] [Branch nParagraph ts].
Proof.
  intros is_ ts n H L. unfold paragraph. apply g_guard. intros l g O E. destruct n as [|n]; [lia|].
  assert (G : goes (fold_text toks (S n)) is_ tt [] ts). { intros l0 g0 O0 E0. cbn [fold_text]. unfold fold_text_. apply (text_loop_ok is_ ts H n n); auto; lia. }
  destruct (g_ignore _ _ _ _ _ _ G l g O E) as (l1 & g1 & E1 & O1 & R1 & N1 & P1). exists l1, g1. unfold balanced. rewrite E1, P1, Nat.eqb_refl. auto.
Qed.

(** *** Statements *)
Definition all_not (f : tk -> bool) (is_ : list nat) : Prop := forall i k, In i is_ -> kd i = Some k -> f k = false.
Lemma g_stmt_par : forall is_ ts b n i k, inl is_ ts -> gapped is_ -> hd_error is_ = Some i -> kd i = Some k -> stmt_class k = SText ->
  all_not paragraph_end is_ -> (b = [] \/ exists j r k', b = j :: r /\ kd j = Some k' /\ paragraph_end k' = true) -> length is_ + 2 < n ->
  goes (stmt toks n) (is_ ++ b) tt b [Branch nParagraph ts].
Proof.
  intros is_ ts b n i k H G Hi K C A B L. destruct n as [|n]; [lia|]. intros l g O E. cbn [stmt]. revert l g O E. fold (goes (statement toks n (stmt toks n)) (is_ ++ b) tt b [Branch nParagraph ts]).
  unfold statement. destruct is_ as [|i' is_]; [discriminate|]. injection Hi as ->. eapply g_then; [cbn [app]; eapply g_kind; exact K|]. rewrite C.
  eapply g_then; [apply (g_collect _ (i :: is_) b)|].
  - intros j r J. apply not_says. intros j' r' k' E K'. injection E as <- <-. eapply A; eauto.
  - destruct B as [->|(j & r & k' & -> & Kj & Pj)]; [auto|]. right. intros l O E. rewrite (at_says _ _ _ l O E), Kj. exact Pj.
  - cbn [length] in *. lia.
  - cbn [map]. change (Some i :: map Some is_) with (map Some (i :: is_)). eapply g_in_sub; [discriminate|exact G|]. apply g_paragraph; auto. cbn [length] in *. lia.
Qed.
Lemma g_stmt_newline : forall i r k n, kd i = Some k -> newline_kind k = true -> 0 < n -> goes (stmt toks n) (i :: r) tt r [Leaf nNewline (Some i)].
Proof.
  intros i r k n K N L. destruct n as [|n]; [lia|]. intros l g O E. cbn [stmt]. revert l g O E. fold (goes (statement toks n (stmt toks n)) (i :: r) tt r [Leaf nNewline (Some i)]).
  unfold statement. eapply g_then; [eapply g_kind; exact K|]. destruct k; try discriminate N; apply g_take.
Qed.
Definition heading (s : nat) (ts : list tree) : tree :=
  let e := MonoLeaf nEmpty MNone in Branch nSubtree [Leaf nRawText (Some s); e; e; Branch nParagraph ts; e; e; e; e; Branch nStmtList []].
Lemma g_stmt_head : forall s w is_ ts i k b kb r n, kd s = Some kSubtreeStars -> kd w = Some kWhitespace -> inl is_ ts -> gapped is_ ->
  hd_error is_ = Some i -> kd i = Some k -> space_kind k = false -> all_not newline_kind is_ -> kd b = Some kb -> newline_kind kb = true ->
  head_not newline_kind r -> length is_ + 3 < n ->
  goes (stmt toks n) (s :: w :: is_ ++ b :: r) tt r [heading s ts].
Proof.
  intros s w is_ ts i k b kb r n Ks Kw H G Hi Ki Si A Kb Nb Nr L. destruct n as [|n]; [lia|]. intros l g O E. cbn [stmt]. revert l g O E.
  fold (goes (statement toks n (stmt toks n)) (s :: w :: is_ ++ b :: r) tt r [heading s ts]).
  unfold statement. eapply g_then; [eapply g_kind; exact Ks|]. cbn [stmt_class]. unfold subtree. apply g_guard.
  assert (Hs : head_not space_kind (is_ ++ b :: r)).
  { destruct is_ as [|i' is_]; [discriminate|]. injection Hi as ->. intros j q k' X Kj. injection X as <- _. congruence. }
  assert (Hb : head_not space_kind (b :: r)) by (intros j q k' X Kj; injection X as <- _; rewrite Kb in Kj; injection Kj as <-; destruct kb; try discriminate Nb; reflexivity).
  assert (EL : forall m is1 is2 ts, goes m is1 tt is2 ts -> goes (element false m) is1 false is2 ts).
  { intros m is1 is2 ts' M. unfold element. eapply g_last; [eapply g_attempt; exact M|]. apply g_ret. }
  assert (NO : forall f is1, (forall k, plain_token k = true -> f k = false) -> says (at_ 0 f) is1 false) by (intros f is1 F l O E; apply at_none; exact F).
  change [Leaf nRawText (Some s); MonoLeaf nEmpty MNone; MonoLeaf nEmpty MNone; Branch nParagraph ts; MonoLeaf nEmpty MNone; MonoLeaf nEmpty MNone; MonoLeaf nEmpty MNone; MonoLeaf nEmpty MNone; Branch nStmtList []]
    with ([Leaf nRawText (Some s)] ++ [MonoLeaf nEmpty MNone] ++ [MonoLeaf nEmpty MNone] ++ [Branch nParagraph ts] ++ [MonoLeaf nEmpty MNone] ++ [MonoLeaf nEmpty MNone] ++ [MonoLeaf nEmpty MNone] ++ [MonoLeaf nEmpty MNone] ++ [Branch nStmtList []]).
  eapply g_bind; [eapply g_try_take; [exact Ks|reflexivity]|]. cbv beta.
  eapply g_bind; [apply EL; unfold todo; eapply g_then; [apply (g_skip1 space_kind n w _ _ Kw eq_refl Hs); lia|]; eapply g_test; [intros l O E; apply vec_none|]; apply g_empty|]. cbv beta.
  eapply g_bind; [apply EL; unfold urgency; eapply g_then; [apply (g_skip0 space_kind n _ Hs); lia|]; eapply g_test; [apply NO; none|]; apply g_empty|]. cbv beta.
  eapply g_then; [apply (g_skip0 space_kind n _ Hs); lia|]. cbv beta.
  eapply g_bind; [apply EL; unfold title; eapply g_then; [apply (g_skip0 space_kind n _ Hs); lia|]; cbv beta; eapply g_then; [apply (g_collect _ is_ (b :: r))|]|].
  { intros j q J l O E. apply orb_false_iff. split; [|apply at_none; none]. apply orb_false_iff. split.
    - rewrite (at_says _ _ _ l O E). destruct (kd j) as [k'|] eqn:Kj; [|reflexivity]. eapply A; eauto.
    - unfold at_tags. unfold at0. rewrite at_none by none. reflexivity. }
  { right. intros l O E. rewrite (at_says _ _ _ l O E), Kb, Nb. reflexivity. }
  { lia. }
  { unfold par_of, par_or_empty. destruct is_ as [|i' is_]; [discriminate|]. cbn [map]. change (Some i' :: map Some is_) with (map Some (i' :: is_)).
    eapply g_in_sub; [discriminate|exact G|]. apply g_sub_parse. apply g_paragraph; [exact H|lia]. }
  cbv beta. eapply g_bind; [apply EL; unfold completion; eapply g_then; [apply (g_skip0 space_kind n _ Hb); lia|]; eapply g_test; [apply NO; none|]; apply g_empty|]. cbv beta.
  eapply g_then; [apply (g_skip0 space_kind n _ Hb); lia|]. cbv beta.
  eapply g_bind; [apply EL; unfold tags; eapply g_test; [apply NO; none|]; apply g_empty|]. cbv beta.
  assert (TAIL : forall is1, (is1 = b :: r \/ is1 = r) -> goes (newline toks n) is1 tt r []).
  { intros is1 [-> | ->]; unfold newline; [eapply g_skip1; eauto; lia|apply g_skip0; auto; lia]. }
  assert (W : forall is1, (is1 = b :: r \/ is1 = r) -> exists is2, (is2 = b :: r \/ is2 = r) /\ goes (when_ (at0 toks kNewline) (newline toks n)) is1 tt is2 []).
  { intros is1 X. unfold when_, at0. destruct is1 as [|j q] eqn:Ej.
    - exists []. split; [auto|]. eapply g_test; [apply at_end|]. apply g_ret.
    - destruct (match kd j with Some k => is kNewline k | None => false end) eqn:V.
      + exists r. split; [auto|]. eapply g_test; [apply at_says|]. rewrite V. apply TAIL. exact X.
      + exists (j :: q). split; [auto|]. eapply g_test; [apply at_says|]. rewrite V. apply g_ret. }
  destruct (W (b :: r) (or_introl eq_refl)) as (is2 & X2 & W2). eapply g_then; [exact W2|]. cbv beta.
  eapply g_bind; [apply EL; unfold times; eapply (g_test _ _ _ _ _ false); [|apply g_empty]|].
  { intros l O E. unfold at0. rewrite (at_none 0 (is kLeadingSpace)), (at_none 0 (is kTreeTime)) by none. reflexivity. }
  cbv beta. destruct (W is2 X2) as (is3 & X3 & W3). eapply g_then; [exact W3|]. cbv beta.
  eapply g_bind; [eapply g_test; [apply NO; none|]; eapply g_last; [apply g_empty|apply g_ret]|]. cbv beta.
  eapply g_then; [apply TAIL; exact X3|]. cbv beta iota. eapply g_last; [apply g_guard; apply g_ret|]. apply g_ret.
Qed.

(** *** The whole document *)
Lemma g_top_stmt : forall is_ is' ts n, goes (stmt toks n) is_ tt is' ts -> goes (test (at0 toks kComment) (next_ toks)
  (ok <- attempt (stmt toks n) ;; if (ok : bool) then ret tt else guard nErrorSkipGroup (while_ n (can_search toks (at_ 0 newline_kind)) (take toks nErrorSkipToken)))) is_ tt is' ts.
Proof.
  intros is_ is' ts n H. eapply (g_test _ _ _ _ _ false); [intros l O E; unfold at0; apply at_none; none|]. cbv iota. eapply g_last; [eapply g_attempt; exact H|]. apply g_ret.
Qed.
(** statements one after the other, each of at least one token *)
Inductive runs (n : nat) : list nat -> list tree -> Prop :=
| runs_end : runs n [] []
| runs_step is_ is' t ts : length is' < length is_ -> goes (stmt toks n) is_ tt is' t -> runs n is' ts -> runs n is_ (t ++ ts).
Lemma runs_flat : forall n ts, toks <> [] -> runs n (seq 0 (length toks)) ts -> length toks < n -> parse_flat toks n = Ok (preorder (Branch nStmtList ts)).
Proof.
  intros n ts N R L. unfold parse_flat, top.
  assert (W : forall is_ ts, runs n is_ ts -> forall k, length is_ < k -> goes (while_ k (fun l => negb (finished toks l))
    (test (at0 toks kComment) (next_ toks) (ok <- attempt (stmt toks n) ;; if (ok : bool) then ret tt else guard nErrorSkipGroup (while_ n (can_search toks (at_ 0 newline_kind)) (take toks nErrorSkipToken))))) is_ tt [] ts).
  { clear - PK. intros is_ ts R. induction R as [|is_ is' t ts Ne G _ IH]; intros k L.
    - apply g_while_stop; [apply (finished_says [])|lia].
    - destruct k as [|k]; [lia|]. eapply g_while_step; [| |apply IH; lia].
      + intros l O E. rewrite (finished_says is_ l O E). destruct is_; [cbn in Ne; lia|reflexivity].
      + now apply g_top_stmt. }
  rewrite <- (seq_length (length toks) 0) in L. destruct (g_guard _ nStmtList _ _ _ _ _ (W _ _ R n L) whole TreeModel.empty_group) as (l1 & g1 & E1 & _ & _ & N1 & _).
  - unfold ParseLogic.okl, whole. cbn. destruct toks; [congruence|cbn; lia].
  - unfold ParseLogic.rest, whole. cbn [lpos lsub]. rewrite Nat.sub_0_r. reflexivity.
  - rewrite E1, N1. rewrite ParseProofs.preorder_flat. cbn [TreeModel.empty_group TreeModel.nodes app]. unfold TreeProofs.fflat. cbn [flat_map]. rewrite app_nil_r. reflexivity.
Qed.
Lemma takes_size : forall a ta, Forall2 takes a ta -> TreeSpec.fsize ta = length a.
Proof. induction 1 as [|i t a ta (k & b & _ & _ & ->) _ IH]; [reflexivity|]. rewrite TreeProofs.fsize_cons, IH. reflexivity. Qed.
Lemma inl_size : forall a ta, inl a ta -> TreeSpec.fsize ta <= length a.
Proof.
  intros a ta H. induction H as [|i t r ts (k & b & _ & _ & ->) _ IH|i kb m ws wt j ke r ts Ki Ci F Kj Cj _ IH]; [cbn; lia| |]; rewrite TreeProofs.fsize_cons.
  - cbn [length TreeSpec.tsize]. lia.
  - rewrite TreeProofs.tsize_sub. cbn [TreeSpec.sub_of length]. rewrite (takes_size _ _ F), app_length. cbn [length]. lia.
Qed.
(** running text has no headings in it and every leaf of it has a token *)
Definition calm (t : tree) : Prop := no_heading t /\ ~ In None (leaf_tokens (preorder t)).
Lemma takes_calm : forall a ta, Forall2 takes a ta -> Forall calm ta.
Proof.
  induction 1 as [|i t a ta (k & b & _ & C & ->) _ IH]; constructor; auto. split.
  - constructor; [|constructor]. cbn. intros ->. destruct k; discriminate C.
  - cbn. intuition discriminate.
Qed.
Lemma branch_calm : forall k ts, k <> nSubtree -> Forall calm ts -> calm (Branch k ts).
Proof.
  intros k ts N F. split.
  - constructor; [exact N|]. apply Forall_forall. intros x I. apply in_flat_map in I as (t & It & I). rewrite Forall_forall in F. destruct (F t It) as [H _].
    exact (proj1 (Forall_forall _ _) H x I).
  - cbn. unfold leaf_tokens. intros I. apply in_flat_map in I as (x & I & V). apply in_flat_map in I as (t & It & I). rewrite Forall_forall in F. destruct (F t It) as [_ H].
    apply H. apply in_flat_map. eauto.
Qed.
Lemma inl_calm : forall a ta, inl a ta -> Forall calm ta.
Proof.
  intros a ta H. induction H as [|i t r ts T _ IH|i kb m ws wt j ke r ts Ki Ci F Kj Cj _ IH]; [constructor| |]; (constructor; [|exact IH]).
  - pose proof (takes_calm [i] [t] ltac:(constructor; [exact T|constructor])) as X. now inversion X.
  - apply branch_calm; [|eapply takes_calm; exact F]. intros ->. destruct kb; discriminate Ci.
Qed.
End Forward.
