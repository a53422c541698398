(** Proofs for token cursors. *)
From Verif Require Import Base LexModel LexSpec.

Section Proofs.
Context {K : Type}.
Notation cursor := (cursor K).
Implicit Types (c : cursor) (ts : list K) (ops : list (op K)) (f : K -> bool).

Lemma id_add_some i off : (0 <= Z.of_nat i + off)%Z ->
  id_add (Some i) off = Some (Z.to_nat (Z.of_nat i + off)).
Proof.
  intros H. unfold id_add. destruct (Z.leb_spec (Z.of_nat i + 1 + off) 0); [lia|]. f_equal. lia.
Qed.

Lemma id_add_none i off : (Z.of_nat i + off < 0)%Z -> id_add (Some i) off = None.
Proof.
  intros H. unfold id_add. destruct (Z.leb_spec (Z.of_nat i + 1 + off) 0); [reflexivity|lia].
Qed.

Lemma nth_error_seq0 n i : i < n -> nth_error (seq 0 n) i = Some i.
Proof.
  intros H. rewrite (nth_error_nth' _ 0) by (rewrite seq_length; exact H). rewrite seq_nth by exact H. reflexivity.
Qed.

(** *** A cursor standing on an element *)

Definition good (c : cursor) : Prop := valid_ids (toks c) (walk c).

Lemma good_lexer ts : good (lexer ts).
Proof. unfold good, valid_ids, walk. cbn. apply Forall_forall. intros i Hi. apply in_seq in Hi. lia. Qed.

Lemma good_sub ts ids : valid_ids ts ids -> good (sublexer ts ids).
Proof. intros H. exact H. Qed.

Lemma on_pos c i : on c i -> good c -> exists id k, nth_error (walk c) i = Some id /\ pos c = Some id /\
  nth_error (toks c) id = Some k.
Proof.
  intros (Hp & Hi & _) Hg.
  destruct (nth_error (walk c) i) as [id|] eqn:E; [|apply nth_error_None in E; lia].
  unfold good, valid_ids in Hg. rewrite Forall_forall in Hg.
  specialize (Hg id (nth_error_In _ _ E)).
  destruct (nth_error (toks c) id) as [k|] eqn:Ek; [|apply nth_error_None in Ek; lia].
  exists id, k. auto.
Qed.

Lemma tok0 c id k : pos c = Some id -> nth_error (toks c) id = Some k -> tok c 0 = Ok k.
Proof.
  intros Hp Hk. unfold tok. rewrite Hp, id_add_some by lia.
  replace (Z.to_nat (Z.of_nat id + 0)) with id by lia. rewrite Hk. reflexivity.
Qed.

Lemma on_tok c i : on c i -> good c -> exists id k, nth_error (walk c) i = Some id /\
  nth_error (toks c) id = Some k /\ tok c 0 = Ok k /\ pos c = Some id.
Proof.
  intros Ho Hg. destruct (on_pos c i Ho Hg) as (id & k & Hw & Hp & Hk).
  exists id, k. repeat split; try assumption. eapply tok0; eassumption.
Qed.

Lemma on_has_next c i off : on c i ->
  has_next c off = ((0 <=? Z.of_nat i + off)%Z && (Z.of_nat i + off <? Z.of_nat (length (walk c)))%Z).
Proof.
  intros (Hp & Hi & Hs). unfold has_next, walk in *. destruct (sub c) as [[sp ids]|] eqn:E.
  - subst sp. destruct (nth_error ids i) as [id|] eqn:En; [|apply nth_error_None in En; lia].
    rewrite Hp. reflexivity.
  - rewrite seq_length in *. rewrite nth_error_seq0 in Hp by exact Hi. rewrite Hp.
    destruct (Z.leb_spec 0 (Z.of_nat i + off)) as [H|H].
    + rewrite id_add_some by exact H.
      destruct (Z.ltb_spec (Z.of_nat i + off) (Z.of_nat (length (toks c)))) as [H2|H2];
      destruct (Nat.ltb_spec (Z.to_nat (Z.of_nat i + off)) (length (toks c))); lia || reflexivity.
    + rewrite id_add_none by exact H. reflexivity.
Qed.

Lemma on_not_finished c i : on c i -> finished c = false.
Proof.
  intros H. unfold finished. rewrite (on_has_next c i 0 H). destruct H as (_ & Hi & _).
  destruct (Z.leb_spec 0 (Z.of_nat i + 0)); destruct (Z.ltb_spec (Z.of_nat i + 0) (Z.of_nat (length (walk c)))); try lia.
Qed.

Lemma next_walk c off c' : next c off = Ok c' -> walk c' = walk c /\ toks c' = toks c.
Proof.
  unfold next, walk. destruct (sub c) as [[sp ids]|] eqn:E.
  - destruct (has_next c off).
    + destruct (tok c 0); cbn [obind]; try discriminate. intros H; injection H as <-. auto.
    + intros H; injection H as <-. auto.
  - destruct (has_next c off).
    + destruct (tok c 0); cbn [obind]; try discriminate. intros H; injection H as <-. auto.
    + intros H; injection H as <-. auto.
Qed.

Lemma on_next c i off : on c i -> good c ->
  exists c', next c off = Ok c' /\ walk c' = walk c /\ toks c' = toks c /\
    if ((0 <=? Z.of_nat i + off)%Z && (Z.of_nat i + off <? Z.of_nat (length (walk c)))%Z)
    then on c' (Z.to_nat (Z.of_nat i + off)) else pos c' = None.
Proof.
  intros Ho Hg. pose proof (on_tok c i Ho Hg) as (id & k & Hw & Hk & Ht & Hp).
  pose proof (on_has_next c i off Ho) as Hn.
  remember ((0 <=? Z.of_nat i + off)%Z && (Z.of_nat i + off <? Z.of_nat (length (walk c)))%Z) as b eqn:Eb.
  destruct Ho as (Hpos & Hi & Hs).
  assert (Hx : exists c', next c off = Ok c' /\ if b then on c' (Z.to_nat (Z.of_nat i + off)) else pos c' = None).
  { unfold next. rewrite Hn, Ht. destruct (sub c) as [[sp ids]|] eqn:E.
    - subst sp. destruct b; cbn [obind].
      + eexists. split; [reflexivity|]. unfold on, walk in *. cbn [pos sub toks]. rewrite E in *.
        unfold znth. destruct (Z.ltb_spec (Z.of_nat i + off) 0); [lia|].
        split; [reflexivity|]. split; lia.
      + eexists. split; [reflexivity|]. reflexivity.
    - destruct b; cbn [obind].
      + eexists. split; [reflexivity|]. unfold on, walk in *. cbn [pos sub toks]. rewrite E in *.
        rewrite seq_length in *. rewrite Hp.
        rewrite nth_error_seq0 in Hw by exact Hi. injection Hw as <-.
        rewrite id_add_some by lia.
        rewrite nth_error_seq0 by lia. split; [reflexivity|]. split; [lia|exact I].
      + eexists. split; [reflexivity|]. reflexivity. }
  destruct Hx as (c' & Hnx & Hb). exists c'. destruct (next_walk _ _ _ Hnx). auto.
Qed.

Lemma good_same c c' : walk c' = walk c -> toks c' = toks c -> good c -> good c'.
Proof. unfold good. intros -> ->. auto. Qed.

Lemma skipn_cons_nth {A} (l : list A) i x : nth_error l i = Some x -> skipn i l = x :: skipn (S i) l.
Proof.
  revert i; induction l as [|y l IH]; intros [|i] H; try discriminate.
  - injection H as ->. reflexivity.
  - cbn [skipn]. apply IH, H.
Qed.

(** a finished cursor *)
Lemma pos_none_has_next c off : pos c = None -> has_next c off = false.
Proof. intros H. unfold has_next. destruct (sub c) as [[sp ids]|]; rewrite H; reflexivity. Qed.

Lemma pos_none_finished c : pos c = None -> finished c = true.
Proof. intros H. unfold finished. rewrite pos_none_has_next by exact H. reflexivity. Qed.

(** *** Collecting loop *)
Lemma pop_until_spec stop : forall n c i fuel, on c i -> good c ->
  length (walk c) - i = n -> n < fuel ->
  let m := lead (toks c) stop (skipn i (walk c)) in
  exists c', pop_until fuel c stop = Ok (map Some (firstn m (skipn i (walk c))), c') /\
    walk c' = walk c /\ toks c' = toks c /\
    (if i + m <? length (walk c) then on c' (i + m) else finished c' = true).
Proof.
  induction n as [n IH] using lt_wf_ind. intros c i fuel Ho Hg Hn Hf m.
  destruct fuel as [|fuel]; [lia|]. cbn [pop_until].
  rewrite (on_not_finished c i Ho).
  destruct (on_tok c i Ho Hg) as (id & k & Hw & Hk & Ht & Hp).
  pose proof (proj1 (proj2 Ho)) as Hi.
  assert (Hn0 : has_next c 0 = true).
  { pose proof (on_not_finished c i Ho) as F. unfold finished in F. destruct (has_next c 0); [reflexivity|discriminate]. }
  unfold at_kind. rewrite Hn0, Ht. unfold omap. cbn [obind].
  assert (Hm : m = if stop k then 0 else S (lead (toks c) stop (skipn (S i) (walk c)))).
  { unfold m. rewrite (skipn_cons_nth _ _ _ Hw). cbn [lead]. rewrite Hk. reflexivity. }
  destruct (stop k).
  - rewrite Hm. cbn [firstn map]. exists c. split; [reflexivity|]. repeat split.
    rewrite Nat.add_0_r. rewrite (proj2 (Nat.ltb_lt _ _) Hi). exact Ho.
  - unfold pop, omap. destruct (on_next c i 1 Ho Hg) as (c1 & Hnx & Hw1 & Ht1 & Hb). rewrite Hnx. cbn [obind].
    assert (Hg1 : good c1) by (eapply good_same; eassumption).
    rewrite Hm, (skipn_cons_nth _ _ _ Hw). cbn [firstn map].
    destruct (Nat.lt_ge_cases (S i) (length (walk c))) as [Hlt|Hge].
    + rewrite (proj2 (Z.leb_le _ _)) in Hb by lia. rewrite (proj2 (Z.ltb_lt _ _)) in Hb by lia. cbn [andb] in Hb.
      replace (Z.to_nat (Z.of_nat i + 1)) with (S i) in Hb by lia.
      destruct (IH (length (walk c) - S i) ltac:(lia) c1 (S i) fuel Hb Hg1 ltac:(rewrite Hw1; lia) ltac:(lia))
        as (c2 & Hr & Hw2 & Ht2 & Hfin).
      rewrite Hr. cbn [obind]. rewrite Hw1, Ht1 in *. exists c2. split.
      { rewrite Hp. reflexivity. }
      split; [congruence|]. split; [congruence|].
      replace (i + S (lead (toks c) stop (skipn (S i) (walk c)))) with (S i + lead (toks c) stop (skipn (S i) (walk c))) by lia.
      exact Hfin.
    + rewrite (proj2 (Z.leb_le _ _)) in Hb by lia. rewrite (proj2 (Z.ltb_ge _ _)) in Hb by lia. cbn [andb] in Hb.
      assert (Hsk : skipn (S i) (walk c) = []) by (apply skipn_all2; lia).
      rewrite Hsk. cbn [lead firstn map].
      exists c1. destruct fuel as [|fuel]; [lia|]. cbn [pop_until]. rewrite (pos_none_finished c1 Hb). cbn [obind].
      rewrite Hp. split; [reflexivity|]. split; [exact Hw1|]. split; [exact Ht1|].
      rewrite (proj2 (Nat.ltb_ge _ _)) by lia. reflexivity.
Qed.

Lemma finished_pop_until c stop fuel : finished c = true -> pop_until (S fuel) c stop = Ok ([], c).
Proof. intros H. cbn [pop_until]. rewrite H. reflexivity. Qed.

(** *** Histories *)

(** invariant of a cursor in use *)
Definition inv (c : cursor) : Prop :=
  good c /\ (finished c = true \/ exists i, on c i).

Lemma inv_start_lexer ts : inv (lexer ts).
Proof.
  split; [apply good_lexer|]. destruct ts as [|k ts].
  - left. reflexivity.
  - right. exists 0. split; [reflexivity|]. split; [cbn; lia|exact I].
Qed.

Lemma inv_start_sub ts ids : valid_ids ts ids -> inv (sublexer ts ids).
Proof.
  intros H. split; [exact H|]. destruct ids as [|a ids].
  - left. reflexivity.
  - right. exists 0. split; [reflexivity|]. split; [cbn; lia|reflexivity].
Qed.

Lemma index_of_spec l x n : index_of l x = Some n -> nth_error l n = Some x /\ n < length l.
Proof.
  revert n; induction l as [|y l IH]; intros n H; [discriminate|]. cbn [index_of] in H.
  destruct (Nat.eqb_spec y x) as [->|]; [injection H as <-; cbn; split; [reflexivity|lia]|].
  destruct (index_of l x) as [m|]; [|discriminate]. injection H as <-.
  destruct (IH m eq_refl). cbn. split; [assumption|lia].
Qed.

Lemma finished_next c off c' : finished c = true -> next c off = Ok c' -> finished c' = true \/ exists i, on c' i.
Proof.
  intros Hf Hn. unfold next in Hn. unfold finished in Hf. apply negb_true_iff in Hf.
  destruct (sub c) as [[sp ids]|] eqn:E.
  - destruct (has_next c off) eqn:Hh.
    + destruct (tok c 0) as [k| | |] eqn:Ht; try discriminate. cbn [obind] in Hn. injection Hn as <-.
      right. unfold has_next in Hh. rewrite E in Hh. destruct (pos c); [|discriminate].
      apply andb_true_iff in Hh as [H1 H2]. apply Z.leb_le in H1. apply Z.ltb_lt in H2.
      exists (Z.to_nat (sp + off)). unfold on, walk. cbn [pos sub].
      unfold znth. destruct (Z.ltb_spec (sp + off) 0); [lia|]. repeat split; lia.
    + injection Hn as <-. left. reflexivity.
  - destruct (has_next c off) eqn:Hh.
    + destruct (tok c 0) as [k| | |] eqn:Ht; try discriminate.
      exfalso. unfold has_next in Hf. rewrite E in Hf. unfold tok in Ht.
      destruct (pos c) as [i|] eqn:Hp; [|unfold has_next in Hh; rewrite E, Hp in Hh; discriminate].
      rewrite id_add_some in * by lia.
      apply Nat.ltb_ge in Hf. destruct (nth_error (toks c) (Z.to_nat (Z.of_nat i + 0))) eqn:En; [|discriminate].
      assert (Z.to_nat (Z.of_nat i + 0) < length (toks c)) by (apply nth_error_Some; congruence). lia.
    + injection Hn as <-. left. reflexivity.
Qed.

Lemma inv_next c off c' : inv c -> next c off = Ok c' -> inv c'.
Proof.
  intros [Hg H] Hn. destruct (next_walk _ _ _ Hn) as [Hw Ht]. split; [eapply good_same; eassumption|].
  destruct H as [Hf|[i Ho]].
  - eapply finished_next; eassumption.
  - destruct (on_next c i off Ho Hg) as (c2 & Hn2 & _ & _ & Hb). rewrite Hn in Hn2. injection Hn2 as <-.
    destruct (_ && _) in Hb; [right; eauto|left; apply pos_none_finished, Hb].
Qed.

Lemma inv_set_pos c id c' : inv c -> set_pos c (Some id) = Ok c' -> inv c'.
Proof.
  intros [Hg _] H. unfold set_pos in H. destruct (sub c) as [[sp ids]|] eqn:E.
  - destruct (index_of ids id) as [n|] eqn:Hi; [|discriminate]. injection H as <-.
    destruct (index_of_spec _ _ _ Hi) as [Hn Hl]. split.
    + unfold good, walk in *. cbn [sub toks]. rewrite E in Hg. exact Hg.
    + right. exists n. unfold on, walk. cbn [pos sub]. repeat split. exact Hl.
  - injection H as <-. split.
    + unfold good, walk in *. cbn [sub toks]. rewrite E in Hg. exact Hg.
    + destruct (Nat.lt_ge_cases id (length (toks c))) as [Hl|Hge].
      * right. exists id. unfold on, walk. cbn [pos sub toks]. rewrite nth_error_seq0 by exact Hl.
        rewrite seq_length. auto.
      * left. unfold finished, has_next. cbn [sub pos toks]. rewrite id_add_some by lia.
        rewrite (proj2 (Nat.ltb_ge _ _)) by lia. reflexivity.
Qed.

Lemma inv_step c o : inv c -> inv (step c o).
Proof.
  intros H. destruct o as [off| |f|f|id]; cbn [step]; unfold keep.
  - destruct (next c off) eqn:E; auto. eapply inv_next; eassumption.
  - unfold pop, omap. destruct (next c 1) eqn:E; cbn [obind snd]; auto. eapply inv_next; eassumption.
  - unfold skip. destruct (at_kind c f 0) as [b| | |]; cbn [obind]; auto.
    destruct b; auto. destruct (next c 1) eqn:E; auto. eapply inv_next; eassumption.
  - unfold try_skip. destruct (at_kind c f 0) as [b| | |]; cbn [obind]; auto.
    destruct b; auto. destruct (next c 1) eqn:E; auto. eapply inv_next; eassumption.
  - destruct (set_pos c (Some id)) eqn:E; auto. eapply inv_set_pos; eassumption.
Qed.

Lemma inv_run ops : forall c, inv c -> inv (run ops c).
Proof. induction ops as [|o ops IH]; intros c H; [exact H|]. cbn. apply IH, inv_step, H. Qed.

Lemma step_walk c o : walk (step c o) = walk c /\ toks (step c o) = toks c.
Proof.
  destruct o as [off| |f|f|id]; cbn [step]; unfold keep.
  - destruct (next c off) eqn:E; auto. eapply next_walk; eassumption.
  - unfold pop, omap. destruct (next c 1) eqn:E; cbn [obind snd]; auto. eapply next_walk; eassumption.
  - unfold skip. destruct (at_kind c f 0) as [[]| | |]; cbn [obind]; auto.
    destruct (next c 1) eqn:E; auto. eapply next_walk; eassumption.
  - unfold try_skip. destruct (at_kind c f 0) as [[]| | |]; cbn [obind]; auto.
    destruct (next c 1) eqn:E; auto. eapply next_walk; eassumption.
  - unfold set_pos. destruct (sub c) as [[sp ids]|] eqn:E.
    + destruct (index_of ids id) as [n|]; [|auto]. unfold walk. cbn [sub toks]. rewrite E. auto.
    + unfold walk. cbn [sub toks]. rewrite E. auto.
Qed.

Lemma run_walk ops : forall c, walk (run ops c) = walk c /\ toks (run ops c) = toks c.
Proof.
  induction ops as [|o ops IH]; intros c; [auto|].
  change (run (o :: ops) c) with (run ops (step c o)). destruct (IH (step c o)) as [-> ->]. apply step_walk.
Qed.

Lemma run_reports_token c ops : inv c ->
  let c' := run ops c in
  finished c' = false ->
  exists i id k, nth_error (walk c) i = Some id /\ pos c' = Some id /\
    nth_error (toks c) id = Some k /\ tok c' 0 = Ok k /\ on c' i.
Proof.
  intros H c' Hf. destruct (inv_run ops c H) as [Hg [Hf'|[i Ho]]]; [unfold c' in Hf; congruence|].
  destruct (on_tok _ _ Ho Hg) as (id & k & Hw & Hk & Ht & Hp).
  destruct (run_walk ops c) as [Ew Et]. rewrite Ew in Hw. rewrite Et in Hk.
  exists i, id, k. auto.
Qed.

Lemma lexer_history_token ts ops : let c := run ops (lexer ts) in
  finished c = false ->
  exists i k, pos c = Some i /\ nth_error ts i = Some k /\ tok c 0 = Ok k.
Proof.
  intros c Hf. destruct (run_reports_token (lexer ts) ops (inv_start_lexer ts) Hf)
    as (i & id & k & Hw & Hp & Hk & Ht & _). exists id, k. auto.
Qed.

Lemma sublexer_history_token ts ids ops : valid_ids ts ids -> let c := run ops (sublexer ts ids) in
  finished c = false ->
  exists i id k, on c i /\ nth_error ids i = Some id /\ pos c = Some id /\ nth_error ts id = Some k /\ tok c 0 = Ok k.
Proof.
  intros Hv c Hf. destruct (run_reports_token (sublexer ts ids) ops (inv_start_sub ts ids Hv) Hf)
    as (i & id & k & Hw & Hp & Hk & Ht & Ho). exists i, id, k. auto.
Qed.

(** the reached state then collects the rest *)
Lemma pop_until_run c0 ops stop fuel : inv c0 ->
  let c := run ops c0 in
  length (walk c0) < fuel ->
  (finished c = true /\ pop_until fuel c stop = Ok ([], c)) \/
  (exists i, on c i /\ let m := lead (toks c0) stop (skipn i (walk c0)) in
   exists c', pop_until fuel c stop = Ok (map Some (firstn m (skipn i (walk c0))), c') /\
     (if i + m <? length (walk c0) then on c' (i + m) else finished c' = true)).
Proof.
  intros H c Hf. destruct (inv_run ops c0 H) as [Hg Hx]. fold c in Hg, Hx. destruct Hx as [Hfin|[i Ho]].
  - left. split; [exact Hfin|]. destruct fuel; [lia|]. apply finished_pop_until, Hfin.
  - right. exists i. split; [exact Ho|]. destruct (run_walk ops c0) as [Ew Et]. fold c in Ew, Et.
    destruct (pop_until_spec stop _ c i fuel Ho Hg eq_refl ltac:(rewrite Ew; lia)) as (c' & Hr & Hw & Ht & Hb).
    rewrite Ew, Et in *. exists c'. split; [exact Hr|exact Hb].
Qed.

(** once past the end, only an explicit reposition brings a token back *)
Lemma finished_stays_step c o : pos c = None -> no_set_pos o -> pos (step c o) = None.
Proof.
  intros Hp Hn. destruct o as [off| |f|f|id]; cbn [step]; unfold keep; [| | | |contradiction].
  - unfold next. rewrite (pos_none_has_next c off Hp). destruct (sub c) as [[sp ids]|]; reflexivity.
  - unfold pop, next, omap. rewrite (pos_none_has_next c 1 Hp). destruct (sub c) as [[sp ids]|]; reflexivity.
  - unfold skip, at_kind. rewrite (pos_none_has_next c 0 Hp). exact Hp.
  - unfold try_skip, at_kind. rewrite (pos_none_has_next c 0 Hp). exact Hp.
Qed.

Lemma finished_stays ops : forall c, pos c = None -> Forall no_set_pos ops ->
  pos (run ops c) = None /\ finished (run ops c) = true.
Proof.
  induction ops as [|o ops IH]; intros c Hp Ha.
  - cbn. split; [exact Hp|apply pos_none_finished, Hp].
  - inversion Ha as [|? ? Ho Hr]; subst. cbn. apply IH; [apply finished_stays_step; assumption|assumption].
Qed.

Lemma next_exact c0 ops off : inv c0 -> let c := run ops c0 in
  forall i, on c i -> exists c', next c off = Ok c' /\
    let j := (Z.of_nat i + off)%Z in
    if ((0 <=? j)%Z && (j <? Z.of_nat (length (walk c0)))%Z)
    then on c' (Z.to_nat j) else pos c' = None /\ finished c' = true.
Proof.
  intros H c i Ho. destruct (inv_run ops c0 H) as [Hg _]. fold c in Hg.
  destruct (on_next c i off Ho Hg) as (c' & Hn & Hw & Ht & Hb). exists c'. split; [exact Hn|].
  destruct (run_walk ops c0) as [Ew _]. fold c in Ew. rewrite Ew in *. cbv zeta.
  destruct (_ && _) in *; [exact Hb|]. split; [exact Hb|apply pos_none_finished, Hb].
Qed.

(** *** Expecting a token *)
Lemma skip_exact c0 ops f : inv c0 -> let c := run ops c0 in
  match skip c f with
  | Ok c' => exists i id k, on c i /\ nth_error (walk c0) i = Some id /\ nth_error (toks c0) id = Some k /\ f k = true /\
               (if S i <? length (walk c0) then on c' (S i) else finished c' = true)
  | Throw => finished c = true \/
             exists i id k, on c i /\ nth_error (walk c0) i = Some id /\ nth_error (toks c0) id = Some k /\ f k = false
  | _ => False
  end.
Proof.
  intros H c. destruct (inv_run ops c0 H) as [Hg Hx]. fold c in Hg, Hx. destruct Hx as [Hfin|[i Ho]];
    destruct (run_walk ops c0) as [Ew Et]; fold c in Ew, Et; unfold skip, at_kind.
  - unfold finished in Hfin. apply negb_true_iff in Hfin. rewrite Hfin. cbn [obind].
    left. unfold finished. rewrite Hfin. reflexivity.
  - destruct (on_tok c i Ho Hg) as (id & k & Hw & Hk & Ht & Hp). rewrite Ew, Et in *.
    pose proof (on_not_finished c i Ho) as F. unfold finished in F. apply negb_false_iff in F. rewrite F, Ht.
    unfold omap. cbn [obind]. destruct (f k) eqn:Hfk.
    + destruct (on_next c i 1 Ho Hg) as (c' & -> & Hw' & Ht' & Hb). exists i, id, k. rewrite Ew in Hb.
      repeat split; try assumption; try apply Ho.
      destruct (Nat.ltb_spec (S i) (length (walk c0))) as [L|L].
      * rewrite (proj2 (Z.leb_le _ _)) in Hb by lia. rewrite (proj2 (Z.ltb_lt _ _)) in Hb by lia. cbn [andb] in Hb.
        replace (Z.to_nat (Z.of_nat i + 1)) with (S i) in Hb by lia. exact Hb.
      * rewrite (proj2 (Z.ltb_ge _ _)) in Hb by lia. rewrite andb_false_r in Hb. apply pos_none_finished, Hb.
    + right. exists i, id, k. auto.
Qed.

(** *** Looking ahead *)

Lemma tok_off c id off : pos c = Some id -> (0 <= off)%Z ->
  tok c off = match nth_error (toks c) (id + Z.to_nat off) with Some k => Ok k | None => Throw end.
Proof.
  intros Hp Ho. unfold tok. rewrite Hp, id_add_some by lia.
  replace (Z.to_nat (Z.of_nat id + off)) with (id + Z.to_nat off) by lia. reflexivity.
Qed.

(** contiguous walks look ahead correctly *)
Lemma contiguous_nth ids i a d b : contiguous ids ->
  nth_error ids i = Some a -> nth_error ids (i + d) = Some b -> b = a + d.
Proof.
  intros Hc Ha. revert b; induction d as [|d IH]; intros b Hb.
  - rewrite Nat.add_0_r in Hb. rewrite Ha in Hb. injection Hb as <-. lia.
  - rewrite Nat.add_succ_r in Hb.
    destruct (nth_error ids (i + d)) as [x|] eqn:Hx.
    + specialize (IH x eq_refl). rewrite (Hc _ _ _ Hx Hb). lia.
    + apply nth_error_None in Hx. assert (S (i + d) < length ids) by (apply nth_error_Some; congruence). lia.
Qed.

Lemma seq_contiguous n : contiguous (seq 0 n).
Proof.
  intros i a b Ha Hb.
  assert (S i < n) by (rewrite <- (seq_length n 0); apply nth_error_Some; congruence).
  rewrite nth_error_seq0 in Ha by lia. rewrite nth_error_seq0 in Hb by lia. congruence.
Qed.

Lemma lookahead_contiguous c0 ops off : inv c0 -> contiguous (walk c0) -> let c := run ops c0 in
  forall i, on c i -> forall id, (0 <= Z.of_nat i + off)%Z ->
  nth_error (walk c0) (Z.to_nat (Z.of_nat i + off)) = Some id ->
  has_next c off = true /\
  tok c off = match nth_error (toks c0) id with Some k => Ok k | None => Throw end.
Proof.
  intros H Hc c i Ho id Hnn Hid. destruct (inv_run ops c0 H) as [Hg _]. fold c in Hg.
  destruct (run_walk ops c0) as [Ew Et]. fold c in Ew, Et.
  destruct (on_tok c i Ho Hg) as (id0 & k & Hw & Hk & Ht & Hp). rewrite Ew, Et in *.
  assert (Hlt : Z.to_nat (Z.of_nat i + off) < length (walk c0)) by (apply nth_error_Some; congruence).
  split.
  - rewrite (on_has_next c i off Ho), Ew.
    rewrite (proj2 (Z.leb_le _ _)) by lia. rewrite (proj2 (Z.ltb_lt _ _)) by lia. reflexivity.
  - unfold tok. rewrite Hp, Et.
    assert (E : Z.of_nat id = (Z.of_nat id0 + off)%Z).
    { destruct (Z.le_gt_cases 0 off).
      - replace (Z.to_nat (Z.of_nat i + off)) with (i + Z.to_nat off) in Hid by lia.
        pose proof (contiguous_nth _ _ _ _ _ Hc Hw Hid). lia.
      - replace i with (Z.to_nat (Z.of_nat i + off) + Z.to_nat (- off)) in Hw by lia.
        pose proof (contiguous_nth _ _ _ _ _ Hc Hid Hw). lia. }
    rewrite id_add_some by lia. replace (Z.to_nat (Z.of_nat id0 + off)) with id by lia. reflexivity.
Qed.

(** exact lookahead of a sub-cursor: it reads the group at a distance from the current id *)
Lemma sub_lookahead_exact ts ids ops off : valid_ids ts ids -> (0 <= off)%Z ->
  let c := run ops (sublexer ts ids) in
  forall i id, on c i -> nth_error ids i = Some id ->
  tok c off = match nth_error ts (id + Z.to_nat off) with Some k => Ok k | None => Throw end.
Proof.
  intros Hv Ho c i id Hon Hid.
  pose proof (inv_run ops _ (inv_start_sub ts ids Hv)) as [Hg _]. fold c in Hg.
  destruct (run_walk ops (sublexer ts ids)) as [Ew Et]. fold c in Ew, Et. cbn in Et.
  destruct Hon as (Hp & _ & _). rewrite Ew in Hp. cbn [walk sublexer sub] in Hp. rewrite Hid in Hp.
  rewrite (tok_off c id off Hp Ho), Et. reflexivity.
Qed.

(** *** Searching ahead *)

Lemma find_kind_spec f c0 ops : inv c0 -> contiguous (walk c0) -> let c := run ops c0 in
  forall n i j fuel, on c i -> i + j <= length (walk c0) -> length (walk c0) - (i + j) = n -> n < fuel ->
  let m := lead (toks c0) f (skipn (i + j) (walk c0)) in
  find_kind fuel c f (Z.of_nat j) =
  Ok (if i + j + m <? length (walk c0) then Z.of_nat (j + m) else (-1)%Z).
Proof.
  intros H Hc c. induction n as [|n IH]; intros i j fuel Ho Hle Hn Hf m; (destruct fuel as [|fuel]; [lia|]); cbn [find_kind].
  - assert (E : i + j = length (walk c0)) by lia.
    destruct (run_walk ops c0) as [Ew Et]. fold c in Ew, Et.
    rewrite (on_has_next c i _ Ho), Ew, (proj2 (Z.ltb_ge _ _)) by lia. rewrite andb_false_r.
    rewrite (proj2 (Nat.ltb_ge _ _)) by lia. reflexivity.
  - destruct (nth_error (walk c0) (i + j)) as [id|] eqn:Hid; [|apply nth_error_None in Hid; lia].
    destruct (lookahead_contiguous c0 ops (Z.of_nat j) H Hc i Ho id ltac:(lia)) as [Hh Ht].
    { replace (Z.to_nat (Z.of_nat i + Z.of_nat j)) with (i + j) by lia. exact Hid. }
    fold c in Hh, Ht. rewrite Hh. unfold at_kind. rewrite Hh, Ht.
    pose proof (proj1 H) as Hg. unfold good, valid_ids in Hg. rewrite Forall_forall in Hg.
    specialize (Hg id (nth_error_In _ _ Hid)).
    destruct (nth_error (toks c0) id) as [k|] eqn:Hk; [|apply nth_error_None in Hk; lia].
    unfold omap. cbn [obind].
    assert (Hm : m = if f k then 0 else S (lead (toks c0) f (skipn (S (i + j)) (walk c0)))).
    { unfold m. rewrite (skipn_cons_nth _ _ _ Hid). cbn [lead]. rewrite Hk. reflexivity. }
    rewrite Hm. destruct (f k).
    + rewrite (proj2 (Nat.ltb_lt _ _)) by lia. f_equal. lia.
    + replace (Z.of_nat j + 1)%Z with (Z.of_nat (S j)) by lia.
      rewrite (IH i (S j) fuel Ho ltac:(lia) ltac:(lia) ltac:(lia)). rewrite Nat.add_succ_r.
      replace (i + j + S (lead (toks c0) f (skipn (S (i + j)) (walk c0)))) with
        (S (i + j) + lead (toks c0) f (skipn (S (i + j)) (walk c0))) by lia.
      destruct (_ <? _); f_equal; lia.
Qed.

Lemma at_seq_loop_spec c0 ops : inv c0 -> contiguous (walk c0) -> let c := run ops c0 in
  forall fs i j, on c i -> at_seq_loop c fs (Z.of_nat j) = Ok (matches (toks c0) fs (skipn (i + j) (walk c0))).
Proof.
  intros H Hc c. induction fs as [|f fs IH]; intros i j Ho; [reflexivity|]. cbn [at_seq_loop].
  destruct (nth_error (walk c0) (i + j)) as [id|] eqn:Hid.
  - destruct (lookahead_contiguous c0 ops (Z.of_nat j) H Hc i Ho id ltac:(lia)) as [Hh Ht].
    { replace (Z.to_nat (Z.of_nat i + Z.of_nat j)) with (i + j) by lia. exact Hid. }
    fold c in Hh, Ht. rewrite Hh, Ht.
    pose proof (proj1 H) as Hg. unfold good, valid_ids in Hg. rewrite Forall_forall in Hg.
    specialize (Hg id (nth_error_In _ _ Hid)). rewrite (skipn_cons_nth _ _ _ Hid). cbn [matches].
    destruct (nth_error (toks c0) id) as [k|] eqn:Hk; [|apply nth_error_None in Hk; lia].
    cbn [obind]. destruct (f k); [|reflexivity]. cbn [andb].
    replace (Z.of_nat j + 1)%Z with (Z.of_nat (S j)) by lia. rewrite (IH i (S j) Ho).
    replace (i + S j) with (S (i + j)) by lia. reflexivity.
  - apply nth_error_None in Hid. destruct (run_walk ops c0) as [Ew Et]. fold c in Ew, Et.
    rewrite (on_has_next c i _ Ho), Ew, (proj2 (Z.ltb_ge _ _)) by lia. rewrite andb_false_r.
    rewrite skipn_all2 by lia. reflexivity.
Qed.

Lemma at_seq_spec c0 ops : inv c0 -> contiguous (walk c0) -> let c := run ops c0 in
  forall fs i j, on c i -> fs <> [] -> at_seq c fs (Z.of_nat j) = Ok (matches (toks c0) fs (skipn (i + j) (walk c0))).
Proof.
  intros H Hc c fs i j Ho Hf. unfold at_seq. destruct (has_next c (Z.of_nat j)) eqn:E.
  - exact (at_seq_loop_spec c0 ops H Hc fs i j Ho).
  - destruct fs as [|f fs]; [congruence|]. pose proof (at_seq_loop_spec c0 ops H Hc (f :: fs) i j Ho) as P.
    cbn [at_seq_loop] in P. fold c in P. rewrite E in P. exact P.
Qed.

Lemma find_set_spec sk tg c0 ops : inv c0 -> contiguous (walk c0) -> let c := run ops c0 in
  forall n i j fuel, on c i -> i + j <= length (walk c0) -> length (walk c0) - (i + j) = n -> n < fuel ->
  let m := lead (toks c0) (fun k => negb (sk k)) (skipn (i + j) (walk c0)) in
  find_set fuel c sk tg (Z.of_nat j) =
  Ok (match nth_error (walk c0) (i + j + m) with
      | Some id => match nth_error (toks c0) id with
                   | Some k => if tg k then Z.of_nat (j + m) else (-1)%Z
                   | None => (-1)%Z end
      | None => (-1)%Z
      end).
Proof.
  intros H Hc c. induction n as [|n IH]; intros i j fuel Ho Hle Hn Hf m; (destruct fuel as [|fuel]; [lia|]); cbn [find_set].
  - assert (E : i + j = length (walk c0)) by lia.
    destruct (run_walk ops c0) as [Ew Et]. fold c in Ew, Et.
    unfold at_kind. rewrite (on_has_next c i _ Ho), Ew, (proj2 (Z.ltb_ge _ _)) by lia. rewrite andb_false_r.
    unfold omap. cbn [obind]. rewrite (proj2 (nth_error_None _ _)) by lia. reflexivity.
  - destruct (nth_error (walk c0) (i + j)) as [id|] eqn:Hid; [|apply nth_error_None in Hid; lia].
    destruct (lookahead_contiguous c0 ops (Z.of_nat j) H Hc i Ho id ltac:(lia)) as [Hh Ht].
    { replace (Z.to_nat (Z.of_nat i + Z.of_nat j)) with (i + j) by lia. exact Hid. }
    fold c in Hh, Ht. unfold at_kind. rewrite Hh, Ht.
    pose proof (proj1 H) as Hg. unfold good, valid_ids in Hg. rewrite Forall_forall in Hg.
    specialize (Hg id (nth_error_In _ _ Hid)).
    destruct (nth_error (toks c0) id) as [k|] eqn:Hk; [|apply nth_error_None in Hk; lia].
    unfold omap. cbn [obind].
    assert (Hm : m = if sk k then S (lead (toks c0) (fun k => negb (sk k)) (skipn (S (i + j)) (walk c0))) else 0).
    { unfold m. rewrite (skipn_cons_nth _ _ _ Hid). cbn [lead]. rewrite Hk. destruct (sk k); reflexivity. }
    rewrite Hm. destruct (sk k).
    + replace (Z.of_nat j + 1)%Z with (Z.of_nat (S j)) by lia.
      rewrite (IH i (S j) fuel Ho ltac:(lia) ltac:(lia) ltac:(lia)). rewrite Nat.add_succ_r.
      replace (i + j + S (lead (toks c0) (fun k => negb (sk k)) (skipn (S (i + j)) (walk c0)))) with
        (S (i + j) + lead (toks c0) (fun k => negb (sk k)) (skipn (S (i + j)) (walk c0))) by lia.
      rewrite (Nat.add_succ_r j). reflexivity.
    + rewrite !Nat.add_0_r, Hid, Hk. destruct (tg k); f_equal; lia.
Qed.

(** *** Bracketed groups *)

Notation lx := (cursor_at (K := K)).

Lemma lx_toks ts i : toks (lx ts i) = ts.
Proof. unfold cursor_at. destruct (i <? length ts); reflexivity. Qed.

Lemma lx_in ts i k : nth_error ts i = Some k ->
  finished (lx ts i) = false /\ tok (lx ts i) 0 = Ok k /\ pos (lx ts i) = Some i /\ next (lx ts i) 1 = Ok (lx ts (S i)).
Proof.
  intros H. assert (Hi : i < length ts) by (apply nth_error_Some; congruence).
  assert (E : lx ts i = mkCursor ts (Some i) None) by (unfold cursor_at; rewrite (proj2 (Nat.ltb_lt _ _) Hi); reflexivity).
  rewrite E. assert (Ht : tok (mkCursor ts (Some i) None) 0 = Ok k) by (apply (tok0 _ i); [reflexivity|exact H]).
  repeat split.
  - unfold finished, has_next. cbn [sub pos toks]. rewrite id_add_some by lia.
    rewrite (proj2 (Nat.ltb_lt _ _)) by lia. reflexivity.
  - exact Ht.
  - unfold next. cbn [sub]. rewrite Ht. cbn [obind toks pos]. unfold has_next. cbn [sub pos toks].
    rewrite id_add_some by lia. replace (Z.to_nat (Z.of_nat i + 1)) with (S i) by lia. unfold cursor_at.
    destruct (S i <? length ts); reflexivity.
Qed.

Lemma lx_end ts i : length ts <= i -> finished (lx ts i) = true.
Proof. intros H. unfold cursor_at. rewrite (proj2 (Nat.ltb_ge _ _) H). reflexivity. Qed.

Lemma nth_error_at {A} (a : list A) x b n : n = length a -> nth_error (a ++ x :: b) n = Some x.
Proof. intros ->. rewrite nth_error_app2 by lia. rewrite Nat.sub_diag. reflexivity. Qed.

Lemma skip_while_run st : forall opens pre k rest fuel,
  Forall (fun k => st k = true) opens -> st k = false -> length opens < fuel ->
  skip_while fuel (lx (pre ++ opens ++ k :: rest) (length pre)) st =
  Ok (lx (pre ++ opens ++ k :: rest) (length pre + length opens)).
Proof.
  induction opens as [|o opens IH]; intros pre k rest fuel Ha Hk Hf; (destruct fuel as [|fuel]; [cbn in Hf; lia|]); cbn [skip_while].
  - destruct (lx_in (pre ++ [] ++ k :: rest) (length pre) k) as (_ & -> & _ & _); [apply nth_error_at; reflexivity|].
    cbn [obind]. rewrite Hk. f_equal. f_equal. cbn; lia.
  - inversion Ha as [|? ? Ho Hr]; subst. cbn [app].
    destruct (lx_in (pre ++ o :: opens ++ k :: rest) (length pre) o) as (_ & -> & _ & ->); [apply nth_error_at; reflexivity|].
    cbn [obind]. rewrite Ho.
    specialize (IH (pre ++ [o]) k rest fuel Hr Hk ltac:(cbn in Hf; lia)).
    rewrite <- app_assoc in IH. cbn [app] in IH. rewrite app_length in IH. cbn [length] in IH.
    replace (length pre + 1) with (S (length pre)) in IH by lia. rewrite IH. f_equal. f_equal. cbn; lia.
Qed.

Lemma while_finish_run fi : forall closes pre rest fuel res,
  Forall (fun k => fi k = true) closes ->
  match rest with [] => True | k :: _ => fi k = false end -> length closes < fuel ->
  while_finish fuel (lx (pre ++ closes ++ rest) (length pre)) fi 1 res =
  Ok (lx (pre ++ closes ++ rest) (length pre + length closes), res).
Proof.
  induction closes as [|o closes IH]; intros pre rest fuel res Ha Hk Hf; (destruct fuel as [|fuel]; [cbn in Hf; lia|]); cbn [while_finish].
  - cbn [length]. rewrite Nat.add_0_r. cbn [app]. destruct rest as [|k rest].
    + rewrite lx_end by (rewrite app_length; cbn; lia). reflexivity.
    + destruct (lx_in (pre ++ k :: rest) (length pre) k) as (-> & -> & _ & _); [apply nth_error_at; reflexivity|].
      cbn [obind]. rewrite Hk. reflexivity.
  - inversion Ha as [|? ? Ho Hr]; subst. cbn [app].
    destruct (lx_in (pre ++ o :: closes ++ rest) (length pre) o) as (-> & -> & _ & ->); [apply nth_error_at; reflexivity|].
    cbn [obind]. rewrite Ho. cbn [Z.ltb Z.compare Pos.compare Pos.compare_cont].
    specialize (IH (pre ++ [o]) rest fuel res Hr Hk ltac:(cbn in Hf; lia)).
    rewrite <- app_assoc in IH. cbn [app] in IH. rewrite app_length in IH. cbn [length] in IH.
    replace (length pre + 1) with (S (length pre)) in IH by lia. cbn [obind]. rewrite IH. f_equal. f_equal. f_equal. cbn; lia.
Qed.

Lemma inside_loop_flat st fi : forall body pre closes rest fuel res,
  Forall (fun k => st k = false /\ fi k = false) body ->
  Forall (fun k => fi k = true /\ st k = false) closes -> closes <> [] ->
  match rest with [] => True | k :: _ => fi k = false end ->
  length body + length closes + 1 < fuel ->
  inside_loop fuel (lx (pre ++ body ++ closes ++ rest) (length pre)) st fi 1 res =
  Ok (res ++ map Some (seq (length pre) (length body)),
      lx (pre ++ body ++ closes ++ rest) (length pre + length body + length closes)).
Proof.
  induction body as [|b body IH]; intros pre closes rest fuel res Hb Hc Hne Hr Hf;
    (destruct fuel as [|fuel]; [cbn in Hf; lia|]); cbn [inside_loop].
  - destruct closes as [|o closes]; [contradiction|].
    inversion Hc as [|? ? [Ho1 Ho2] Hc']; subst. cbn [app].
    destruct (lx_in (pre ++ o :: closes ++ rest) (length pre) o) as (Hfin & Ht & _ & _); [apply nth_error_at; reflexivity|].
    rewrite Hfin, Ht. cbn [negb andb Z.ltb Z.compare obind]. rewrite Ho2, Ho1.
    change (o :: closes ++ rest) with ((o :: closes) ++ rest).
    rewrite (while_finish_run fi (o :: closes) pre rest (S fuel) res).
    + cbn [obind Z.sub Z.add Z.opp Z.pos_sub]. destruct fuel as [|fuel]; [cbn in Hf; lia|].
      cbn [inside_loop Z.ltb Z.compare andb length seq map]. rewrite app_nil_r. f_equal. f_equal. f_equal. lia.
    + constructor; [exact Ho1|]. eapply Forall_impl; [|exact Hc']. intros k [Hk _]. exact Hk.
    + exact Hr.
    + cbn in Hf |- *. lia.
  - inversion Hb as [|? ? [Hb1 Hb2] Hb']; subst. cbn [app].
    destruct (lx_in (pre ++ b :: body ++ closes ++ rest) (length pre) b) as (Hfin & Ht & Hp & Hn); [apply nth_error_at; reflexivity|].
    rewrite Hfin, Ht. cbn [negb andb Z.ltb Z.compare obind]. rewrite Hb1, Hb2. unfold pop, omap. rewrite Hn, Hp. cbn [obind].
    specialize (IH (pre ++ [b]) closes rest fuel (res ++ [Some (length pre)]) Hb' Hc Hne Hr ltac:(cbn in Hf; lia)).
    rewrite <- app_assoc in IH. cbn [app] in IH. rewrite app_length in IH. cbn [length] in IH.
    replace (length pre + 1) with (S (length pre)) in IH by lia. rewrite IH.
    cbn [length seq map]. rewrite <- app_assoc. cbn [app]. f_equal. f_equal. f_equal. lia.
Qed.

Lemma get_inside_flat st fi pre opens body closes rest :
  let ts := pre ++ opens ++ body ++ closes ++ rest in
  Forall (fun k => st k = true) opens ->
  Forall (fun k => st k = false /\ fi k = false) body ->
  Forall (fun k => fi k = true /\ st k = false) closes -> closes <> [] ->
  match rest with [] => True | k :: _ => fi k = false end ->
  get_inside (lx ts (length pre)) st fi =
  Ok (map Some (seq (length pre + length opens) (length body)),
      lx ts (length pre + length opens + length body + length closes)).
Proof.
  intros ts Ho Hb Hc Hne Hr. unfold get_inside. rewrite lx_toks.
  assert (Hlen : length ts = length pre + length opens + length body + length closes + length rest)
    by (unfold ts; rewrite !app_length; lia).
  assert (Hs : exists k tl, body ++ closes ++ rest = k :: tl /\ st k = false).
  { destruct body as [|b body].
    - destruct closes as [|o closes]; [contradiction|]. exists o, (closes ++ rest). split; [reflexivity|].
      inversion Hc as [|? ? [_ H] _]. exact H.
    - exists b, (body ++ closes ++ rest). split; [reflexivity|]. inversion Hb as [|? ? [H _] _]. exact H. }
  destruct Hs as (k & tl & E & Hk).
  remember (S (S (length ts))) as fuel eqn:Ef.
  assert (Hfu : length opens < fuel) by lia.
  unfold ts. rewrite E. rewrite skip_while_run by assumption. rewrite <- E.
  fold ts. cbn [obind]. subst fuel.
  pose proof (inside_loop_flat st fi body (pre ++ opens) closes rest (S (S (length ts))) [] Hb Hc Hne Hr ltac:(lia)) as HI.
  rewrite <- app_assoc in HI. fold ts in HI. rewrite app_length in HI. rewrite HI. reflexivity.
Qed.

Lemma fresh_inv c : fresh c -> inv c.
Proof.
  intros [(ts & ->)|(ts & ids & Hv & ->)]; [apply inv_start_lexer|apply inv_start_sub, Hv].
Qed.

Lemma lexer_contiguous ts : contiguous (walk (lexer ts)).
Proof. apply seq_contiguous. Qed.

End Proofs.
