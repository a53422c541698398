(** Proofs for C120, part six: the tokens of a line. *)
From Coq Require Import String Lia.
From Verif Require Import Base StrModel TokKind TokModel TokProofs TokRun TokKinds PropModel PropSpec PropProofs PropAgain.
Local Open Scope Z_scope.

Lemma run_to : forall f (a b : str), Forall (fun c => f c = true) a -> match b with [] => True | c :: _ => f c = false end -> run_len f (a ++ b) = length a.
Proof.
  intros f a. induction a as [|c a IH]; intros b F H.
  - destruct b as [|c b]; [reflexivity|]. cbn [app run_len length]. now rewrite H.
  - inversion F; subst. cbn [app run_len length]. match goal with X : f c = true |- _ => rewrite X end. f_equal. now apply IH.
Qed.
Lemma not_at : forall txt c off ch d r, skipn (pos c + off) txt = d :: r -> ch <> d -> is_at txt c off ch = false.
Proof.
  intros txt c off ch d r E N. destruct (is_at txt c off ch) eqn:I; [|reflexivity]. apply is_at_inv in I. destruct I as (q & I). rewrite E in I. injection I as -> _. congruence.
Qed.
Lemma lexed : forall txt pre l rest name v rec n c o, txt = pre ++ l ++ rest -> one_line l -> (rest = [] \/ exists r, rest = 10 :: r) ->
  property_line l = Some (KLiteral, name, v) -> pos c = length pre ->
  exists s' t u, line_start txt rec n (St c o) = Some (Ok s') /\ out s' = o ++ [t; u] /\ pos (cur s') = length (pre ++ l) /\
    kind t = kColonLiteralProperty /\ text t = name /\ kind u = kRawText /\ text u = v.
Proof.
  intros txt pre l rest name v rec n c o T O R P C.
  assert (Hh : skipn (pos c) txt = l ++ rest) by (rewrite C, T; apply skipn_here).
  assert (Lt : length txt = (pos c + length l + length rest)%nat) by (rewrite C, T, !app_length; lia).
  destruct (literal_inv l name v P) as (k & a & I & S & El & Sh).
  (* the text from the name on *)
  assert (F : exists r, l ++ rest = repeat 32 k ++ 58 :: a ++ 58 :: r /\
    match p_seq p_ident (p_chr c_colon) r with Some j => (2 + length a + k + j)%nat | None => (2 + length a + k)%nat end = length name /\ l ++ rest = name ++ v ++ rest).
  { destruct Sh as [[Et Nn]|(b & J & Et)].
    - exists (v ++ rest). split; [rewrite El, Et; rewrite <- !app_assoc; cbn [app]; rewrite <- !app_assoc; reflexivity|]. split; [|rewrite El; now rewrite <- app_assoc].
      replace (p_seq p_ident (p_chr c_colon) (v ++ rest)) with (@None nat); [rewrite Et, app_length, repeat_length; cbn [length]; rewrite app_length; cbn [length]; lia|].
      symmetry. destruct (p_seq p_ident (p_chr c_colon) (v ++ rest)) as [j|] eqn:Q; [|reflexivity]. exfalso. apply ident_inv in Q. destruct Q as (b & q & Eq & Ib & _).
      assert (X : exists w, v = b ++ 58 :: w).
      { assert (Ov : ~ In 10 v) by (intros X; apply O; rewrite El; apply in_or_app; now right). apply ident_wordy in Ib. destruct Ib as [_ Fb]. clear - Eq Ov R Fb. revert v Eq Ov.
        induction b as [|d b IH]; intros [|e v] Eq Ov; cbn [app] in Eq.
        - destruct R as [->|(r & ->)]; discriminate.
        - injection Eq as -> _. exists v. reflexivity.
        - exfalso. pose proof (Forall_inv Fb) as W. cbv beta in W. destruct R as [->|(r & ->)]; [discriminate|]. injection Eq as <- _. discriminate W.
        - injection Eq as <- Eq. destruct (IH (Forall_inv_tail Fb) v Eq ltac:(intros X; apply Ov; now right)) as (w & ->). exists w. reflexivity. }
      destruct X as (w & ->). rewrite ident_seq in Nn by exact Ib. discriminate.
    - exists (b ++ 58 :: v ++ rest). split; [rewrite El, Et; rewrite <- !app_assoc; cbn [app]; rewrite <- !app_assoc; cbn [app]; rewrite <- !app_assoc; reflexivity|]. split; [|rewrite El; now rewrite <- app_assoc].
      rewrite ident_seq by exact J. rewrite Et, app_length, repeat_length. cbn [length]. rewrite app_length. cbn [length]. rewrite app_length. cbn [length]. lia. }
  destruct F as (r & F & L & F2). destruct (not_special a r I S) as (N1 & N2 & N3 & N4 & N5).
  assert (K : count_at txt (Z.eqb c_sp) c 0 = k).
  { unfold count_at. rewrite Nat.add_0_r, Hh, F. apply spaces_skip. discriminate. }
  assert (Sk : skipn (pos c + k) txt = 58 :: a ++ 58 :: r).
  { rewrite <- skipn_add, Hh, F. apply spaces_skip. discriminate. }
  unfold line_start. cbn [cur]. rewrite K.
  unfold check_leading. rewrite !(not_at txt c k _ 58 (a ++ 58 :: r) Sk) by discriminate. cbn [andb].
  unfold table_separator. rewrite (not_at txt c k c_pipe 58 (a ++ 58 :: r) Sk) by discriminate.
  assert (SC : sep_columns txt (left txt c) c k 0 = (k, 0%nat)).
  { destruct (left txt c); cbn [sep_columns]; [reflexivity|]. now rewrite (not_at txt c k c_minus 58 (a ++ 58 :: r) Sk) by discriminate. }
  rewrite SC. cbn [Nat.ltb Nat.leb].
  unfold patt. rewrite Sk. change (p_ilit (lit "clock:") (58 :: a ++ 58 :: r)) with (@None nat). cbv iota. rewrite N1, N2.
  change (p_seq p_digits (p_seq (p_cls (one_of (lit ".)"))) (p_chr c_sp)) (58 :: a ++ 58 :: r)) with (@None nat). cbv iota. rewrite N3.
  unfold colons in N4, N5. rewrite N4, N5. pose proof (colons_ident a r I) as N6. unfold colons in N6. rewrite N6.
  assert (PS : property_subname txt c (2 + length a + k) = length name).
  { unfold property_subname, patt. rewrite <- L. replace (skipn (pos c + (2 + length a + k)) txt) with r; [destruct (p_seq p_ident (p_chr c_colon) r); lia|].
    replace (pos c + (2 + length a + k))%nat with ((pos c + k) + (2 + length a))%nat by lia. rewrite <- skipn_add, Sk.
    replace (58 :: a ++ 58 :: r) with ((58 :: a ++ [58]) ++ r) by (cbn [app]; now rewrite <- app_assoc). replace (2 + length a)%nat with (length (58 :: a ++ [58])) by (cbn [length]; rewrite app_length; cbn [length]; lia).
    symmetry. apply skipn_here. }
  rewrite PS. unfold andthen, tok_adv, tokt, tok. cbn [obind cur out]. eexists _, _, _. split; [reflexivity|]. cbn [out cur kind text mk].
  assert (Pl : (pos c <= length txt)%nat) by lia.
  assert (Ln : (length l = length name + length v)%nat) by (rewrite El at 1; apply app_length).
  assert (Pa : pos (advance txt (length name) c) = (pos c + length name)%nat) by (rewrite advance_pos by exact Pl; lia).
  assert (Hv : skipn (pos (advance txt (length name) c)) txt = v ++ rest) by (rewrite Pa, <- skipn_add, Hh, F2; apply skipn_here).
  assert (Rv : run_len (fun x => negb (Z.eqb x c_nl)) (v ++ rest) = length v).
  { apply run_to.
    - apply Forall_forall. intros x X. apply negb_true_iff, Z.eqb_neq. intros ->. apply O. rewrite El. apply in_or_app. now right.
    - destruct R as [->|(q & ->)]; [exact Logic.I|reflexivity]. }
  split; [rewrite <- app_assoc; reflexivity|]. split; [|split; [reflexivity|split; [|split; [reflexivity|]]]].
  - unfold to_eol. rewrite run_pos by (rewrite Pa; lia). rewrite Hv, Rv, Pa, app_length, C. lia.
  - etransitivity; [apply adv_text|]. rewrite Hh, F2. apply firstn_here.
  - unfold to_eol. etransitivity; [apply run_text|]. rewrite Hv, Rv. apply firstn_here.
Qed.
