From Coq Require Import ZArith List Bool Lia Sorting.Sorted.
From Verif Require Import Base LayoutModel LayoutSpec LayoutProofs LayoutSums LayoutLine.
Import ListNotations.
Local Open Scope Z_scope.

Section From.
Context {L : Type}.
Implicit Types (s : list (piece L)) (p q : piece L).

Lemma obind_ok : forall A B (x : outcome A) (f : A -> outcome B) b, obind x f = Ok b -> exists a, x = Ok a /\ f a = Ok b.
Proof. intros A B [a| | |] f b H; try discriminate. eauto. Qed.
Lemma omap_ok : forall A B (f : A -> B) (x : outcome A) b, omap f x = Ok b -> exists a, x = Ok a /\ b = f a.
Proof. intros A B f [a| | |] b H; try discriminate. injection H as <-. eauto. Qed.

Lemma add_piece_in : forall s q s', add_piece s q = Ok s' -> s' <> [] /\ forall x, In x s' -> In x s \/ x = q.
Proof.
  intros s q s' H. unfold add_piece in H. destruct (rev s) as [|l r] eqn:E.
  - cbv beta iota zeta in H. destruct (_ || _) in H; [discriminate|]. injection H as <-. split; [destruct s; discriminate|].
    intros x Hx. apply in_app_or in Hx. destruct Hx as [Hx|[<-|[]]]; auto.
  - cbv zeta in H. destruct (_ && _) in H.
    + injection H as <-. split; [|auto]. intros ->. discriminate.
    + destruct (_ || _) in H; [discriminate|]. injection H as <-. split; [destruct s; discriminate|].
      intros x Hx. apply in_app_or in Hx. destruct Hx as [Hx|[<-|[]]]; auto.
Qed.

Lemma cur_in : forall c p, cur c = Ok p -> In p (fst c).
Proof. intros [s i] p H. unfold cur in H. cbn [fst snd] in *. destruct (nth_error s i) eqn:E; [|discriminate]. injection H as <-. eapply nth_error_In; eauto. Qed.

Lemma cur_all_in : forall cs ps, cur_all cs = Ok ps -> Forall2 (fun s p => In p s) (map fst cs) ps.
Proof.
  induction cs as [|c cs IH]; intros ps H; cbn [cur_all] in H.
  - injection H as <-. constructor.
  - apply obind_ok in H. destruct H as (p & Hp & H). apply omap_ok in H. destruct H as (ps' & Hps & ->).
    cbn [map]. constructor; [apply cur_in; exact Hp|apply IH; exact Hps].
Qed.

Lemma move_fst : forall (c : list (piece L) * nat) m c', move_to_margin c m = Ok c' -> fst c' = fst c.
Proof.
  intros c m c' H. unfold move_to_margin in H. apply obind_ok in H. destruct H as (p & _ & H).
  apply omap_ok in H. destruct H as (i & _ & ->). reflexivity.
Qed.
Lemma move_all_fst : forall (cs : list (list (piece L) * nat)) m cs', move_all cs m = Ok cs' -> map fst cs' = map fst cs.
Proof.
  induction cs as [|c cs IH]; intros m cs' H; cbn [move_all] in H.
  - injection H as <-. reflexivity.
  - apply obind_ok in H. destruct H as (c' & Hc & H). apply omap_ok in H. destruct H as (cs2 & Hcs & ->).
    cbn [map]. rewrite (move_fst _ _ _ Hc), (IH _ _ Hcs). reflexivity.
Qed.

Lemma min_inner_from : forall fuel ps ixs kl kh lst fac lst' fac', @min_inner L fuel ps ixs kl kh lst fac = Ok (lst', fac') ->
  (lst = None -> fac' <> []) /\ (fac <> [] -> fac' <> []) /\
  forall x, In x fac' -> In x fac \/ exists p, In p ps /\ plyt x = plyt p.
Proof.
  induction fuel as [|fuel IH]; intros ps ixs kl kh lst fac lst' fac' H; [discriminate|].
  cbn [min_inner] in H. destruct (first_min (map (fun p => value_at p kl) ps)) as [[i v]|]; [|discriminate].
  destruct (nth_error ps i) as [p|] eqn:Ep; [|discriminate]. destruct (nth_error ixs i) as [ix|]; [|discriminate].
  cbv zeta in H. apply obind_ok in H. destruct H as (fac1 & H1 & H2).
  assert (A : (lst = None -> fac1 <> []) /\ (fac <> [] -> fac1 <> []) /\
     forall x, In x fac1 -> In x fac \/ exists p, In p ps /\ plyt x = plyt p).
  { destruct (match lst with Some _ => _ | None => _ end) eqn:E in H1.
    - injection H1 as <-. split; [intros ->; discriminate|]. split; auto.
    - destruct (add_piece_in _ _ _ H1) as [B C]. split; [auto|]. split; [auto|]. intros x Hx. destruct (C x Hx) as [D|D]; [auto|].
      subst x. right. exists p. split; [eapply nth_error_In; eauto|reflexivity]. }
  destruct A as (A1 & A2 & A3).
  destruct (first_min (crossovers ps kl kh v (pgrad p))) as [[j k]|].
  - destruct (IH _ _ _ _ _ _ _ _ H2) as (B1 & B2 & B3). split; [auto|]. split; [auto|].
    intros x Hx. destruct (B3 x Hx) as [D|D]; auto.
  - injection H2 as <- <-. auto.
Qed.

Lemma f2_in : forall A B (R : A -> B -> Prop) l1 l2 y, Forall2 R l1 l2 -> In y l2 -> exists x, In x l1 /\ R x y.
Proof.
  induction 1 as [|a b l1 l2 H HF IH]; intros Hin; [contradiction|].
  destruct Hin as [<-|Hin]; [exists a; split; [left; reflexivity|exact H]|].
  destruct (IH Hin) as (x & Hx & Hr). exists x. split; [right; exact Hx|exact Hr].
Qed.

Lemma min_outer_from : forall fuel cs kl lst fac r, @min_outer L fuel cs kl lst fac = Ok r ->
  (lst = None -> kl < infty -> r <> []) /\ (fac <> [] -> r <> []) /\
  forall x, In x r -> In x fac \/ exists s p, In s (map fst cs) /\ In p s /\ plyt x = plyt p.
Proof.
  induction fuel as [|fuel IH]; intros cs kl lst fac r H; [discriminate|]. cbn [min_outer] in H.
  destruct (Z.ltb_spec kl infty) as [Hk|Hk].
  - destruct (first_min (map next_knot cs)) as [[i nk]|]; [|discriminate]. cbv zeta in H.
    apply obind_ok in H. destruct H as (ps & H1 & H). apply obind_ok in H. destruct H as ([lst1 fac1] & H2 & H).
    apply obind_ok in H. destruct H as (cs1 & H3 & H).
    assert (E : map fst cs1 = map fst cs).
    { destruct (nk - 1 + 1 <? infty); [eapply move_all_fst; eauto|injection H3 as <-; reflexivity]. }
    destruct (min_inner_from _ _ _ _ _ _ _ _ _ H2) as (A1 & A2 & A3).
    destruct (IH _ _ _ _ _ H) as (B1 & B2 & B3). split; [auto|]. split; [auto|].
    intros x Hx. destruct (B3 x Hx) as [D|(s & p & D1 & D2 & D3)].
    + destruct (A3 x D) as [F|(p & F1 & F2)]; [auto|]. right.
      destruct (f2_in _ _ _ _ _ p (cur_all_in _ _ H1) F1) as (s & Hs & Hps). exists s, p. auto.
    + right. exists s, p. rewrite <- E. auto.
  - injection H as <-. split; [lia|]. split; auto.
Qed.

Lemma min_solution_from : forall fuel (ss : list (list (piece L))) r, min_solution fuel ss = Ok r -> Forall (fun s => s <> []) ss ->
  r <> [] /\ forall x, In x r -> exists s p, In s ss /\ In p s /\ plyt x = plyt p.
Proof.
  intros fuel ss r H Hne. unfold min_solution in H.
  assert (G : min_outer fuel (map (fun s => (s, O)) ss) 0 None [] = Ok r ->
    r <> [] /\ forall x, In x r -> exists s p, In s ss /\ In p s /\ plyt x = plyt p).
  { intros G. destruct (min_outer_from _ _ _ _ _ _ G) as (A & B & C). split; [apply A; reflexivity|].
    intros x Hx. destruct (C x Hx) as [[]|D]. rewrite map_fst_init in D. exact D. }
  destruct ss as [|a [|b ss]]; auto.
  injection H as <-. inversion Hne; subst. split; [assumption|]. intros x Hx. exists a, x. split; [left; reflexivity|auto].
Qed.

Lemma vsum_from : forall fuel stack cs margin res r, @vsum_loop L fuel stack cs margin res = Ok r ->
  r <> [] /\ forall x, In x r -> In x res \/ exists ps, Forall2 (fun s p => In p s) (map fst cs) ps /\ plyt x = stack (map (@plyt L) ps).
Proof.
  induction fuel as [|fuel IH]; intros stack cs margin res r H; [discriminate|]. cbn [vsum_loop] in H.
  apply obind_ok in H. destruct H as (ps & H1 & H). destruct (rev ps) as [|lastp r0]; [discriminate|].
  apply obind_ok in H. destruct H as (res1 & H2 & H). destruct (add_piece_in _ _ _ H2) as [A B].
  pose proof (cur_all_in _ _ H1) as HF. cbv zeta in H.
  assert (C : forall x, In x res1 -> In x res \/ exists ps, Forall2 (fun s p => In p s) (map fst cs) ps /\ plyt x = stack (map (@plyt L) ps)).
  { intros x Hx. destruct (B x Hx) as [D|D]; [auto|]. subst x. right. exists ps. auto. }
  destruct (is_inf _) in H.
  - injection H as <-. auto.
  - apply obind_ok in H. destruct H as (cs1 & H3 & H). destruct (IH _ _ _ _ _ H) as [D E]. split; [exact D|].
    intros x Hx. destruct (E x Hx) as [F|(ps' & F1 & F2)]; [auto|]. right. exists ps'. rewrite <- (move_all_fst _ _ _ H3). auto.
Qed.

Lemma hplus_from : forall fuel o join c1 c2 m1 m2 res r, @hplus_loop L fuel o join c1 c2 m1 m2 res = Ok r ->
  r <> [] /\ forall x, In x r -> In x res \/ exists p1 p2, In p1 (fst c1) /\ In p2 (fst c2) /\ plyt x = join (plyt p1) (plyt p2).
Proof.
  induction fuel as [|fuel IH]; intros o join c1 c2 m1 m2 res r H; [discriminate|]. cbn [hplus_loop] in H.
  apply obind_ok in H. destruct H as (p1 & H1 & H). apply obind_ok in H. destruct H as (p2 & H2 & H).
  cbv zeta in H. apply obind_ok in H. destruct H as (res1 & H3 & H).
  destruct (add_piece_in _ _ _ H3) as [A B].
  assert (C : forall x, In x res1 -> In x res \/ exists p1 p2, In p1 (fst c1) /\ In p2 (fst c2) /\ plyt x = join (plyt p1) (plyt p2)).
  { intros x Hx. destruct (B x Hx) as [D|D]; [auto|]. subst x. right. exists p1, p2. split; [apply cur_in; exact H1|].
    split; [apply cur_in; exact H2|reflexivity]. }
  destruct (is_inf (next_knot c1) && is_inf (next_knot c2)); [injection H as <-; auto|].
  destruct (_ <=? _) in H.
  - apply obind_ok in H. destruct H as (p1' & H4 & H). apply obind_ok in H. destruct H as (c2' & H5 & H).
    destruct (IH _ _ _ _ _ _ _ _ H) as [D E]. split; [exact D|]. intros x Hx. destruct (E x Hx) as [F|F]; [auto|].
    right. rewrite (move_fst _ _ _ H5) in F. exact F.
  - destruct (IH _ _ _ _ _ _ _ _ H) as [D E]. split; [exact D|]. intros x Hx. destruct (E x Hx) as [F|F]; auto.
Qed.

Lemma hplus_solution_from : forall fuel o join (s1 s2 : list (piece L)) r, hplus_solution fuel o join s1 s2 = Ok r ->
  r <> [] /\ forall x, In x r -> exists p1 p2, In p1 s1 /\ In p2 s2 /\ plyt x = join (plyt p1) (plyt p2).
Proof.
  intros fuel o join s1 s2 r H. unfold hplus_solution in H.
  apply obind_ok in H. destruct H as (p1 & _ & H). apply obind_ok in H. destruct H as (c2 & H2 & H).
  destruct (hplus_from _ _ _ _ _ _ _ _ _ H) as [A B]. split; [exact A|]. intros x Hx. destruct (B x Hx) as [[]|C].
  cbn [fst] in C. rewrite (move_fst _ _ _ H2) in C. exact C.
Qed.

End From.

(** ** Readings *)

Lemma block_ind' : forall P : block -> Prop,
  (forall strs, P (BText strs)) -> P BEmpty ->
  (forall l, Forall P l -> P (BLine l)) -> (forall k l, Forall P l -> P (BStack k l)) ->
  (forall l, Forall P l -> P (BChoice l)) -> forall b, P b.
Proof.
  intros P HT HE HL HS HC. fix IH 1. intros [strs| |l|k l|l].
  - apply HT.
  - exact HE.
  - apply HL. induction l as [|b l IHl]; constructor; [apply IH|exact IHl].
  - apply HS. induction l as [|b l IHl]; constructor; [apply IH|exact IHl].
  - apply HC. induction l as [|b l IHl]; constructor; [apply IH|exact IHl].
Qed.

Lemma toks_app : forall a b, toks (a ++ b) = toks a ++ toks b.
Proof. intros. unfold toks. apply flat_map_app. Qed.

Lemma toks_join : forall a b, toks (join_line a b) = toks a ++ toks b.
Proof. intros. unfold join_line, toks. cbn [flat_map toks_of]. rewrite app_nil_r. reflexivity. Qed.

Lemma firstn_snoc : forall A (l : list A) x, firstn (length (l ++ [x]) - 1) (l ++ [x]) = l.
Proof.
  intros A l x. rewrite app_length. cbn [length]. replace (length l + 1 - 1)%nat with (length l + 0)%nat by lia.
  rewrite firstn_app_2. cbn. apply app_nil_r.
Qed.

Fixpoint flat_lines (ls : list (list elem)) : list elem :=
  match ls with [] => [] | [l] => l | l :: ls' => l ++ ENewline :: flat_lines ls' end.

Lemma get_stacked_lines : forall ls, ls <> [] -> get_stacked ls = flat_lines ls.
Proof.
  intros ls Hne. unfold get_stacked.
  assert (E : flat_map (fun l => l ++ [ENewline]) ls = flat_lines ls ++ [ENewline]).
  { induction ls as [|a ls IH]; [congruence|]. cbn [flat_map]. destruct ls as [|b ls].
    - cbn. rewrite app_nil_r. reflexivity.
    - rewrite IH by discriminate. cbn [flat_lines]. rewrite <- !app_assoc. reflexivity. }
  rewrite E. apply firstn_snoc.
Qed.

Lemma toks_lines : forall ls, toks (flat_lines ls) = lines (map toks ls).
Proof.
  induction ls as [|a ls IH]; [reflexivity|]. destruct ls as [|b ls]; [reflexivity|].
  change (flat_lines (a :: b :: ls)) with (a ++ ENewline :: flat_lines (b :: ls)).
  change (lines (map toks (a :: b :: ls))) with (toks a ++ TNl :: lines (map toks (b :: ls))).
  rewrite <- IH, toks_app. reflexivity.
Qed.

Lemma lines_last : forall tss a ts', lines (tss ++ [a ++ ts']) = lines (tss ++ [a]) ++ ts'.
Proof.
  induction tss as [|t tss IH]; intros a ts'; [reflexivity|].
  cbn [app]. destruct (tss ++ [a ++ ts']) as [|x l] eqn:E1; [destruct tss; discriminate|].
  destruct (tss ++ [a]) as [|y l'] eqn:E2; [destruct tss; discriminate|].
  change (lines (t :: x :: l)) with (t ++ TNl :: lines (x :: l)).
  change (lines (t :: y :: l')) with (t ++ TNl :: lines (y :: l')).
  rewrite <- E1, <- E2, IH, <- app_assoc. reflexivity.
Qed.

Notation lsol := (list (piece (list elem))) (only parsing).

Definition good (rest : option lsol) (R : list tok -> Prop) : Prop :=
  match rest with
  | None => R []
  | Some s => s <> [] /\ forall x, In x s -> R (toks (plyt x))
  end.

(** The result of laying out [b] in front of [R]. *)
Definition says (b : block) (R : list tok -> Prop) (s : lsol) : Prop :=
  s <> [] /\ forall x, In x s -> exists ts ts', toks (plyt x) = ts ++ ts' /\ reads b ts /\ R ts'.

Definition Pb (b : block) : Prop := solid b -> forall fuel o rest R r, good rest R -> opt_layout fuel o b rest = Ok r ->
  exists s, r = Some s /\ says b R s.

Lemma plus_const_in : forall (s : lsol) v x, In x (plus_const s v) -> exists y, In y s /\ plyt x = plyt y.
Proof.
  intros s v x H. unfold plus_const in H. apply in_map_iff in H. destruct H as (y & <- & Hy). exists y. auto.
Qed.
Lemma plus_const_ne : forall (s : lsol) v, s <> [] -> plus_const s v <> [].
Proof. intros [|x s] v H; [congruence|discriminate]. Qed.

Lemma says_plus : forall b R s v, says b R s -> says b R (plus_const s v).
Proof.
  intros b R s v [A B]. split; [apply plus_const_ne; exact A|]. intros x Hx.
  destruct (plus_const_in _ _ _ Hx) as (y & Hy & ->). apply B. exact Hy.
Qed.

Lemma says_good : forall b R s, says b R s -> good (Some s) (fun ts => exists t1 t2, ts = t1 ++ t2 /\ reads b t1 /\ R t2).
Proof. intros b R s [A B]. split; [exact A|]. intros x Hx. destruct (B x Hx) as (t1 & t2 & H). exists t1, t2. exact H. Qed.

Lemma text_ne : forall o n (l : list elem), text_solution o n l <> [].
Proof. intros. unfold text_solution. destruct (_ <=? _); [discriminate|]. destruct (_ <=? _); discriminate. Qed.
Lemma text_lyt : forall o n (l : list elem) x, In x (text_solution o n l) -> plyt x = l.
Proof.
  intros o n l x H. unfold text_solution in H. destruct (_ <=? _) in H; [|destruct (_ <=? _) in H];
  cbn [In] in H; intuition (subst; reflexivity).
Qed.

Lemma with_rest_says : forall fuel o strs rest R r, good rest R ->
  with_rest fuel o (text_solution o (strs_len strs) [EString strs]) rest = Ok r ->
  exists s, r = Some s /\ says (BText strs) R s.
Proof.
  intros fuel o strs rest R r HG H. destruct rest as [s2|]; cbn [with_rest] in H.
  - apply omap_ok in H. destruct H as (s & Hs & ->). destruct (hplus_solution_from _ _ _ _ _ _ Hs) as [A B].
    exists s. split; [reflexivity|]. split; [exact A|]. intros x Hx. destruct (B x Hx) as (p1 & p2 & P1 & P2 & E).
    rewrite E, toks_join. rewrite (text_lyt _ _ _ _ P1). exists (map TStr strs), (toks (plyt p2)).
    split; [cbn; rewrite app_nil_r; reflexivity|]. split; [constructor|]. apply HG. exact P2.
  - injection H as <-. eexists. split; [reflexivity|]. split; [apply text_ne|]. intros x Hx.
    rewrite (text_lyt _ _ _ _ Hx). exists (map TStr strs), []. split; [reflexivity|]. split; [constructor|exact HG].
Qed.

Lemma all_forall : forall l, (fix all (l : list block) : Prop := match l with [] => True | e :: l' => solid e /\ all l' end) l -> Forall solid l.
Proof. induction l as [|e l IH]; intros H; constructor; [apply H|apply IH; apply H]. Qed.

Lemma reading_line : forall l, Forall Pb l -> Pb (BLine l).
Proof.
  intros l HP [Hne Hs] fuel o rest R r HG H. apply all_forall in Hs.
  destruct l as [|e0 l0] eqn:El; [congruence|]. rewrite <- El in *.
  assert (H' : obind ((fix go (l : list block) : outcome (option lsol) :=
                match l with
                | [] => Ok rest
                | e :: l' => obind (go l') (fun r => opt_layout fuel o e r)
                end) l) (fun ln =>
      omap (fun s => Some (plus_const s 0))
        (vsum_solution fuel get_stacked (match ln with Some s => [s] | None => [] end))) = Ok r).
  { rewrite El in *. exact H. }
  clear H. apply obind_ok in H'. destruct H' as (ln & H1 & H2).
  set (Rl := fun (l : list block) ts => exists tss ts', Forall2 reads l tss /\ R ts' /\ ts = concat tss ++ ts').
  assert (G : forall l ln, Forall Pb l -> Forall solid l ->
    (fix go (l : list block) : outcome (option lsol) :=
                match l with
                | [] => Ok rest
                | e :: l' => obind (go l') (fun r => opt_layout fuel o e r)
                end) l = Ok ln -> good ln (Rl l) /\ (l <> [] -> exists s, ln = Some s)).
  { clear - HG. induction l as [|e l IH]; intros ln HP Hs H.
    - injection H as <-. split; [|congruence]. unfold Rl. destruct rest as [s|]; cbn [good] in *.
      + destruct HG as [A B]. split; [exact A|]. intros x Hx. exists [], (toks (plyt x)). split; [constructor|]. split; [apply B; exact Hx|reflexivity].
      + exists [], []. split; [constructor|]. split; [exact HG|reflexivity].
    - inversion HP as [|? ? HP1 HP2]; subst. inversion Hs as [|? ? Hs1 Hs2]; subst.
      apply obind_ok in H. destruct H as (r' & H1 & H2). destruct (IH r' HP2 Hs2 H1) as [G _].
      destruct (HP1 Hs1 fuel o r' _ ln G H2) as (s & -> & A & B). split; [|eauto].
      split; [exact A|]. intros x Hx. destruct (B x Hx) as (ts & ts' & E & Hr & (tss & t2 & F1 & F2 & ->)).
      exists (ts :: tss), t2. split; [constructor; assumption|]. split; [exact F2|]. rewrite E. cbn [concat]. rewrite app_assoc. reflexivity. }
  destruct (G l ln HP Hs H1) as [GG GE]. destruct (GE Hne) as [s ->].
  apply omap_ok in H2. destruct H2 as (s' & H2 & ->). cbn in H2. injection H2 as <-.
  exists (plus_const s 0). split; [reflexivity|]. apply says_plus.
  destruct GG as [A B]. split; [exact A|]. intros x Hx. destruct (B x Hx) as (tss & ts' & F1 & F2 & F3).
  exists (concat tss), ts'. split; [exact F3|]. split; [constructor; exact F1|exact F2].
Qed.

Lemma reading_choice : forall l, Forall Pb l -> Pb (BChoice l).
Proof.
  intros l HP [Hne Hs] fuel o rest R r HG H. apply all_forall in Hs. cbn [opt_layout] in H.
  apply obind_ok in H. destruct H as (ss & H1 & H2). apply omap_ok in H2. destruct H2 as (s & H2 & ->).
  assert (G : forall s, In s ss -> exists b, In b l /\ says b R s).
  { clear H2 Hne. revert ss H1 HP Hs. induction l as [|e l IH]; intros ss H1 HP Hs s0 Hin.
    - injection H1 as <-. contradiction.
    - inversion HP as [|? ? HP1 HP2]; subst. inversion Hs as [|? ? Hs1 Hs2]; subst.
      apply obind_ok in H1. destruct H1 as (r & A & B). apply omap_ok in B. destruct B as (rs & B & ->).
      destruct (HP1 Hs1 fuel o rest R r HG A) as (s1 & -> & C).
      destruct Hin as [<-|Hin]; [exists e; split; [left; reflexivity|exact C]|].
      destruct (IH rs B HP2 Hs2 s0 Hin) as (b & D & E). exists b. split; [right; exact D|exact E]. }
  destruct (min_solution_from fuel ss s H2) as [A B].
  { rewrite Forall_forall. intros x Hx. destruct (G x Hx) as (b & _ & [C _]). exact C. }
  exists s. split; [reflexivity|]. split; [exact A|]. intros x Hx. destruct (B x Hx) as (s0 & p & C & D & ->).
  destruct (G s0 C) as (b & Hb & [_ E]). destruct (E p D) as (ts & ts' & F1 & F2 & F3).
  exists ts, ts'. split; [exact F1|]. split; [econstructor; eauto|exact F3].
Qed.

Lemma reading_stack : forall k l, Forall Pb l -> Pb (BStack k l).
Proof.
  intros k l HP [Hne Hs] fuel o rest R r HG H. apply all_forall in Hs.
  destruct l as [|e0 l0] eqn:El; [congruence|]. rewrite <- El in *.
  assert (H' : obind ((fix go (l : list block) : outcome (list lsol) :=
                match l with
                | [] => Ok []
                | e :: l' =>
                    obind (opt_layout fuel o e (match l' with [] => rest | _ => None end)) (fun r =>
                    omap (fun rs => match r with Some s => s :: rs | None => rs end) (go l'))
                end) l) (fun ss =>
      obind (vsum_solution fuel get_stacked ss) (fun s =>
      match s with
      | [] => Ok rest
      | _ => Ok (Some (plus_const s (linebreak_cost o * k * Z.max 0 (Z.of_nat (length l) - 1))))
      end)) = Ok r).
  { rewrite El in *. exact H. }
  clear H. apply obind_ok in H'. destruct H' as (ss & H1 & H2). apply obind_ok in H2. destruct H2 as (s & H2 & H3).
  (* the candidates *)
  assert (G : forall l ss, l <> [] -> Forall Pb l -> Forall solid l ->
    (fix go (l : list block) : outcome (list lsol) :=
                match l with
                | [] => Ok []
                | e :: l' =>
                    obind (opt_layout fuel o e (match l' with [] => rest | _ => None end)) (fun r =>
                    omap (fun rs => match r with Some s => s :: rs | None => rs end) (go l'))
                end) l = Ok ss ->
    ss <> [] /\ forall ps, Forall2 (fun s p => In p s) ss ps ->
      exists tss a ts', map (fun p => toks (plyt p)) ps = tss ++ [a ++ ts'] /\ Forall2 reads l (tss ++ [a]) /\ R ts').
  { clear - HG. induction l as [|e l IH]; intros ss Hne HP Hs H; [congruence|].
    inversion HP as [|? ? HP1 HP2]; subst. inversion Hs as [|? ? Hs1 Hs2]; subst.
    apply obind_ok in H. destruct H as (r & A & B). apply omap_ok in B. destruct B as (rs & B & ->).
    destruct l as [|e2 l].
    - injection B as <-. destruct (HP1 Hs1 fuel o rest R r HG A) as (s1 & -> & [C D]).
      split; [discriminate|]. intros ps HF. inversion HF as [|? p ? ps' P1 P2]; subst. inversion P2; subst.
      destruct (D p P1) as (ts & ts' & E1 & E2 & E3). exists [], ts, ts'. cbn [map app]. split; [congruence|].
      split; [constructor; [exact E2|constructor]|exact E3].
    - destruct (HP1 Hs1 fuel o None (fun ts => ts = []) r eq_refl A) as (s1 & -> & [C D]).
      destruct (IH rs ltac:(discriminate) HP2 Hs2 B) as [_ G]. split; [discriminate|].
      intros ps HF. inversion HF as [|? p ? ps' P1 P2]; subst.
      destruct (G ps' P2) as (tss & a & ts' & E1 & E2 & E3). destruct (D p P1) as (ts & t0 & F1 & F2 & ->).
      rewrite app_nil_r in F1. exists (ts :: tss), a, ts'. cbn [map app]. split; [congruence|].
      split; [constructor; assumption|exact E3]. }
  destruct (G l ss Hne HP Hs H1) as [Hss GG].
  assert (Hsay : says (BStack k l) R s).
  { assert (Hmk : forall x ps, Forall2 (fun s p => In p s) ss ps -> toks (plyt x) = lines (map (fun p => toks (plyt p)) ps) ->
      exists ts ts', toks (@plyt (list elem) x) = ts ++ ts' /\ reads (BStack k l) ts /\ R ts').
    { intros x ps HF E. destruct (GG ps HF) as (tss & a & ts' & E1 & E2 & E3). rewrite E1, lines_last in E.
      exists (lines (tss ++ [a])), ts'. split; [exact E|]. split; [constructor; exact E2|exact E3]. }
    unfold vsum_solution in H2. destruct ss as [|a [|b ss]]; [congruence| |].
    - injection H2 as <-. split.
      + destruct (l0) as [|x y] eqn:E0.
        * subst l. cbn in H1. destruct a; [|discriminate].
          exfalso. inversion HP as [|? ? HP1 HP2]; subst. inversion Hs as [|? ? Hs1 Hs2]; subst.
          apply obind_ok in H1. destruct H1 as (r1 & A & B). destruct (HP1 Hs1 fuel o rest R r1 HG A) as (s1 & -> & [C _]).
          injection B as ->. congruence.
        * exfalso. subst l. clear - H1 HP Hs HG.
          inversion HP as [|? ? HP1 HP2]; subst. inversion Hs as [|? ? Hs1 Hs2]; subst.
          inversion HP2 as [|? ? HP3 HP4]; subst. inversion Hs2 as [|? ? Hs3 Hs4]; subst.
          apply obind_ok in H1. destruct H1 as (r1 & A & B).
          destruct (HP1 Hs1 fuel o None (fun ts => ts = []) r1 eq_refl A) as (s1 & -> & _).
          apply omap_ok in B. destruct B as (rs & B & E). apply obind_ok in B. destruct B as (r2 & B1 & B2).
          assert (exists s2, r2 = Some s2) as [s2 ->].
          { destruct y.
            - destruct (HP3 Hs3 fuel o rest R r2 HG B1) as (s2 & -> & _). eauto.
            - destruct (HP3 Hs3 fuel o None (fun ts => ts = []) r2 eq_refl B1) as (s2 & -> & _). eauto. }
          apply omap_ok in B2. destruct B2 as (rs2 & _ & ->). discriminate.
      + intros x Hx. apply (Hmk x [x]); [constructor; [exact Hx|constructor]|reflexivity].
    - destruct (vsum_from _ _ _ _ _ _ H2) as [A B]. split; [exact A|]. intros x Hx. destruct (B x Hx) as [[]|(ps & C & D)].
      rewrite map_fst_init in C. apply (Hmk x ps C). rewrite D.
      assert (map (@plyt (list elem)) ps <> []) by (inversion C; subst; discriminate).
      rewrite get_stacked_lines by assumption. rewrite toks_lines, map_map. reflexivity. }
  destruct s as [|p0 s]; [destruct Hsay; congruence|]. 
  exists (plus_const (p0 :: s) (linebreak_cost o * k * Z.max 0 (Z.of_nat (length l) - 1))). split; [congruence|].
  apply says_plus. exact Hsay.
Qed.

Lemma reading : forall b, Pb b.
Proof.
  apply block_ind'.
  - intros strs _ fuel o rest R r HG H. cbn [opt_layout] in H. eapply with_rest_says; eauto.
  - intros [].
  - apply reading_line.
  - apply reading_stack.
  - apply reading_choice.
Qed.

Lemma to_layouts_read : forall fuel o b ls, solid b -> to_layouts fuel o b = Ok ls ->
  ls <> [] /\ forall l, In l ls -> reads b (toks l).
Proof.
  intros fuel o b ls Hs H. unfold to_layouts in H. apply obind_ok in H. destruct H as (r & H1 & H2).
  destruct (reading b Hs fuel o None (fun ts => ts = []) r eq_refl H1) as (s & -> & [A B]).
  injection H2 as <-. split; [intros E; apply map_eq_nil in E; congruence|].
  intros l Hl. apply in_map_iff in Hl. destruct Hl as (x & <- & Hx). destruct (B x Hx) as (ts & ts' & E & Hr & ->).
  rewrite app_nil_r in E. rewrite E. exact Hr.
Qed.
