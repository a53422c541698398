From Coq Require Import List Bool Arith Lia Permutation.
From Verif Require Import Base RadioModel RadioSpec.
Import ListNotations.
Local Open Scope nat_scope.

Lemma matches_ne ws l : matches ws l -> ws <> [] /\ l <> [].
Proof. destruct 1; split; discriminate. Qed.

Lemma search_spec sub : forall ws off,
  match search sub ws off with
  | Ok (Some k) => exists l rest, sub = l ++ rest /\ matches ws l /\ S k = off + length l
  | Ok None => ~ starts_with ws sub /\ ~ cut_short ws sub
  | Throw => cut_short ws sub /\ ~ starts_with ws sub
  | _ => False
  end.
Proof.
  induction sub as [|c sub IH]; intros [|w ws] off; cbn [search].
  - split; [intros (l & rest & _ & M); now destruct (matches_ne _ _ M)|intros H; inversion H].
  - split; [constructor|]. intros (l & rest & E & M). destruct (matches_ne _ _ M) as [_ N]. now destruct l.
  - split; [intros (l & rest & _ & M); now destruct (matches_ne _ _ M)|intros H; inversion H].
  - destruct c as [sp t|flat|n].
    + destruct (Nat.eqb t w) eqn:E.
      * apply Nat.eqb_eq in E. subst t. destruct ws as [|w2 ws].
        { exists [Leaf sp w], sub. split; [reflexivity|]. split; [constructor|]. cbn. lia. }
        specialize (IH (w2 :: ws) (S off)). destruct (search sub (w2 :: ws) (S off)) as [[k|]| | |].
        -- destruct IH as (l & rest & -> & M & Q). exists (Leaf sp w :: l), rest. split; [reflexivity|]. split; [now constructor|]. cbn. lia.
        -- destruct IH as [I1 I2]. split.
           ++ intros (l & rest & Q & M). inversion M; subst; cbn in Q; injection Q; intros; subst; try congruence. apply I1. now exists l0, rest.
           ++ intros M. inversion M; subst; try congruence; auto.
        -- destruct IH as [I1 I2]. split; [now constructor|].
           intros (l & rest & Q & M). inversion M; subst; cbn in Q; injection Q; intros; subst; try congruence. apply I2. now exists l0, rest.
        -- exact IH.
        -- exact IH.
      * apply Nat.eqb_neq in E. destruct sp.
        -- specialize (IH (w :: ws) (S off)). destruct (search sub (w :: ws) (S off)) as [[k|]| | |].
           ++ destruct IH as (l & rest & -> & M & Q). exists (Leaf true t :: l), rest. split; [reflexivity|]. split; [now constructor|]. cbn. lia.
           ++ destruct IH as [I1 I2]. split.
              ** intros (l & rest & Q & M). inversion M; subst; cbn in Q; injection Q; intros; subst; try congruence. apply I1. now exists l0, rest.
              ** intros M. inversion M; subst; try congruence; auto.
           ++ destruct IH as [I1 I2]. split; [now constructor|].
              intros (l & rest & Q & M). inversion M; subst; cbn in Q; injection Q; intros; subst; try congruence. apply I2. now exists l0, rest.
           ++ exact IH.
           ++ exact IH.
        -- split.
           ++ intros (l & rest & Q & M). inversion M; subst; cbn in Q; injection Q; intros; subst; congruence.
           ++ intros M. inversion M; subst; congruence.
    + split; [intros (l & rest & Q & M); inversion M; subst; discriminate|intros M; inversion M].
    + split; [intros (l & rest & Q & M); inversion M; subst; discriminate|intros M; inversion M].
Qed.

(** A hit: the first candidate the text starts with. *)
Definition first_hit (cs : list (nat * list nat)) (sub : list child) (id off : nat) : Prop :=
  exists pre ws post l rest, cs = pre ++ (id, ws) :: post /\ (forall x, In x pre -> ~ starts_with (snd x) sub) /\
    sub = l ++ rest /\ matches ws l /\ S off = length l.

Lemma try_lists_spec sub id : forall wss,
  match try_lists sub id wss with
  | Ok (Some (id', off)) => id' = id /\ first_hit (map (pair id) wss) sub id off
  | Ok None => forall ws, In ws wss -> ~ starts_with ws sub
  | Throw => exists ws, In ws wss /\ cut_short ws sub
  | _ => False
  end.
Proof.
  induction wss as [|ws wss IH]; cbn [try_lists]; [intros ws []|].
  pose proof (search_spec sub ws 0) as S0. destruct (search sub ws 0) as [[k|]| | |]; cbn [obind].
  - split; [reflexivity|]. destruct S0 as (l & rest & E & M & Q). exists [], ws, (map (pair id) wss), l, rest.
    split; [reflexivity|]. split; [intros x []|auto].
  - destruct (try_lists sub id wss) as [[[id' off]|]| | |].
    + destruct IH as (-> & pre & ws' & post & l & rest & E & N & H). split; [reflexivity|].
      exists ((id, ws) :: pre), ws', post, l, rest. split; [cbn; now rewrite E|]. split; [|exact H].
      intros x [<-|Hx]; [apply S0|now apply N].
    + intros ws' [<-|H]; [apply S0|now apply IH].
    + destruct IH as (ws' & H1 & H2). exists ws'. split; [now right|exact H2].
    + exact IH.
    + exact IH.
  - exists ws. split; [now left|apply S0].
  - destruct S0.
  - destruct S0.
Qed.

Lemma first_hit_after cs1 cs2 sub id off : (forall x, In x cs1 -> ~ starts_with (snd x) sub) -> first_hit cs2 sub id off -> first_hit (cs1 ++ cs2) sub id off.
Proof.
  intros N (pre & ws & post & l & rest & -> & N2 & H). exists (cs1 ++ pre), ws, post, l, rest. split; [now rewrite app_assoc|].
  split; [|exact H]. intros x Hx. apply in_app_or in Hx. destruct Hx; auto.
Qed.
Lemma first_hit_before cs1 cs2 sub id off : first_hit cs1 sub id off -> first_hit (cs1 ++ cs2) sub id off.
Proof.
  intros (pre & ws & post & l & rest & -> & H). exists pre, ws, (post ++ cs2), l, rest. split; [now rewrite <- app_assoc|exact H].
Qed.

Lemma try_ids_spec info sub : forall ids,
  match try_ids info sub ids with
  | Ok (Some (id, off)) => first_hit (candidates info ids) sub id off
  | Ok None => forall x, In x (candidates info ids) -> ~ starts_with (snd x) sub
  | Throw => (exists id, In id ids /\ info id = Stray) \/ exists x, In x (candidates info ids) /\ cut_short (snd x) sub
  | _ => False
  end.
Proof.
  induction ids as [|id ids IH]; [intros x []|]. cbn [try_ids].
  change (candidates info (id :: ids)) with
    (match info id with Radio ws => [(id, ws)] | Heading wss => map (pair id) wss | Stray => [] end ++ candidates info ids).
  assert (G : forall wss, info id <> Stray ->
    match obind (try_lists sub id wss) (fun r => match r with Some x => Ok (Some x) | None => try_ids info sub ids end) with
    | Ok (Some (id', off)) => first_hit (map (pair id) wss ++ candidates info ids) sub id' off
    | Ok None => forall x, In x (map (pair id) wss ++ candidates info ids) -> ~ starts_with (snd x) sub
    | Throw => (exists id', In id' (id :: ids) /\ info id' = Stray) \/ exists x, In x (map (pair id) wss ++ candidates info ids) /\ cut_short (snd x) sub
    | _ => False
    end).
  { intros wss _. pose proof (try_lists_spec sub id wss) as T. destruct (try_lists sub id wss) as [[[id' off]|]| | |]; cbn [obind].
    - destruct T as [-> T]. now apply first_hit_before.
    - assert (N : forall x, In x (map (pair id) wss) -> ~ starts_with (snd x) sub).
      { intros x Hx. apply in_map_iff in Hx. destruct Hx as (ws & <- & Hx). now apply T. }
      destruct (try_ids info sub ids) as [[[id' off]|]| | |].
      + now apply first_hit_after.
      + intros x Hx. apply in_app_or in Hx. destruct Hx; auto.
      + destruct IH as [(id' & H1 & H2)|(x & H1 & H2)]; [left; exists id'; split; [now right|exact H2]|].
        right. exists x. split; [apply in_or_app; now right|exact H2].
      + exact IH.
      + exact IH.
    - destruct T as (ws & H1 & H2). right. exists (id, ws). split; [apply in_or_app; left; now apply in_map|exact H2].
    - destruct T.
    - destruct T. }
  destruct (info id) as [ws|wss|] eqn:I.
  - apply (G [ws]). discriminate.
  - apply G. discriminate.
  - cbn [obind]. left. exists id. split; [now left|exact I].
Qed.

(** ** Maps *)
Lemma get_erase {A} (m : list (nat * A)) k j : get (erase m k) j = if Nat.eqb k j then None else get m j.
Proof.
  induction m as [|[k' v] m IH]; [cbn; now destruct (Nat.eqb k j)|]. unfold erase in *. cbn [filter fst]. destruct (Nat.eqb k' k) eqn:E; cbn [negb get].
  - rewrite IH. apply Nat.eqb_eq in E. subst. now destruct (Nat.eqb k j).
  - rewrite IH. destruct (Nat.eqb k j) eqn:F; [|reflexivity]. apply Nat.eqb_eq in F. subst. now rewrite E.
Qed.
Lemma get_put {A} (m : list (nat * A)) k v j : get (put m k v) j = if Nat.eqb k j then Some v else get m j.
Proof. unfold put. cbn [get]. rewrite get_erase. now destruct (Nat.eqb k j). Qed.

Lemma hits_spec (tags : list (nat * nat)) flat : forall m0 : list (nat * nat),
  let hits := fold_left (fun m f => match get tags f with Some t => put m f t | None => m end) flat m0 in
  forall f t, get hits f = Some t <-> (In f flat /\ get tags f = Some t) \/ (get m0 f = Some t /\ (In f flat -> get tags f = None)).
Proof.
  induction flat as [|g flat IH]; intros m0 hits f t.
  - cbn. tauto.
  - unfold hits. cbn [fold_left]. rewrite IH. clear IH hits. destruct (get tags g) as [u|] eqn:G.
    + rewrite get_put. destruct (Nat.eqb g f) eqn:E.
      * apply Nat.eqb_eq in E. subst g. cbn [In]. rewrite G. split.
        -- intros [[A B]|[A B]]; left; auto.
        -- intros [[A B]|[A B]]; [|specialize (B (or_introl eq_refl)); discriminate].
           destruct (in_dec Nat.eq_dec f flat) as [I|I]; [left; auto|right; split; [exact B|contradiction]].
      * apply Nat.eqb_neq in E. cbn [In]. split.
        -- intros [[A B]|[A B]]; [left; auto|right; split; [exact A|]]. intros [H|H]; [congruence|auto].
        -- intros [[[A|A] B]|[A B]]; [congruence|left; auto|right; auto].
    + cbn [In]. split.
      * intros [[A B]|[A B]]; [left; auto|right; split; [exact A|]]. intros [<-|H]; auto.
      * intros [[[A|A] B]|[A B]]; [congruence|left; auto|right; auto].
Qed.

Section Grouping.
  Variables (info : nat -> target) (radio : list (nat * list nat)) (tags : list (nat * nat)).
  Let loop := group_loop info radio tags.

  Lemma loop_grouped : forall fuel sub gs, loop fuel sub = Ok gs -> grouped info radio tags sub gs.
  Proof.
    unfold loop. induction fuel as [|fuel IH]; intros sub gs; [discriminate|]. destruct sub as [|c sub]; [intros [= <-]; constructor|].
    cbn [group_loop].
    assert (Sg : forall gs, omap (cons (Single c)) (group_loop info radio tags fuel sub) = Ok gs ->
      (forall x, In x (candidates_at info radio (c :: sub)) -> ~ starts_with (snd x) (c :: sub)) ->
      (forall flat f, c = Tag flat -> In f flat -> get tags f = None) -> grouped info radio tags (c :: sub) gs).
    { intros gs' H N1 N2. destruct (group_loop info radio tags fuel sub) as [gs0| | |] eqn:G; try discriminate. injection H as <-.
      apply gr_single; auto. }
    destruct c as [[] t|flat|n].
    - intros H. apply Sg; [exact H|intros x []|discriminate].
    - destruct (get radio t) as [ids|] eqn:R.
      + pose proof (try_ids_spec info (Leaf false t :: sub) ids) as T. destruct (try_ids info (Leaf false t :: sub) ids) as [[[id off]|]| | |]; cbn [obind]; try discriminate.
        * destruct T as (pre & ws & post & l & rest & E & N & Q & M & L). rewrite L.
          rewrite Q, firstn_app, firstn_all, Nat.sub_diag, skipn_app, skipn_all, Nat.sub_diag. cbn [firstn skipn app]. rewrite app_nil_r.
          destruct (group_loop info radio tags fuel rest) as [gs0| | |] eqn:G; try discriminate. intros [= <-].
          rewrite <- Q. eapply gr_hit with (pre := pre); eauto. cbn [candidates_at]. rewrite R. exact E.
        * intros H. apply Sg; [exact H| |discriminate]. cbn [candidates_at]. now rewrite R.
      + intros H. apply Sg; [exact H| |discriminate]. cbn [candidates_at]. rewrite R. intros x [].
    - pose proof (hits_spec tags flat []) as Hs. cbv zeta in Hs.
      destruct (fold_left (fun m f => match get tags f with Some t => put m f t | None => m end) flat []) as [|h hits] eqn:F.
      + intros H. apply Sg; [exact H|intros x []|]. intros flat' f [= <-] Hf. destruct (get tags f) as [u|] eqn:U; [|reflexivity].
        assert (X : get (@nil (nat * nat)) f = Some u) by (apply Hs; left; auto). discriminate.
      + destruct (group_loop info radio tags fuel sub) as [gs0| | |] eqn:G; try discriminate. intros [= <-]. apply gr_tag; auto.
        * destruct h as [f u]. exists f. assert (X : get ((f, u) :: hits) f = Some u) by (cbn; now rewrite Nat.eqb_refl).
          apply Hs in X. destruct X as [[X1 X2]|[X1 _]]; [|discriminate]. split; [exact X1|congruence].
        * intros f u. rewrite Hs. cbn. intuition discriminate.
    - intros H. apply Sg; [exact H|intros x []|discriminate].
  Qed.

  Lemma grouped_members sub gs : grouped info radio tags sub gs -> concat (map members gs) = sub.
  Proof.
    induction 1; cbn [map concat members app]; try congruence; subst; now f_equal.
  Qed.

  Definition safe (sub : list child) : Prop := forall a b, sub = a ++ b ->
    forall x, In x (candidates_at info radio b) -> ~ cut_short (snd x) b.
  Definition no_stray : Prop := forall w ids id, get radio w = Some ids -> In id ids -> info id <> Stray.

  Lemma loop_total : no_stray -> forall fuel sub, length sub < fuel -> safe sub -> exists gs, loop fuel sub = Ok gs.
  Proof.
    intros NS. unfold loop. induction fuel as [|fuel IH]; intros sub L Sf; [lia|]. destruct sub as [|c sub]; [now exists []|].
    assert (Sub : forall rest a, c :: sub = a ++ rest -> a <> [] -> exists gs, group_loop info radio tags fuel rest = Ok gs).
    { intros rest a E N. apply IH.
      - apply (f_equal (@length _)) in E. rewrite app_length in E. cbn in E, L. destruct a; [congruence|]. cbn in E. lia.
      - intros a' b E'. apply (Sf (a ++ a')). rewrite E, E'. now rewrite app_assoc. }
    destruct (Sub sub [c] eq_refl ltac:(discriminate)) as [gs G]. cbn [group_loop]. rewrite G. cbn [omap obind].
    destruct c as [[] t|flat|n]; eauto.
    - destruct (get radio t) as [ids|] eqn:R; eauto.
      pose proof (try_ids_spec info (Leaf false t :: sub) ids) as T. destruct (try_ids info (Leaf false t :: sub) ids) as [[[id off]|]| | |]; cbn [obind]; eauto.
      + destruct T as (pre & ws & post & l & rest & E & N & Q & M & Len). rewrite Len.
        rewrite Q, skipn_app, skipn_all, Nat.sub_diag. cbn [skipn app].
        destruct (Sub rest l Q) as [gs' G']; [now destruct (matches_ne _ _ M)|]. rewrite G'. eexists. reflexivity.
      + exfalso. destruct T as [(id & H1 & H2)|(x & H1 & H2)]; [now apply (NS t ids id)|].
        apply (Sf [] (Leaf false t :: sub) eq_refl x); [|exact H2]. cbn [candidates_at]. now rewrite R.
      + destruct T.
      + destruct T.
    - destruct (fold_left (fun m f => match get tags f with Some t => put m f t | None => m end) flat []); eauto.
  Qed.

  Lemma sum_sizes gs : forall n, fold_left (fun n g => n + group_size g) gs n = n + length (concat (map members gs)).
  Proof.
    induction gs as [|g gs IH]; intros n; cbn [fold_left map concat]; [cbn; lia|]. rewrite IH, app_length.
    destruct g; cbn [group_size members length]; lia.
  Qed.
  Lemma groups_loop sub gs : loop (S (length sub)) sub = Ok gs -> groups info radio tags sub = Ok gs.
  Proof.
    intros H. unfold groups, loop in *. rewrite H. cbn [obind]. rewrite sum_sizes, (grouped_members _ _ (loop_grouped _ _ _ H)).
    cbn [Nat.add]. now rewrite Nat.eqb_refl.
  Qed.
  Lemma groups_grouped sub gs : groups info radio tags sub = Ok gs -> grouped info radio tags sub gs.
  Proof.
    unfold groups. destruct (group_loop info radio tags (S (length sub)) sub) as [gs0| | |] eqn:G; try discriminate. cbn [obind].
    destruct (Nat.eqb _ _); [|discriminate]. intros [= <-]. eapply loop_grouped; exact G.
  Qed.
End Grouping.

Lemma matches_fun ws l1 : matches ws l1 -> forall l2 r1 r2, matches ws l2 -> l1 ++ r1 = l2 ++ r2 -> l1 = l2.
Proof.
  induction 1 as [sp w|sp w ws l M IH|t w ws l N M IH]; intros l2 r1 r2 M2 E; inversion M2; subst; cbn in E; injection E; intros; subst; try congruence.
  - match goal with H : matches [] _ |- _ => destruct (matches_ne _ _ H) as [X _]; now destruct X end.
  - destruct (matches_ne _ _ M) as [X _]. now destruct X.
  - f_equal. eapply IH; eauto.
  - f_equal. eapply IH; eauto.
Qed.

Lemma grouped_fun info radio tags sub gs : grouped info radio tags sub gs ->
  forall gs', grouped info radio tags sub gs' -> Forall2 (fun g g' =>
    match g, g' with TrackedTag c h, TrackedTag c' h' => c = c' /\ forall f, get h f = get h' f | _, _ => g = g' end) gs gs'.
Proof.
  induction 1 as [|sub pre id ws post l rest gs Hc Hn Hs Hm G IH|flat hits sub gs Hf Hh G IH|c sub gs Hc Ht G IH]; intros gs' G'.
  - inversion G' as [|? ? ? ? ? l0 ? ? ? ? Hs0 Hm0| |]; subst; [constructor|].
    destruct (matches_ne _ _ Hm0) as [_ X]. now destruct l0.
  - assert (Hne : sub <> []) by (destruct (matches_ne _ _ Hm) as [_ X]; destruct l; [congruence|subst; discriminate]).
    assert (Hin : In (id, ws) (candidates_at info radio sub)) by (rewrite Hc; apply in_or_app; right; now left).
    assert (Hst : starts_with ws sub) by (now exists l, rest).
    remember sub as sb eqn:Esb in G'.
    destruct G' as [|sb pre' id' ws' post' l' rest' gs0 Hc' Hn' Hs' Hm' G0|flat0 hits0 sub0 gs0 Hf' Hh' G0|c0 sub0 gs0 Hc' Ht' G0].
    + now destruct Hne.
    + subst sb. assert (P : pre = pre' /\ (id, ws) = (id', ws')).
      { rewrite Hc in Hc'. assert (Hst' : starts_with ws' sub) by (now exists l', rest'). clear - Hn Hn' Hst Hc' Hst'.
        revert pre' Hn' Hc'. induction pre as [|x pre IH]; intros [|y pre'] Hn' E; cbn in E; injection E; intros; subst; auto.
        - exfalso. apply (Hn' (id, ws)); [now left|exact Hst].
        - exfalso. apply (Hn (id', ws')); [now left|exact Hst'].
        - destruct (IH ltac:(intros z Hz; apply Hn; now right) pre') as [-> Q]; auto. intros z Hz. apply Hn'. now right. }
      destruct P as [_ P]. injection P as <- <-. rewrite Hs in Hs'. assert (l = l') by (eapply matches_fun; eauto). subst l'.
      constructor; [reflexivity|]. apply IH. apply app_inv_head in Hs'. now subst.
    + rewrite <- Esb in Hin. destruct Hin.
    + exfalso. rewrite Esb in Hc'. apply (Hc' (id, ws)); auto.
  - inversion G' as [|? pre' id' ws' post' l' rest' gs0 Hc' Hn' Hs' Hm' G0|flat0 hits0 sub0 gs0 Hf' Hh' G0|c0 sub0 gs0 Hc' Ht' G0]; subst.
    + cbn in Hc'. destruct pre'; discriminate.
    + constructor; [|auto]. split; [reflexivity|]. intros f. destruct (get hits f) as [u|] eqn:U.
      * symmetry. apply Hh'. now apply Hh.
      * destruct (get hits0 f) as [u|] eqn:U0; [|reflexivity]. apply Hh', Hh in U0. congruence.
    + exfalso. destruct Hf as (f & F1 & F2). apply F2. now apply (Ht' flat f).
  - inversion G' as [|? pre' id' ws' post' l' rest' gs0 Hc' Hn' Hs' Hm' G0|flat0 hits0 sub0 gs0 Hf' Hh' G0|c0 sub0 gs0 Hc' Ht' G0]; subst.
    + exfalso. apply (Hc (id', ws')); [rewrite Hc'; apply in_or_app; right; now left|]. now exists l', rest'.
    + exfalso. destruct Hf' as (f & F1 & F2). apply F2. now apply (Ht flat0 f).
    + constructor; [reflexivity|auto].
Qed.

(** ** Tracking *)
Lemma edit_key_get add keys id : forall m k,
  get (edit_key add m keys id) k = if in_dec Nat.eq_dec k keys then (if add then Some id else None) else get m k.
Proof.
  unfold edit_key. induction keys as [|x keys IH]; intros m k; [reflexivity|]. cbn [fold_left]. rewrite IH.
  destruct (in_dec Nat.eq_dec k keys) as [I|I].
  - destruct (in_dec Nat.eq_dec k (x :: keys)) as [J|J]; [reflexivity|]. exfalso. apply J. now right.
  - assert (G : get (if add then put m x id else erase m x) k = if Nat.eqb x k then (if add then Some id else None) else get m k).
    { destruct add; [apply get_put|apply get_erase]. }
    rewrite G. destruct (Nat.eqb x k) eqn:E.
    + apply Nat.eqb_eq in E. subst. destruct (in_dec Nat.eq_dec k (k :: keys)) as [J|J]; [reflexivity|]. exfalso. apply J. now left.
    + apply Nat.eqb_neq in E. destruct (in_dec Nat.eq_dec k (x :: keys)) as [[J|J]|J]; try contradiction; reflexivity.
Qed.
Lemma edit_key_sound add keys id m k i : get (edit_key add m keys id) k = Some i -> (add = true /\ i = id /\ In k keys) \/ get m k = Some i.
Proof. rewrite edit_key_get. destruct (in_dec Nat.eq_dec k keys); [destruct add; [|discriminate]|auto]. intros [= <-]. auto. Qed.
Lemma in_opt k o : In k (opt_list o) <-> o = Some k.
Proof. destruct o as [x|]; cbn; [|split; [tauto|discriminate]]. split; [intros [->|[]]; reflexivity|intros [= ->]; auto]. Qed.

Lemma remove_first_in x : forall l l', remove_first x l = Some l' -> forall y, (In y l' -> In y l) /\ (In y l -> y <> x -> In y l').
Proof.
  induction l as [|z l IH]; intros l' H y; [discriminate|]. cbn in H. destruct (Nat.eqb z x) eqn:E.
  - injection H as <-. apply Nat.eqb_eq in E. subst. split; [now right|]. intros [->|H] N; [congruence|exact H].
  - destruct (remove_first x l) as [l0|]; [|discriminate]. injection H as <-. destruct (IH l0 eq_refl y) as [A B]. split.
    + intros [->|H]; [now left|right; auto].
    + intros [->|H] N; [now left|right; auto].
Qed.

Lemma edit_radio_in add m ws id m' : edit_radio add m ws id = Ok m' -> exists w ws', ws = w :: ws' /\
  (forall v l r, get m' v = Some l -> In r l -> (add = true /\ v = w /\ r = id) \/ exists l0, get m v = Some l0 /\ In r l0) /\
  (forall v l r, get m v = Some l -> In r l -> add = true \/ r <> id -> exists l', get m' v = Some l' /\ In r l') /\
  (add = true -> exists l', get m' w = Some l' /\ In id l').
Proof.
  destruct ws as [|w ws']; [discriminate|]. intros H. exists w, ws'. split; [reflexivity|]. cbn in H. destruct add.
  - destruct (get m w) as [l0|] eqn:G.
    + destruct (existsb (Nat.eqb id) l0) eqn:X; injection H as <-.
      * split; [|split]; [eauto|eauto|]. intros _. exists l0. split; [exact G|]. apply existsb_exists in X. destruct X as (y & Y1 & Y2).
        apply Nat.eqb_eq in Y2. now subst.
      * split; [|split].
        -- intros v l r. rewrite get_put. destruct (Nat.eqb w v) eqn:E; [|eauto]. apply Nat.eqb_eq in E. subst v. intros [= <-] I.
           apply in_app_or in I. destruct I as [I|[<-|[]]]; [right; eauto|left; auto].
        -- intros v l r A I _. rewrite get_put. destruct (Nat.eqb w v) eqn:E; [|eauto]. apply Nat.eqb_eq in E. subst v.
           assert (l = l0) by congruence. subst. eexists. split; [reflexivity|]. apply in_or_app. now left.
        -- intros _. rewrite get_put, Nat.eqb_refl. eexists. split; [reflexivity|]. apply in_or_app. right. now left.
    + injection H as <-. split; [|split].
      * intros v l r. rewrite get_put. destruct (Nat.eqb w v) eqn:E; [|eauto]. apply Nat.eqb_eq in E. subst v. intros [= <-] [<-|[]]. auto.
      * intros v l r A I _. rewrite get_put. destruct (Nat.eqb w v) eqn:E; [|eauto]. apply Nat.eqb_eq in E. subst v. congruence.
      * intros _. rewrite get_put, Nat.eqb_refl. eexists. split; [reflexivity|]. now left.
  - destruct (get m w) as [l0|] eqn:G; [|discriminate]. destruct (remove_first id l0) as [l1|] eqn:Rf; [|discriminate].
    pose proof (remove_first_in id l0 l1 Rf) as RI.
    assert (Cases : forall v, get m' v = if Nat.eqb w v then (match l1 with [] => None | _ => Some l1 end) else get m v).
    { intros v. destruct l1; injection H as <-; [apply get_erase|apply get_put]. }
    split; [|split; [|discriminate]].
    + intros v l r. rewrite Cases. destruct (Nat.eqb w v) eqn:E; [|eauto]. apply Nat.eqb_eq in E. subst v. destruct l1 as [|y l1]; [discriminate|].
      intros [= <-] I. right. exists l0. split; [exact G|]. now apply RI.
    + intros v l r A I [D|D]; [discriminate|]. rewrite Cases. destruct (Nat.eqb w v) eqn:E; [|eauto]. apply Nat.eqb_eq in E. subst v.
      assert (l = l0) by congruence. subst. pose proof (proj2 (RI r) I D) as J. destruct l1 as [|y l1]; [destruct J|]. eauto.
Qed.

Lemma edit_radios_in add : forall L m m', edit_radios add m L = Ok m' ->
  (forall v l r, get m' v = Some l -> In r l -> (add = true /\ exists ws, In (v :: ws, r) L) \/ exists l0, get m v = Some l0 /\ In r l0) /\
  (forall v l r, get m v = Some l -> In r l -> add = true \/ (forall ws, ~ In (ws, r) L) -> exists l', get m' v = Some l' /\ In r l') /\
  (add = true -> forall w ws r, In (w :: ws, r) L -> exists l', get m' w = Some l' /\ In r l').
Proof.
  induction L as [|[ws id] L IH]; intros m m' H; cbn [edit_radios] in H.
  - injection H as <-. split; [|split]; eauto. intros _ w ws r [].
  - destruct (edit_radio add m ws id) as [m1| | |] eqn:E; try discriminate. cbn [obind] in H.
    destruct (edit_radio_in _ _ _ _ _ E) as (w & ws' & -> & A & B & C). destruct (IH _ _ H) as (A' & B' & C'). split; [|split].
    + intros v l r G I. destruct (A' v l r G I) as [[D (ws & F)]|(l0 & G0 & I0)]; [left; split; [exact D|exists ws; now right]|].
      destruct (A v l0 r G0 I0) as [(D & -> & ->)|X]; [left; split; [exact D|exists ws'; now left]|now right].
    + intros v l r G I D. destruct (B v l r G I) as (l1 & G1 & I1).
      { destruct D as [D|D]; [now left|right]. intros ->. apply (D (w :: ws')). now left. }
      apply (B' v l1 r G1 I1). destruct D as [D|D]; [now left|right]. intros ws F. apply (D ws). now right.
    + intros D v ws r [F|F]; [|now apply (C' D v ws)]. injection F as <- <- <-. destruct (C D) as (l1 & G1 & I1).
      apply (B' w l1 id G1 I1). now left.
Qed.

(** Removal: the target is gone from the list of its first word. *)
Definition nodup_map (m : mapping (list nat)) : Prop := forall w l, get m w = Some l -> NoDup l.
Lemma remove_first_nodup x : forall l l', NoDup l -> remove_first x l = Some l' -> NoDup l' /\ ~ In x l'.
Proof.
  induction l as [|z l IH]; intros l' N H; [discriminate|]. inversion N as [|? ? Nz Nl]; subst. cbn in H. destruct (Nat.eqb z x) eqn:E.
  - injection H as <-. apply Nat.eqb_eq in E. subst. auto.
  - destruct (remove_first x l) as [l0|] eqn:R; [|discriminate]. injection H as <-. destruct (IH l0 Nl eq_refl) as [A B]. split.
    + constructor; [|exact A]. intros C. apply Nz. now apply (remove_first_in x l l0 R).
    + intros [C|C]; [|contradiction]. apply Nat.eqb_neq in E. congruence.
Qed.
Lemma edit_radio_nodup add m ws id m' : edit_radio add m ws id = Ok m' -> nodup_map m -> nodup_map m' /\
  (add = false -> forall w ws' l, ws = w :: ws' -> get m' w = Some l -> ~ In id l).
Proof.
  destruct ws as [|w ws']; [discriminate|]. intros H N. cbn in H. destruct add.
  - split; [|discriminate]. destruct (get m w) as [l0|] eqn:G.
    + destruct (existsb (Nat.eqb id) l0) eqn:X; injection H as <-; [exact N|]. intros v l. rewrite get_put. destruct (Nat.eqb w v); [|apply N].
      intros [= <-]. apply (Permutation_NoDup (Permutation_cons_append l0 id)). constructor; [|exact (N _ _ G)].
      intros C. assert (existsb (Nat.eqb id) l0 = true); [|congruence]. apply existsb_exists. exists id. split; [exact C|apply Nat.eqb_refl].
    + injection H as <-. intros v l. rewrite get_put. destruct (Nat.eqb w v); [|apply N]. intros [= <-]. constructor; [intros []|constructor].
  - destruct (get m w) as [l0|] eqn:G; [|discriminate]. destruct (remove_first id l0) as [l1|] eqn:Rf; [|discriminate].
    destruct (remove_first_nodup id l0 l1 (N _ _ G) Rf) as [A B].
    assert (Cases : forall v, get m' v = if Nat.eqb w v then (match l1 with [] => None | _ => Some l1 end) else get m v).
    { intros v. destruct l1; injection H as <-; [apply get_erase|apply get_put]. }
    split.
    + intros v l. rewrite Cases. destruct (Nat.eqb w v); [|apply N]. destruct l1; [discriminate|]. intros [= <-]. exact A.
    + intros _ w' ws0 l [= <- <-]. rewrite Cases, Nat.eqb_refl. destruct l1; [discriminate|]. intros [= <-]. exact B.
Qed.
Lemma edit_radios_nodup add : forall L m m', edit_radios add m L = Ok m' -> nodup_map m -> nodup_map m' /\
  (add = false -> forall w ws id l, In (w :: ws, id) L -> get m' w = Some l -> ~ In id l).
Proof.
  induction L as [|[ws id] L IH]; intros m m' H N; cbn [edit_radios] in H.
  - injection H as <-. split; [exact N|]. intros _ w ws id l [].
  - destruct (edit_radio add m ws id) as [m1| | |] eqn:E; try discriminate. cbn [obind] in H.
    destruct (edit_radio_nodup _ _ _ _ _ E N) as [N1 G1]. destruct (IH m1 m' H N1) as [N2 G2]. split; [exact N2|].
    intros D w ws0 id0 l [I|I] Gt; [|now apply (G2 D w ws0 id0 l)]. injection I as -> ->. intros C.
    destruct (edit_radios_in _ _ _ _ H) as (A & _ & _). destruct (A w l id0 Gt C) as [(X & _)|(l0 & Gl & Il)]; [congruence|].
    exact (G1 D w ws0 l0 eq_refl Gl Il).
Qed.

Section Facts.
  Variable facts_of : nat -> facts.
  Lemma update_true add t id t' : update_tracking add t (facts_of id) id = Ok t' -> entries_true facts_of t -> entries_true facts_of t'.
  Proof.
    unfold update_tracking. intros H (T1 & T2 & T3 & T4 & T5 & T6). destruct (edit_radios add (t_radio t) (f_radio (facts_of id))) as [r| | |] eqn:R; try discriminate.
    cbn [omap obind] in H. injection H as <-. unfold entries_true. cbn [t_names t_subtrees t_custom t_foot t_tags t_radio].
    destruct (edit_radios_in _ _ _ _ R) as (A & _ & _).
    split; [|split; [|split; [|split; [|split]]]]; try (intros k i H; apply edit_key_sound in H; destruct H as [(_ & -> & H)|H]; auto; now apply in_opt in H).
    intros w l rid G I. destruct (A w l rid G I) as [(_ & ws & X)|(l0 & G0 & I0)]; [now exists id, ws|eauto].
  Qed.
  Lemma events_true : forall es t t', track_events facts_of t es = Ok t' -> entries_true facts_of t -> entries_true facts_of t'.
  Proof.
    induction es as [|e es IH]; intros t t' H T; cbn [track_events] in H; [now injection H as <-|].
    destruct (track_event facts_of t e) as [t1| | |] eqn:E; try discriminate. apply (IH t1 t' H). clear H IH.
    destruct e as [id|old new]; cbn [track_event] in E; [now apply (update_true _ _ _ _ E)|].
    destruct (update_tracking false t (facts_of old) old) as [t0| | |] eqn:E0; try discriminate. cbn [obind] in E.
    apply (update_true _ _ _ _ E). now apply (update_true _ _ _ _ E0).
  Qed.

  Lemma update_found t id t' : update_tracking true t (facts_of id) id = Ok t' -> found facts_of t' id.
  Proof.
    unfold update_tracking. intros H. destruct (edit_radios true (t_radio t) (f_radio (facts_of id))) as [r| | |] eqn:R; try discriminate.
    cbn [omap obind] in H. injection H as <-. unfold found. cbn [t_names t_subtrees t_custom t_foot t_tags t_radio].
    destruct (edit_radios_in _ _ _ _ R) as (_ & _ & C).
    split; [|split; [|split; [|split; [|split]]]]; try (intros k H; rewrite edit_key_get; try apply in_opt in H; destruct (in_dec Nat.eq_dec _ _); [reflexivity|contradiction]).
    intros w ws rid. apply (C eq_refl).
  Qed.
  Lemma update_keeps add t id t' j : update_tracking add t (facts_of id) id = Ok t' -> ~ share_key (facts_of j) (facts_of id) ->
    found facts_of t j -> found facts_of t' j.
  Proof.
    unfold update_tracking. intros H NS (F1 & F2 & F3 & F4 & F5 & F6). destruct (edit_radios add (t_radio t) (f_radio (facts_of id))) as [r| | |] eqn:R; try discriminate.
    cbn [omap obind] in H. injection H as <-. unfold found. cbn [t_names t_subtrees t_custom t_foot t_tags t_radio].
    destruct (edit_radios_in _ _ _ _ R) as (_ & B & _). unfold share_key in NS.
    split; [|split; [|split; [|split; [|split]]]].
    - intros k H. rewrite edit_key_get. destruct (in_dec Nat.eq_dec _ _); [exfalso; apply NS; left; eauto|auto].
    - intros k H. rewrite edit_key_get. destruct (in_dec Nat.eq_dec _ _) as [I|I]; [exfalso; apply NS; right; left; apply in_opt in I; eauto|auto].
    - intros k H. rewrite edit_key_get. destruct (in_dec Nat.eq_dec _ _); [exfalso; apply NS; right; right; left; eauto|auto].
    - intros k H. rewrite edit_key_get. destruct (in_dec Nat.eq_dec _ _) as [I|I]; [exfalso; apply NS; right; right; right; left; apply in_opt in I; eauto|auto].
    - intros k H. rewrite edit_key_get. destruct (in_dec Nat.eq_dec _ _); [exfalso; apply NS; right; right; right; right; left; eauto|auto].
    - intros w ws rid I. destruct (F6 w ws rid I) as (l & G & J). apply (B w l rid G J). right. intros ws' X.
      apply NS. right; right; right; right; right. eauto.
  Qed.
  Lemma events_found : forall es live t t', track_events facts_of t es = Ok t' -> no_clash facts_of es live ->
    (forall j, In j live -> found facts_of t j) -> forall j, In j (remaining es live) -> found facts_of t' j.
  Proof.
    induction es as [|e es IH]; intros live t t' H NC F j Hj; cbn [track_events] in H; [injection H as <-; now apply F|].
    destruct (track_event facts_of t e) as [t1| | |] eqn:E; try discriminate. destruct e as [id|old new]; cbn [track_event remaining no_clash] in *.
    - destruct NC as [N1 N2]. apply (IH _ t1 t' H N2); [|exact Hj]. intros i [<-|Hi]; [now apply (update_found _ _ _ E)|].
      destruct (N1 i Hi) as [->|N]; [now apply (update_found _ _ _ E)|]. now apply (update_keeps _ _ _ _ _ E N), F.
    - destruct (update_tracking false t (facts_of old) old) as [t0| | |] eqn:E0; try discriminate. cbn [obind] in E.
      destruct NC as (N1 & N2 & N3). apply (IH _ t1 t' H N3); [|exact Hj]. intros i [<-|Hi]; [now apply (update_found _ _ _ E)|].
      destruct (N2 i Hi) as [->|N]; [now apply (update_found _ _ _ E)|]. apply (update_keeps _ _ _ _ _ E N).
      apply (update_keeps _ _ _ _ _ E0 (N1 i Hi)), F. apply filter_In in Hi. tauto.
  Qed.

  (** ** Current entries *)
  Definition radio_current (m : mapping (list nat)) (live : list nat) : Prop :=
    forall w l rid, get m w = Some l -> In rid l -> exists id ws, In id live /\ In (w :: ws, rid) (f_radio (facts_of id)).
  Definition current_inv (t : track) (live : list nat) : Prop :=
    entries_true facts_of t /\ nodup_map (t_radio t) /\ entries_current facts_of t live.
  Lemma update_add t live id t' : update_tracking true t (facts_of id) id = Ok t' -> current_inv t live -> current_inv t' (id :: live).
  Proof.
    intros H (ET & N & (C1 & C2 & C3 & C4 & C5)). split; [exact (update_true _ _ _ _ H ET)|].
    unfold update_tracking in H. destruct (edit_radios true (t_radio t) (f_radio (facts_of id))) as [r| | |] eqn:R; try discriminate.
    cbn [omap obind] in H. injection H as <-. unfold entries_current. cbn [t_names t_subtrees t_custom t_foot t_tags t_radio].
    destruct (edit_radios_nodup _ _ _ _ R N) as [N' _]. destruct (edit_radios_in _ _ _ _ R) as (A & _ & _). split; [exact N'|].
    split; [|split; [|split; [|split]]]; try (intros k i H; apply edit_key_sound in H; destruct H as [(_ & -> & _)|H]; [now left|right; eauto]).
    intros w l rid G I. destruct (A w l rid G I) as [(_ & ws & X)|(l0 & G0 & I0)].
    - exists id, ws. split; [now left|exact X].
    - destruct (C5 w l0 rid G0 I0) as (i & ws & L & X). exists i, ws. split; [now right|exact X].
  Qed.
  Lemma update_del t live id t' : update_tracking false t (facts_of id) id = Ok t' -> current_inv t live ->
    current_inv t' (filter (fun x => negb (Nat.eqb x id)) live).
  Proof.
    intros H (ET & N & (C1 & C2 & C3 & C4 & C5)). split; [exact (update_true _ _ _ _ H ET)|].
    unfold update_tracking in H. destruct (edit_radios false (t_radio t) (f_radio (facts_of id))) as [r| | |] eqn:R; try discriminate.
    cbn [omap obind] in H. injection H as <-. unfold entries_current. cbn [t_names t_subtrees t_custom t_foot t_tags t_radio].
    destruct (edit_radios_nodup _ _ _ _ R N) as [N' G']. destruct (edit_radios_in _ _ _ _ R) as (A & _ & _). split; [exact N'|].
    destruct ET as (T1 & T2 & T3 & T4 & _).
    assert (K : forall keys m k i, (get m k = Some i -> In i live) -> (i = id -> get m k = Some i -> In k keys) ->
      get (edit_key false m keys id) k = Some i -> In i (filter (fun x => negb (Nat.eqb x id)) live)).
    { intros keys m k i Hl Hk G. rewrite edit_key_get in G. destruct (in_dec Nat.eq_dec k keys) as [I|I]; [discriminate|].
      apply filter_In. split; [now apply Hl|]. apply negb_true_iff, Nat.eqb_neq. intros ->. apply I. now apply Hk. }
    split; [|split; [|split; [|split]]].
    - intros k i. apply K; [apply C1|]. intros -> G. now apply T1.
    - intros k i. apply K; [apply C2|]. intros -> G. apply in_opt. now apply T2.
    - intros k i. apply K; [apply C3|]. intros -> G. now apply T3.
    - intros k i. apply K; [apply C4|]. intros -> G. apply in_opt. now apply T4.
    - intros w l rid G I. destruct (A w l rid G I) as [(D & _)|(l0 & G0 & I0)]; [discriminate|].
      destruct (C5 w l0 rid G0 I0) as (i & ws & L & X). exists i, ws. split; [|exact X]. apply filter_In. split; [exact L|].
      apply negb_true_iff, Nat.eqb_neq. intros ->. exact (G' eq_refl w ws rid l X G I).
  Qed.
  Lemma events_current : forall es live t t', track_events facts_of t es = Ok t' -> current_inv t live -> current_inv t' (remaining es live).
  Proof.
    induction es as [|e es IH]; intros live t t' H C; cbn [track_events] in H; [now injection H as <-|].
    destruct (track_event facts_of t e) as [t1| | |] eqn:E; try discriminate. destruct e as [id|old new]; cbn [track_event remaining] in *.
    - apply (IH _ t1 t' H). exact (update_add _ _ _ _ E C).
    - destruct (update_tracking false t (facts_of old) old) as [t0| | |] eqn:E0; try discriminate. cbn [obind] in E.
      apply (IH _ t1 t' H). apply (update_add _ _ _ _ E). exact (update_del _ _ _ _ E0 C).
  Qed.
End Facts.
