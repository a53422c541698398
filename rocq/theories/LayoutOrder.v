(** Blocks without alternatives print their texts in order, also if some of
    their lines and stacks are without parts. *)
From Coq Require Import ZArith List Bool Lia.
From Verif Require Import Base StrModel LayoutModel LayoutSpec LayoutTextSpec LayoutProofs LayoutBlocks.
Import ListNotations.
Local Open Scope Z_scope.

Definition tok_ids (t : tok) : list nat := match t with TStr x => match lid x with TextId n => [n] | _ => [] end | TNl => [] end.
Definition ids (l : list elem) : list nat := flat_map tok_ids (toks l).
Definition ev_ids (e : event) : list nat := match e with EvText n _ => [n] | _ => [] end.
Definition str_ids (x : lytstr) : list nat := match lid x with TextId n => [n] | _ => [] end.

Lemma ids_app : forall a b, ids (a ++ b) = ids a ++ ids b.
Proof. intros. unfold ids. rewrite toks_app. apply flat_map_app. Qed.
Lemma string_ids : forall strs h, flat_map ev_ids (fst (string_events strs h)) = flat_map str_ids strs.
Proof.
  induction strs as [|x strs IH]; intros h; [reflexivity|]. cbn [string_events flat_map]. unfold str_ids at 1. destruct (lid x).
  - apply IH.
  - specialize (IH (h + llen x)). destruct (string_events strs _) as [ev h']. cbn [fst] in *. rewrite flat_map_app, IH. destruct (llen x =? 0); reflexivity.
  - specialize (IH (h + llen x)). destruct (string_events strs _) as [ev h']. cbn [fst] in *. cbn [flat_map ev_ids]. rewrite IH. reflexivity.
Qed.
Lemma newline_ids : forall m n, flat_map ev_ids (fst (newline_events m n)) = [].
Proof. intros. unfold newline_events. cbn [fst flat_map ev_ids]. destruct (m =? 0), (n =? 0); reflexivity. Qed.
Lemma format_ids : forall fuel stack ms h ev, format_loop fuel stack ms h = Ok ev -> flat_map ev_ids ev = flat_map ids stack.
Proof.
  induction fuel as [|f IH]; intros stack ms h ev H; [discriminate|]. cbn [format_loop] in H. destruct stack as [|[|e es] stack].
  - injection H as <-. reflexivity.
  - destruct ms; [discriminate|]. apply IH in H. exact H.
  - destruct ms as [|mar ms]; [discriminate|]. cbv zeta in H. change (flat_map ids ((e :: es) :: stack)) with (ids ([e] ++ es) ++ flat_map ids stack). rewrite ids_app.
    destruct e as [strs| |n|l].
    + pose proof (string_ids strs (Z.max h mar)) as S. destruct (string_events strs (Z.max h mar)) as [ev1 h1]. apply omap_ok in H. destruct H as (a & H & ->).
      apply IH in H. cbn [fst] in S. rewrite flat_map_app, S, H. cbn [flat_map]. rewrite app_assoc. do 2 f_equal. unfold ids, toks. cbn [flat_map toks_of]. rewrite app_nil_r.
      clear. induction strs as [|x r IHr]; [reflexivity|]. cbn [map flat_map]. rewrite IHr. reflexivity.
    + pose proof (newline_ids mar 0) as S. destruct (newline_events mar 0) as [ev1 h1]. apply omap_ok in H. destruct H as (a & H & ->). apply IH in H. cbn [fst] in S. rewrite flat_map_app, S, H. reflexivity.
    + pose proof (newline_ids mar n) as S. destruct (newline_events mar n) as [ev1 h1]. apply omap_ok in H. destruct H as (a & H & ->). apply IH in H. cbn [fst] in S. rewrite flat_map_app, S, H. reflexivity.
    + apply IH in H. rewrite H. cbn [flat_map]. rewrite app_assoc. do 2 f_equal. unfold ids, toks. cbn [flat_map toks_of]. now rewrite app_nil_r.
Qed.

(** Texts, lines and stacks *)
Fixpoint simple (b : block) : Prop :=
  match b with
  | BText _ => True
  | BLine l | BStack _ l => (fix all (l : list block) : Prop := match l with [] => True | e :: l' => simple e /\ all l' end) l
  | BEmpty | BChoice _ => False
  end.
Fixpoint block_ids (b : block) : list nat :=
  match b with BText strs => flat_map str_ids strs | BLine l | BStack _ l => flat_map block_ids l | _ => [] end.
Lemma all_simple : forall l, (fix all (l : list block) : Prop := match l with [] => True | e :: l' => simple e /\ all l' end) l -> Forall simple l.
Proof. induction l as [|e l IH]; intros H; constructor; [apply H|apply IH; apply H]. Qed.

Definition holds (rest : option (list (piece (list elem)))) (w : list nat) : Prop :=
  match rest with None => w = [] | Some s => s <> [] /\ forall x, In x s -> ids (plyt x) = w end.
Definition Po (b : block) : Prop := simple b -> forall fuel o rest w r, holds rest w -> opt_layout fuel o b rest = Ok r -> holds r (block_ids b ++ w).

Lemma ids_join : forall a b, ids (join_line a b) = ids a ++ ids b.
Proof. intros. unfold ids. rewrite toks_join. apply flat_map_app. Qed.
Lemma ids_stacked : forall ls, ls <> [] -> ids (get_stacked ls) = flat_map ids ls.
Proof.
  intros ls N. rewrite get_stacked_lines by exact N. unfold ids. rewrite toks_lines. clear N. induction ls as [|l [|m r] IH]; [reflexivity|cbn; now rewrite app_nil_r|].
  change (lines (map toks (l :: m :: r))) with (toks l ++ TNl :: lines (map toks (m :: r))). rewrite flat_map_app. cbn [flat_map tok_ids app]. rewrite IH. reflexivity.
Qed.
Lemma holds_plus : forall s w v, holds (Some s) w -> holds (Some (plus_const s v)) w.
Proof. intros s w v [A B]. split; [now apply plus_const_ne|]. intros x Hx. destruct (plus_const_in _ _ _ Hx) as (y & Hy & ->). auto. Qed.
Lemma order_text : forall strs, Po (BText strs).
Proof.
  intros strs _ fuel o rest w r H E. cbn [opt_layout block_ids] in *.
  assert (T : ids [EString strs] = flat_map str_ids strs).
  { unfold ids, toks. cbn [flat_map toks_of]. rewrite app_nil_r. clear. induction strs as [|x l IH]; [reflexivity|]. cbn [map flat_map]. rewrite IH. reflexivity. }
  destruct rest as [s2|]; cbn [with_rest] in E.
  - apply omap_ok in E. destruct E as (s & Hs & ->). destruct (hplus_solution_from _ _ _ _ _ _ Hs) as [A B]. split; [exact A|].
    intros x Hx. destruct (B x Hx) as (p1 & p2 & P1 & P2 & E). rewrite E, ids_join, (text_lyt _ _ _ _ P1), T. f_equal. apply H. exact P2.
  - injection E as <-. split; [apply text_ne|]. intros x Hx. rewrite (text_lyt _ _ _ _ Hx), T. cbn in H. subst w. now rewrite app_nil_r.
Qed.
Lemma order_line : forall l, Forall Po l -> Po (BLine l).
Proof.
  intros l HP Hs fuel o rest w r H E. cbn [simple] in Hs. apply all_simple in Hs.
  destruct l as [|e0 l0] eqn:El; [injection E as <-; exact H|]. rewrite <- El in *.
  assert (E' : obind ((fix go (l : list block) : outcome (option (list (piece (list elem)))) :=
                match l with
                | [] => Ok rest
                | e :: l' => obind (go l') (fun r => opt_layout fuel o e r)
                end) l) (fun ln =>
      omap (fun s => Some (plus_const s 0))
        (vsum_solution fuel get_stacked (match ln with Some s => [s] | None => [] end))) = Ok r) by (rewrite El in *; exact E).
  clear E. apply obind_ok in E'. destruct E' as (ln & E1 & E2).
  assert (G : holds ln (flat_map block_ids l ++ w)).
  { clear El E2. revert ln E1. induction l as [|e l IH]; intros ln E1; [injection E1 as <-; exact H|].
    inversion HP as [|? ? HP1 HP2]; subst. inversion Hs as [|? ? Hs1 Hs2]; subst. apply obind_ok in E1. destruct E1 as (r' & F1 & F2).
    cbn [flat_map]. rewrite <- app_assoc. refine (HP1 Hs1 fuel o r' _ ln _ F2). apply IH; auto. }
  cbn [block_ids]. destruct ln as [s|]; [|discriminate]. cbn [vsum_solution omap obind] in E2. injection E2 as <-. now apply holds_plus.
Qed.
Lemma order_stack : forall k l, Forall Po l -> Po (BStack k l).
Proof.
  intros k l HP Hs fuel o rest w r H E. cbn [simple] in Hs. apply all_simple in Hs.
  destruct l as [|e0 l0] eqn:El; [injection E as <-; exact H|]. rewrite <- El in *.
  assert (E' : obind ((fix go (l : list block) : outcome (list (list (piece (list elem)))) :=
                match l with
                | [] => Ok []
                | e :: l' =>
                    obind (opt_layout fuel o e (match l' with [] => rest | _ => None end)) (fun r =>
                    omap (fun rs => match r with Some s => s :: rs | None => rs end) (go l'))
                end) l) (fun ss =>
      obind (vsum_solution fuel get_stacked ss) (fun s =>
      match s with
      | [] => Ok rest
      | _ => Ok (Some (plus_const s (linebreak_cost o * k * Z.max 0 (Z.of_nat (length l) - 1))))
      end)) = Ok r) by (rewrite El in *; exact E).
  assert (Nl : l <> []) by congruence. clear E El e0 l0. apply obind_ok in E'. destruct E' as (ss & E1 & E2). apply obind_ok in E2. destruct E2 as (s & E2 & E3).
  assert (G : Forall (fun s => s <> []) ss /\ forall ps, Forall2 (fun s p => In p s) ss ps -> flat_map (fun p => ids (plyt p)) ps = flat_map block_ids l ++ w).
  { clear E2 E3 s. revert ss E1. induction l as [|e l IH]; intros ss E1; [congruence|].
    inversion HP as [|? ? HP1 HP2]; subst. inversion Hs as [|? ? Hs1 Hs2]; subst. apply obind_ok in E1. destruct E1 as (r1 & A & B). apply omap_ok in B. destruct B as (rs & B & ->).
    destruct l as [|e2 l].
    - injection B as <-. pose proof (HP1 Hs1 fuel o rest w r1 H A) as C. cbn [flat_map]. rewrite app_nil_r. destruct r1 as [s1|].
      + destruct C as [C D]. split; [auto|]. intros ps F. inversion F as [|? p ? ps' P1 P2]; subst. inversion P2; subst. cbn [flat_map]. rewrite app_nil_r. auto.
      + split; [constructor|]. intros ps F. inversion F; subst. now rewrite C.
    - destruct (IH ltac:(auto) ltac:(auto) ltac:(discriminate) rs B) as [G1 G2]. pose proof (HP1 Hs1 fuel o None [] r1 eq_refl A) as C. rewrite app_nil_r in C.
      cbn [flat_map]. rewrite <- app_assoc. destruct r1 as [s1|].
      + destruct C as [C D]. split; [auto|]. intros ps F. inversion F as [|? p ? ps' P1 P2]; subst. cbn [flat_map]. rewrite (D p P1). f_equal. now apply G2.
      + split; [exact G1|]. intros ps F. cbn in C. rewrite C. now apply G2. }
  destruct G as [G1 G2]. cbn [block_ids].
  assert (X : holds (Some s) (flat_map block_ids l ++ w)).
  { unfold vsum_solution in E2. destruct ss as [|a [|b ss]]; [discriminate| |].
    - injection E2 as <-. split; [now inversion G1|]. intros x Hx. rewrite <- (G2 [x]); [cbn; now rewrite app_nil_r|repeat constructor; exact Hx].
    - destruct (vsum_from _ _ _ _ _ _ E2) as [A B]. split; [exact A|]. intros x Hx. destruct (B x Hx) as [[]|(ps & C & D)]. rewrite map_fst_init in C. rewrite D.
      rewrite ids_stacked by (inversion C; subst; discriminate). rewrite <- (G2 ps C). clear. induction ps as [|p ps IH]; [reflexivity|]. cbn [map flat_map]. rewrite IH. reflexivity. }
  destruct s as [|p0 s]; [destruct X; congruence|]. replace r with (Some (plus_const (p0 :: s) (linebreak_cost o * k * Z.max 0 (Z.of_nat (length l) - 1)))) by congruence. now apply holds_plus.
Qed.
Lemma in_order : forall b, Po b.
Proof.
  apply block_ind'; [apply order_text|intros []|apply order_line|apply order_stack|intros l _ []].
Qed.
Lemma to_layouts_order : forall fuel o b ls l, simple b -> to_layouts fuel o b = Ok ls -> In l ls -> ids l = block_ids b.
Proof.
  intros fuel o b ls l Hs H Hl. unfold to_layouts in H. apply obind_ok in H. destruct H as (r & H1 & H2).
  pose proof (in_order b Hs fuel o None [] r eq_refl H1) as G. rewrite app_nil_r in G. destruct r as [s|]; [|discriminate]. injection H2 as <-.
  apply in_map_iff in Hl. destruct Hl as (x & <- & Hx). now apply G.
Qed.
