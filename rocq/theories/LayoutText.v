From Coq Require Import ZArith List Bool Lia Sorting.Sorted.
From Verif Require Import Base StrModel LayoutModel LayoutSpec LayoutProofs LayoutSums LayoutLine LayoutBlocks LayoutPrint LayoutTextSpec.
Import ListNotations.
Local Open Scope Z_scope.

(** ** Lines *)

Lemma last_split : forall (a : list str), a <> [] -> a = removelast a ++ [last a []].
Proof. intros a H. apply app_removelast_last. exact H. Qed.

Lemma attach_ne : forall a b, a <> [] -> attach a b <> [].
Proof. intros a [|h t] H; [exact H|]. cbn. destruct (removelast a); discriminate. Qed.

Lemma last_snoc' : forall (l : list str) x d, last (l ++ [x]) d = x.
Proof. induction l as [|y [|z l] IH]; intros x d; [reflexivity|reflexivity|]. apply IH. Qed.
Lemma removelast_snoc : forall (l : list str) x, removelast (l ++ [x]) = l.
Proof. intros l x. rewrite removelast_app by discriminate. cbn. apply app_nil_r. Qed.
Lemma last_map' : forall (f : str -> str) l, l <> [] -> last (map f l) [] = f (last l []).
Proof. intros f l. induction l as [|y [|z l] IH]; intros H; [congruence|reflexivity|]. apply IH. discriminate. Qed.
Lemma removelast_map : forall (f : str -> str) l, removelast (map f l) = map f (removelast l).
Proof. intros f l. induction l as [|y [|z l] IH]; [reflexivity|reflexivity|]. cbn [map removelast] in *. now rewrite IH. Qed.

Lemma attach_snoc : forall x w b, attach (x ++ [w]) b = x ++ attach [w] b.
Proof.
  intros x w [|h t]; [reflexivity|]. cbn [attach]. rewrite last_snoc', removelast_snoc. reflexivity.
Qed.

Lemma last_attach1 : forall w h t, last (attach [w] (h :: t)) [] = (match t with [] => w ++ h | _ => pad (length w) ++ last t [] end).
Proof.
  intros w h t. cbn [attach removelast last app]. destruct t as [|x t]; [reflexivity|].
  change (last ((w ++ h) :: map (app (pad (length w))) (x :: t)) []) with (last (map (app (pad (length w))) (x :: t)) []).
  rewrite last_map' by discriminate. reflexivity.
Qed.

Lemma pad_length : forall n, length (pad n) = n. Proof. intros. apply repeat_length. Qed.
Lemma pad_app : forall n m, pad (n + m) = pad n ++ pad m. Proof. intros. apply repeat_app. Qed.

Lemma last_attach_len : forall a b, a <> [] -> b <> [] ->
  length (last (attach a b) []) = (length (last a []) + length (last b []))%nat.
Proof.
  intros a b Ha Hb. rewrite (last_split a Ha) at 1. rewrite attach_snoc. destruct b as [|h t]; [congruence|].
  set (w := last a []). rewrite (last_split (attach [w] (h :: t))) by (apply attach_ne; discriminate).
  rewrite app_assoc, last_snoc', last_attach1. destruct t as [|x t].
  - cbn [last]. apply app_length.
  - rewrite app_length, pad_length. reflexivity.
Qed.

Lemma attach_app : forall a b c, b <> [] -> attach (a ++ b) c = a ++ attach b c.
Proof.
  intros a b c H. rewrite (last_split b H), app_assoc, !attach_snoc, app_assoc. reflexivity.
Qed.

Lemma attach_assoc1 : forall w b c, b <> [] -> attach (attach [w] b) c = attach [w] (attach b c).
Proof.
  intros w b c Hb. destruct c as [|k u]; [reflexivity|].
  rewrite (last_split b Hb). set (y := removelast b). set (v := last b []).
  rewrite (attach_snoc y v (k :: u)). destruct y as [|y0 y].
  - cbn [app]. cbn [attach removelast last app map]. rewrite <- app_assoc. f_equal. rewrite map_map.
    apply map_ext. intros z. rewrite app_length, pad_app, <- app_assoc. reflexivity.
  - cbn [app]. change (attach [w] (y0 :: y ++ [v])) with ((w ++ y0) :: map (app (pad (length w))) (y ++ [v])).
    change (attach [w] (y0 :: y ++ attach [v] (k :: u))) with ((w ++ y0) :: map (app (pad (length w))) (y ++ attach [v] (k :: u))).
    rewrite !map_app. cbn [map].
    change ((w ++ y0) :: map (app (pad (length w))) y ++ [pad (length w) ++ v])
      with (((w ++ y0) :: map (app (pad (length w))) y) ++ [pad (length w) ++ v]).
    rewrite attach_snoc. cbn [app]. f_equal. f_equal. cbn [attach removelast last app map]. rewrite <- app_assoc. f_equal. rewrite map_map.
    apply map_ext. intros z. rewrite app_length, pad_length, pad_app, <- app_assoc. reflexivity.
Qed.

Lemma attach_assoc : forall a b c, a <> [] -> b <> [] -> attach (attach a b) c = attach a (attach b c).
Proof.
  intros a b c Ha Hb. rewrite (last_split a Ha), !attach_snoc, attach_app by (apply attach_ne; discriminate).
  rewrite attach_assoc1 by exact Hb. reflexivity.
Qed.

(** ** What a layout prints *)

(** The lines printed from column [c] on. *)
Definition hung (c : nat) (ls : list str) : str :=
  match ls with [] => [] | h :: t => h ++ concat (map (fun x => 10 :: pad c ++ x) t) end.

Section Lays.
Variable txt : nat -> str.

Definition lays (ls : list str) (l : list elem) : Prop :=
  Forall elem_ok l /\ ls <> [] /\ forall c : nat,
    events_text txt (fst (print_list l (Z.of_nat c) (Z.of_nat c))) = hung c ls /\
    snd (print_list l (Z.of_nat c) (Z.of_nat c)) = Z.of_nat (c + length (last ls [])).

Lemma events_app : forall a b, events_text txt (a ++ b) = events_text txt a ++ events_text txt b.
Proof. intros. unfold events_text. rewrite map_app, concat_app. reflexivity. Qed.

Lemma print_list_app : forall a b mar col, print_list (a ++ b) mar col =
  (fst (print_list a mar col) ++ fst (print_list b mar (snd (print_list a mar col))), snd (print_list b mar (snd (print_list a mar col)))).
Proof.
  induction a as [|e a IH]; intros b mar col; cbn [app print_list fst snd].
  - destruct (print_list b mar col). reflexivity.
  - destruct (print_elem e mar col) as [ev c1]. rewrite IH. destruct (print_list a mar c1) as [ev' c2]. cbn [fst snd].
    rewrite app_assoc. reflexivity.
Qed.

Lemma spaces_text : forall n : nat, events_text txt (spaces (Z.of_nat n)) = pad n.
Proof.
  intros n. unfold spaces. destruct (Z.eqb_spec (Z.of_nat n) 0) as [E|E].
  - assert (n = 0)%nat as -> by lia. reflexivity.
  - unfold events_text. cbn. rewrite Nat2Z.id, app_nil_r. reflexivity.
Qed.

Lemma strs_print : forall strs c, Forall (measured txt) strs -> widths_ok strs /\
  events_text txt (fst (print_strs strs c)) = strs_of txt strs /\
  snd (print_strs strs c) = c + Z.of_nat (length (strs_of txt strs)).
Proof.
  induction strs as [|x strs IH]; intros c H; [split; [constructor|]; split; cbn; [reflexivity|lia]|].
  inversion H as [|? ? H1 H2]; subst. cbn [print_strs].
  set (w := match lid x with NilId => 0 | _ => llen x end).
  destruct (IH (c + w) H2) as (A & B & C). destruct (print_strs strs (c + w)) as [ev c']. cbn [fst snd] in *.
  unfold strs_of in *. cbn [map concat]. rewrite events_app, B, app_length, Nat2Z.inj_add, C.
  unfold measured in H1. split; [constructor; [lia|exact A]|].
  assert (E : w = Z.of_nat (length (str_of txt x))).
  { unfold w. destruct (lid x) eqn:E; try exact H1. unfold str_of. rewrite E. reflexivity. }
  split; [|lia]. f_equal. unfold str_of in *. destruct (lid x).
  - reflexivity.
  - destruct (Z.eqb_spec (llen x) 0) as [->|]; [reflexivity|]. cbn. rewrite app_nil_r. reflexivity.
  - cbn. rewrite app_nil_r. reflexivity.
Qed.

Lemma lays_text : forall strs, Forall (measured txt) strs -> lays [strs_of txt strs] [EString strs].
Proof.
  intros strs H. split; [constructor; [apply (strs_print strs 0 H)|constructor]|]. split; [discriminate|]. intros c.
  destruct (strs_print strs (Z.of_nat c) H) as (A & B & C). cbn [print_list print_elem].
  destruct (print_strs strs (Z.of_nat c)) as [ev c']. cbn [fst snd] in *. rewrite app_nil_r. split.
  - rewrite B. cbn. rewrite app_nil_r. reflexivity.
  - cbn [last]. lia.
Qed.

Lemma hung_attach : forall c a b, a <> [] -> b <> [] ->
  hung c (attach a b) = hung c a ++ hung (c + length (last a [])) b.
Proof.
  intros c a b Ha Hb. destruct b as [|h t]; [congruence|]. cbn [attach].
  assert (X : concat (map (fun x => 10 :: pad c ++ x) (map (app (pad (length (last a [])))) t)) =
              concat (map (fun x => 10 :: pad (c + length (last a [])) ++ x) t)).
  { rewrite map_map. f_equal. apply map_ext. intros z. rewrite pad_app, <- app_assoc. reflexivity. }
  destruct a as [|a0 a]; [congruence|]. destruct a as [|a1 a].
  - cbn [removelast last app hung map concat]. rewrite app_nil_r, <- app_assoc. f_equal. cbn [hung]. f_equal. exact X.
  - set (aa := a1 :: a) in *. change (removelast (a0 :: aa)) with (a0 :: removelast aa).
    change (last (a0 :: aa) []) with (last aa []) in *. cbn [app hung].
    rewrite (app_removelast_last [] (l := aa)) at 4 by discriminate.
    rewrite !map_app, !concat_app. cbn [map concat]. rewrite X, <- !app_assoc. cbn [app]. rewrite <- !app_assoc. reflexivity.
Qed.

Lemma lays_join : forall la lb a b, lays la a -> lays lb b -> lays (attach la lb) (join_line a b).
Proof.
  intros la lb a b (A1 & A2 & A3) (B1 & B2 & B3). split.
  - constructor; [apply ok_print; exact A1|]. constructor; [apply ok_print; exact B1|constructor].
  - split; [apply attach_ne; exact A2|]. intros c. unfold join_line. cbn [print_list].
    rewrite !print_print. destruct (A3 c) as [P Q]. destruct (print_list a (Z.of_nat c) (Z.of_nat c)) as [ev c1]. cbn [fst snd] in *.
    subst c1. rewrite print_print. destruct (B3 (c + length (last la []))%nat) as [R S0].
    destruct (print_list b _ _) as [ev2 c2]. cbn [fst snd] in *. rewrite app_nil_r, events_app, P, R, S0.
    rewrite hung_attach by assumption. rewrite last_attach_len by assumption. split; [reflexivity|lia].
Qed.

Lemma hung_app : forall c a b, a <> [] -> b <> [] -> hung c (a ++ b) = hung c a ++ 10 :: pad c ++ hung c b.
Proof.
  intros c a b Ha Hb. destruct a as [|a0 a]; [congruence|]. destruct b as [|b0 b]; [congruence|].
  cbn [app hung]. rewrite map_app, concat_app. cbn [map concat]. rewrite <- !app_assoc. cbn [app]. rewrite <- !app_assoc. reflexivity.
Qed.
Lemma last_app' : forall (a b : list str), b <> [] -> last (a ++ b) [] = last b [].
Proof. intros a b H. rewrite (last_split b H), app_assoc, !last_snoc'. reflexivity. Qed.

Lemma lays_stack : forall lss ls, Forall2 lays lss ls -> lss <> [] -> lays (concat lss) (flat_lines ls).
Proof.
  intros lss ls H. induction H as [|la a lss ls H1 H2 IH]; intros Hne; [congruence|].
  destruct H2 as [|lb b lss ls H2 H3].
  - cbn [concat flat_lines]. rewrite app_nil_r. exact H1.
  - specialize (IH ltac:(discriminate)). destruct H1 as (A1 & A2 & A3). destruct IH as (B1 & B2 & B3).
    cbn [concat] in *. change (flat_lines (a :: b :: ls)) with (a ++ ENewline :: flat_lines (b :: ls)).
    split; [|split].
    + apply Forall_app. split; [exact A1|]. constructor; [exact I|exact B1].
    + intros E. apply app_eq_nil in E. destruct E. contradiction.
    + intros c. rewrite print_list_app. cbn [fst snd print_list print_elem]. destruct (A3 c) as [P Q]. destruct (B3 c) as [R S0].
      destruct (print_list (flat_lines (b :: ls)) (Z.of_nat c) (Z.of_nat c)) as [ev2 c2]. cbn [fst snd] in *.
      rewrite hung_app by assumption. rewrite last_app' by exact B2. split; [|exact S0].
      rewrite !events_app, P, <- R. f_equal. change (EvNewline :: spaces (Z.of_nat c)) with ([EvNewline] ++ spaces (Z.of_nat c)).
      rewrite events_app, spaces_text. reflexivity.
Qed.

End Lays.

(** ** Knots *)
Section Knots.
Context {L : Type}.

Lemma hplus_knots : forall K fuel o join c1 c2 m1 m2 res r, @hplus_loop L fuel o join c1 c2 m1 m2 res = Ok r ->
  (forall p, In p (fst c1) -> pknot p <= K /\ 0 <= pspan p) -> (forall p, In p (fst c2) -> pknot p <= K) ->
  m1 <= K -> (forall x, In x res -> pknot x <= K) -> forall x, In x r -> pknot x <= K.
Proof.
  intros K fuel. induction fuel as [|fuel IH]; intros o join c1 c2 m1 m2 res r H H1 H2 Hm Hres; [discriminate|].
  cbn [hplus_loop] in H. apply obind_ok in H. destruct H as (p1 & E1 & H). apply obind_ok in H. destruct H as (p2 & E2 & H).
  cbv zeta in H. apply obind_ok in H. destruct H as (res1 & E3 & H).
  assert (Hres1 : forall x, In x res1 -> pknot x <= K).
  { intros x Hx. destruct (proj2 (add_piece_in _ _ _ E3) x Hx) as [A| ->]; [auto|exact Hm]. }
  destruct (is_inf (next_knot c1) && is_inf (next_knot c2)); [injection H as <-; exact Hres1|].
  destruct (_ <=? _) in H.
  - apply obind_ok in H. destruct H as (p1' & E4 & H). apply obind_ok in H. destruct H as (c2' & E5 & H).
    refine (IH _ _ _ _ _ _ _ _ H H1 _ _ Hres1); [cbn [fst]; rewrite (move_fst _ _ _ E5); exact H2|].
    unfold next_knot. unfold cur in E4. cbn [fst snd] in E4. destruct (nth_error (fst c1) (S (snd c1))) as [q|] eqn:En; [|discriminate].
    apply H1. eapply nth_error_In; eauto.
  - refine (IH _ _ _ _ _ _ _ _ H H1 H2 _ Hres1).
    destruct fuel as [|fuel]; [discriminate|]. cbn [hplus_loop] in H. apply obind_ok in H. destruct H as (p1' & _ & H).
    apply obind_ok in H. destruct H as (p2' & E4 & _). unfold cur in E4. cbn [fst snd] in E4.
    unfold next_knot. destruct (nth_error (fst c2) (S (snd c2))) as [q|] eqn:En; [|discriminate].
    assert (pknot q <= K) by (apply H2; eapply nth_error_In; eauto).
    assert (0 <= pspan p1) by (apply H1; apply cur_in; exact E1). lia.
Qed.

Lemma hplus_solution_knots : forall K fuel o join (s1 s2 : list (piece L)) r, hplus_solution fuel o join s1 s2 = Ok r -> 0 <= K ->
  (forall p, In p s1 -> pknot p <= K /\ 0 <= pspan p) -> (forall p, In p s2 -> pknot p <= K) -> forall x, In x r -> pknot x <= K.
Proof.
  intros K fuel o join s1 s2 r H HK H1 H2. unfold hplus_solution in H. apply obind_ok in H. destruct H as (p1 & _ & H).
  apply obind_ok in H. destruct H as (c2 & E & H).
  refine (hplus_knots K _ _ _ _ _ _ _ _ _ H H1 _ HK _); [rewrite (move_fst _ _ _ E); exact H2|intros x []].
Qed.

Lemma dstar_from : forall margin l acc, dstar margin l acc = match acc with Some d => d | None => 0 end \/
  exists k, In k l /\ dstar margin l acc = k - margin.
Proof.
  intros margin l. induction l as [|k l IH]; intros acc; [left; reflexivity|]. cbn [dstar].
  destruct (Z.ltb_spec margin k) as [H|H].
  - destruct (IH (Some (match acc with Some d => Z.min d (k - margin) | None => k - margin end))) as [E|(k' & A & E)].
    + destruct acc as [d|]; [|right; exists k; split; [left; reflexivity|exact E]].
      rewrite E. destruct (Z.min_spec d (k - margin)) as [[_ M]|[_ M]]; rewrite M; [left; reflexivity|].
      right. exists k. split; [left|]; reflexivity.
    + right. exists k'. split; [right; exact A|exact E].
  - destruct (IH acc) as [E|(k' & A & E)]; [left; exact E|right; exists k'; split; [right; exact A|exact E]].
Qed.

Lemma vsum_knots : forall K fuel stack cs margin res r, @vsum_loop L fuel stack cs margin res = Ok r -> K <= 4096 ->
  (forall c p, In c cs -> In p (fst c) -> pknot p <= K) -> 0 <= margin <= K -> (forall x, In x res -> pknot x <= K) ->
  (forall c p, In c cs -> In p (fst c) -> 0 <= pknot p) ->
  forall x, In x r -> pknot x <= K.
Proof.
  intros K fuel. induction fuel as [|fuel IH]; intros stack cs margin res r H HK H1 Hm Hres H0; [discriminate|].
  cbn [vsum_loop] in H. apply obind_ok in H. destruct H as (ps & E1 & H). destruct (rev ps) as [|lastp r0]; [discriminate|].
  apply obind_ok in H. destruct H as (res1 & E2 & H). cbv zeta in H.
  assert (Hres1 : forall x, In x res1 -> pknot x <= K).
  { intros x Hx. destruct (proj2 (add_piece_in _ _ _ E2) x Hx) as [A| ->]; [auto|cbn; lia]. }
  destruct (is_inf _) eqn:Ei in H; [injection H as <-; exact Hres1|].
  apply obind_ok in H. destruct H as (cs1 & E3 & H).
  assert (Hin : forall c, In c cs1 -> exists c0, In c0 cs /\ fst c0 = fst c).
  { intros c Hc. assert (A : In (fst c) (map fst cs1)) by (apply in_map; exact Hc). rewrite (move_all_fst _ _ _ E3) in A.
    apply in_map_iff in A. destruct A as (c0 & A & B). exists c0. auto. }
  refine (IH _ _ _ _ _ H HK _ _ Hres1 _).
  - intros c p Hc Hp. destruct (Hin c Hc) as (c0 & A & B). apply (H1 c0); [exact A|rewrite B; exact Hp].
  - destruct (dstar_from margin (map next_knot cs) None) as [E|(k & A & E)]; rewrite E in *; [lia|].
    apply in_map_iff in A. destruct A as (c & A & B). destruct (Z.eq_dec k infty) as [->|Hk].
    + exfalso. unfold is_inf in Ei. apply andb_false_iff in Ei. unfold infty in Ei. destruct Ei as [Ei|Ei]; apply Z.leb_gt in Ei; lia.
    + destruct (next_knot_in c k A Hk) as (p & P & <-). pose proof (H1 c p B P). pose proof (H0 c p B P). lia.
  - intros c p Hc Hp. destruct (Hin c Hc) as (c0 & A & B). apply (H0 c0); [exact A|rewrite B; exact Hp].
Qed.

Lemma vsum_solution_knots : forall K fuel stack (ss : list (list (piece L))) r, vsum_solution fuel stack ss = Ok r -> 0 <= K <= 4096 ->
  (forall s p, In s ss -> In p s -> 0 <= pknot p <= K) -> forall x, In x r -> pknot x <= K.
Proof.
  intros K fuel stack ss r H HK H1. unfold vsum_solution in H.
  assert (G : vsum_loop fuel stack (map (fun s => (s, O)) ss) 0 [] = Ok r -> forall x, In x r -> pknot x <= K).
  { intros G. assert (Hc : forall c p, In c (map (fun s => (s, O)) ss) -> In p (fst c) -> 0 <= pknot p <= K).
    { intros c p Hc Hp. apply in_map_iff in Hc. destruct Hc as (s & <- & Hs). apply (H1 s p Hs Hp). }
    refine (vsum_knots K _ _ _ _ _ _ G _ _ _ _ _); [lia|intros; eapply Hc; eauto|lia|intros x []|intros; eapply Hc; eauto]. }
  destruct ss as [|a [|b ss]]; [discriminate| |exact (G H)].
  injection H as <-. intros x Hx. apply (H1 a); [left; reflexivity|exact Hx].
Qed.

Lemma text_knots : forall o span (l : L) x, options_ok o -> 0 <= span -> In x (text_solution o span l) -> 0 <= pknot x <= right_margin o /\ pspan x = span.
Proof.
  intros o span l x (O1 & O2 & O3 & O4) Hs Hx. unfold text_solution in Hx.
  destruct (Z.leb_spec (right_margin o) span); [|destruct (Z.leb_spec (left_margin o) span)];
    cbn in Hx; intuition subst; cbn; lia.
Qed.
End Knots.

(** ** Solutions *)
Section Sols.
Variable txt : nat -> str.
Variable o : options.
Variable fuel : nat.
Hypothesis Ho : options_ok o.
Hypothesis HK : right_margin o <= 4096.
Hypothesis Hlb : 0 <= linebreak_cost o.
Hypothesis Hfuel : (Z.to_nat (2 ^ 28) < fuel)%nat.

Definition fair (B : Z) (ls : list str) (s : list (piece (list elem))) : Prop :=
  proper s /\ pays o s /\ (forall x, In x s -> pknot x <= right_margin o /\ pspan x <= B) /\
  forall x, In x s -> lays txt ls (plyt x).

Lemma fair_small : forall B ls s, B <= 2 ^ 28 -> fair B ls s -> small s.
Proof.
  intros B ls s HB (_ & _ & A & _). apply Forall_forall. intros x Hx. specialize (A x Hx). lia.
Qed.
Lemma fair_fields : forall B ls s x, fair B ls s -> In x s -> 0 <= pknot x /\ 0 <= pspan x.
Proof. intros B ls s x (A & _) Hx. destruct (fields_in s x A Hx) as [(F1 & F2 & F3 & F4) F5]. auto. Qed.

Lemma fair_text : forall strs, Forall (measured txt) strs -> Z.of_nat (length (strs_of txt strs)) <= 2 ^ 28 ->
  fair (Z.of_nat (length (strs_of txt strs))) [strs_of txt strs] (text_solution o (strs_len strs) [EString strs]).
Proof.
  intros strs Hm Hsz. destruct (strs_print txt strs 0 Hm) as (W & _ & _).
  assert (E : strs_len strs = Z.of_nat (length (strs_of txt strs))).
  { clear - Hm. unfold strs_len, strs_of. induction Hm as [|x strs H1 H2 IH]; [reflexivity|].
    cbn [map concat]. rewrite zsum_cons, IH, app_length, H1. lia. }
  rewrite E. split; [apply text_proper; [exact Ho|unfold infty; lia|lia]|]. split; [apply text_pays; [exact Ho|lia]|]. split.
  - intros x Hx. destruct (text_knots _ _ _ _ Ho (Nat2Z.is_nonneg _) Hx). lia.
  - intros x Hx. rewrite (text_lyt _ _ _ _ Hx). apply lays_text. exact Hm.
Qed.

Lemma span_at_in : forall (s : list (piece (list elem))) m w, span_at s m = Some w -> exists p, In p s /\ pspan p = w.
Proof.
  intros s m w H. unfold span_at in H. destruct (piece_at s m) as [p|] eqn:E; [|discriminate]. injection H as <-.
  exists p. split; [|reflexivity]. eapply piece_at_in; eauto.
Qed.

(** A text with the rest of its line. *)
Lemma fair_plus : forall strs B ls s, Forall (measured txt) strs -> fair B ls s ->
  0 <= B -> Z.of_nat (length (strs_of txt strs)) + B <= 2 ^ 28 ->
  exists r, hplus_solution fuel o join_line (text_solution o (strs_len strs) [EString strs]) s = Ok r /\
    fair (Z.of_nat (length (strs_of txt strs)) + B) (attach [strs_of txt strs] ls) r.
Proof.
  intros strs B ls s Hm Hs HB Hsz. pose proof (fair_text strs Hm ltac:(lia)) as HT.
  set (T := text_solution o (strs_len strs) [EString strs]) in *.
  assert (ST : small T) by (eapply fair_small; [|exact HT]; lia).
  assert (SS : small s) by (eapply fair_small; [|exact Hs]; lia).
  destruct (plus_ok o join_line T s Ho (proj1 HT) (proj1 Hs) (text_aligned o _ _ Ho) (proj1 (proj2 Hs)) ST SS fuel Hfuel)
    as (r & E & P & _ & D).
  exists r. split; [exact E|]. split; [exact P|]. split; [|split].
  - eapply (beside_pays o T s r); [apply HT|apply Hs| |exact D].
    intros m w Hm0 Hw. destruct (span_at_in _ _ _ Hw) as (p & Hp & <-). apply (fair_fields _ _ _ _ HT Hp).
  - intros x Hx. split.
    + refine (hplus_solution_knots (right_margin o) _ _ _ _ _ _ E _ _ _ x Hx).
      * destruct Ho as (? & ? & ? & ?). lia.
      * intros p Hp. split; [apply HT; exact Hp|apply (fair_fields _ _ _ _ HT Hp)].
      * intros p Hp. apply Hs. exact Hp.
    + destruct (fields_in r x P Hx) as [_ Hk]. destruct (D (pknot x) Hk) as (c & w & g & _ & D2 & _ & (c1 & w1 & g1 & c2 & w2 & g2 & _ & X2 & _ & _ & Y2 & _ & _ & -> & _)).
      unfold span_at in D2. rewrite (in_piece_at_knot _ r x (proj1 (proj2 P)) Hx) in D2. injection D2 as ->.
      destruct (span_at_in _ _ _ X2) as (p & Hp & <-). destruct (span_at_in _ _ _ Y2) as (q & Hq & <-).
      pose proof (proj2 (proj1 (proj2 (proj2 HT)) p Hp)). pose proof (proj2 (proj1 (proj2 (proj2 Hs)) q Hq)). lia.
  - intros x Hx. destruct (proj2 (hplus_solution_from _ _ _ _ _ _ E) x Hx) as (p1 & p2 & A & C & ->).
    apply lays_join; [apply HT; exact A|apply Hs; exact C].
Qed.

Lemma overhang_nonneg : forall m, 0 <= overhang o m /\ 0 <= overhang_rate o m.
Proof.
  intros m. destruct Ho as (O1 & O2 & O3 & O4). unfold overhang, overhang_rate. split.
  - assert (0 <= left_cost o * Z.max 0 (m - left_margin o)) by (apply Z.mul_nonneg_nonneg; lia).
    assert (0 <= right_cost o * Z.max 0 (m - right_margin o)) by (apply Z.mul_nonneg_nonneg; lia). lia.
  - destruct (_ <=? _); destruct (_ <=? _); lia.
Qed.

Lemma osum_ge : forall (l : list (option Z)) v c, (forall x, In x l -> exists y, x = Some y /\ 0 <= y) -> osum l = Some v -> 0 <= v /\ (In (Some c) l -> c <= v).
Proof.
  induction l as [|x l IH]; intros v c H E.
  - injection E as <-. split; [lia|intros []].
  - destruct (H x (or_introl eq_refl)) as (y & -> & Hy). cbn [osum] in E. destruct (osum l) as [w|] eqn:Ew; [|discriminate].
    injection E as <-. destruct (IH w c ltac:(intros; apply H; now right) eq_refl) as [A B]. split; [lia|].
    intros [C|C]; [injection C as ->; lia|specialize (B C); lia].
Qed.

Lemma fair_stack : forall lss ss B, Forall2 (fun ls s => exists B, fair B ls s) lss ss -> ss <> [] ->
  (forall x, In x (last ss []) -> pspan x <= B) ->
  exists r, vsum_solution fuel get_stacked ss = Ok r /\ fair B (concat lss) r.
Proof.
  intros lss ss B HF Hne HB.
  assert (Hp : Forall proper ss).
  { apply Forall_forall. intros s Hs. destruct (f2_in _ _ _ _ _ _ HF Hs) as (ls & _ & (B0 & A & _)). exact A. }
  assert (Hkn : forall s p, In s ss -> In p s -> 0 <= pknot p <= right_margin o).
  { intros s p Hs Hp0. destruct (f2_in _ _ _ _ _ _ HF Hs) as (ls & _ & (B0 & A)). split; [apply (fair_fields _ _ _ _ A Hp0)|apply A; exact Hp0]. }
  assert (R0 : 0 <= right_margin o <= 4096) by (destruct Ho as (? & ? & ? & ?); lia).
  destruct (vsum_solution_ok get_stacked ss Hne Hp) with (fuel := fuel) as (r & E & P & C).
  - intros s p Hs Hp0. specialize (Hkn s p Hs Hp0). lia.
  - assert (4096 < 2 ^ 28) by reflexivity. lia.
  - exists r. split; [exact E|]. split; [exact P|]. split; [|split].
    + intros m c g Hm Hc Hg. destruct (C m Hm) as (C1 & _ & _ & C4). rewrite C1 in Hc. rewrite C4 in Hg.
      assert (Q : forall s, In s ss -> exists v w, cost s m = Some v /\ slope_at s m = Some w /\ overhang o m <= v /\ overhang_rate o m <= w).
      { intros s Hs. destruct (f2_in _ _ _ _ _ _ HF Hs) as (ls & _ & (B0 & A1 & A2 & _)).
        destruct (proper_cost s m A1 Hm) as (p & X & _). destruct (piece_cost _ _ _ X) as (Y1 & Y2 & Y3).
        eexists. eexists. split; [exact Y1|]. split; [exact Y3|]. eapply A2; eauto. }
      destruct (overhang_nonneg m) as [N1 N2].
      destruct ss as [|s0 ss]; [congruence|]. destruct (Q s0 (or_introl eq_refl)) as (v & w & V1 & V2 & V3 & V4).
      split.
      * transitivity v; [exact V3|]. eapply (osum_ge _ c v); [|exact Hc|left; exact V1].
        intros x Hx. apply in_map_iff in Hx. destruct Hx as (s & <- & Hs). destruct (Q s Hs) as (v' & w' & U1 & U2 & U3 & U4).
        exists v'. split; [exact U1|lia].
      * transitivity w; [exact V4|]. eapply (osum_ge _ g w); [|exact Hg|left; exact V2].
        intros x Hx. apply in_map_iff in Hx. destruct Hx as (s & <- & Hs). destruct (Q s Hs) as (v' & w' & U1 & U2 & U3 & U4).
        exists w'. split; [exact U2|lia].
    + intros x Hx. split.
      * refine (vsum_solution_knots (right_margin o) _ _ _ _ E R0 Hkn x Hx).
      * destruct (fields_in r x P Hx) as [_ Hk]. destruct (C (pknot x) Hk) as (_ & _ & C3 & _).
        unfold span_at in C3 at 1. rewrite (in_piece_at_knot _ r x (proj1 (proj2 P)) Hx) in C3. cbn [option_map] in C3.
        destruct (span_at_in _ _ _ (eq_sym C3)) as (p & Hq & <-). apply HB. exact Hq.
    + intros x Hx.
      assert (Q : exists ps, Forall2 (fun s p => In p s) ss ps /\ (plyt x = get_stacked (map (@plyt _) ps) \/ exists s, ss = [s] /\ ps = [x])).
      { unfold vsum_solution in E. destruct ss as [|a [|b ss]]; [congruence| |].
        - injection E as ->. exists [x]. split; [repeat constructor; exact Hx|]. right. eauto.
        - destruct (proj2 (vsum_from _ _ _ _ _ _ E) x Hx) as [[]|(ps & A & D)]. rewrite map_fst_init in A. exists ps. split; [exact A|left; exact D]. }
      destruct Q as (ps & Q1 & Q2).
      assert (QL : Forall2 (lays txt) lss (map (@plyt _) ps)).
      { clear - HF Q1. revert ps Q1. induction HF as [|ls s lss ss (B0 & H1) H2 IH]; intros ps Q; inversion Q as [|? p ? ps' P1 P2]; subst; [constructor|].
        cbn [map]. constructor; [apply H1; exact P1|apply IH; exact P2]. }
      assert (Hlss : lss <> []) by (intros ->; inversion HF; subst; congruence).
      assert (Hps : map (@plyt _) ps <> []) by (intros X; rewrite X in QL; inversion QL; subst; congruence).
      destruct Q2 as [Q2|(s & -> & ->)].
      * rewrite Q2, get_stacked_lines by exact Hps. apply lays_stack; assumption.
      * inversion QL as [|ls ? ls' ? Y1 Y2]; subst. inversion Y2; subst. cbn [concat]. rewrite app_nil_r. exact Y1.
Qed.

Lemma fair_const : forall B ls s v, 0 <= v -> fair B ls s -> fair B ls (plus_const s v).
Proof.
  intros B ls s v Hv (A & P & K & Y).
  assert (Hin : forall x, In x (plus_const s v) -> exists y, In y s /\ pknot x = pknot y /\ pspan x = pspan y /\ pint x = pint y + v /\ pgrad x = pgrad y /\ plyt x = plyt y).
  { intros x Hx. apply in_map_iff in Hx. destruct Hx as (y & <- & Hy). exists y. cbn. auto 8. }
  split; [|split; [|split]].
  - destruct A as ((p & s' & E & E0) & S0 & F). split; [|split].
    + exists (mkP (pknot p) (pspan p) (pint p + v) (pgrad p) (plyt p)), (plus_const s' v). subst s. split; [reflexivity|exact E0].
    + unfold plus_const. rewrite map_map. cbn [pknot]. exact S0.
    + rewrite Forall_forall in *. intros x Hx. destruct (Hin x Hx) as (y & Hy & -> & -> & -> & -> & _). specialize (F y Hy). lia.
  - intros m c g Hm Hc Hg. destruct (plus_const_at _ s v m) as [E1 _]. rewrite E1 in Hc.
    assert (Eg : slope_at (plus_const s v) m = slope_at s m).
    { unfold slope_at, piece_at, plus_const. clear. 
      assert (F : filter (fun p => pknot p <=? m) (map (fun p : piece (list elem) => mkP (pknot p) (pspan p) (pint p + v) (pgrad p) (plyt p)) s) =
                map (fun p => mkP (pknot p) (pspan p) (pint p + v) (pgrad p) (plyt p)) (filter (fun p => pknot p <=? m) s)).
      { induction s as [|p s IH]; [reflexivity|]. cbn [map filter pknot]. rewrite IH. destruct (pknot p <=? m); reflexivity. }
      rewrite F. generalize (filter (fun p => pknot p <=? m) s) as l. intros l. induction l as [|p [|q l] IH]; [reflexivity|reflexivity|exact IH]. }
    rewrite Eg in Hg. destruct (cost s m) as [c0|] eqn:Ec; [|discriminate]. injection Hc as <-.
    destruct (P m c0 g Hm Ec Hg). lia.
  - intros x Hx. destruct (Hin x Hx) as (y & Hy & -> & -> & _). apply K. exact Hy.
  - intros x Hx. destruct (Hin x Hx) as (y & Hy & _ & _ & _ & _ & ->). apply Y. exact Hy.
Qed.

Lemma fair_weaken : forall B B' ls s, B <= B' -> fair B ls s -> fair B' ls s.
Proof. intros B B' ls s H (A & P & K & Y). split; [exact A|]. split; [exact P|]. split; [|exact Y]. intros x Hx. specialize (K x Hx). lia. Qed.

(** ** Blocks *)

Definition rest_ok (B : Z) (ls : list str) (rest : option (list (piece (list elem)))) : Prop :=
  match rest with None => ls = [] /\ B = 0 | Some s => ls <> [] /\ 0 <= B /\ fair B ls s end.

Definition Pt (b : block) : Prop := fixed txt b -> block_lines txt b <> [] /\
  forall B ls rest, rest_ok B ls rest -> Z.of_nat (block_size txt b) + B <= 2 ^ 28 ->
  exists r, opt_layout fuel o b rest = Ok (Some r) /\ fair (Z.of_nat (block_size txt b) + B) (attach (block_lines txt b) ls) r.

Lemma rest_nonneg : forall B ls rest, rest_ok B ls rest -> 0 <= B.
Proof. intros B ls [s|] H; [apply H|destruct H; lia]. Qed.

Lemma all_fixed : forall l, (fix all (l : list block) : Prop := match l with [] => True | e :: l' => fixed txt e /\ all l' end) l -> Forall (fixed txt) l.
Proof. induction l as [|e l IH]; intros H; [constructor|]. destruct H. constructor; auto. Qed.

Lemma fold_attach_ne : forall l, l <> [] -> Forall (fun e => block_lines txt e <> []) l ->
  fold_right (fun e r => attach (block_lines txt e) r) [] l <> [].
Proof. intros [|e l] H HF; [congruence|]. inversion HF; subst. cbn [fold_right]. apply attach_ne. assumption. Qed.

Lemma laid_text : forall strs, Pt (BText strs).
Proof.
  intros strs Hf. cbn in Hf. split; [discriminate|]. intros B ls rest Hr Hsz. cbn [opt_layout block_size block_lines] in *.
  pose proof (rest_nonneg _ _ _ Hr). destruct rest as [s|]; cbn [with_rest].
  - destruct Hr as (R1 & R2 & R3). destruct (fair_plus strs B ls s Hf R3 R2 Hsz) as (r & E & F). rewrite E. exists r. split; [reflexivity|exact F].
  - destruct Hr as [-> ->]. eexists. split; [reflexivity|]. rewrite Z.add_0_r. apply fair_text; [exact Hf|lia].
Qed.

Lemma attach_nil_r : forall a, attach a [] = a. Proof. reflexivity. Qed.

Lemma laid_line : forall l, Forall Pt l -> Pt (BLine l).
Proof.
  intros l HP [Hne Hall]. apply all_fixed in Hall.
  assert (Hbl : Forall (fun e => block_lines txt e <> []) l).
  { rewrite Forall_forall in *. intros e He. apply (HP e He (Hall e He)). }
  split; [cbn [block_lines]; apply fold_attach_ne; assumption|]. intros B ls rest Hr Hsz.
  assert (G : forall l', Forall Pt l' -> Forall (fixed txt) l' -> Forall (fun e => block_lines txt e <> []) l' ->
    Z.of_nat (list_sum (map (block_size txt) l')) + B <= 2 ^ 28 ->
    exists r, (fix go (l : list block) : outcome (option (list (piece layout))) :=
                match l with
                | [] => Ok rest
                | e :: l' => obind (go l') (fun r => opt_layout fuel o e r)
                end) l' = Ok r /\
      rest_ok (Z.of_nat (list_sum (map (block_size txt) l')) + B) (match l' with [] => ls | _ => attach (fold_right (fun e r => attach (block_lines txt e) r) [] l') ls end) r).
  { induction l' as [|e l' IH]; intros H1 H2 H3 H4.
    - exists rest. split; [reflexivity|]. exact Hr.
    - inversion H1 as [|? ? P1 P2]; subst. inversion H2 as [|? ? F1 F2]; subst. inversion H3 as [|? ? N1 N2]; subst.
      cbn [map] in *. change (list_sum (block_size txt e :: map (block_size txt) l')) with (block_size txt e + list_sum (map (block_size txt) l'))%nat in *.
      destruct (IH P2 F2 N2 ltac:(lia)) as (r & E & R). rewrite E. cbn [obind].
      destruct (P1 F1) as [_ Q]. destruct (Q _ _ _ R ltac:(lia)) as (r' & E' & F'). exists (Some r'). split; [exact E'|].
      cbn [rest_ok fold_right]. 
      assert (EQ : attach (attach (block_lines txt e) (fold_right (fun e r => attach (block_lines txt e) r) [] l')) ls =
                   attach (block_lines txt e) (match l' with [] => ls | _ => attach (fold_right (fun e r => attach (block_lines txt e) r) [] l') ls end)).
      { destruct l' as [|e' l']; [reflexivity|]. apply attach_assoc; [exact N1|]. apply fold_attach_ne; [discriminate|exact N2]. }
      rewrite EQ. split; [apply attach_ne; exact N1|]. split; [pose proof (rest_nonneg _ _ _ Hr); lia|].
      replace (Z.of_nat (block_size txt e + list_sum (map (block_size txt) l')) + B) with
        (Z.of_nat (block_size txt e) + (Z.of_nat (list_sum (map (block_size txt) l')) + B)) by lia. exact F'. }
  destruct (G l HP Hall Hbl Hsz) as (r & E & R).
  destruct l as [|e l]; [congruence|].
  assert (Hr' : exists s, r = Some s).
  { destruct r as [s|]; [eauto|]. destruct R as [R _]. exfalso. revert R. apply attach_ne. apply fold_attach_ne; [discriminate|exact Hbl]. }
  destruct Hr' as [s ->]. exists s. split.
  - transitivity (obind (Ok (Some s)) (fun ln =>
      omap (fun s => Some (plus_const s 0))
        (vsum_solution fuel get_stacked (match ln with Some s => [s] | None => [] end)))); [rewrite <- E; reflexivity|].
    cbn [obind vsum_solution omap]. rewrite plus_const_0. reflexivity.
  - apply R.
Qed.

Lemma laid_stack : forall k l, Forall Pt l -> Pt (BStack k l).
Proof.
  intros k l HP (Hk & Hne & Hall). apply all_fixed in Hall.
  assert (Hbl : Forall (fun e => block_lines txt e <> []) l).
  { rewrite Forall_forall in *. intros e He. apply (HP e He (Hall e He)). }
  split.
  { cbn [block_lines]. destruct l as [|e l]; [congruence|]. inversion Hbl; subst. cbn [flat_map]. intros X. apply app_eq_nil in X. destruct X. contradiction. }
  intros B ls rest Hr Hsz. pose proof (rest_nonneg _ _ _ Hr) as HB.
  assert (G : forall l', l' <> [] -> Forall Pt l' -> Forall (fixed txt) l' -> Forall (fun e => block_lines txt e <> []) l' ->
    Z.of_nat (list_sum (map (block_size txt) l')) + B <= 2 ^ 28 ->
    exists ss lss, (fix go (l : list block) : outcome (list (list (piece layout))) :=
                match l with
                | [] => Ok []
                | e :: l' =>
                    obind (opt_layout fuel o e (match l' with [] => rest | _ => None end)) (fun r =>
                    omap (fun rs => match r with Some s => s :: rs | None => rs end) (go l'))
                end) l' = Ok ss /\ ss <> [] /\ Forall2 (fun ls s => exists B, fair B ls s) lss ss /\
      concat lss = attach (flat_map (block_lines txt) l') ls /\
      forall x, In x (last ss []) -> pspan x <= Z.of_nat (list_sum (map (block_size txt) l')) + B).
  { induction l' as [|e l' IH]; intros H0 H1 H2 H3 H4; [congruence|].
    inversion H1 as [|? ? P1 P2]; subst. inversion H2 as [|? ? F1 F2]; subst. inversion H3 as [|? ? N1 N2]; subst.
    cbn [map] in *. change (list_sum (block_size txt e :: map (block_size txt) l')) with (block_size txt e + list_sum (map (block_size txt) l'))%nat in *.
    destruct (P1 F1) as [_ Q]. destruct l' as [|e' l'].
    - cbn [map] in *. change (list_sum []) with 0%nat in *. rewrite Nat.add_0_r in *. destruct (Q _ _ _ Hr ltac:(lia)) as (r & E & F). rewrite E. cbn [obind omap].
      exists [r], [attach (block_lines txt e) ls]. split; [reflexivity|]. split; [discriminate|]. split; [|split].
      + constructor; [eexists; exact F|constructor].
      + cbn [concat flat_map]. rewrite !app_nil_r. reflexivity.
      + cbn [last]. intros x Hx. apply F. exact Hx.
    - destruct (Q 0 [] None ltac:(split; reflexivity) ltac:(lia)) as (r & E & F). rewrite E. cbn [obind].
      destruct (IH ltac:(discriminate) P2 F2 N2 ltac:(lia)) as (ss & lss & E2 & S1 & S2 & S3 & S4). rewrite E2. cbn [omap obind].
      exists (r :: ss), (block_lines txt e :: lss). split; [reflexivity|]. split; [discriminate|]. split; [|split].
      + constructor; [eexists; exact F|exact S2].
      + cbn [concat]. rewrite S3. change (flat_map (block_lines txt) (e :: e' :: l')) with (block_lines txt e ++ flat_map (block_lines txt) (e' :: l')).
        rewrite attach_app; [reflexivity|]. inversion N2 as [|? ? N3 N4]; subst. cbn [flat_map]. intros X. apply app_eq_nil in X. destruct X. contradiction.
      + destruct ss as [|s0 ss]; [congruence|]. change (last (r :: s0 :: ss) []) with (last (s0 :: ss) []). intros x Hx.
        specialize (S4 x Hx). lia. }
  destruct (G l Hne HP Hall Hbl Hsz) as (ss & lss & E & S1 & S2 & S3 & S4).
  destruct (fair_stack lss ss _ S2 S1 S4) as (r & Er & Fr). rewrite S3 in Fr.
  destruct l as [|e l]; [congruence|].
  exists (plus_const r (linebreak_cost o * k * Z.max 0 (Z.of_nat (length (e :: l)) - 1))). split.
  - transitivity (obind (Ok ss) (fun ss =>
      obind (vsum_solution fuel get_stacked ss) (fun s =>
      match s with
      | [] => Ok rest
      | _ => Ok (Some (plus_const s (linebreak_cost o * k * Z.max 0 (Z.of_nat (length (e :: l)) - 1))))
      end))); [rewrite <- E; reflexivity|].
    cbn [obind]. rewrite Er. cbn [obind]. destruct r; [|reflexivity]. destruct Fr as (((p & s' & X & _) & _) & _). discriminate.
  - cbn [block_lines block_size] in *. apply fair_const; [|exact Fr]. apply Z.mul_nonneg_nonneg; [apply Z.mul_nonneg_nonneg; assumption|lia].
Qed.

Lemma laid : forall b, Pt b.
Proof.
  apply block_ind'.
  - apply laid_text.
  - intros [].
  - apply laid_line.
  - apply laid_stack.
  - intros l _ [].
Qed.

Lemma print_block : forall b, fixed txt b -> Z.of_nat (block_size txt b) <= 2 ^ 28 ->
  exists ls, to_layouts fuel o b = Ok ls /\ ls <> [] /\
    forall l, In l ls -> Forall elem_ok l /\ events_text txt (fst (print_list l 0 0)) = hung 0 (block_lines txt b).
Proof.
  intros b Hf Hsz. destruct (laid b Hf) as [_ G]. destruct (G 0 [] None ltac:(split; reflexivity) ltac:(lia)) as (r & E & (A & _ & _ & Y)).
  unfold to_layouts. rewrite E. cbn [obind]. exists (map (@plyt _) r). split; [reflexivity|]. split.
  - destruct A as ((p & s' & -> & _) & _). discriminate.
  - intros l Hl. apply in_map_iff in Hl. destruct Hl as (x & <- & Hx). destruct (Y x Hx) as (L1 & L2 & L3).
    split; [exact L1|]. destruct (L3 0%nat) as [P _]. exact P.
Qed.
End Sols.
