(** Lemmas about the evaluation of code blocks. *)
From Coq Require Import String.
From Verif Require Import Base StrModel StrProofs AttrModel AttrProofs EvalModel EvalSpec.
From Verif Require AttrSpec.
Local Open Scope nat_scope.

Lemma obind_ok' {A B} (o : outcome A) (f : A -> outcome B) b : obind o f = Ok b -> exists a, o = Ok a /\ f a = Ok b.
Proof. destruct o; cbn; try discriminate. eauto. Qed.
Lemma omap_ok' {A B} (f : A -> B) (o : outcome A) b : omap f o = Ok b -> exists a, o = Ok a /\ b = f a.
Proof. destruct o; cbn; try discriminate. intros [= <-]. eauto. Qed.
Lemma collect_all_ok {A B} (f : A -> outcome B) l r : collect_all (map f l) = Ok r <-> Forall2 (fun a b => f a = Ok b) l r.
Proof.
  revert r. induction l as [|a l IH]; intros r; cbn; split; intros H.
  - injection H as <-. constructor.
  - inversion H. reflexivity.
  - apply obind_ok' in H. destruct H as (b & A1 & H). apply omap_ok' in H. destruct H as (bs & A2 & ->).
    constructor; [exact A1|]. now apply IH.
  - inversion H as [|? b ? bs A1 A2]; subst. rewrite A1. cbn. apply IH in A2. now rewrite A2.
Qed.

(** ** Slices *)
Lemma follow_app q : forall p j, follow j (p ++ q) = obind (follow j p) (fun x => follow x q).
Proof.
  induction p as [|i p IH]; intros j; [reflexivity|]. cbn. destruct j as [|l]; [reflexivity|].
  destruct (nth_error l i); [apply IH|reflexivity].
Qed.
Lemma slice_rec_at ix : forall p j x, follow j p = Ok x -> slice_rec j ix p = slice_rec x ix [].
Proof.
  assert (G : forall p r j x, follow j p = Ok x -> slice_rec j ix (p ++ r) = slice_rec x ix r).
  { induction ix as [|is ix IH]; intros p r j x H; cbn.
    - now rewrite follow_app, H.
    - f_equal. f_equal. apply map_ext. intros i. rewrite <- app_assoc. now apply IH. }
  intros p j x H. rewrite <- (app_nil_r p). now apply G.
Qed.
Lemma positions_ok sp n is : positions sp n = Ok is <->
  exists a b, Z.of_nat a = place (fst sp) n /\ Z.of_nat b = place (match snd sp with Some v => v | None => fst sp end) n /\ a <= b < n /\ is = seq a (S b - a).
Proof.
  unfold positions, place. destruct sp as [f o]; cbn [fst snd]. split.
  - intros H. set (a := if (f <? 0)%Z then (Z.of_nat n + f)%Z else f) in *.
    destruct ((a <? 0)%Z || (Z.of_nat n <=? a)%Z) eqn:E; [discriminate|].
    set (b0 := match o with Some v => v | None => a end) in *. set (b := if (b0 <? 0)%Z then (Z.of_nat n + b0)%Z else b0) in *.
    destruct ((b <? 0)%Z || (Z.of_nat n <=? b)%Z || (b <? a)%Z) eqn:E2; [discriminate|]. injection H as <-.
    exists (Z.to_nat a), (Z.to_nat b). repeat split; try lia.
    + rewrite Z2Nat.id by lia. subst b b0. destruct o; [reflexivity|]. destruct (Z.ltb_spec a 0); [lia|reflexivity].
    + f_equal. lia.
  - intros (a & b & A & B & C & ->).
    assert (A' : (if (f <? 0)%Z then (Z.of_nat n + f)%Z else f) = Z.of_nat a) by auto.
    rewrite A'. destruct ((Z.of_nat a <? 0)%Z || (Z.of_nat n <=? Z.of_nat a)%Z) eqn:E; [lia|].
    assert (B' : (let last := match o with Some v => v | None => Z.of_nat a end in if (last <? 0)%Z then (Z.of_nat n + last)%Z else last) = Z.of_nat b).
    { cbn zeta. destruct o as [v|]; [auto|]. destruct (Z.ltb_spec (Z.of_nat a) 0); lia. }
    cbn zeta in B'. rewrite B'.
    destruct ((Z.of_nat b <? 0)%Z || (Z.of_nat n <=? Z.of_nat b)%Z || (Z.of_nat b <? Z.of_nat a)%Z) eqn:E2; [lia|].
    f_equal. f_equal; lia.
Qed.
Lemma positions_out sp n : (exists is, positions sp n = Ok is) \/ positions sp n = Throw.
Proof. unfold positions. repeat match goal with |- context [if ?c then _ else _] => destruct c end; eauto. Qed.
Lemma all_positions_out : forall sps ds, (exists ix, all_positions sps ds = Ok ix) \/ all_positions sps ds = Throw.
Proof.
  induction sps as [|sp sps IH]; intros [|d ds]; cbn; eauto.
  destruct (positions_out sp d) as [[is ->]| ->]; cbn; [|auto]. destruct (IH ds) as [[ix ->]| ->]; cbn; eauto.
Qed.
Lemma boxed_dims : forall sps ds j ix, boxed ds j -> length sps = length ds ->
  (all_positions sps (dimensions j) = Ok ix <-> all_positions sps ds = Ok ix).
Proof.
  induction sps as [|sp sps IH]; intros ds j ix B L; [destruct ds; [cbn; tauto|discriminate]|].
  destruct ds as [|d ds]; [discriminate|]. inversion B as [|? l F]; subst. destruct l as [|x l].
  - cbn. split; [discriminate|]. intros H. apply obind_ok' in H. destruct H as (is & H & _). apply positions_ok in H.
    destruct H as (a & b & _ & _ & H & _). lia.
  - cbn [dimensions all_positions]. inversion F; subst. cbn in L.
    split; intros H; apply obind_ok' in H; destruct H as (is & A1 & H); apply omap_ok' in H; destruct H as (ix' & A2 & ->);
      rewrite A1; cbn [obind]; [apply (IH ds x ix') in A2|apply (IH ds x ix') in A2]; auto; now rewrite A2.
Qed.

Lemma f2_seq {A B} (R : A -> B -> Prop) (l : list A) : forall n a l', a + n <= length l ->
  Forall2 (fun i y => exists x, nth_error l i = Some x /\ R x y) (seq a n) l' <-> Forall2 R (firstn n (skipn a l)) l'.
Proof.
  induction n as [|n IH]; intros a l' H; cbn.
  - split; intros X; inversion X; constructor.
  - assert (E : exists x, nth_error l a = Some x). { destruct (nth_error l a) eqn:Q; [eauto|]. apply nth_error_None in Q. lia. }
    destruct E as [x E].
    assert (Q : skipn a l = x :: skipn (S a) l).
    { clear -E. revert a E. induction l as [|y l IH]; intros [|a] E; try discriminate; cbn in *; [congruence|]. now rewrite (IH _ E). }
    rewrite Q. cbn [firstn]. split; intros X; inversion X as [|? y ? l'' P1 P2]; subst.
    + constructor; [destruct P1 as (x' & P & P'); congruence|]. apply IH; [lia|exact P2].
    + constructor; [eauto|]. apply IH; [lia|exact P2].
Qed.
Lemma f2_mono {A B} (P Q : A -> B -> Prop) l l' : (forall a b, P a b -> Q a b) -> Forall2 P l l' -> Forall2 Q l l'.
Proof. intros H. induction 1; constructor; auto. Qed.
Lemma f2_pull {A B} (P : A -> B -> Prop) l : (forall a, In a l -> exists b, P a b) -> exists l', Forall2 P l l'.
Proof.
  induction l as [|a l IH]; intros H; [exists []; constructor|]. destruct (H a (or_introl eq_refl)) as [b Hb].
  destruct IH as [l' Hl]; [intros; apply H; now right|]. exists (b :: l'). now constructor.
Qed.
Lemma slice_rec_sound : forall sps ds j ix, boxed ds j -> length sps = length ds -> all_positions sps ds = Ok ix ->
  exists r, slice_rec j ix [] = Ok r /\ sliced sps j r.
Proof.
  induction sps as [|sp sps IH]; intros ds j ix B L H.
  - destruct ds; [|discriminate]. injection H as <-. exists j. split; [reflexivity|constructor].
  - destruct ds as [|d ds]; [discriminate|]. inversion B as [|? l F]; subst. cbn [all_positions] in H.
    apply obind_ok' in H. destruct H as (is & A1 & H). apply omap_ok' in H. destruct H as (ix' & A2 & ->).
    apply positions_ok in A1. destruct A1 as (a & b & P1 & P2 & P3 & ->). rewrite Forall_forall in F.
    destruct (f2_pull (fun i y => exists x, nth_error l i = Some x /\ slice_rec x ix' [] = Ok y /\ sliced sps x y) (seq a (S b - a))) as [l' Hl].
    { intros i Hi. apply in_seq in Hi. destruct (nth_error l i) as [x|] eqn:E; [|apply nth_error_None in E; lia].
      destruct (IH ds x ix') as (y & Y1 & Y2); [apply F; eapply nth_error_In; eauto|now injection L|exact A2|]. eauto. }
    exists (JArr l'). split.
    + cbn [slice_rec]. assert (X : collect_all (map (fun i => slice_rec (JArr l) ix' ([] ++ [i])) (seq a (S b - a))) = Ok l').
      { apply collect_all_ok. clear -Hl. induction Hl as [|i y s l' (x & X1 & X2 & _) _ IH']; constructor; [|exact IH'].
        erewrite slice_rec_at; [exact X2|]. cbn. now rewrite X1. }
      now rewrite X.
    + destruct sp as [f o]. apply sliced_part with a b; auto. apply f2_seq; [lia|].
      eapply f2_mono; [|exact Hl]. cbn. intros i y (x & X1 & _ & X3). eauto.
Qed.
Lemma sliced_fun : forall sps j r r', sliced sps j r -> sliced sps j r' -> r = r'.
Proof.
  induction sps as [|sp sps IH]; intros j r r' H H'; inversion H; subst; inversion H'; subst; [reflexivity|].
  assert (a = a0) by lia. assert (b = b0) by lia. subst. f_equal.
  match goal with A : Forall2 _ _ l', B : Forall2 _ _ l'0 |- _ => revert A B end.
  generalize (firstn (S b0 - a0) (skipn a0 l)). clear -IH. intros m A. revert l'0. induction A; intros l2 B; inversion B; subst; [reflexivity|].
  f_equal; eauto.
Qed.
Lemma sliced_positions : forall sps ds j r, boxed ds j -> length sps = length ds -> sliced sps j r -> exists ix, all_positions sps ds = Ok ix.
Proof.
  induction sps as [|sp sps IH]; intros ds j r B L H; [destruct ds; [|discriminate]; now exists []|].
  destruct ds as [|d ds]; [discriminate|]. inversion B as [|? l F]; subst. inversion H; subst. cbn [all_positions].
  assert (P : positions (f, o) (length l) = Ok (seq a (S b - a))) by (apply positions_ok; exists a, b; auto).
  rewrite P. cbn [obind].
  destruct (S b - a) as [|n] eqn:N; [lia|]. assert (E : exists x, nth_error l a = Some x).
  { destruct (nth_error l a) eqn:Q; [eauto|]. apply nth_error_None in Q. lia. } destruct E as [x E].
  match goal with X : Forall2 _ _ l' |- _ => apply f2_seq in X; [|lia]; cbn [seq] in X; inversion X as [|? y ? ? (x' & Q1 & Q2) _]; subst end.
  rewrite Forall_forall in F. destruct (IH ds x' y) as [ix E']; auto; [apply F; eapply nth_error_In; eauto|]. rewrite E'. cbn. eauto.
Qed.
Lemma slice_as j sps l : j = JArr l -> sps <> [] -> slice j sps = obind (all_positions sps (dimensions j)) (fun ix => slice_rec j ix []).
Proof.
  intros -> N. unfold slice. destruct sps as [|sp sps]; [congruence|]. clear N. set (j := JArr l).
  destruct (Nat.ltb_spec (length (dimensions j)) (length (sp :: sps))) as [E|]; [|reflexivity].
  assert (X : all_positions (sp :: sps) (dimensions j) = Throw); [|now rewrite X].
  revert E. generalize (dimensions j) as ds, (sp :: sps) as l0. clear. intros ds l0. revert ds. induction l0 as [|a l0 IH]; intros [|d ds]; cbn; try lia; auto.
  intros E. destruct (positions_out a d) as [[is ->]| ->]; [|reflexivity]. cbn. rewrite IH by lia. reflexivity.
Qed.
Lemma slice_spec ds j l sps : j = JArr l -> boxed ds j -> length sps = length ds ->
  (forall r, slice j sps = Ok r <-> sliced sps j r) /\ (slice j sps = Throw \/ exists r, slice j sps = Ok r).
Proof.
  intros E B L. destruct sps as [|sp sps].
  - subst. cbn. split; [|eauto]. intros r. split; intros H; [injection H as <-; constructor|inversion H; reflexivity].
  - rewrite (slice_as _ _ _ E) by discriminate. destruct (all_positions_out (sp :: sps) (dimensions j)) as [[ix H]|H]; rewrite H; cbn [obind].
    + apply (boxed_dims _ ds) in H; auto. destruct (slice_rec_sound _ _ _ _ B L H) as (r & R1 & R2). split; [|eauto].
      intros r'. rewrite R1. split; intros X; [injection X as <-; exact R2|]. f_equal. eapply sliced_fun; eauto.
    + split; [|auto]. intros r. split; [discriminate|]. intros X. exfalso. apply (sliced_positions _ ds) in X; auto. destruct X as [ix X].
      apply (boxed_dims _ ds j) in X; auto. congruence.
Qed.

(** ** The words after :results *)
Lemma str_eqb_spec a b : str_eqb a b = true <-> a = b.
Proof. unfold str_eqb. destruct (str_dec a b); split; congruence. Qed.
Ltac words :=
  repeat match goal with
  | |- context [str_eqb ?n (lit ?s)] =>
      let E := fresh "E" in destruct (str_eqb n (lit s)) eqn:E; [apply str_eqb_spec in E; try rewrite E; vm_compute; reflexivity|]
  end; try reflexivity.
Lemma one_type o w : otype (one_result o w) = match type_word w with Some t => t | None => otype o end.
Proof. unfold one_result, type_word, word_among. cbn [List.find fst snd option_map]. cbv zeta beta. generalize (normalize w). intros n. words. Qed.
Lemma one_format o w : oformat (one_result o w) = match format_word w with Some t => t | None => oformat o end.
Proof. unfold one_result, format_word, word_among. cbn [List.find fst snd option_map]. cbv zeta beta. generalize (normalize w). intros n. words. Qed.
Lemma one_handling o w : ohandling (one_result o w) = match handling_word w with Some t => t | None => ohandling o end.
Proof. unfold one_result, handling_word, word_among. cbn [List.find fst snd option_map]. cbv zeta beta. generalize (normalize w). intros n. words. Qed.
Lemma one_export o w : oexport (one_result o w) = match export_word w with Some t => Some t | None => oexport o end.
Proof. unfold one_result, export_word, word_among. cbn [List.find fst snd option_map]. cbv zeta beta. generalize (normalize w). intros n. words. Qed.
Lemma decided_fold {A} (f : str -> option A) (g : options -> A) ws o :
  (forall o w, g (one_result o w) = match f w with Some t => t | None => g o end) -> decided f ws (g o) (g (fold_left one_result ws o)).
Proof.
  intros H. induction ws as [|w ws IH] using rev_ind.
  - right. split; [intros u []|reflexivity].
  - rewrite fold_left_app. cbn [fold_left]. rewrite H. destruct (f w) as [t|] eqn:E.
    + left. exists ws, w, []. repeat split; auto. intros u [].
    + destruct IH as [(l & x & l' & -> & X & Y)|[X Y]].
      * left. exists l, x, (l' ++ [w]). rewrite <- app_assoc. repeat split; auto. intros u U. apply in_app_or in U.
        destruct U as [U|[<-|[]]]; auto.
      * right. split; auto. intros u U. apply in_app_or in U. destruct U as [U|[<-|[]]]; auto.
Qed.
Lemma decided_export ws o : decided (fun w => option_map Some (export_word w)) ws (oexport o) (oexport (fold_left one_result ws o)).
Proof. apply (decided_fold _ oexport). intros p w. rewrite one_export. now destruct (export_word w). Qed.

(** ** Values of nodes *)
Lemma node_ind' (P : node -> Prop) :
  (forall ns k s r, Forall P s -> Forall P r -> P (Node ns k s r)) -> forall n, P n.
Proof.
  intros H. fix IH 1. intros [ns k s r]. apply H.
  - induction s; constructor; auto.
  - induction r; constructor; auto.
Qed.
Lemma last_map_snoc {A B} (f : A -> B) l x d : last (map f (l ++ [x])) d = f x.
Proof. rewrite map_app. apply last_last. Qed.
Ltac tails := match goal with
  | H : _ ++ [_] = _ ++ [_] |- _ => apply app_inj_tail in H; let H' := fresh in destruct H as [_ H']; first [discriminate H'|injection H' as -> -> -> ->; eauto; now match goal with Q : forall v, shows _ v <-> _ |- _ => apply Q end]
  | H : [] = ?l ++ [_] |- _ => destruct l; discriminate
  | H : ?l ++ [_] = [] |- _ => destruct l; discriminate
  end.
Lemma shows_iff_deep : forall n, (forall v, shows n v <-> v = value_of n) /\ Forall (fun x => forall v, shows x v <-> v = value_of x) (nsubs n).
Proof.
  induction n as [ns k s r HS HR] using node_ind'.
  assert (HS' : Forall (fun x => forall v, shows x v <-> v = value_of x) s) by (eapply Forall_impl; [|exact HS]; cbn; tauto).
  split; [|exact HS']. intros v. destruct k.
  - destruct r as [|x0 r0] eqn:E using rev_ind.
    + split; intros X; [inversion X; subst; try reflexivity; try contradiction; tails|subst; constructor].
    + clear IHr0. cbn [value_of]. rewrite last_map_snoc. apply Forall_app in HR. destruct HR as [_ HR]. inversion HR as [|? ? [_ Q] _]; subst.
      destruct x0 as [rns k [|x more] rr]; cbn in Q |- *.
      * split; intros X; [|subst; constructor]. inversion X; subst; try reflexivity; try contradiction; tails.
      * inversion Q as [|? ? Q1 _]; subst. split; intros X.
        -- inversion X; subst; try contradiction; tails.
        -- subst. constructor. now apply Q1.
  - split; intros X; [inversion X; reflexivity|subst; now constructor].
  - split; intros X; [inversion X; subst; [reflexivity|contradiction]|subst; constructor].
  - assert (G : forall vs, Forall2 shows s vs <-> vs = map value_of s).
    { clear -HS'. induction HS' as [|x l Hx _ IH]; intros vs; split; intros X; [inversion X; reflexivity|subst; constructor| |].
      - inversion X; subst. cbn. f_equal; [now apply Hx|now apply IH].
      - subst. cbn. constructor; [now apply Hx|now apply IH]. }
    assert (F : value_of (Node ns KStmts s r) = combined (flat_map (fun v => match v with Some j => [j] | None => [] end) (map value_of s))).
    { cbn [value_of]. rewrite !flat_map_concat_map, map_map. now destruct (concat _) as [|? [|? ?]]. }
    rewrite F. split; intros X.
    + inversion X; subst; [|contradiction]. f_equal. f_equal. now apply G.
    + subst. constructor. now apply G.
  - split; intros X; [inversion X; reflexivity|subst; now constructor].
  - split; intros X; [inversion X; reflexivity|subst; now constructor].
Qed.
Lemma shows_iff n v : shows n v <-> v = value_of n.
Proof. apply shows_iff_deep. Qed.
Definition arrayed (n : node) : Prop := forall j, value_of n = Some j -> exists l, j = JArr l.
Lemma value_array_deep : forall n, arrayed n /\ Forall arrayed (nsubs n).
Proof.
  induction n as [ns k s r HS HR] using node_ind'.
  assert (HS' : Forall arrayed s) by (eapply Forall_impl; [|exact HS]; cbn; tauto).
  split; [|exact HS']. intros j H. destruct k; try discriminate.
  - destruct r as [|x0 r0] eqn:E using rev_ind; [discriminate|]. clear IHr0. cbn [value_of] in H. rewrite last_map_snoc in H.
    apply Forall_app in HR. destruct HR as [_ HR]. inversion HR as [|? ? [_ Q] _]; subst. destruct x0 as [rns k [|x more] rr]; [discriminate|].
    cbn in Q. inversion Q; subst. auto.
  - cbn in H. injection H as <-. eauto.
  - cbn [value_of] in H. assert (A : forall w, In w (flat_map (fun x => match value_of x with Some j => [j] | None => [] end) s) -> exists l, w = JArr l).
    { intros w W. apply in_flat_map in W. destruct W as (x & X1 & X2). rewrite Forall_forall in HS'. specialize (HS' x X1).
      destruct (value_of x) eqn:E; [|destruct X2]. destruct X2 as [<-|[]]. now apply HS'. }
    destruct (flat_map _ s) as [|a [|b l]]; [discriminate| |]; injection H as <-; [apply A; now left|eauto].
Qed.
Lemma value_array n j : value_of n = Some j -> exists l, j = JArr l.
Proof. apply value_array_deep. Qed.

(** ** Arguments *)
Lemma callsite_snoc m l a : callsite m (l ++ [a]) = match varname a with Some v => assign (callsite m l) v a | None => callsite m l end.
Proof. unfold callsite. now rewrite fold_left_app. Qed.
Lemma callsite_app m l l' : callsite m (l ++ l') = callsite (callsite m l) l'.
Proof. apply fold_left_app. Qed.
Lemma nodup_assign {A} (m : list (str * A)) k v : NoDup (map fst m) -> NoDup (map fst (assign m k v)).
Proof.
  intros D. destruct (in_dec str_dec k (map fst m)) as [I|I]; [now rewrite assign_keys|]. rewrite assign_new, map_app by auto. cbn.
  apply nodup_app'; [auto|repeat constructor; cbn; tauto|]. intros x X [<-|[]]. tauto.
Qed.
Lemma callsite_nodup l : NoDup (map fst (callsite [] l)).
Proof.
  induction l as [|a l IH] using rev_ind; [constructor|]. rewrite callsite_snoc. destruct (varname a); [now apply nodup_assign|auto].
Qed.
Lemma callsite_sets l v a : lookup (callsite [] l) v = Some a <-> sets l v a.
Proof.
  induction l as [|b l IH] using rev_ind.
  - cbn. split; [discriminate|]. intros (l1 & l2 & E & _). destruct l1; discriminate.
  - rewrite callsite_snoc. assert (P : varname b <> Some v -> (sets l v a <-> sets (l ++ [b]) v a)).
    { intros N. split.
      - intros (l1 & l2 & -> & V & F). exists l1, (l2 ++ [b]). rewrite <- app_assoc. repeat split; auto. intros c C.
        apply in_app_or in C. destruct C as [C|[<-|[]]]; auto.
      - intros (l1 & l2 & E & V & F). destruct l2 as [|c l2 _] using rev_ind.
        + apply app_inj_tail in E. destruct E as [_ ->]. congruence.
        + rewrite app_comm_cons, app_assoc in E. apply app_inj_tail in E. destruct E as [-> ->]. exists l1, l2. repeat split; auto.
          intros d D. apply F. apply in_or_app. auto. }
    destruct (varname b) as [w|] eqn:V.
    + rewrite lookup_assign. destruct (str_eqb w v) eqn:E.
      * apply str_eqb_eq in E. subst w. split.
        -- intros [= <-]. exists l, []. split; [reflexivity|split; [exact V|intros c []]].
        -- intros (l1 & l2 & E & V' & F). destruct l2 as [|c l2 _] using rev_ind.
           ++ apply app_inj_tail in E. destruct E. congruence.
           ++ rewrite app_comm_cons, app_assoc in E. apply app_inj_tail in E. destruct E as [_ ->]. exfalso. apply (F c); auto.
              apply in_or_app. right. now left.
      * apply str_eqb_neq in E. rewrite IH. apply P. congruence.
    + rewrite IH. apply P. discriminate.
Qed.
Lemma defaults_ok : forall l m d, defaults m l = Ok d -> d = callsite m l.
Proof.
  induction l as [|a l IH]; intros m d H; cbn in H; [now injection H|]. unfold callsite. cbn. destruct (varname a); [|discriminate]. now apply IH.
Qed.
Lemma callsite_varname l v a : In (v, a) (callsite [] l) -> varname a = Some v.
Proof.
  intros H. assert (L : lookup (callsite [] l) v = Some a).
  { pose proof (callsite_nodup l) as D. revert H D. generalize (callsite [] l). induction l0 as [|[k b] m IH]; intros H D; [destruct H|].
    cbn in *. inversion D; subst. destruct H as [H|H].
    - injection H as -> ->. now rewrite str_eqb_refl.
    - destruct (str_eqb k v) eqn:E; [|auto]. apply str_eqb_eq in E. subst. exfalso. apply H2. apply (in_map fst _ _ H). }
  apply callsite_sets in L. destruct L as (l1 & l2 & _ & V & _). exact V.
Qed.
Lemma one_arg_ok s v a w j : varname a = Some v -> one_arg s (v, a) = Ok (w, j) -> w = v /\ stands_for (tracked s) a j.
Proof.
  intros V H. unfold one_arg in H. cbn [snd] in H. rewrite V in H. apply obind_ok' in H. destruct H as (o & A & H).
  unfold attr_value, text_of in A. destruct (text a) as [t|] eqn:T; [|discriminate]. cbn [obind] in A.
  unfold stands_for. destruct (lookup (tracked s) t) as [n|] eqn:L.
  - destruct (has_paths s n); [|discriminate]. cbn [negb] in A. destruct (value_of n) as [u|] eqn:U.
    + apply omap_ok' in A. destruct A as (r & A & ->). injection H as <- <-. split; [reflexivity|].
      exists t. split; [auto|]. rewrite L. exists (Some u). split; [now apply shows_iff|]. intros ds B E.
      destruct (value_array _ _ U) as [l ->]. apply (slice_spec ds _ l) in A; auto.
    + injection A as <-. unfold text_of in H. rewrite T in H. cbn in H. injection H as <- <-. split; [reflexivity|]. exists t. split; [auto|].
      rewrite L. exists None. split; [now apply shows_iff|reflexivity].
  - injection A as <-. unfold text_of in H. rewrite T in H. cbn in H. injection H as <- <-. split; [reflexivity|]. exists t. split; [auto|].
    now rewrite L.
Qed.
Lemma f2_in_l {A B} (R : A -> B -> Prop) l l' a : Forall2 R l l' -> In a l -> exists b, In b l' /\ R a b.
Proof. induction 1; [intros []|]. intros [<-|H1]; [eexists; split; [now left|auto]|]. destruct (IHForall2 H1) as (b & ? & ?). exists b. split; [now right|auto]. Qed.
Lemma f2_in_r {A B} (R : A -> B -> Prop) l l' b : Forall2 R l l' -> In b l' -> exists a, In a l /\ R a b.
Proof. induction 1; [intros []|]. intros [<-|H1]; [eexists; split; [now left|auto]|]. destruct (IHForall2 H1) as (c & ? & ?). exists c. split; [now right|auto]. Qed.
Lemma convert_input_ok s lang lines own att vars i : convert_input s lang lines own att vars = Ok i ->
  language i = match lang with Some l => l | None => [] end /\ program_text lines = Ok (program i) /\ get_options own att = Ok (opts i) /\
  exists m, m = callsite [] (var_items own ++ call_items vars) /\ Forall2 (fun e x => one_arg s e = Ok x) (by_key m) (args i).
Proof.
  unfold convert_input. intros H. apply obind_ok' in H. destruct H as (prog & P & H). apply obind_ok' in H. destruct H as (o & O & H).
  apply obind_ok' in H. destruct H as (d & D & H). apply omap_ok' in H. destruct H as (l & L & ->). cbn [language program opts args].
  repeat split; auto. eexists. split; [reflexivity|]. apply collect_all_ok in L.
  assert (E : d = callsite [] (var_items own)).
  { unfold var_items. destruct (lookup (named own) (lit "var")); [now apply defaults_ok|]. now injection D as <-. }
  rewrite callsite_app, <- E. unfold call_items. now destruct vars.
Qed.
Lemma args_spec s lang lines own att vars i : convert_input s lang lines own att vars = Ok i ->
  arguments (tracked s) own vars (args i).
Proof.
  intros H. apply convert_input_ok in H. destruct H as (_ & _ & _ & m & M & F).
  assert (K : map fst (args i) = map fst (by_key m)).
  { assert (G : Forall (fun e : str * attr => varname (snd e) = Some (fst e)) (by_key m)).
    { rewrite Forall_forall. intros [v a] I. rewrite (by_key_perm m) in I. subst m. now apply callsite_varname in I. }
    clear -F G. induction F as [|[v a] [w j] l l' X _ IH]; [reflexivity|]. inversion G; subst. cbn in *. f_equal; [|now apply IH].
    now apply one_arg_ok in X. }
  assert (D : NoDup (map fst m)) by (subst m; apply callsite_nodup).
  split; [rewrite K; now apply by_key_sorted|split].
  - intros v. rewrite K, (Permutation_map fst (by_key_perm m)). split.
    + intros I. destruct (lookup m v) as [a|] eqn:E; [|apply lookup_None in E; tauto]. exists a. apply callsite_sets. now subst m.
    + intros [a A]. apply callsite_sets in A. rewrite <- M in A. apply lookup_In in A. apply (in_map fst _ _ A).
  - intros v j I. destruct (f2_in_r _ _ _ _ F I) as ([w a] & I' & X). rewrite (by_key_perm m) in I'.
    assert (V : varname a = Some w) by (subst m; now apply callsite_varname in I'). apply one_arg_ok in X; auto. destruct X as [<- X].
    exists a. split; [|exact X]. apply callsite_sets. rewrite <- M. clear -D I'. induction m as [|[k b] m IH]; [destruct I'|]. cbn in *.
    inversion D; subst. destruct I' as [E|I']; [injection E as -> ->; now rewrite str_eqb_refl|].
    destruct (str_eqb k v) eqn:E; [|auto]. apply str_eqb_eq in E. subst. exfalso. apply H1. apply (in_map fst _ _ I').
Qed.

(** ** The program *)
Lemma line_text_ok l s : line_text l = Ok s ->
  (forall t, ~ In (Tangle t) l) /\ s = concat (map (fun p => match p with Raw t => t | _ => [] end) l).
Proof.
  unfold line_text. revert s. induction l as [|p l IH] using rev_ind; intros s H.
  - injection H as <-. split; [intros t []|reflexivity].
  - rewrite fold_left_app in H. cbn [fold_left] in H. apply obind_ok' in H. destruct H as (s0 & A & H). destruct (IH _ A) as [T ->].
    rewrite map_app, concat_app. cbn. destruct p; try discriminate; injection H as <-; (split; [|rewrite ?app_nil_r; reflexivity]);
      intros t X; apply in_app_or in X; destruct X as [X|[X|[]]]; try discriminate; now apply (T t).
Qed.
Lemma program_ok ls p : program_text ls = Ok p ->
  (forall l t, In l ls -> ~ In (Tangle t) l) /\
  p = join (lit "
") (map (fun l => concat (map (fun p => match p with Raw t => t | _ => [] end) l)) ls).
Proof.
  unfold program_text. intros H. apply omap_ok' in H. destruct H as (l & H & ->). apply collect_all_ok in H. split.
  - intros x t I. destruct (f2_in_l _ _ _ _ H I) as (s & _ & X). apply (proj1 (line_text_ok _ _ X)).
  - f_equal. induction H as [|x s l l' X _ IH]; [reflexivity|]. cbn. f_equal; [now apply line_text_ok|exact IH].
Qed.

(** ** Places *)
Lemma node_eqb_eq : forall a b, node_eqb a b = true <-> a = b.
Proof.
  induction a as [ns k s r HS HR] using node_ind'. intros [ns' k' s' r'].
  assert (G : forall l, Forall (fun a => forall b, node_eqb a b = true <-> a = b) l -> forall m,
    (fix go (l m : list node) {struct l} : bool := match l, m with [], [] => true | x :: l', y :: m' => node_eqb x y && go l' m' | _, _ => false end) l m = true <-> l = m).
  { induction 1 as [|x l Hx _ IH]; intros [|y m]; try (split; [discriminate|discriminate]); [tauto|].
    rewrite andb_true_iff, Hx, IH. split; [intros [-> ->]; auto|intros [= -> ->]; auto]. }
  change (node_eqb (Node ns k s r) (Node ns' k' s' r')) with
    ((if list_eq_dec str_dec ns ns' then true else false) && (if kind_dec k k' then true else false) &&
     (fix go (l m : list node) {struct l} : bool := match l, m with [], [] => true | x :: l', y :: m' => node_eqb x y && go l' m' | _, _ => false end) s s' &&
     (fix go (l m : list node) {struct l} : bool := match l, m with [], [] => true | x :: l', y :: m' => node_eqb x y && go l' m' | _, _ => false end) r r').
  rewrite !andb_true_iff, (G s HS), (G r HR). destruct (list_eq_dec str_dec ns ns'), (kind_dec k k'); (split; [intros [[[? ?] ?] ?]; congruence|intros H; injection H; intros; repeat split; congruence]).
Qed.
Lemma placed_iff : forall p n x, placed n p x <-> at_path n p = Some x.
Proof.
  induction p as [|st p IH]; intros n x.
  - split; [inversion 1; reflexivity|]. intros [= ->]. constructor.
  - split.
    + inversion 1; subst; cbn [at_path child nsubs nresults];
        (rewrite nth_error_app2 by auto; rewrite Nat.sub_diag; cbn; now apply IH).
    + cbn. destruct (child n st) as [c|] eqn:E; [|discriminate]. intros H. apply IH in H. destruct n as [ns k s r], st as [i|i]; cbn in E;
        apply nth_error_split in E; destruct E as (l1 & l2 & -> & <-); now constructor.
Qed.
Lemma set_nth_app {A} (l1 : list A) c l2 x : set_nth (l1 ++ c :: l2) (length l1) x = l1 ++ x :: l2.
Proof. induction l1; cbn; congruence. Qed.
Lemma cascade_changed : forall p n old x, at_path n p = Some old -> changed p x n (fst (cascade n p x)).
Proof.
  induction p as [|st p IH]; intros n old x H; cbn in *; [constructor|].
  destruct (child n st) as [c|] eqn:E; [|discriminate]. specialize (IH c old x H). destruct (cascade c p x) as [c' l]. cbn in *.
  destruct n as [ns k s r], st as [i|i]; cbn in *; apply nth_error_split in E; destruct E as (l1 & l2 & -> & <-); rewrite set_nth_app; now constructor.
Qed.
Lemma changed_at : forall p x n n', changed p x n n' -> at_path n' p = Some x.
Proof.
  induction 1; cbn [at_path child nsubs nresults]; [reflexivity| |]; (rewrite nth_error_app2 by auto; rewrite Nat.sub_diag; cbn; auto).
Qed.

(** ** The blocks in document order *)
Fixpoint collect_in (p : list step) (mk : nat -> step) (i : nat) (l : list node) : list (list step * node) :=
  match l with [] => [] | x :: l' => collect (p ++ [mk i]) x ++ collect_in p mk (S i) l' end.
Lemma collect_eq p ns k s r : collect p (Node ns k s r) =
  (if runnable (Node ns k s r) then [(p, Node ns k s r)] else []) ++ collect_in p Sub 0 s ++ collect_in p Res 0 r.
Proof.
  cbn [collect]. f_equal. assert (G : forall mk l i, (fix go (mk : nat -> step) (i : nat) (l : list node) {struct l} : list (list step * node) :=
    match l with [] => [] | x :: l' => collect (p ++ [mk i]) x ++ go mk (S i) l' end) mk i l = collect_in p mk i l).
  { intros mk. induction l as [|x l IH]; intros i; [reflexivity|]. cbn [collect_in]. now rewrite <- IH. }
  now rewrite <- !G.
Qed.
Definition found_in (p0 : list step) (n : node) (e : list step * node) : Prop :=
  exists p, fst e = p0 ++ p /\ at_path n p = Some (snd e) /\ runnable (snd e) = true.
Lemma collect_in_found p0 (mk : nat -> step) : forall l i,
  Forall (fun x => forall p0 e, In e (collect p0 x) <-> found_in p0 x e) l ->
  forall e, In e (collect_in p0 mk i l) <-> exists j x, nth_error l j = Some x /\ found_in (p0 ++ [mk (i + j)]) x e.
Proof.
  induction l as [|x l IH]; intros i F e; cbn [collect_in].
  - split; [intros []|]. intros (j & x & H & _). destruct j; discriminate.
  - inversion F as [|? ? Fx Fl]; subst. rewrite in_app_iff, Fx, (IH (S i) Fl). split.
    + intros [H|(j & y & H & G)]; [exists 0, x; rewrite Nat.add_0_r; auto|]. exists (S j), y. rewrite Nat.add_succ_r. auto.
    + intros ([|j] & y & H & G); cbn in H.
      * injection H as <-. rewrite Nat.add_0_r in G. auto.
      * right. exists j, y. rewrite Nat.add_succ_r in G. auto.
Qed.
Lemma collect_found : forall n p0 e, In e (collect p0 n) <-> found_in p0 n e.
Proof.
  induction n as [ns k s r HS HR] using node_ind'. intros p0 e. rewrite collect_eq, !in_app_iff, (collect_in_found p0 Sub s 0 HS), (collect_in_found p0 Res r 0 HR).
  split.
  - intros [H|[(j & x & H & p & P1 & P2 & P3)|(j & x & H & p & P1 & P2 & P3)]].
    + destruct (runnable (Node ns k s r)) eqn:R; [|destruct H]. destruct H as [<-|[]]. exists []. rewrite app_nil_r. auto.
    + exists (Sub j :: p). cbn. rewrite H. rewrite <- app_assoc in P1. auto.
    + exists (Res j :: p). cbn. rewrite H. rewrite <- app_assoc in P1. auto.
  - intros (p & P1 & P2 & P3). destruct p as [|st p].
    + left. cbn in P2. injection P2 as P2. rewrite <- P2 in P3. rewrite P3. left. destruct e; cbn in *. rewrite app_nil_r in P1. congruence.
    + right. cbn in P2. destruct st as [j|j]; cbn in P2; [left|right]; (destruct (nth_error _ j) as [x|] eqn:E; [|discriminate]);
        exists j, x; (split; [exact E|]); exists p; rewrite <- app_assoc; auto.
Qed.
Lemma earlier_app p : forall a b, earlier a b -> earlier (p ++ a) (p ++ b).
Proof. induction p; cbn; intros; auto. apply earlier_below. auto. Qed.
Lemma sorted_app {A} (R : A -> A -> Prop) l l' : StronglySorted R l -> StronglySorted R l' -> (forall a b, In a l -> In b l' -> R a b) -> StronglySorted R (l ++ l').
Proof.
  induction 1 as [|a l S IH F]; intros S' H; cbn; [auto|]. constructor; [apply IH; auto; intros; apply H; [now right|auto]|].
  apply Forall_app. split; [auto|]. apply Forall_forall. intros b B. apply H; [now left|auto].
Qed.
Notation in_order := (StronglySorted (fun a b : list step * node => earlier (fst a) (fst b))).
Lemma collect_in_sorted p0 (mk : nat -> step) : (forall i j, i < j -> step_before (mk i) (mk j)) -> forall l i,
  Forall (fun x => forall p0, in_order (collect p0 x)) l -> in_order (collect_in p0 mk i l).
Proof.
  intros M. induction l as [|x l IH]; intros i F; cbn [collect_in]; [constructor|]. inversion F; subst. apply sorted_app; auto.
  intros a b A B. apply collect_found in A. destruct A as (p & -> & _). apply collect_in_found in B.
  - destruct B as (j & y & _ & q & -> & _). rewrite <- !app_assoc. apply earlier_app. cbn. apply earlier_here. apply M. lia.
  - apply Forall_forall. intros. apply collect_found.
Qed.
Lemma collect_sorted : forall n p0, in_order (collect p0 n).
Proof.
  induction n as [ns k s r HS HR] using node_ind'. intros p0. rewrite collect_eq. apply sorted_app; [destruct (runnable _); repeat constructor| |].
  - apply sorted_app; [apply collect_in_sorted; auto; now constructor|apply collect_in_sorted; auto; now constructor|].
    intros a b A B. apply collect_in_found in A; [|apply Forall_forall; intros; apply collect_found].
    apply collect_in_found in B; [|apply Forall_forall; intros; apply collect_found].
    destruct A as (j & y & _ & q & -> & _), B as (j' & y' & _ & q' & -> & _). rewrite <- !app_assoc. apply earlier_app. cbn. apply earlier_here. constructor.
  - intros a b A B. destruct (runnable _); [|destruct A]. destruct A as [<-|[]]. cbn [fst]. apply in_app_or in B.
    assert (B' : exists st q, fst b = p0 ++ st :: q).
    { destruct B as [B|B]; (apply collect_in_found in B; [|apply Forall_forall; intros; apply collect_found]);
        destruct B as (j & y & _ & q & -> & _); rewrite <- app_assoc; cbn; eauto. }
    destruct B' as (st & q & ->). rewrite <- (app_nil_r p0) at 1. apply earlier_app. constructor.
Qed.

(** ** Names *)
Lemma in_assign {A} (m : list (str * A)) k v e : In e (assign m k v) -> e = (k, v) \/ In e m.
Proof.
  induction m as [|[k' v'] m IH]; cbn; [intros [<-|[]]; auto|]. destruct (str_eqb k' k) eqn:E; cbn.
  - apply str_eqb_eq in E. subst. intros [<-|H]; auto.
  - intros [<-|H]; [auto|]. destruct (IH H); auto.
Qed.
Definition names_ok (Q : node -> Prop) (m : list (str * node)) : Prop := forall x n, In (x, n) m -> In x (nnames n) /\ Q n.
Lemma track_ok Q m n : names_ok Q m -> (nnames n <> [] -> Q n) -> names_ok Q (track m n).
Proof.
  intros H N. unfold track. assert (G : forall l, (forall x, In x l -> In x (nnames n)) -> forall m, names_ok Q m -> names_ok Q (fold_left (fun m x => assign m x n) l m)).
  { induction l as [|y l IH]; intros L m0 M; [exact M|]. cbn. apply IH; [intros; apply L; now right|]. intros x z I. apply in_assign in I.
    destruct I as [I|I]; [|auto]. injection I as -> ->. assert (Y : In y (nnames n)) by (apply L; now left). split; [auto|]. apply N. intros E. now rewrite E in Y. }
  now apply G.
Qed.
Lemma untrack_ok Q m n : names_ok Q m -> names_ok Q (untrack m n).
Proof. intros H x z I. apply filter_In in I. now apply H. Qed.
Lemma retrack_ok Q m e : names_ok Q m -> (nnames (snd e) <> [] -> Q (snd e)) -> names_ok Q (retrack m e).
Proof. intros H N. apply track_ok; [now apply untrack_ok|auto]. Qed.
Definition keys_ok (K : str -> Prop) (m : list (str * node)) : Prop := forall x, K x -> In x (map fst m).
Lemma assign_in {A} (m : list (str * A)) k v x : In x (map fst (assign m k v)) <-> x = k \/ In x (map fst m).
Proof.
  destruct (in_dec str_dec k (map fst m)) as [I|I].
  - rewrite assign_keys by auto. split; [auto|]. intros [->|H]; auto.
  - rewrite assign_new, map_app, in_app_iff by auto. cbn. split; [intros [H|[H|[]]]; auto|intros [H|H]; auto].
Qed.
Lemma track_in m n x : In x (map fst (track m n)) <-> In x (nnames n) \/ In x (map fst m).
Proof.
  unfold track. revert m. induction (nnames n) as [|y l IH]; intros m; [cbn; tauto|]. cbn. rewrite IH, assign_in. split; intros H; repeat destruct H as [H|H]; subst; auto.
Qed.
Lemma track_keys K m n : keys_ok K m -> keys_ok K (track m n).
Proof. intros H x X. apply track_in. right. auto. Qed.
Lemma retrack_keys K m e : nnames (snd e) = nnames (fst e) -> keys_ok K m -> keys_ok K (retrack m e).
Proof.
  intros E H x X. unfold retrack. apply track_in. rewrite E. destruct (in_dec str_dec x (nnames (fst e))) as [I|I]; [now left|]. right.
  apply H in X. apply in_map_iff in X. destruct X as ([y n] & <- & X). apply in_map_iff. exists (y, n). split; [reflexivity|].
  unfold untrack. apply filter_In. split; [auto|]. cbn. apply negb_true_iff. destruct (existsb _ _) eqn:EX; [|reflexivity].
  apply existsb_exists in EX. destruct EX as (z & Z1 & Z2). apply str_eqb_eq in Z2. subst. now destruct I.
Qed.
Lemma fold_keys {E} (f : list (str * node) -> E -> list (str * node)) K (R : E -> Prop) : (forall m e, keys_ok K m -> R e -> keys_ok K (f m e)) ->
  forall l, (forall e, In e l -> R e) -> forall m, keys_ok K m -> keys_ok K (fold_left f l m).
Proof. intros F. induction l as [|e l IH]; intros L m M; [exact M|]. cbn. apply IH; [intros; apply L; now right|]. apply F; [auto|]. apply L. now left. Qed.
Lemma placed_added : forall p n x, placed n p x -> In x (added n).
Proof.
  induction 1 as [[ns k s r]|ns k l1 c l2 r p x _ IH|ns k s l1 c l2 p x _ IH]; cbn [added]; rewrite !in_app_iff.
  - right. right. now left.
  - left. apply in_flat_map. exists c. split; [apply in_or_app; right; now left|auto].
  - right. left. apply in_flat_map. exists c. split; [apply in_or_app; right; now left|auto].
Qed.
Lemma fold_track_in : forall l m x, In x (map fst (fold_left track l m)) <-> (exists n, In n l /\ In x (nnames n)) \/ In x (map fst m).
Proof.
  induction l as [|n l IH]; intros m x; cbn.
  - split; [auto|]. intros [(n & [] & _)|H]; auto.
  - rewrite IH, track_in. split.
    + intros [(a & A & B)|[H|H]]; [left; exists a; auto|left; exists n; auto|auto].
    + intros [(a & [<-|A] & B)|H]; auto. left. eauto.
Qed.
Lemma fold_ok {E} (f : list (str * node) -> E -> list (str * node)) Q (R : E -> Prop) : (forall m e, names_ok Q m -> R e -> names_ok Q (f m e)) ->
  forall l, (forall e, In e l -> R e) -> forall m, names_ok Q m -> names_ok Q (fold_left f l m).
Proof. intros F. induction l as [|e l IH]; intros L m M; [exact M|]. cbn. apply IH; [intros; apply L; now right|]. apply F; [auto|]. apply L. now left. Qed.
Lemma added_placed : forall n x, In x (added n) -> exists p, placed n p x.
Proof.
  induction n as [ns k s r HS HR] using node_ind'. intros x. cbn [added]. rewrite !in_app_iff. intros [H|[H|[<-|[]]]].
  - apply in_flat_map in H. destruct H as (c & C & H). rewrite Forall_forall in HS. destruct (HS c C x H) as (p & P).
    apply in_split in C. destruct C as (l1 & l2 & ->). eexists. constructor. exact P.
  - apply in_flat_map in H. destruct H as (c & C & H). rewrite Forall_forall in HR. destruct (HR c C x H) as (p & P).
    apply in_split in C. destruct C as (l1 & l2 & ->). eexists. constructor. exact P.
  - exists []. constructor.
Qed.
Lemma cascade_heads : forall p n x e, In e (snd (cascade n p x)) ->
  nnames (snd e) = nnames (fst e) /\ nkind (snd e) = nkind (fst e) /\ exists q, at_path n q = Some (fst e).
Proof.
  induction p as [|st p IH]; intros n x e H; [destruct H|]. cbn in H. destruct (child n st) as [c|] eqn:E; [|destruct H].
  specialize (IH c x). destruct (cascade c p x) as [c' l]. cbn in H, IH. apply in_app_or in H. destruct H as [H|[<-|[]]].
  - destruct (IH e H) as (A & B & q & Q). repeat split; auto. exists (st :: q). cbn. now rewrite E.
  - cbn. destruct st; cbn; repeat split; now exists [].
Qed.

(** ** The loop *)
Section Loop.
  Variable eval : list input -> input -> list output.
  Variable parse : str -> list node.
  Variable doc : node.
  Notation question := (list step * input * list output)%type.
  Notation inputs l := (map (fun c : question => snd (fst c)) l).

  Lemma handled_spec h old r : results_after h old r (handled h old r).
  Proof. destruct h; cbn; constructor; tauto. Qed.
  Lemma results_after_fun h old r a b : results_after h old r a -> results_after h old r b -> a = b.
  Proof. intros A B. inversion A; subst; inversion B; subst; try reflexivity; repeat match goal with H : _ \/ _ |- _ => destruct H end; discriminate. Qed.
  Lemma result_node_spec outs : outs <> [] -> holds_answer parse outs (result_node parse outs).
  Proof.
    intros N. destruct (exists_last N) as (l & o & ->). exists l, o. split; [reflexivity|]. unfold result_node. now rewrite last_last.
  Qed.
  Lemma holds_answer_fun outs r r' : holds_answer parse outs r -> holds_answer parse outs r' -> r = r'.
  Proof. intros (l & o & E & ->) (l' & o' & E' & ->). rewrite E in E'. apply app_inj_tail in E'. destruct E' as [_ ->]. reflexivity. Qed.
  Lemma should_become_is p i outs old : outs <> [] -> at_path doc p = Some old ->
    forall x, should_become parse doc (p, i, outs) x <-> x = with_results old (handled (ohandling (opts i)) (nresults old) (result_node parse outs)).
  Proof.
    intros N A x. split.
    - intros (ns & k & s & o & new & r & P & R & H & ->). apply placed_iff in P. rewrite A in P. injection P as ->.
      rewrite (holds_answer_fun _ _ _ R (result_node_spec outs N)) in H. unfold with_results. cbn. f_equal.
      eapply results_after_fun; [exact H|apply handled_spec].
    - intros ->. destruct old as [ns k s o]. exists ns, k, s, o. do 2 eexists. split; [now apply placed_iff|]. split; [now apply result_node_spec|].
      split; [apply handled_spec|reflexivity].
  Qed.
  Lemma silent_unchanged p i : ~ changes parse doc (p, i, []).
  Proof. intros (x & (ns & k & s & o & new & r & _ & (l & q & E & _) & _) & _). destruct l; discriminate. Qed.

  Definition named_in (x : str) : Prop := exists p d, placed doc p d /\ In x (nnames d).
  Record inv (s : state) : Prop := Inv {
    inv_first : first s = doc;
    inv_keys : keys_ok named_in (tracked s);
    inv_names : names_ok (origin parse doc (calls s)) (tracked s);
    inv_root : (root s = doc /\ forall c, In c (calls s) -> ~ changes parse doc c) \/
      exists l c l' x, calls s = l ++ c :: l' /\ (forall d, In d l -> ~ changes parse doc d) /\
        should_become parse doc c x /\ ~ placed doc (fst (fst c)) x /\ changed (fst (fst c)) x doc (root s);
    inv_asked : forall l c l', calls s = l ++ c :: l' -> snd c = eval (inputs l) (snd (fst c)) /\ about parse doc l c }.

  Lemma origin_mono cs cs' n : origin parse doc cs n -> origin parse doc (cs ++ cs') n.
  Proof.
    intros (d & A & B & [P|(c & o & x & p & C & R)]); exists d; repeat split; auto. right. exists c, o, x, p. split; [apply in_or_app; auto|auto].
  Qed.
  Lemma asks lang ls own att s vars i b : nkind b = KCode lang ls own att -> convert_input s lang ls own att vars = Ok i -> asks_block (tracked s) b vars i.
  Proof.
    intros K H. pose proof (args_spec _ _ _ _ _ _ _ H) as AS. apply convert_input_ok in H. destruct H as (L & P & _). apply program_ok in P. destruct P as [_ P]. exists lang, ls, own, att. auto.
  Qed.
  Lemma inv_extend s c : first s = doc -> names_ok (origin parse doc (calls s)) (tracked s) ->
    snd c = eval (inputs (calls s)) (snd (fst c)) -> about parse doc (calls s) c ->
    (forall l c l', calls s = l ++ c :: l' -> snd c = eval (inputs l) (snd (fst c)) /\ about parse doc l c) ->
    forall l d l', calls s ++ [c] = l ++ d :: l' -> snd d = eval (inputs l) (snd (fst d)) /\ about parse doc l d.
  Proof.
    intros F N E A H l d l' X. destruct l' as [|z l' _] using rev_ind.
    - apply app_inj_tail in X. destruct X as [<- <-]. auto.
    - rewrite app_comm_cons, app_assoc in X. apply app_inj_tail in X. destruct X as [X _]. now apply (H l d l').
  Qed.
  Lemma set_output_inv s p i outs s' : inv s -> outs = eval (inputs (calls s)) i -> outs <> [] -> about parse doc (calls s) (p, i, outs) ->
    set_output parse (State (first s) (root s) (apart s) (tracked s) (calls s ++ [(p, i, outs)])) p i outs = Ok s' ->
    calls s' = calls s ++ [(p, i, outs)] /\ inv s'.
  Proof.
    intros [F KY N R A] O NE AB H. unfold set_output in H. cbn [first root apart tracked calls] in H. rewrite F in H.
    destruct (at_path doc p) as [old|] eqn:P; [|discriminate].
    set (r := result_node parse outs) in *. set (new := with_results old (handled (ohandling (opts i)) (nresults old) r)) in *.
    set (cs := calls s ++ [(p, i, outs)]) in *.
    assert (X : forall l d l', cs = l ++ d :: l' -> snd d = eval (inputs l) (snd (fst d)) /\ about parse doc l d).
    { apply inv_extend; auto. }
    assert (SB := should_become_is p i outs old NE P). fold r new in SB.
    assert (M0 : names_ok (origin parse doc cs) (tracked s)).
    { intros x n I. destruct (N x n I). split; [auto|now apply origin_mono]. }
    assert (M1 : names_ok (origin parse doc cs) (fold_left track (added r) (tracked s))).
    { apply (fold_ok track _ (fun n => nnames n <> [] -> origin parse doc cs n)); auto.
      - intros m e; now apply track_ok.
      - intros e I NN. apply added_placed in I. destruct I as (q & I). unfold r, result_node in I.
        assert (I' : exists x q, In x (parse (out (last outs (Output [] [] 0)))) /\ placed x q e).
        { apply placed_iff in I. destruct q as [|[[|j]|j] q]; cbn in I; try (destruct j; discriminate I).
          - injection I as <-. now cbn in NN.
          - destruct q as [|[j|j] q]; cbn in I; [injection I as <-; now cbn in NN| |destruct j; discriminate I].
            destruct (nth_error _ j) as [x|] eqn:EX; [|discriminate]. exists x, q. split; [eapply nth_error_In; eauto|now apply placed_iff]. }
        destruct I' as (x & q' & I1 & I2). destruct (exists_last NE) as (l & o & EO). rewrite EO, last_last in I1.
        exists e. repeat split; auto. right. exists (p, i, outs), o, x, q'. split; [apply in_or_app; right; now left|].
        split; [cbn; rewrite EO; apply in_or_app; right; now left|auto]. }
    assert (K2 : keys_ok named_in (retrack (fold_left track (added r) (tracked s)) (old, new))).
    { apply retrack_keys; [now destruct old|]. intros x Xn. apply fold_track_in. right. auto. }
    assert (M2 : names_ok (origin parse doc cs) (retrack (fold_left track (added r) (tracked s)) (old, new))).
    { apply retrack_ok; auto. intros _. exists old. split; [now destruct old|]. split; [now destruct old|]. left. exists p. now apply placed_iff. }
    destruct (node_eqb new old) eqn:EN.
    - injection H as <-. split; [reflexivity|]. constructor; auto. cbn [calls root]. apply node_eqb_eq in EN.
      assert (NC : ~ changes parse doc (p, i, outs)).
      { intros (x & B & C). apply SB in B. apply C. cbn. rewrite B, EN. now apply placed_iff. }
      destruct R as [[R1 R2]|(l & c & l' & x & E & R)].
      + left. split; [auto|]. intros c C. apply in_app_or in C. destruct C as [C|[<-|[]]]; auto.
      + right. exists l, c, (l' ++ [(p, i, outs)]), x. split; [|exact R]. unfold cs. rewrite E, <- app_assoc. reflexivity.
    - assert (EN' : new <> old) by (intros Z; apply node_eqb_eq in Z; congruence). destruct (node_eqb (root s) doc) eqn:ER.
      + apply node_eqb_eq in ER. rewrite ER in H. pose proof (cascade_changed p doc old new P) as CC. pose proof (cascade_heads p doc new) as CH.
        destruct (cascade doc p new) as [root' ups]. cbn [fst snd] in CC, CH. injection H as <-. split; [reflexivity|]. constructor; auto; cbn [tracked calls root].
        * apply (fold_keys retrack _ (fun e => nnames (snd e) = nnames (fst e))); auto; [intros m e Hm He; now apply retrack_keys|].
          intros e I. now apply CH.
        * apply (fold_ok retrack _ (fun e => origin parse doc cs (snd e))); auto.
          -- intros m e Hm He; now apply retrack_ok.
          -- intros e I. destruct (CH e I) as (C1 & C2 & q & Q). exists (fst e). repeat split; auto. left. exists q. now apply placed_iff.
        * right. destruct R as [[_ R]|(l & c & l' & x & _ & _ & _ & R1 & R2)].
          -- exists (calls s), (p, i, outs), [], new. repeat split; auto; [now apply SB|]. cbn. rewrite placed_iff, P. congruence.
          -- exfalso. apply R1. rewrite <- ER at 1. apply placed_iff. eapply changed_at, R2.
      + injection H as <-. split; [reflexivity|]. constructor; auto. cbn [calls root]. destruct R as [[R _]|(l & c & l' & x & E & R)].
        * rewrite R in ER. assert (Z : node_eqb doc doc = true) by now apply node_eqb_eq. congruence.
        * right. exists l, c, (l' ++ [(p, i, outs)]), x. split; [|exact R]. unfold cs. rewrite E, <- app_assoc. reflexivity.
  Qed.

  Definition is_code (n : node) : bool := match nkind n with KCode _ _ _ _ => true | _ => false end.
  Lemma turn_inv s e s' : inv s -> at_path doc (fst e) = Some (snd e) -> turn eval parse s e = Ok s' ->
    inv s' /\ ((s' = s /\ is_code (snd e) = false /\ forall t vars hs, nkind (snd e) = KCall t vars hs -> ~ named_in t) \/ exists i outs, calls s' = calls s ++ [(fst e, i, outs)]).
  Proof.
    intros I P H. unfold turn in H. apply obind_ok' in H. destruct H as (t & T & H). destruct t as [[b vars]|].
    - destruct (nkind b) as [lang ls own att| | | | |] eqn:K; try discriminate. apply obind_ok' in H. destruct H as (i & C & H). cbn zeta in H.
      set (outs := eval _ i) in H.
      assert (AB : about parse doc (calls s) (fst e, i, outs)).
      { exists (snd e), (tracked s). split; [now apply placed_iff|]. split; [split; [apply (inv_names s I)|]; intros q d x Q1 Q2; apply (inv_keys s I); now exists q, d|].
        unfold target_block in T. cbn [fst snd]. destruct (nkind (snd e)) eqn:KE; try discriminate.
        - injection T as <- <-. eapply asks; eauto.
        - destruct (lookup (tracked s) target) as [b'|] eqn:L; [|discriminate]. destruct (has_paths s b'); [|discriminate]. cbn in T.
          destruct (nkind b') eqn:KB; try discriminate. injection T as <- <-. apply lookup_In in L. exists b'. split; [auto|]. eapply asks; eauto. }
      destruct outs as [|o os] eqn:EO; [|rewrite <- EO in *].
      + injection H as <-. split; [|right; exists i, []; reflexivity]. destruct I as [F KY N R A]. constructor; cbn [first tracked calls root]; auto.
        * intros x n IX. destruct (N x n IX). split; [auto|now apply origin_mono].
        * destruct R as [[R1 R2]|(l & c & l' & x & E & R)].
          -- left. split; [auto|]. intros c IC. apply in_app_or in IC. destruct IC as [IC|[<-|[]]]; [auto|]. apply silent_unchanged.
          -- right. exists l, c, (l' ++ [(fst e, i, [])]), x. split; [|exact R]. rewrite E, <- app_assoc. reflexivity.
        * apply inv_extend; auto.
      + assert (Z := set_output_inv s (fst e) i outs s' I eq_refl ltac:(rewrite EO; discriminate) AB H). destruct Z as [Z1 Z2]. split; [auto|].
        right. eauto.
    - injection H as <-. split; [auto|]. left. split; [reflexivity|]. unfold target_block in T. unfold is_code. destruct (nkind (snd e)) eqn:KE; try discriminate; split; auto.
      intros t v h X. injection X as <- <- <-. intros X. apply (inv_keys s I) in X. destruct (lookup (tracked s) target) as [b|] eqn:L.
      + destruct (has_paths s b); [|discriminate]. cbn in T. destruct (nkind b); discriminate.
      + apply lookup_None in L. contradiction.
  Qed.
  Lemma turns_inv : forall l s s', inv s -> (forall e, In e l -> at_path doc (fst e) = Some (snd e)) -> in_order l -> turns eval parse l s = Ok s' ->
    inv s' /\ exists cs, calls s' = calls s ++ cs /\ StronglySorted earlier (map (fun c : question => fst (fst c)) cs) /\
      (forall c, In c cs -> In (fst (fst c)) (map fst l)) /\
      (forall e, In e l -> is_code (snd e) = true -> In (fst e) (map (fun c : question => fst (fst c)) cs)) /\
      (forall e t vars hs, In e l -> nkind (snd e) = KCall t vars hs -> named_in t -> In (fst e) (map (fun c : question => fst (fst c)) cs)).
  Proof.
    induction l as [|e l IH]; intros s s' I P O H.
    - injection H as <-. split; [auto|]. exists []. rewrite app_nil_r. split; [reflexivity|]. split; [constructor|]. split; [intros ? []|]. split; [intros ? []|intros ? ? ? ? []].
    - cbn in H. apply obind_ok' in H. destruct H as (s1 & T & H). inversion O as [|? ? O1 O2]; subst.
      destruct (turn_inv s e s1 I (P e (or_introl eq_refl)) T) as [I1 C].
      destruct (IH s1 s' I1 (fun e' X => P e' (or_intror X)) O1 H) as (I2 & cs & E & S & IN & CO & CA). split; [auto|].
      destruct C as [(-> & NC & NK)|(i & outs & C)].
      + exists cs. repeat split; auto; [intros c X; right; auto| |]; [intros e' [<-|X] Y; [congruence|auto]|].
        intros e' t vars hs [<-|X] Y Z; [now apply NK in Y|eauto].
      + exists ((fst e, i, outs) :: cs). rewrite E, C, <- app_assoc. repeat split; auto.
        * cbn. constructor; [auto|]. apply Forall_forall. intros q Q. apply in_map_iff in Q. destruct Q as (c & <- & Q). apply IN in Q.
          apply in_map_iff in Q. destruct Q as (e' & <- & Q). rewrite Forall_forall in O2. now apply O2.
        * intros c [<-|X]; [now left|right; auto].
        * intros e' [<-|X] Y; [now left|right; auto].
        * intros e' t vars hs [<-|X] Y Z; [now left|right; eauto].
  Qed.
  Lemma start_inv : inv (start doc).
  Proof.
    constructor; cbn; auto.
    - intros x (p & d & P & X). apply fold_track_in. left. exists d. split; [eapply placed_added; eauto|auto].
    - apply (fold_ok track _ (origin parse doc [])); [intros m e Hm He; now apply track_ok| |intros ? ? []]. intros e I. apply added_placed in I.
      destruct I as [p I]. exists e. repeat split; auto. left. eauto.
    - intros [|] c l' E; discriminate.
  Qed.
  Lemma evaluate_spec doc' cs : evaluate eval parse doc = Ok (doc', cs) ->
    StronglySorted earlier (map (fun c : question => fst (fst c)) cs) /\
    (forall p n, placed doc p n -> is_code n = true -> In p (map (fun c : question => fst (fst c)) cs)) /\
    (forall p n t vars hs, placed doc p n -> nkind n = KCall t vars hs -> named_in t -> In p (map (fun c : question => fst (fst c)) cs)) /\
    (forall l c l', cs = l ++ c :: l' -> snd c = eval (inputs l) (snd (fst c)) /\ about parse doc l c) /\
    ((doc' = doc /\ forall c, In c cs -> ~ changes parse doc c) \/
      exists l c l' x, cs = l ++ c :: l' /\ (forall d, In d l -> ~ changes parse doc d) /\
        should_become parse doc c x /\ ~ placed doc (fst (fst c)) x /\ changed (fst (fst c)) x doc doc').
  Proof.
    unfold evaluate. intros H. apply omap_ok' in H. destruct H as (s & H & E). injection E as -> ->.
    apply turns_inv in H; [|apply start_inv| |apply collect_sorted].
    - destruct H as ([F KY N R A] & cs & E & S & IN & CO & CA). cbn in E. rewrite E in *. split; [auto|]. split; [|split; [|split; [exact A|exact R]]].
      2: { intros p n t vars hs P K X. apply placed_iff in P. apply (CA (p, n) t vars hs); auto. apply collect_found. exists p. repeat split; auto.
           unfold runnable. cbn. now rewrite K. }
      intros p n P K. apply placed_iff in P. apply (CO (p, n)); [|exact K]. apply collect_found. exists p. repeat split; auto.
      unfold is_code in K. unfold runnable. cbn. now destruct (nkind n).
    - intros e X. apply collect_found in X. destruct X as (p & -> & X & _). exact X.
  Qed.
End Loop.

(** ** Options *)
Lemma texts_ok l ws : texts l = Ok ws <-> Forall2 (fun a w => text a = Some w) l ws.
Proof.
  revert ws. induction l as [|a l IH]; intros ws; cbn.
  - split; [intros [= <-]; constructor|inversion 1; reflexivity].
  - split.
    + intros H. apply obind_ok' in H. destruct H as (t & A & H). apply omap_ok' in H. destruct H as (r & H & ->). unfold text_of in A.
      destruct (text a) eqn:T; [|discriminate]. injection A as <-. constructor; [auto|now apply IH].
    + inversion 1; subst. unfold text_of. match goal with H : text a = _ |- _ => rewrite H end. cbn.
      match goal with H : Forall2 _ l _ |- _ => apply IH in H; rewrite H end. reflexivity.
Qed.
Lemma group_entries g (k : string) : normalize (lit k) = lit k -> group_attrs g (lit k) = entries g k.
Proof. intros E. unfold group_attrs, entries. now rewrite E. Qed.
Lemma export_from_ok g (k k' : string) o o' : normalize (lit k) = lit k' -> export_from g (lit k) o = Ok o' ->
  otype o' = otype o /\ oformat o' = oformat o /\ ohandling o' = ohandling o /\ oexport o' = given g k' (oexport o).
Proof.
  intros E. unfold export_from, given, group_attrs, entries. rewrite E. destruct (lookup (named g) (lit k')) as [[|a l]|].
  - intros [= <-]. auto.
  - intros H. apply omap_ok' in H. destruct H as (t & H & ->). unfold text_of in H. destruct (text a); [|discriminate]. injection H as <-. auto.
  - intros [= <-]. auto.
Qed.
Lemma options_spec own att o : get_options own att = Ok o -> asked_for own att o.
Proof.
  unfold get_options. intros H. apply obind_ok' in H. destruct H as (ws & W & H). apply obind_ok' in H. destruct H as (o1 & H1 & H2).
  apply (export_from_ok _ "result-export-language" "resultexportlanguage") in H1; [|reflexivity].
  apply (export_from_ok _ "result-code-language" "resultcodelanguage") in H2; [|reflexivity].
  destruct H1 as (A1 & A2 & A3 & A4), H2 as (B1 & B2 & B3 & B4). apply texts_ok in W. exists ws. eexists. split.
  { unfold block_attrs in W. rewrite (group_entries own "results") in W by reflexivity. erewrite flat_map_ext in W; [exact W|].
    intros g. now apply (group_entries g "results"). }
  rewrite B1, B2, B3, B4, A1, A2, A3, A4. repeat split.
  - apply (decided_fold _ otype). intros p w. rewrite one_type. now destruct (type_word w).
  - apply (decided_fold _ oformat). intros p w. rewrite one_format. now destruct (format_word w).
  - apply (decided_fold _ ohandling). intros p w. rewrite one_handling. now destruct (handling_word w).
  - apply decided_export.
Qed.
Lemma options_total own att : (exists o, get_options own att = Ok o) <->
  (forall a, In a (entries own "results" ++ flat_map (fun g => entries g "results") att) -> text a <> None) /\
  (forall k a l, k = "resultcodelanguage"%string \/ k = "resultexportlanguage"%string -> entries own k = a :: l -> text a <> None).
Proof.
  assert (BA : block_attrs own att (lit "results") = entries own "results" ++ flat_map (fun g => entries g "results") att).
  { unfold block_attrs. rewrite (group_entries own "results") by reflexivity. reflexivity. }
  assert (EX : forall (k k' : string) o, normalize (lit k) = lit k' -> (exists o', export_from own (lit k) o = Ok o') <-> forall a l, entries own k' = a :: l -> text a <> None).
  { intros k k' o E. unfold export_from, group_attrs, entries. rewrite E. destruct (lookup (named own) (lit k')) as [[|a l]|].
    - split; [discriminate|eauto].
    - unfold text_of. destruct (text a) eqn:T; split.
      + intros _ a' l' [= <- <-]. congruence.
      + cbn. eauto.
      + cbn. intros [? ?]. discriminate.
      + intros H. now destruct (H a l eq_refl).
    - split; [discriminate|eauto]. }
  unfold get_options. rewrite BA. split.
  - intros (o & H). apply obind_ok' in H. destruct H as (ws & W & H). apply obind_ok' in H. destruct H as (o1 & H1 & H2). split.
    + apply texts_ok in W. intros a A. destruct (f2_in_l _ _ _ _ W A) as (w & _ & X). congruence.
    + intros k a l [->| ->].
      * apply (proj1 (EX "result-code-language"%string "resultcodelanguage"%string o1 eq_refl)). eauto.
      * refine (proj1 (EX "result-export-language"%string "resultexportlanguage"%string _ eq_refl) _ a l). eauto.
  - intros [A B]. assert (W : exists ws, texts (entries own "results" ++ flat_map (fun g => entries g "results") att) = Ok ws).
    { revert A. generalize (entries own "results" ++ flat_map (fun g => entries g "results") att). clear. induction l as [|a l IH]; intros A; [cbn; eauto|].
      destruct IH as [ws IH]; [intros; apply A; now right|]. cbn. unfold text_of. destruct (text a) eqn:T; [|now destruct (A a (or_introl eq_refl))].
      cbn. rewrite IH. cbn. eauto. }
    destruct W as [ws W]. rewrite W. cbn [obind].
    destruct (proj2 (EX "result-export-language"%string "resultexportlanguage"%string (fold_left one_result ws (Options TScalar FNone HReplace None)) eq_refl)) as [o1 E1].
    { intros a l E. apply (B _ a l (or_intror eq_refl) E). }
    rewrite E1. cbn [obind].
    apply (proj2 (EX "result-code-language"%string "resultcodelanguage"%string o1 eq_refl)). intros a l E. apply (B _ a l (or_introl eq_refl) E).
Qed.

(** ** Totality *)
Lemma line_text_total l : (forall t, ~ In (Tangle t) l) -> exists s, line_text l = Ok s.
Proof.
  unfold line_text. induction l as [|p l IH] using rev_ind; intros H; [cbn; eauto|]. destruct IH as [s IH].
  { intros t X. apply (H t). apply in_or_app. auto. }
  rewrite fold_left_app, IH. cbn. destruct p; eauto. destruct (H s0). apply in_or_app. right. now left.
Qed.
Lemma collect_all_total {A B} (f : A -> outcome B) l : (forall a, In a l -> exists b, f a = Ok b) -> exists r, collect_all (map f l) = Ok r.
Proof.
  induction l as [|a l IH]; intros H; cbn; [eauto|]. destruct (H a (or_introl eq_refl)) as [b ->]. destruct IH as [r ->]; [intros; apply H; now right|]. cbn. eauto.
Qed.
Lemma defaults_total : forall l m, (forall a, In a l -> varname a <> None) -> exists d, defaults m l = Ok d.
Proof.
  induction l as [|a l IH]; intros m H; cbn; [eauto|]. destruct (varname a) eqn:V; [|now destruct (H a (or_introl eq_refl))].
  apply IH. intros; apply H; now right.
Qed.
Lemma unknown_lookup eval parse doc s x : inv eval parse doc s -> unknown parse doc x -> lookup (tracked s) x = None.
Proof.
  intros I [U1 U2]. destruct (lookup (tracked s) x) as [n|] eqn:L; [|reflexivity]. exfalso. apply lookup_In in L. apply (inv_names _ _ _ s I) in L.
  destruct L as (NX & d & D1 & D2 & D3). rewrite <- D1 in NX. destruct D3 as [(q & D3)|(c & o & y & q & C1 & C2 & C3 & C4)]; [eapply U1; eauto|eapply U2; eauto].
Qed.
Lemma turn_total eval parse doc s e : inv eval parse doc s -> self_contained parse doc -> at_path doc (fst e) = Some (snd e) -> runnable (snd e) = true ->
  exists s', turn eval parse s e = Ok s'.
Proof.
  intros I S P R. pose proof P as P'. apply placed_iff in P'. specialize (S _ _ P'). unfold turn, target_block. unfold runnable in R.
  destruct (nkind (snd e)) as [lang ls own att|t vars hs| | | |] eqn:K; try discriminate.
  - cbn [obind]. rewrite K. destruct S as (S1 & S2 & S3 & S4). unfold convert_input.
    destruct (collect_all_total line_text ls) as [tx TX]; [intros l L; apply line_text_total; intros t; now apply S1|].
    unfold program_text. rewrite TX. cbn [obind omap]. destruct (proj2 (options_total own att) (conj S2 S3)) as [o O]. rewrite O. cbn [obind].
    assert (D : exists d, match lookup (named own) (lit "var") with Some l => defaults [] l | None => Ok [] end = Ok d).
    { unfold var_items in S4. destruct (lookup (named own) (lit "var")); [|eauto]. apply defaults_total. intros a A. now apply S4. }
    destruct D as [d D]. rewrite D. cbn [obind]. assert (Ed : d = callsite [] (var_items own)).
    { unfold var_items. destruct (lookup (named own) (lit "var")); [now apply defaults_ok|]. now injection D as <-. }
    destruct (collect_all_total (one_arg s) (by_key d)) as [r AR].
    { intros [v a] A. rewrite (by_key_perm d) in A. subst d. pose proof (callsite_varname _ _ _ A) as V.
      assert (L : exists v, sets (var_items own) v a).
      { exists v. apply callsite_sets. pose proof (callsite_nodup (var_items own)) as ND. revert A ND. generalize (callsite [] (var_items own)). clear.
        induction l as [|[k b] m IH]; intros A ND; [destruct A|]. cbn in *. inversion ND; subst. destruct A as [A|A].
        - injection A as -> ->. now rewrite str_eqb_refl.
        - destruct (str_eqb k v) eqn:E; [|auto]. apply str_eqb_eq in E. subst. exfalso. apply H1. apply (in_map fst _ _ A). }
      destruct L as (v' & l1 & l2 & E & _). destruct (S4 a) as (_ & t & T & U); [rewrite E; apply in_or_app; right; now left|].
      unfold one_arg. cbn [snd]. rewrite V. unfold attr_value, text_of. rewrite T. cbn [obind]. rewrite (unknown_lookup eval parse doc s t I U). cbn. eauto. }
    rewrite AR. cbn [obind omap]. cbn zeta. set (i := Input _ _ _ _). destruct (eval _ i) as [|o1 os]; [eauto|].
    unfold set_output. cbn [first]. rewrite (inv_first _ _ _ s I), P. cbn [root]. destruct (node_eqb _ _); [eauto|]. destruct (node_eqb _ _); [|eauto].
    destruct (cascade _ _ _). eauto.
  - rewrite (unknown_lookup eval parse doc s t I S). cbn. eauto.
Qed.
Lemma evaluate_total eval parse doc : self_contained parse doc -> exists r, evaluate eval parse doc = Ok r.
Proof.
  intros S. unfold evaluate. assert (G : forall l s, inv eval parse doc s -> (forall e, In e l -> at_path doc (fst e) = Some (snd e) /\ runnable (snd e) = true) ->
    exists s', turns eval parse l s = Ok s').
  { induction l as [|e l IH]; intros s I L; cbn; [eauto|]. destruct (L e (or_introl eq_refl)) as [P R].
    destruct (turn_total eval parse doc s e I S P R) as [s1 T]. rewrite T. cbn [obind]. apply IH; [now apply (turn_inv eval parse doc s e s1)|].
    intros; apply L; now right. }
  destruct (G (collect [] doc) (start doc) (start_inv eval parse doc)) as [s' ->].
  - intros e X. apply collect_found in X. destruct X as (p & -> & X & Y). auto.
  - cbn. eauto.
Qed.
