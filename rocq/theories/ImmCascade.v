(** Committing replacements: the new root denotes the updated tree. *)
From Coq Require Import List Bool Arith ZArith Lia Permutation Sorted.
From Verif Require Import Base ImmModel ImmSpec ImmProofs ImmAssign.
Import ListNotations.
Local Open Scope nat_scope.

Fixpoint height (t : tree) : nat :=
  match t with
  | Nil => 0
  | Node _ _ _ kids => S (list_max (map (fun c => height (snd c)) kids))
  end.
Lemma height_kid (kids : list (step * tree)) c : In c kids ->
  height (snd c) <= list_max (map (fun c : step * tree => height (snd c)) kids).
Proof.
  intros H. pose proof (proj1 (list_max_le (map (fun c : step * tree => height (snd c)) kids) _) (le_n _)) as F.
  rewrite Forall_forall in F. apply F. now apply (in_map (fun c : step * tree => height (snd c))).
Qed.

(** ** Edits below a place *)
Fixpoint strip (q : path) (E : list (path * tree)) : list (path * tree) :=
  match q with [] => E | st :: q' => strip q' (below st E) end.
Lemma in_below st r t E : In (r, t) (below st E) <-> In (st :: r, t) E.
Proof.
  induction E as [|[[|st' p] t'] E IH]; cbn; [tauto| |].
  - rewrite IH. split; [auto|]. intros [H|H]; [congruence|auto].
  - destruct (step_eqb st' st) eqn:Q.
    + apply step_eqb_eq in Q. subst. cbn. rewrite IH. split; intros [H|H]; auto; left; congruence.
    + apply step_eqb_neq in Q. rewrite IH. split; [auto|]. intros [H|H]; [congruence|auto].
Qed.
Lemma in_strip q : forall r t E, In (r, t) (strip q E) <-> In (q ++ r, t) E.
Proof. induction q as [|st q IH]; intros r t E; [reflexivity|]. cbn. now rewrite IH, in_below. Qed.
Lemma strip_snoc q st : forall E, strip (q ++ [st]) E = below st (strip q E).
Proof. induction q as [|a q IH]; intros E; [reflexivity|]. cbn. apply IH. Qed.
Lemma here_some E t : here E = Some t -> In ([], t) E.
Proof. induction E as [|[[|st p] t'] E IH]; cbn; [discriminate| |]; intros H; [left; congruence|right; auto]. Qed.
Lemma here_none E : here E = None -> forall t, ~ In ([], t) E.
Proof. induction E as [|[[|st p] t'] E IH]; cbn; intros H t; [tauto|discriminate|]. intros [X|X]; [congruence|now apply (IH H t)]. Qed.
Lemma replace_all_nil t : replace_all [] t = t.
Proof.
  induction t as [|k d l kids IH] using tree_ind'; [reflexivity|]. cbn. f_equal. transitivity (map (fun c : step * tree => c) kids); [|apply map_id].
  apply map_ext_in. intros c H. rewrite Forall_forall in IH. rewrite IH by auto. now destruct c.
Qed.

(** ** Reachable stores keep their shape *)
Lemma node_at_le s id n : node_at s id = Some n -> 0 < id <= length s.
Proof. destruct id; [discriminate|]. cbn. intros H. assert (id < length s) by (apply nth_error_Some; congruence). lia. Qed.
Lemma denotes_le s id t : denotes s id t -> id <= length s.
Proof. intros H. inversion H; subst; [lia|]. apply node_at_le in H0. lia. Qed.
Lemma wf_node s id n : wf_store s -> node_at s id = Some n ->
  well_shaped (map fst (subs n)) /\ forall st i, In (st, i) (subs n) -> i < id.
Proof.
  intros W H. destruct id as [|i]; [discriminate|]. destruct (W i n H) as [A B]. split; [exact A|].
  intros st j Hj. specialize (B st j Hj). lia.
Qed.
Lemma wf_intern s n : wf_store s -> well_shaped (map fst (subs n)) -> (forall st i, In (st, i) (subs n) -> i <= length s) ->
  wf_store (fst (intern s n)).
Proof.
  intros W A B. unfold intern. destruct (find_value s n); [exact W|]. cbn [fst]. intros i m H.
  destruct (Nat.lt_ge_cases i (length s)) as [L|L].
  - rewrite nth_error_app1 in H by auto. now apply W.
  - rewrite nth_error_app2 in H by auto. destruct (i - length s) as [|j] eqn:D; [|destruct j; discriminate].
    cbn in H. injection H as <-. split; [exact A|]. intros st j Hj. specialize (B st j Hj). lia.
Qed.

Lemma kids_steps s l k : denotes_kids s l k -> map fst k = map fst l.
Proof. induction 1; cbn; congruence. Qed.
Lemma kids_len s l k : denotes_kids s l k -> length k = length l.
Proof. induction 1; cbn; congruence. Qed.
Lemma kids_le s l k : denotes_kids s l k -> forall st i, In (st, i) l -> i <= length s.
Proof. induction 1; intros st' i; [intros []|]. intros [X|X]; [|eauto]. injection X as <- <-. eapply denotes_le; eauto. Qed.
Lemma kids_in s l k : denotes_kids s l k -> forall st i, In (st, i) l -> exists t, In (st, t) k /\ denotes s i t.
Proof.
  induction 1; intros st' i; [intros []|]. intros [X|X].
  - injection X as <- <-. eexists. split; [now left|auto].
  - destruct (IHdenotes_kids _ _ X) as (u & A & B). exists u. split; [now right|auto].
Qed.

Lemma prefix_snoc_inj (q x : path) a b : is_prefix (q ++ [a]) x -> is_prefix (q ++ [b]) x -> a = b.
Proof.
  intros [r ->] [r' E]. rewrite <- !app_assoc in E. apply app_inv_head in E. cbn in E. congruence.
Qed.
Lemma prefix_trans (a b c : path) : is_prefix a b -> is_prefix b c -> is_prefix a c.
Proof. intros [x ->] [y ->]. exists (x ++ y). now rewrite app_assoc. Qed.
Lemma prefix_snoc (q : path) st : is_prefix q (q ++ [st]).
Proof. now exists [st]. Qed.

Lemma in_spans p : forall n, n <= length p -> forall q, In q (spans p n) <-> exists i, i < n /\ q = firstn i p.
Proof.
  induction n as [|n IH]; intros L q; cbn; [split; [tauto|intros (i & H & _); lia]|].
  rewrite (IH ltac:(lia)). split.
  - intros [<-|(i & H & ->)]; [exists n; auto|exists i; split; auto; lia].
  - intros (i & H & ->). destruct (Nat.eq_dec i n) as [->|]; [now left|right; exists i; split; auto; lia].
Qed.
Lemma proper_prefix (p q : path) : (exists i, i < length p /\ q = firstn i p) <-> exists r, r <> [] /\ p = q ++ r.
Proof.
  split.
  - intros (i & H & ->). exists (skipn i p). split; [|now rewrite firstn_skipn]. intros E. apply (f_equal (@length _)) in E.
    rewrite skipn_length in E. cbn in E. lia.
  - intros (r & H & ->). exists (length q). rewrite app_length. split; [destruct r; [congruence|cbn; lia]|].
    now rewrite firstn_app, Nat.sub_diag, firstn_all, app_nil_r.
Qed.

Lemma te_in (s : store) (E : list (path * nat * nat)) (TE : list (path * tree)) :
  Forall2 (fun e x => fst (fst e) = fst x /\ denotes s (snd e) (snd x)) E TE ->
  (forall p t, In (p, t) TE -> exists o n, In (p, o, n) E /\ denotes s n t) /\
  (forall p o n, In (p, o, n) E -> exists t, In (p, t) TE /\ denotes s n t).
Proof.
  induction 1 as [|[[p' o] n] [q u] l1 l2 [A B] _ [IH1 IH2]]; [split; intros; contradiction|]. cbn in A, B. subst. split.
  - intros p t [X|X].
    + injection X as <- <-. exists o, n. split; [now left|auto].
    + destruct (IH1 p t X) as (o' & n' & H1 & H2). exists o', n'. split; [now right|auto].
  - intros p o' n' [X|X].
    + injection X as <- <- <-. exists u. split; [now left|auto].
    + destruct (IH2 p o' n' X) as (t & H1 & H2). exists t. split; [now right|auto].
Qed.

Lemma adapt_all_ok s root ps : (forall p, In p ps -> exists i, id_at s root p = Ok i) ->
  exists us, adapt_all s root ps = Ok us /\
    forall u, In u us <-> In (upath u) ps /\ uroot u = root /\ id_at s root (upath u) = Ok (uid u).
Proof.
  induction ps as [|p ps IH]; intros H.
  - exists []. split; [reflexivity|]. cbn. tauto.
  - destruct IH as (us & A & B). { intros p' Hp. apply H. now right. }
    destruct (H p (or_introl eq_refl)) as [i Hi]. exists (mkU i root p :: us). cbn [adapt_all]. rewrite Hi. cbn [obind]. rewrite A.
    split; [reflexivity|]. intros u. cbn [In]. rewrite B. split.
    + intros [<-|(X & Y & Z)]; [cbn; auto|auto].
    + intros ([X|X] & Y & Z); [left|right; auto]. destruct u as [a b c]. cbn in *. subst. congruence.
Qed.

Section Edits.
  Variable s0 : store.
  Variable root : nat.
  (** place, what is there, its replacement *)
  Variable E : list (path * nat * nat).
  Variable TE : list (path * tree).
  Hypothesis W0 : wf_store s0.
  Hypothesis Valid : forall p o n, In (p, o, n) E -> p <> [] /\ id_at s0 root p = Ok o /\ o <> n.
  Hypothesis Anti : forall p o n p' o' n', In (p, o, n) E -> In (p', o', n') E -> is_prefix p p' -> (p, o, n) = (p', o', n').
  Hypothesis Trees : Forall2 (fun e x => fst (fst e) = fst x /\ denotes s0 (snd e) (snd x)) E TE.
  Hypothesis Doc : kind_of s0 root = 1 \/ kind_of s0 root = 2.
  Variable srt : list (step * nat) -> list (step * nat).
  Variable Bd : nat.
  Hypothesis So : sorts_up_to Bd srt.
  Hypothesis St : stable_up_to Bd srt.
  Hypothesis Small : forall id m, node_at s0 id = Some m -> length (subs m) <= Bd.


  Definition untouched (q : path) : Prop := forall r t, ~ In (q ++ r, t) TE.

  Lemma prefix_ok p o n q : In (p, o, n) E -> is_prefix q p -> exists i, id_at s0 root q = Ok i.
  Proof.
    intros H [r ->]. destruct (Valid _ _ _ H) as (_ & A & _). rewrite id_at_app in A. destruct (id_at s0 root q); try discriminate. eauto.
  Qed.

  Lemma parents_ok : exists ps, edit_parents s0 (replacements root E) = Ok ps /\
    forall u, In u ps <-> uroot u = root /\ id_at s0 root (upath u) = Ok (uid u) /\
      exists p o n r, In (p, o, n) E /\ r <> [] /\ p = upath u ++ r.
  Proof.
    unfold replacements. assert (H : incl E E) by apply incl_refl. revert H. generalize E at 1 3 4. intros E'. induction E' as [|[[p o] n] E' IH]; intros H.
    - exists []. split; [reflexivity|]. cbn. split; [tauto|]. intros (_ & _ & p & o & n & r & [] & _).
    - destruct IH as (ps & A & B). { intros x Hx. apply H. now right. }
      assert (I : In (p, o, n) E) by (apply H; now left).
      destruct (adapt_all_ok s0 root (spans p (length p) ++ [[]])) as (us & C & D).
      { intros q Hq. apply in_app_or in Hq. destruct Hq as [Hq|[<-|[]]]; [|now exists root].
        apply in_spans in Hq; auto. apply proper_prefix in Hq. destruct Hq as (r & _ & ->). eapply prefix_ok; [exact I|now exists r]. }
      exists (us ++ ps). cbn [map edit_parents fst snd]. unfold parent_chain. cbn [upath uroot]. rewrite C. cbn [obind]. rewrite A. cbn [omap obind].
      split; [reflexivity|]. intros u. rewrite in_app_iff, B, D. rewrite in_app_iff, in_spans, proper_prefix by auto. cbn [In]. split.
      + intros [(X & Y & Z)|(X & Y & p' & o' & n' & r & F & G)]; [|split; [auto|split; [auto|]]; exists p', o', n', r; auto].
        split; [auto|split; [auto|]]. destruct X as [(r & R & ->)|[<-|[]]].
        * exists (upath u ++ r), o, n, r. auto.
        * exists p, o, n, p. split; [now left|]. split; [apply (Valid _ _ _ I)|reflexivity].
      + intros (X & Y & p' & o' & n' & r & [F|F] & R & Q).
        * injection F as -> -> ->. left. split; [left; eauto|auto].
        * right. split; [auto|split; [auto|]]. exists p', o', n', r. auto.
  Qed.

  Lemma lookup_edit q id : id_at s0 root q = Ok id ->
    match lookup (replacements root E) (mkU id root q) with
    | Some r => exists n, In (q, id, n) E /\ r = mkU n root q
    | None => forall o n, ~ In (q, o, n) E
    end.
  Proof.
    intros A. unfold lookup. destruct (find (fun x => uniq_eqb (fst x) (mkU id root q)) (replacements root E)) as [x|] eqn:F; cbn [option_map].
    - apply find_some in F. destruct F as [F1 F2]. apply uniq_eqb_eq in F2. unfold replacements in F1. apply in_map_iff in F1.
      destruct F1 as ([[p o] n] & <- & F1). cbn in *. injection F2 as -> ->. eauto.
    - intros o n H. assert (o = id). { destruct (Valid _ _ _ H) as (_ & B & _). congruence. } subst.
      pose proof (find_none _ _ F (mkU id root q, mkU n root q)) as X. cbn [fst] in X.
      assert (Y : uniq_eqb (mkU id root q) (mkU id root q) = true) by now apply uniq_eqb_eq. rewrite X in Y; [discriminate|].
      unfold replacements. apply in_map_iff. exists (q, id, n). auto.
  Qed.

  Lemma untouched_iff q : untouched q <-> forall r o n, ~ In (q ++ r, o, n) E.
  Proof.
    destruct (te_in _ _ _ Trees) as [T1 T2]. unfold untouched. split.
    - intros H r o n X. destruct (T2 _ _ _ X) as (t & A & _). now apply (H r t).
    - intros H r t X. destruct (T1 _ _ X) as (o & n & A & _). now apply (H r o n).
  Qed.
  Lemma untouched_strip q : untouched q -> strip q TE = [].
  Proof.
    intros H. destruct (strip q TE) as [|[r t] l] eqn:X; [reflexivity|]. exfalso. apply (H r t). apply in_strip. rewrite X. now left.
  Qed.

  Variable ps : list uniq.
  Hypothesis Ps : edit_parents s0 (replacements root E) = Ok ps.

  Lemma is_parent q id : id_at s0 root q = Ok id ->
    (existsb (uniq_eqb (mkU id root q)) ps = true <-> exists p o n r, In (p, o, n) E /\ r <> [] /\ p = q ++ r).
  Proof.
    intros A. destruct parents_ok as (ps' & B & C). rewrite Ps in B. injection B as <-. rewrite existsb_exists. split.
    - intros (u & U1 & U2). apply uniq_eqb_eq in U2. subst. apply C in U1. tauto.
    - intros H. exists (mkU id root q). split; [|now apply uniq_eqb_eq]. apply C. cbn. auto.
  Qed.

  (** A recorded replacement: where, the old node there, the new node there. *)
  Definition rec_ok (q rel : path) (s' : store) (id' : nat) (k v : uniq) : Prop :=
    k = mkU (uid k) root (q ++ rel) /\ id_at s0 root (q ++ rel) = Ok (uid k) /\
    v = mkU (uid v) root (q ++ rel) /\ id_at s' id' rel = Ok (uid v).
  Definition edited (q : path) : Prop := exists p o n, In (p, o, n) E /\ is_prefix q p.
  Lemma rec_prefix q rel s' id' k v : rec_ok q rel s' id' k v -> is_prefix q (upath k).
  Proof. intros (H & _). rewrite H. cbn. now exists rel. Qed.

  Definition good (q : path) (id : nat) (t : tree) (s : store) (ep : group) (res : store * outcome (nat * group)) : Prop :=
    exists s' id' ep' t', res = (s', Ok (id', ep')) /\ extends s s' /\ wf_store s' /\ denotes s' id' t' /\
      noloc t' = noloc (replace_all (strip q TE) t) /\ (id' = id <-> untouched q) /\
      (forall k v, In (k, v) ep' -> In (k, v) ep \/ exists rel, rec_ok q rel s' id' k v) /\
      incl ep ep' /\ (forall rel, edited (q ++ rel) -> exists k v, In (k, v) ep' /\ upath k = q ++ rel).

  Lemma each_good rec q u l kids :
    u = mkU (uid u) root q -> NoDup (map fst l) -> denotes_kids s0 l kids ->
    (forall st id, In (st, id) l -> id_at s0 root (q ++ [st]) = Ok id) ->
    (forall st id t s ep, In (st, id) l -> In (st, t) kids -> denotes s0 id t -> extends s0 s -> wf_store s ->
       (forall k v, In (k, v) ep -> ~ is_prefix (q ++ [st]) (upath k)) ->
       good (q ++ [st]) id t s ep (rec s ep (mkU id root (q ++ [st])))) ->
    forall s ep, extends s0 s -> wf_store s ->
    (forall k v st, In (k, v) ep -> In st (map fst l) -> ~ is_prefix (q ++ [st]) (upath k)) ->
    exists s' flat ep' kids', each rec s ep u l = (s', Ok (flat, ep')) /\ extends s s' /\ wf_store s' /\
      length flat = length l /\ denotes_kids s' (combine (map fst l) flat) kids' /\
      map (fun c : step * tree => (fst c, noloc (snd c))) kids' =
      map (fun c : step * tree => (fst c, noloc (replace_all (below (fst c) (strip q TE)) (snd c)))) kids /\
      (flat = map snd l <-> forall st, In st (map fst l) -> untouched (q ++ [st])) /\
      (forall k v, In (k, v) ep' -> In (k, v) ep \/
         exists st c rel, In (st, c) (combine (map fst l) flat) /\ rec_ok (q ++ [st]) rel s' c k v) /\
      incl ep ep' /\ (forall st rel, In st (map fst l) -> edited ((q ++ [st]) ++ rel) -> exists k v, In (k, v) ep' /\ upath k = (q ++ [st]) ++ rel).
  Proof.
    intros Hu N K. revert N. induction K as [|st id t l kids D K IH]; intros N A R s ep X W P.
    - exists s, [], ep, []. split; [reflexivity|]. split; [apply extends_refl|]. split; [exact W|]. split; [reflexivity|].
      split; [constructor|]. split; [reflexivity|]. split; [split; [intros _ st []|reflexivity]|]. split; [auto|]. split; [apply incl_refl|].
      intros st rel [].
    - cbn [map fst] in N. inversion N as [|? ? N1 N2]; subst.
      assert (P1 : forall k v, In (k, v) ep -> ~ is_prefix (q ++ [st]) (upath k)).
      { intros k v H. apply (P k v st H). now left. }
      destruct (R st id t s ep (or_introl eq_refl) (or_introl eq_refl) D X W P1) as (s1 & id' & ep1 & t' & R1 & R2 & R3 & R4 & R5 & R6 & R7 & R8 & R9).
      destruct (IH N2) with (s := s1) (ep := ep1) as (s2 & flat & ep2 & kids' & C1 & C2 & C3 & C4 & C5 & C6 & C7 & C8 & C9 & C10).
      + intros st' id'' H. apply A. now right.
      + intros st' id'' t'' s' ep' H1 H2. apply R; now right.
      + eapply extends_trans; eauto.
      + exact R3.
      + intros k v st' H Hst. destruct (R7 k v H) as [Y|(rel & Y)].
        * apply (P k v st' Y). now right.
        * apply rec_prefix in Y. intros Z. apply N1. now rewrite (prefix_snoc_inj _ _ _ _ Y Z).
      + exists s2, (id' :: flat), ep2, ((st, t') :: kids'). cbn [each]. rewrite Hu. cbn [uroot upath]. rewrite R1.
        rewrite Hu in C1. rewrite C1. split; [reflexivity|]. split; [eapply extends_trans; eauto|]. split; [exact C3|].
        split; [cbn; now rewrite C4|]. split; [cbn; constructor; [eapply denotes_ext; eauto|exact C5]|].
        split. { cbn [map fst snd]. rewrite C6, R5. now rewrite strip_snoc. }
        split.
        * cbn [map fst snd]. split.
          -- intros Q st' [<-|H]; [apply R6; congruence|apply C7; [congruence|auto]].
          -- intros H. f_equal; [apply R6, H; now left|apply C7; intros st' H'; apply H; now right].
        * split; [|split].
          -- intros k v H. destruct (C8 k v H) as [Y|(st' & c & rel & Y1 & Y2)].
             ++ destruct (R7 k v Y) as [Z|(rel & Z1 & Z2 & Z3 & Z4)]; [now left|right; exists st, id', rel; split; [now left|]].
                split; [exact Z1|]. split; [exact Z2|]. split; [exact Z3|]. eapply id_at_ext; eauto.
             ++ right. exists st', c, rel. split; [now right|auto].
          -- intros x H. apply C9, R8, H.
          -- intros st' rel [<-|H] Ed; [|now apply C10]. destruct (R9 rel Ed) as (k & v & I & Q). exists k, v. split; [now apply C9|exact Q].
  Qed.

  Lemma rooted_at s u : extends s0 s -> uroot u = root -> id_at s0 root (upath u) = Ok (uid u) -> rooted s u = true.
  Proof.
    intros X _ A. unfold rooted. destruct (upath u); [|apply orb_true_r]. cbn in A. injection A as <-.
    assert (K : kind_of s root = kind_of s0 root).
    { unfold kind_of in *. destruct (node_at s0 root) as [m|] eqn:M; [|cbn in Doc; lia]. now rewrite (node_at_ext _ _ _ _ X M). }
    rewrite K. destruct Doc as [-> | ->]; reflexivity.
  Qed.

  Lemma combine_fst {A B} (a : list A) (b : list B) : length b = length a -> map fst (combine a b) = a.
  Proof. revert b. induction a as [|x a IH]; intros [|y b] H; cbn in *; try lia; auto. rewrite IH; auto. Qed.
  Lemma combine_snd {A B} (a : list A) (b : list B) : length b = length a -> map snd (combine a b) = b.
  Proof. revert b. induction a as [|x a IH]; intros [|y b] H; cbn in *; try lia; auto. rewrite IH; auto. Qed.

  Lemma recurse_good : forall fuel q id t s ep, height t < fuel -> denotes s0 id t -> id_at s0 root q = Ok id ->
    extends s0 s -> wf_store s -> (forall k v, In (k, v) ep -> ~ is_prefix q (upath k)) ->
    good q id t s ep (recurse srt (replacements root E) ps fuel s ep (mkU id root q)).
  Proof.
    destruct (te_in _ _ _ Trees) as [T1 T2].
    induction fuel as [|fuel IH]; intros q id t s ep Hh D A X W P; [lia|]. cbn [recurse].
    pose proof (lookup_edit q id A) as Lk.
    destruct (existsb (uniq_eqb (mkU id root q)) ps) eqn:Par.
    - (* an ancestor of some edit *)
      apply (is_parent q id A) in Par. destruct Par as (p & o & n & r & HE & Hr & Hp).
      destruct (lookup (replacements root E) (mkU id root q)) as [rr|].
      { exfalso. destruct Lk as (n' & HE' & _). pose proof (Anti _ _ _ _ _ _ HE' HE) as Q. assert (is_prefix q p) by (exists r; auto).
        specialize (Q H). injection Q as Q1 _ _. apply Hr. rewrite Hp in Q1. rewrite <- (app_nil_r q) in Q1 at 1. now apply app_inv_head in Q1. }
      assert (HereN : here (strip q TE) = None).
      { destruct (here (strip q TE)) as [x|] eqn:Hx; [|reflexivity]. exfalso. apply here_some in Hx. apply in_strip in Hx.
        rewrite app_nil_r in Hx. destruct (T1 _ _ Hx) as (o' & n' & Y & _). now apply (Lk o' n'). }
      cbn [uid]. destruct D as [|id m kids M K].
      { exfalso. rewrite Hp in HE. destruct (Valid _ _ _ HE) as (_ & Y & _). rewrite id_at_app, A in Y. cbn [obind] in Y.
        destruct r; [congruence|]. cbn in Y. discriminate. }
      rewrite (node_at_ext _ _ _ _ X M).
      destruct (wf_node _ _ _ W0 M) as [Shape Below]. pose proof (shaped_nodup _ Shape) as ND.
      assert (Step : forall st i, In (st, i) (subs m) -> id_at s0 root (q ++ [st]) = Ok i).
      { intros st i H. rewrite id_at_app, A. cbn [obind id_at]. unfold id_step. rewrite M.
        rewrite (proj2 (find_step (subs m) st (st, i) ND) (conj H eq_refl)). reflexivity. }
      destruct (each_good (recurse srt (replacements root E) ps fuel) q (mkU id root q) (subs m) kids eq_refl ND K Step) with (s := s) (ep := ep)
        as (s1 & flat & ep1 & kids' & C1 & C2 & C3 & C4 & C5 & C6 & C7 & C8 & C9 & C10); auto.
      { intros st i t s' ep' H1 H2 H3 H4 H5 H6. apply IH; auto. cbn [height] in Hh.
        pose proof (height_kid kids (st, t) H2) as Y. cbn [snd] in Y. lia. }
      { intros k v st H _ Y. apply (P k v H). eapply prefix_trans; [apply prefix_snoc|exact Y]. }
      rewrite C1.
      assert (Chg : list_eqb Nat.eqb flat (map snd (subs m)) = false).
      { destruct (list_eqb Nat.eqb flat (map snd (subs m))) eqn:Q; [|reflexivity]. exfalso.
        apply (list_eqb_eq Nat.eqb Nat.eqb_eq) in Q. rewrite Hp in HE. destruct r as [|st r]; [congruence|].
        destruct (Valid _ _ _ HE) as (_ & Y & _). rewrite id_at_app, A in Y. cbn [obind id_at] in Y. unfold id_step in Y. rewrite M in Y.
        destruct (find (fun x => step_eqb (fst x) st) (subs m)) as [[st' i]|] eqn:F; [|discriminate].
        apply (find_step _ _ _ ND) in F. destruct F as [F1 F2]. cbn in F2. subst st'.
        assert (U : untouched (q ++ [st])) by (apply C7; [exact Q|now apply (in_map fst) in F1]).
        pose proof (proj1 (untouched_iff _) U) as U'. clear U. rename U' into U. apply (U r o n). now rewrite <- app_assoc. }
      rewrite Chg.
      assert (Len : length flat = length (map fst (subs m))) by (rewrite map_length; exact C4).
      set (L := combine (map fst (subs m)) flat) in *.
      assert (FL : map fst L = map fst (subs m)) by (apply combine_fst; exact Len).
      assert (ShL : well_shaped (map fst L)) by (rewrite FL; exact Shape).
      assert (LB : length L <= Bd).
      { rewrite <- (map_length fst L), FL, map_length. eapply Small; eauto. }
      rewrite (assign_stable L ShL srt (subs m) (So L LB) (St L LB) (eq_sym FL)).
      destruct (intern_spec s1 (mkN (kind m) (data m) (loc m) L)) as (m' & I1 & I2 & I3 & I4 & I5).
      pose proof (wf_intern s1 (mkN (kind m) (data m) (loc m) L) C3 ShL) as Wi. cbn [subs] in Wi.
      specialize (Wi (kids_le _ _ _ C5)).
      destruct (intern s1 (mkN (kind m) (data m) (loc m) L)) as [s2 id']. cbn [fst snd kind data subs] in *.
      assert (X2 : extends s0 s2) by (eapply extends_trans; [exact X|]; eapply extends_trans; eauto).
      assert (Ne : id' <> id).
      { intros ->. rewrite (node_at_ext _ _ _ _ X2 M) in I2. injection I2 as <-.
        assert (flat = map snd (subs m)). { rewrite I5. unfold L. symmetry. now apply combine_snd. }
        rewrite H in Chg. assert (Y : list_eqb Nat.eqb (map snd (subs m)) (map snd (subs m)) = true) by now apply (list_eqb_eq Nat.eqb Nat.eqb_eq).
        congruence. }
      rewrite (proj2 (Nat.eqb_neq _ _) Ne). unfold group_set.
      assert (R1 : rooted s2 (mkU id root q) = true) by (apply rooted_at; auto).
      assert (R2 : rooted s2 (moved (mkU id root q) id') = true).
      { unfold rooted, moved. cbn [uid upath uroot]. destruct q as [|st0 q0]; [|apply orb_true_r]. cbn in A. injection A as <-.
        unfold kind_of. rewrite I2, I3. unfold kind_of in Doc. rewrite M in Doc. destruct Doc as [-> | ->]; reflexivity. }
      assert (R3 : uniq_eqb (mkU id root q) (moved (mkU id root q) id') = false).
      { destruct (uniq_eqb _ _) eqn:Q; [|reflexivity]. apply uniq_eqb_eq in Q. unfold moved in Q. cbn in Q. congruence. }
      rewrite R1, R2, R3. cbn [andb negb omap obind].
      exists s2, id', (filter (fun x => negb (uniq_eqb (fst x) (mkU id root q))) ep1 ++ [(mkU id root q, moved (mkU id root q) id')]),
        (Node (kind m') (data m') (loc m') kids').
      split; [reflexivity|]. split; [eapply extends_trans; eauto|]. split; [exact Wi|].
      split; [constructor; [exact I2|rewrite I5; exact (kids_ext _ _ _ _ I1 C5)]|].
      split.
      { assert (RA : replace_all (strip q TE) (Node (kind m) (data m) (loc m) kids) =
                     Node (kind m) (data m) (loc m) (map (fun c => (fst c, replace_all (below (fst c) (strip q TE)) (snd c))) kids)).
        { transitivity (match here (strip q TE) with Some new => new | None =>
             Node (kind m) (data m) (loc m) (map (fun c => (fst c, replace_all (below (fst c) (strip q TE)) (snd c))) kids) end);
          [|rewrite HereN; reflexivity]. destruct (strip q TE); reflexivity. }
        rewrite RA. cbn [noloc]. rewrite I3, I4. f_equal. rewrite map_map. cbn [fst snd]. exact C6. }
      split.
      { split; [congruence|]. intros U. exfalso. pose proof (proj1 (untouched_iff _) U) as U'. clear U. rename U' into U. apply (U r o n). rewrite <- Hp. exact HE. }
      assert (NDL : NoDup (map fst (subs m'))) by (rewrite I5, FL; exact ND).
      assert (Ids : forall st c rel i, In (st, c) L -> id_at s1 c rel = Ok i -> id_at s2 id' (st :: rel) = Ok i).
      { intros st c rel i HL Hi. cbn [id_at]. unfold id_step. rewrite I2.
        assert (F : find (fun y => step_eqb (fst y) st) (subs m') = Some (st, c)).
        { apply (proj2 (find_step (subs m') st (st, c) NDL)). rewrite I5. split; [exact HL|reflexivity]. }
        rewrite F. cbn [obind]. exact (id_at_ext _ _ I1 _ _ _ Hi). }
      assert (Keep : forall k v, In (k, v) ep1 -> uniq_eqb k (mkU id root q) = false).
      { intros k v H. destruct (uniq_eqb k (mkU id root q)) eqn:Q; [|reflexivity]. exfalso. apply uniq_eqb_eq in Q. subst k.
        destruct (C8 _ _ H) as [Y|(st & c & rel & _ & Y & _)].
        - apply (P _ _ Y). exists []. cbn. now rewrite app_nil_r.
        - apply (f_equal (fun u => length (upath u))) in Y. cbn in Y. rewrite !app_length in Y. cbn in Y. lia. }
      split; [|split].
      + intros k v H. apply in_app_or in H. destruct H as [H|[H|[]]].
        * apply filter_In in H. destruct H as [H _]. destruct (C8 k v H) as [Y|(st & c & rel & Y1 & Y2 & Y3 & Y4 & Y5)]; [now left|right].
          exists (st :: rel). rewrite <- app_assoc in Y2, Y3, Y4. split; [exact Y2|]. split; [exact Y3|]. split; [exact Y4|]. eapply Ids; eauto.
        * injection H as <- <-. right. exists []. unfold rec_ok, moved. rewrite app_nil_r. cbn. auto.
      + intros [k v] H. apply in_or_app. left. apply filter_In. split; [now apply C9|]. cbn [fst]. now rewrite (Keep k v (C9 _ H)).
      + intros rel Ed. destruct rel as [|st rel].
        * eexists _, _. split; [apply in_or_app; right; now left|]. cbn. now rewrite app_nil_r.
        * assert (Hst : In st (map fst (subs m))).
          { destruct Ed as (p1 & o1 & n1 & HE1 & (r1 & ->)). destruct (Valid _ _ _ HE1) as (_ & Y & _).
            rewrite <- app_assoc, id_at_app, A in Y. cbn [obind id_at app] in Y. unfold id_step in Y. rewrite M in Y.
            destruct (find (fun x => step_eqb (fst x) st) (subs m)) as [[st' i]|] eqn:F; [|discriminate].
            apply (find_step _ _ _ ND) in F. destruct F as [F1 F2]. cbn in F2. subst st'. now apply (in_map fst) in F1. }
          destruct (C10 st rel Hst) as (k & v & I & Q); [now rewrite <- app_assoc|]. exists k, v. rewrite <- app_assoc in Q.
          split; [|exact Q]. apply in_or_app. left. apply filter_In. split; [exact I|]. cbn [fst]. now rewrite (Keep k v I).
    - assert (NP : ~ exists p o n r, In (p, o, n) E /\ r <> [] /\ p = q ++ r).
      { intros Y. apply (is_parent q id A) in Y. congruence. }
      destruct (lookup (replacements root E) (mkU id root q)) as [rr|].
      + destruct Lk as (n & HE & ->). unfold group_incl.
        assert (LN : lookup ep (mkU id root q) = None).
        { unfold lookup. destruct (find _ ep) as [[k v]|] eqn:F; [|reflexivity]. exfalso. apply find_some in F. destruct F as [F1 F2].
          apply uniq_eqb_eq in F2. cbn in F2. subst k. apply (P _ _ F1). exists []. cbn. now rewrite app_nil_r. }
        rewrite LN. unfold group_set. destruct (Valid _ _ _ HE) as (Qn & _ & Dif).
        assert (R : forall i, rooted s (mkU i root q) = true).
        { intros i. unfold rooted. cbn [upath]. destruct q; [congruence|apply orb_true_r]. }
        assert (R3 : uniq_eqb (mkU id root q) (mkU n root q) = false).
        { destruct (uniq_eqb _ _) eqn:Q; [|reflexivity]. apply uniq_eqb_eq in Q. congruence. }
        rewrite !R, R3. cbn [andb negb omap obind uid]. destruct (T2 _ _ _ HE) as (tn & I & Dn).
        exists s, n, (filter (fun x => negb (uniq_eqb (fst x) (mkU id root q))) ep ++ [(mkU id root q, mkU n root q)]), tn.
        split; [reflexivity|]. split; [apply extends_refl|]. split; [exact W|]. split; [eapply denotes_ext; eauto|].
        split.
        { destruct (here (strip q TE)) as [x|] eqn:Hx.
          - assert (RA : replace_all (strip q TE) t = x) by (destruct t; cbn [replace_all]; now rewrite Hx). rewrite RA.
            apply here_some in Hx. apply in_strip in Hx. rewrite app_nil_r in Hx. destruct (T1 _ _ Hx) as (o' & n' & Y1 & Y2).
            pose proof (Anti _ _ _ _ _ _ HE Y1) as Q. assert (is_prefix q q) by (exists []; now rewrite app_nil_r).
            specialize (Q H). injection Q as <- <-. f_equal. eapply denotes_fun; eauto.
          - exfalso. apply (here_none _ Hx tn). apply in_strip. now rewrite app_nil_r. }
        split.
        { split; [congruence|]. intros U. exfalso. apply (U [] tn). now rewrite app_nil_r. }
        split; [|split].
        * intros k v H. apply in_app_or in H. destruct H as [H|[H|[]]].
          -- apply filter_In in H. tauto.
          -- injection H as <- <-. right. exists []. unfold rec_ok. rewrite app_nil_r. auto.
        * intros [k v] H. apply in_or_app. left. apply filter_In. split; [exact H|]. cbn [fst].
          destruct (uniq_eqb k (mkU id root q)) eqn:Q; [|reflexivity]. exfalso. apply uniq_eqb_eq in Q. subst k.
          apply (P _ _ H). exists []. cbn. now rewrite app_nil_r.
        * intros rel (p1 & o1 & n1 & HE1 & (r1 & ->)). destruct rel as [|st rel].
          -- eexists _, _. split; [apply in_or_app; right; now left|]. cbn. now rewrite app_nil_r.
          -- exfalso. apply NP. exists ((q ++ st :: rel) ++ r1), o1, n1, (st :: rel ++ r1). split; [exact HE1|]. split; [discriminate|].
             rewrite <- app_assoc. reflexivity.
      + assert (U : untouched q).
        { apply untouched_iff. intros r o n H. destruct r as [|st r].
          - rewrite app_nil_r in H. now apply (Lk o n).
          - apply NP. exists (q ++ st :: r), o, n, (st :: r). repeat split; auto. discriminate. }
        exists s, id, ep, t. split; [reflexivity|]. split; [apply extends_refl|]. split; [exact W|].
        split; [eapply denotes_ext; eauto|]. rewrite (untouched_strip q U), replace_all_nil. split; [reflexivity|].
        split; [tauto|]. split; [auto|]. split; [apply incl_refl|]. intros rel (p1 & o1 & n1 & HE1 & (r1 & ->)). exfalso.
        apply (proj1 (untouched_iff _) U (rel ++ r1) o1 n1). now rewrite app_assoc.
  Qed.
End Edits.

(** Every id of a well-formed store denotes a tree. *)
Lemma denotes_total s : wf_store s -> forall id, id <= length s -> exists t, denotes s id t.
Proof.
  intros W. induction id as [id IH] using lt_wf_ind. intros L. destruct id as [|i]; [exists Nil; constructor|].
  destruct (nth_error s i) as [n|] eqn:N; [|apply nth_error_None in N; lia].
  destruct (W i n N) as [_ B]. assert (K : exists kids, denotes_kids s (subs n) kids).
  { revert B. generalize (subs n) as l. induction l as [|[st j] l IHl]; intros B; [exists []; constructor|].
    destruct IHl as [kids K]. { intros st' j' H. apply (B st' j'). now right. }
    specialize (B st j (or_introl eq_refl)). destruct (IH j ltac:(lia) ltac:(lia)) as [t T]. exists ((st, t) :: kids). now constructor. }
  destruct K as [kids K]. exists (Node (kind n) (data n) (loc n) kids). now constructor.
Qed.

(** Every node of the store after an edit repeats kind, data and location of an
    old one. *)
Definition repeats (s0 s : store) : Prop :=
  forall m, In m s -> exists m0, In m0 s0 /\ kind m = kind m0 /\ data m = data m0 /\ loc m = loc m0.
Lemma each_nodes s0 rec : (forall s ep u, repeats s0 s -> repeats s0 (fst (rec s ep u))) ->
  forall l s ep u, repeats s0 s -> repeats s0 (fst (each rec s ep u l)).
Proof.
  intros R. induction l as [|[st id] l IH]; intros s ep u H; cbn [each fst]; [exact H|].
  pose proof (R s ep (mkU id (uroot u) (upath u ++ [st])) H) as H1.
  destruct (rec s ep (mkU id (uroot u) (upath u ++ [st]))) as [s1 [[id' ep1]| | |]]; cbn [fst] in *; auto.
  pose proof (IH s1 ep1 u H1) as H2. destruct (each rec s1 ep1 u l) as [s2 [[ids ep2]| | |]]; exact H2.
Qed.
Lemma recurse_nodes s0 srt edits ps : forall fuel s ep u, repeats s0 s -> repeats s0 (fst (recurse srt edits ps fuel s ep u)).
Proof.
  induction fuel as [|fuel IH]; intros s ep u H; [exact H|]. cbn [recurse].
  destruct (existsb (uniq_eqb u) ps); [|destruct (lookup edits u); exact H].
  set (tgt := match lookup edits u with Some r => r | None => u end).
  destruct (node_at s (uid tgt)) as [n|] eqn:N; [|exact H].
  pose proof (each_nodes s0 _ IH (subs n) s ep tgt H) as H1.
  destruct (each (recurse srt edits ps fuel) s ep tgt (subs n)) as [s1 [[flat ep1]| | |]]; cbn [fst] in H1; try exact H1.
  destruct (list_eqb Nat.eqb flat (map snd (subs n))); [exact H1|].
  destruct (assign_all (subs n) (group_by (srt (combine (map fst (subs n)) flat)))) as [sub'| | |]; try exact H1.
  assert (H2 : repeats s0 (fst (intern s1 (mkN (kind n) (data n) (loc n) sub')))).
  { unfold intern. destruct (find_value s1 (mkN (kind n) (data n) (loc n) sub')); cbn [fst]; [exact H1|].
    intros m Hm. apply in_app_or in Hm. destruct Hm as [Hm|[<-|[]]]; [now apply H1|]. apply (H n).
    destruct (uid tgt); [discriminate|]. cbn in N. eapply nth_error_In; eauto. }
  destruct (intern s1 (mkN (kind n) (data n) (loc n) sub')) as [s2 id']. destruct (Nat.eqb id' (uid tgt)); exact H2.
Qed.
