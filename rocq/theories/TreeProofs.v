(** Proofs for the flat parse tree. *)
From Verif Require Import Base TreeModel TreeSpec.

Section TreeInd.
Context {K T M : Type}.
Variable P : tree K T M -> Prop.
Hypothesis Hb : forall k sub, Forall P sub -> P (Branch k sub).
Hypothesis Hl : forall k t, P (Leaf k t).
Hypothesis Hm : forall k x, P (MonoLeaf k x).
Fixpoint tree_ind' (t : tree K T M) : P t :=
  match t with
  | Branch k sub => Hb k sub ((fix go l : Forall P l :=
      match l with [] => Forall_nil _ | x :: r => Forall_cons _ (tree_ind' x) (go r) end) sub)
  | Leaf k t => Hl k t
  | MonoLeaf k x => Hm k x
  end.
End TreeInd.

Section Proofs.
Context {K T M : Type}.
Notation tree := (tree K T M).
Notation node := (node K T M).
Notation group := (group K T M).

Fixpoint flat (t : tree) : list node :=
  node_of t :: match t with Branch _ sub => flat_map flat sub | _ => [] end.

Lemma flat_unfold t : flat t = node_of t :: flat_map flat (sub_of t).
Proof. destruct t; reflexivity. Qed.

Definition fflat (ts : list tree) := flat_map flat ts.

Lemma fsize_app a b : fsize (K:=K) (T:=T) (M:=M) (a ++ b) = fsize a + fsize b.
Proof. unfold fsize. rewrite map_app, list_sum_app. reflexivity. Qed.

Lemma fsize_cons (a : tree) b : fsize (a :: b) = tsize a + fsize b.
Proof. reflexivity. Qed.

Lemma tsize_sub (t : tree) : tsize t = S (fsize (sub_of t)).
Proof. destruct t; reflexivity. Qed.

Lemma fflat_cons t ts : fflat (t :: ts) = flat t ++ fflat ts.
Proof. reflexivity. Qed.

Lemma fflat_app a b : fflat (a ++ b) = fflat a ++ fflat b.
Proof. unfold fflat. apply flat_map_app. Qed.

Lemma flat_length t : length (flat t) = tsize t.
Proof.
  induction t as [k sub IH|k x|k x] using tree_ind'; try reflexivity.
  rewrite flat_unfold, tsize_sub. cbn [length sub_of]. f_equal.
  induction IH as [|a l Ha _ IHl]; [reflexivity|].
  cbn [flat_map]. rewrite app_length, Ha, IHl. reflexivity.
Qed.

Lemma fflat_length ts : length (fflat ts) = fsize ts.
Proof.
  induction ts as [|t ts IH]; [reflexivity|].
  rewrite fflat_cons, app_length, flat_length, IH. reflexivity.
Qed.

Lemma set_nth_mid {A} (a : list A) x y b : set_nth (a ++ x :: b) (length a) y = Some (a ++ y :: b).
Proof. induction a as [|z a IH]; [reflexivity|]. cbn [app length set_nth]. rewrite IH. reflexivity. Qed.

Lemma nth_error_mid {A} (a : list A) x b : nth_error (a ++ x :: b) (length a) = Some x.
Proof. rewrite nth_error_app2 by lia. rewrite Nat.sub_diag. reflexivity. Qed.

Lemma run_app ops1 ops2 (g : group) : run (ops1 ++ ops2) g = obind (run ops1 g) (run ops2).
Proof.
  revert g; induction ops1 as [|o r IH]; intros g; [reflexivity|].
  cbn [app run]. destruct (step g o); cbn [obind]; auto.
Qed.

(** closing the last opened tree *)
Lemma end_tree_closes pre k body pend :
  end_tree (mkGroup (pre ++ mkNode k (Ext 0) :: body) (length pre :: pend)) 0
  = Ok (mkGroup (pre ++ mkNode k (Ext (length body)) :: body) pend, length pre) (A:=group * nat).
Proof.
  unfold end_tree. cbn [pending nodes]. rewrite nth_error_mid.
  unfold extend. cbn [is_nonterminal value kind].
  rewrite app_length. cbn [length].
  destruct (Z.leb_spec 0 (Z.of_nat (length pre + S (length body) - 1 - length pre) + 0)) as [Hle|]; [|lia].
  cbn [obind]. rewrite set_nth_mid. repeat f_equal. lia.
Qed.

Lemma run_calls t : forall g : group,
  run (calls t) g = Ok (mkGroup (nodes g ++ flat t) (pending g)).
Proof.
  induction t as [k sub IH|k x|k x] using tree_ind'; intros g; try reflexivity.
  cbn [calls run step obind start_tree fst]. rewrite run_app.
  assert (Hf : forall g, run (flat_map calls sub) g = Ok (mkGroup (nodes g ++ fflat sub) (pending g))).
  { clear g. induction IH as [|a l Ha _ IHl]; intros g.
    - cbn. rewrite app_nil_r. destruct g; reflexivity.
    - cbn [flat_map]. rewrite run_app, Ha. cbn [obind]. rewrite IHl. cbn [nodes pending].
      rewrite fflat_cons, app_assoc. reflexivity. }
  rewrite Hf. cbn [obind nodes pending run step]. unfold omap.
  rewrite <- app_assoc. cbn [app]. rewrite end_tree_closes. cbn [obind fst].
  rewrite flat_unfold. cbn [node_of sub_of]. rewrite fflat_length. reflexivity.
Qed.

Lemma run_forest ts : forall g : group,
  run (flat_map calls ts) g = Ok (mkGroup (nodes g ++ fflat ts) (pending g)).
Proof.
  induction ts as [|t ts IH]; intros g.
  - cbn. rewrite app_nil_r. destruct g; reflexivity.
  - cbn [flat_map]. rewrite run_app, run_calls. cbn [obind]. rewrite IH. cbn [nodes pending].
    rewrite fflat_cons, app_assoc. reflexivity.
Qed.

(** *** Locations *)

Lemma locate_app (p : list nat) : forall (t : tree) q,
  locate t (p ++ q) =
  match locate t p with
  | None => None
  | Some (o, s) => match locate s q with None => None | Some (o', s') => Some (o + o', s') end
  end.
Proof.
  induction p as [|i p IH]; intros t q.
  - cbn [app locate]. destruct (locate t q) as [[o s]|]; reflexivity.
  - cbn [app locate]. destruct (nth_error (sub_of t) i) as [c|]; [|reflexivity].
    rewrite IH. destruct (locate c p) as [[o s]|]; [|reflexivity].
    destruct (locate s q) as [[o' s']|]; [|reflexivity]. f_equal. f_equal. lia.
Qed.

Lemma nth_error_split_firstn {A} (l : list A) i x :
  nth_error l i = Some x -> l = firstn i l ++ x :: skipn (S i) l.
Proof.
  revert i; induction l as [|y l IH]; intros [|i] H; try discriminate.
  - injection H as ->. reflexivity.
  - cbn [firstn app skipn]. f_equal. apply IH, H.
Qed.

Lemma locate_flat p : forall t o (s : tree), locate t p = Some (o, s) ->
  exists pre post, flat t = pre ++ flat s ++ post /\ length pre = o.
Proof.
  induction p as [|i p IH]; intros t o s H.
  - cbn in H. injection H as <- <-. exists [], []. rewrite app_nil_r. split; reflexivity.
  - cbn [locate] in H. destruct (nth_error (sub_of t) i) as [c|] eqn:Hc; [|discriminate].
    destruct (locate c p) as [[o' s']|] eqn:Hl; [|discriminate]. injection H as <- <-.
    destruct (IH _ _ _ Hl) as (pre & post & E & Hlen).
    exists (node_of t :: fflat (firstn i (sub_of t)) ++ pre), (post ++ fflat (skipn (S i) (sub_of t))).
    split.
    + rewrite flat_unfold. cbn [app]. f_equal.
      rewrite (nth_error_split_firstn _ _ _ Hc) at 1.
      fold (fflat (firstn i (sub_of t) ++ c :: skipn (S i) (sub_of t))).
      rewrite fflat_app, fflat_cons, E. rewrite <- !app_assoc. reflexivity.
    + cbn [length]. rewrite app_length, fflat_length, Hlen. lia.
Qed.

Lemma fsize_firstn_le i (ts : list tree) : fsize (firstn i ts) <= fsize ts.
Proof.
  rewrite <- (firstn_skipn i ts) at 2. rewrite fsize_app. lia.
Qed.

Lemma locate_bound p : forall t o (s : tree), locate t p = Some (o, s) -> o + tsize s <= tsize t.
Proof.
  intros t o s H. destruct (locate_flat _ _ _ _ H) as (pre & post & E & Hl).
  rewrite <- (flat_length t), E, !app_length, flat_length. lia.
Qed.

Lemma fsize_find (ts : list tree) n : n < fsize ts ->
  exists i c, nth_error ts i = Some c /\ fsize (firstn i ts) <= n < fsize (firstn i ts) + tsize c.
Proof.
  revert n; induction ts as [|t ts IH]; intros n Hn; [cbn in Hn; lia|].
  rewrite fsize_cons in Hn. destruct (Nat.lt_ge_cases n (tsize t)) as [Hlt|Hge].
  - exists 0, t. split; [reflexivity|]. cbn. lia.
  - destruct (IH (n - tsize t)) as (i & c & Hc & Hr); [lia|].
    exists (S i), c. split; [exact Hc|]. cbn [firstn]. rewrite fsize_cons. lia.
Qed.

Lemma tsize_pos (t : tree) : 0 < tsize t.
Proof. rewrite tsize_sub. lia. Qed.

(** every position below the size is the position of a subtree *)
Lemma locate_surj (t : tree) : forall n, n < tsize t -> exists p s, locate t p = Some (n, s).
Proof.
  induction t as [k sub IH|k x|k x] using tree_ind'; intros n Hn;
    try (exists [], (Leaf k x); cbn in *; f_equal; f_equal; lia);
    try (exists [], (MonoLeaf k x); cbn in *; f_equal; f_equal; lia).
  destruct n as [|n]; [exists [], (Branch k sub); reflexivity|].
  rewrite tsize_sub in Hn. cbn [sub_of] in Hn.
  destruct (fsize_find sub n) as (i & c & Hc & Hr); [lia|].
  rewrite Forall_forall in IH. destruct (IH c (nth_error_In _ _ Hc) (n - fsize (firstn i sub))) as (p & s & Hp); [lia|].
  exists (i :: p), s. cbn [locate sub_of]. rewrite Hc, Hp. f_equal. f_equal. lia.
Qed.

Lemma fsize_firstn_S (ts : list tree) i c : nth_error ts i = Some c ->
  fsize (firstn (S i) ts) = fsize (firstn i ts) + tsize c.
Proof.
  revert i; induction ts as [|t ts IH]; intros [|i] H; try discriminate.
  - injection H as ->. cbn. lia.
  - cbn [firstn]. rewrite !fsize_cons. cbn [nth_error] in H. apply IH in H. cbn [firstn] in H. lia.
Qed.

Lemma fsize_firstn_mono (ts : list tree) i j : i <= j -> fsize (firstn i ts) <= fsize (firstn j ts).
Proof.
  intros H. replace i with (Nat.min i j) by lia. rewrite <- firstn_firstn. apply fsize_firstn_le.
Qed.

Lemma locate_inj p : forall t q o (s s' : tree),
  locate t p = Some (o, s) -> locate t q = Some (o, s') -> p = q.
Proof.
  induction p as [|i p IH]; intros t [|j q] o s s' Hp Hq; [reflexivity| | |].
  - cbn [locate] in *. injection Hp as <- _.
    destruct (nth_error (sub_of t) j) as [c|]; [|discriminate].
    destruct (locate c q) as [[o' s'']|]; [|discriminate]. injection Hq as Hq _. lia.
  - cbn [locate] in *. injection Hq as <- _.
    destruct (nth_error (sub_of t) i) as [c|]; [|discriminate].
    destruct (locate c p) as [[o' s'']|]; [|discriminate]. injection Hp as Hp _. lia.
  - cbn [locate] in *.
    destruct (nth_error (sub_of t) i) as [c|] eqn:Hc; [|discriminate].
    destruct (nth_error (sub_of t) j) as [d|] eqn:Hd; [|discriminate].
    destruct (locate c p) as [[oc sc]|] eqn:Hlc; [|discriminate].
    destruct (locate d q) as [[od sd]|] eqn:Hld; [|discriminate].
    injection Hp as Ho1 _. injection Hq as Ho2 _.
    pose proof (locate_bound _ _ _ _ Hlc) as B1. pose proof (locate_bound _ _ _ _ Hld) as B2.
    pose proof (tsize_pos sc). pose proof (tsize_pos sd).
    assert (i = j) as <-.
    { destruct (Nat.lt_trichotomy i j) as [L|[L|L]]; [|exact L|].
      - pose proof (fsize_firstn_mono (sub_of t) (S i) j ltac:(lia)) as F.
        rewrite (fsize_firstn_S _ _ _ Hc) in F. lia.
      - pose proof (fsize_firstn_mono (sub_of t) (S j) i ltac:(lia)) as F.
        rewrite (fsize_firstn_S _ _ _ Hd) in F. lia. }
    rewrite Hc in Hd. injection Hd as <-. f_equal.
    apply (IH c q oc sc sd); [assumption|]. replace oc with od by lia. assumption.
Qed.

(** *** Child iteration *)

Lemma get_extent_node_of (t : tree) : get_extent (node_of t) = tsize t - 1.
Proof. destruct t; cbn [node_of get_extent value tsize]; unfold fsize; lia. Qed.

Definition positions (b : nat) (cs : list tree) : list nat :=
  map (fun i => b + fsize (firstn i cs)) (seq 0 (length cs)).

Lemma positions_cons b (c : tree) cs : positions b (c :: cs) = b :: positions (b + tsize c) cs.
Proof.
  unfold positions. cbn [length seq map]. f_equal; [cbn; lia|].
  rewrite <- seq_shift, map_map. apply map_ext. intros i. cbn [firstn]. rewrite fsize_cons. lia.
Qed.

Lemma nth_error_flat pre (t : tree) post : nth_error (pre ++ flat t ++ post) (length pre) = Some (node_of t).
Proof. rewrite flat_unfold. cbn [app]. apply nth_error_mid. Qed.

Lemma iter_next_flat pre (t : tree) post :
  iter_next (pre ++ flat t ++ post) (length pre) = Ok (length pre + tsize t).
Proof.
  unfold iter_next. rewrite nth_error_flat, get_extent_node_of. pose proof (tsize_pos t). f_equal. lia.
Qed.

Lemma iter_loop_forest cs : forall pre post fuel, length cs < fuel ->
  iter_loop fuel (pre ++ fflat cs ++ post) (length pre) (length pre + fsize cs)
  = Ok (positions (length pre) cs).
Proof.
  induction cs as [|c cs IH]; intros pre post fuel Hf.
  - destruct fuel as [|fuel]; [cbn in Hf; lia|]. cbn [iter_loop].
    unfold fsize; cbn [map list_sum]. rewrite (proj2 (Nat.eqb_eq _ _)) by (cbn; lia). reflexivity.
  - destruct fuel as [|fuel]; [cbn in Hf; lia|]. cbn [iter_loop].
    pose proof (tsize_pos c) as Hp.
    rewrite fsize_cons, (proj2 (Nat.eqb_neq _ _)) by lia.
    rewrite fflat_cons, <- app_assoc.
    rewrite (proj2 (Nat.ltb_lt _ _)) by (rewrite !app_length, flat_length; lia).
    rewrite iter_next_flat. cbn [obind].
    replace (length pre + tsize c) with (length (pre ++ flat c)) by (rewrite app_length, flat_length; lia).
    replace (length pre + (tsize c + fsize cs)) with (length (pre ++ flat c) + fsize cs)
      by (rewrite app_length, flat_length; lia).
    rewrite app_assoc. rewrite IH by (cbn [length] in Hf; lia).
    unfold omap. cbn [obind]. rewrite positions_cons, app_length, flat_length. reflexivity.
Qed.

Lemma length_le_fsize (cs : list tree) : length cs <= fsize cs.
Proof.
  induction cs as [|c cs IH]; [cbn; lia|]. rewrite fsize_cons. cbn [length].
  pose proof (tsize_pos c). lia.
Qed.

Lemma iter_begin_sub pre (t : tree) post :
  iter_begin (pre ++ flat t ++ post) (length pre + 1) = length pre + 1.
Proof.
  unfold iter_begin. destruct (Nat.ltb_spec (length pre + 1) (length (pre ++ flat t ++ post))) as [|H]; [reflexivity|].
  rewrite !app_length, flat_length in *. pose proof (tsize_pos t). lia.
Qed.

Lemma subnodes_of_flat pre (t : tree) post :
  subnodes_of (pre ++ flat t ++ post) (length pre) =
  Ok (match t with Leaf _ _ => None | _ => Some (length pre + 1, length pre + tsize t) end).
Proof.
  unfold subnodes_of. rewrite nth_error_flat.
  destruct t as [k sub|k x|k x]; cbn [node_of is_terminal value]; [| reflexivity|];
    rewrite iter_begin_sub; unfold iter_end; cbn [get_extent value tsize]; repeat f_equal; unfold fsize; lia.
Qed.

Lemma children_flat pre (t : tree) post :
  children (pre ++ flat t ++ post) (length pre) =
  Ok (match t with Leaf _ _ => None | _ => Some (positions (length pre + 1) (sub_of t)) end).
Proof.
  unfold children. rewrite subnodes_of_flat. cbn [obind].
  assert (Hl : iter_loop (S (S (length (pre ++ flat t ++ post)))) (pre ++ flat t ++ post)
                 (length pre + 1) (length pre + tsize t) = Ok (positions (length pre + 1) (sub_of t))).
  { assert (Hn : length (sub_of t) < S (S (length (pre ++ flat t ++ post)))).
    { rewrite !app_length, flat_length, tsize_sub. pose proof (length_le_fsize (sub_of t)). lia. }
    rewrite flat_unfold, tsize_sub in *.
    pose proof (iter_loop_forest (sub_of t) (pre ++ [node_of t]) post _ Hn) as HL.
    assert (El : length (pre ++ [node_of t]) = length pre + 1) by (rewrite app_length; reflexivity).
    rewrite El in HL.
    replace (length pre + S (fsize (sub_of t))) with (length pre + 1 + fsize (sub_of t)) by lia.
    rewrite <- HL. f_equal. rewrite <- app_assoc. reflexivity. }
  destruct t; [|reflexivity|]; rewrite Hl; reflexivity.
Qed.

Lemma child_positions_eq (t : tree) p o s : locate t p = Some (o, s) ->
  child_positions t p = positions (o + 1) (sub_of s).
Proof.
  intros H. unfold child_positions. rewrite H. unfold positions.
  assert (G : forall l, (forall i, In i l -> i < length (sub_of s)) ->
    flat_map (fun i => match locate t (p ++ [i]) with Some (o0, _) => [o0] | None => [] end) l
    = map (fun i => o + 1 + fsize (firstn i (sub_of s))) l).
  { induction l as [|i l IH]; intros Hi; [reflexivity|]. cbn [flat_map map].
    rewrite IH by (intros j Hj; apply Hi; right; exact Hj).
    rewrite locate_app, H. cbn [locate].
    destruct (nth_error (sub_of s) i) as [c|] eqn:Hc.
    - cbn [app]. f_equal. lia.
    - apply nth_error_None in Hc. specialize (Hi i (or_introl eq_refl)). lia. }
  apply G. intros i Hi. apply in_seq in Hi. lia.
Qed.

(** *** C07 combined *)

Definition has_range (s : tree) : bool := match s with Leaf _ _ => false | _ => true end.

Lemma positions_shift a b (cs : list tree) : positions (a + b) cs = map (Nat.add a) (positions b cs).
Proof. unfold positions. rewrite map_map. apply map_ext. intros i. lia. Qed.

Lemma build_and_iterate (t : tree) (after : list tree) (g : group) :
  exists g', run (calls t ++ flat_map calls after) g = Ok g' /\
    length (nodes g') = length (nodes g) + tsize t + fsize after /\
    firstn (length (nodes g)) (nodes g') = nodes g /\
    pending g' = pending g /\
    forall p o s, locate t p = Some (o, s) ->
      let base := length (nodes g) in
      nth_error (nodes g') (base + o) = Some (node_of s) /\
      children (nodes g') (base + o) =
        Ok (match s with Leaf _ _ => None | _ => Some (map (Nat.add base) (child_positions t p)) end).
Proof.
  exists (mkGroup (nodes g ++ flat t ++ fflat after) (pending g)).
  split; [|split; [|split; [|split]]].
  - rewrite run_app, run_calls. cbn [obind]. rewrite run_forest. cbn [nodes pending].
    rewrite app_assoc. reflexivity.
  - cbn [nodes]. rewrite !app_length, flat_length, fflat_length. lia.
  - cbn [nodes]. rewrite firstn_app, Nat.sub_diag, firstn_all. cbn [firstn]. apply app_nil_r.
  - reflexivity.
  - intros p o s H base. cbn [nodes].
    destruct (locate_flat _ _ _ _ H) as (pre & post & E & Hl). rewrite E.
    rewrite <- !app_assoc.
    replace (base + o) with (length (nodes g ++ pre)) by (rewrite app_length; lia).
    rewrite (app_assoc (nodes g) pre). split; [apply nth_error_flat|].
    rewrite children_flat, (child_positions_eq _ _ _ _ H).
    replace (length (nodes g ++ pre) + 1) with (base + (o + 1)) by (rewrite app_length; lia).
    rewrite positions_shift. destruct s; reflexivity.
Qed.

Lemma extents_are_descendants (t : tree) (after : list tree) (g g' : group) :
  run (calls t ++ flat_map calls after) g = Ok g' ->
  forall p o s, locate t p = Some (o, s) ->
  let base := length (nodes g) in
  match all_subnodes_of (nodes g') (base + o) with
  | Ok (Some (first, last)) =>
      forall i, first <= i <= last <-> exists q o' s', q <> [] /\ locate t (p ++ q) = Some (o', s') /\ i = base + o'
  | Ok None => sub_of s = []
  | _ => False
  end.
Proof.
  intros Hr p o s H base.
  rewrite run_app, run_calls in Hr. cbn [obind] in Hr. rewrite run_forest in Hr. cbn [nodes pending] in Hr.
  injection Hr as <-. cbn [nodes]. rewrite <- app_assoc.
  destruct (locate_flat _ _ _ _ H) as (pre & post & E & Hl). rewrite E.
  rewrite <- !app_assoc. replace (base + o) with (length (nodes g ++ pre)) by (rewrite app_length; lia).
  rewrite (app_assoc (nodes g) pre). unfold all_subnodes_of. rewrite nth_error_flat, get_extent_node_of.
  rewrite app_length, Hl. fold base. pose proof (tsize_sub s) as Hs.
  destruct (Nat.ltb_spec 0 (tsize s - 1)) as [Hpos|Hz].
  - intros i. split.
    + intros Hi. destruct (locate_surj s (i - (base + o))) as (q & s' & Hq); [lia|].
      exists q, (i - base), s'. split.
      * intros ->. cbn in Hq. injection Hq as Hq _. lia.
      * rewrite locate_app, H, Hq. split; [f_equal; f_equal; lia|lia].
    + intros (q & o' & s' & Hne & Hq & ->). rewrite locate_app, H in Hq.
      destruct (locate s q) as [[o2 s2]|] eqn:Hq2; [|discriminate]. injection Hq as <- <-.
      pose proof (locate_bound _ _ _ _ Hq2). pose proof (tsize_pos s2).
      destruct q as [|j q]; [contradiction|]. cbn [locate] in Hq2.
      destruct (nth_error (sub_of s) j) as [c|]; [|discriminate].
      destruct (locate c q) as [[o3 s3]|]; [|discriminate]. injection Hq2 as Hq2 _. lia.
  - destruct (sub_of s) as [|c cs]; [reflexivity|]. rewrite fsize_cons in Hs. pose proof (tsize_pos c). lia.
Qed.

(** *** C08 *)

Lemma count_loop_acc fuel (ns : list node) : forall b e r n,
  count_loop fuel ns b e r = Ok n ->
  exists k, n = r + k /\ forall r', count_loop fuel ns b e r' = Ok (r' + k).
Proof.
  induction fuel as [|fuel IH]; intros b e r n H; [discriminate|]. cbn [count_loop] in *.
  destruct (b =? e).
  - injection H as <-. exists 0. split; [lia|]. intros r'. f_equal. lia.
  - destruct (iter_next ns b) as [b'| | |]; try discriminate. cbn [obind] in *.
    destruct (IH _ _ _ _ H) as (k & -> & Hk). exists (S k). split; [lia|].
    intros r'. rewrite Hk. f_equal. lia.
Qed.

Lemma count_loop_iter fuel (ns : list node) : forall b e l,
  iter_loop fuel ns b e = Ok l -> forall r, count_loop fuel ns b e r = Ok (r + length l).
Proof.
  induction fuel as [|fuel IH]; intros b e l H r; [discriminate|]. cbn [iter_loop count_loop] in *.
  destruct (b =? e); [injection H as <-; f_equal; cbn; lia|].
  destruct (b <? length ns); [|discriminate].
  destruct (iter_next ns b) as [b'| | |]; try discriminate. cbn [obind] in *.
  destruct (iter_loop fuel ns b' e) as [l'| | |] eqn:Hl; try discriminate. cbn in H. injection H as <-.
  rewrite (IH _ _ _ Hl). f_equal. cbn [length]. lia.
Qed.

Lemma subnode_loop_iter fuel (ns : list node) : forall b e l index,
  iter_loop fuel ns b e = Ok l -> forall i, i <= index ->
  subnode_loop fuel ns b e i index =
  match nth_error l (index - i) with Some x => Ok x | None => Throw end.
Proof.
  induction fuel as [|fuel IH]; intros b e l index H i Hi; [discriminate|]. cbn [iter_loop subnode_loop] in *.
  destruct (b =? e).
  { injection H as <-. destruct (index - i); reflexivity. }
  destruct (b <? length ns) eqn:Hb; [|discriminate].
  destruct (iter_next ns b) as [b'| | |]; try discriminate. cbn [obind] in *.
  destruct (iter_loop fuel ns b' e) as [l'| | |] eqn:Hl; try discriminate. cbn in H. injection H as <-.
  destruct (Nat.eqb_spec i index) as [->|Hne].
  - rewrite Nat.sub_diag. reflexivity.
  - rewrite (IH _ _ _ index Hl) by lia. replace (index - i) with (S (index - S i)) by lia. reflexivity.
Qed.

(** for any node store, whenever iteration succeeds, count and indexed access agree with it *)
Lemma count_and_index_agree (ns : list node) id l :
  children ns id = Ok (Some l) ->
  node_size ns id = Ok (length l) /\
  (forall i, subnode ns id i = match nth_error l i with Some x => Ok x | None => Throw end).
Proof.
  unfold children, node_size, subnode. destruct (subnodes_of ns id) as [[[b e]|]| | |]; try discriminate.
  cbn [obind]. destruct (iter_loop (S (S (length ns))) ns b e) as [l'| | |] eqn:Hl; try discriminate.
  unfold omap. cbn [obind]. intros H. injection H as <-. split.
  - rewrite (count_loop_iter _ _ _ _ _ Hl). reflexivity.
  - intros i. rewrite (subnode_loop_iter _ _ _ _ _ i Hl) by lia. rewrite Nat.sub_0_r. reflexivity.
Qed.

Lemma terminal_has_no_children (ns : list node) id :
  children ns id = Ok None -> node_size ns id = Ok 0 /\ forall i, subnode ns id i = Throw.
Proof.
  unfold children, node_size, subnode. destruct (subnodes_of ns id) as [[[b e]|]| | |]; try discriminate; cbn [obind].
  - destruct (iter_loop _ ns b e); discriminate.
  - split; reflexivity.
Qed.

(** the loop over any node store (not only one built from a tree) ends *)
Lemma iter_loop_fuel fuel (ns : list node) : forall b e, length ns < fuel + b -> 0 < fuel ->
  iter_loop fuel ns b e <> Fuel.
Proof.
  induction fuel as [|fuel IH]; intros b e Hf Hp; [lia|]. cbn [iter_loop].
  destruct (b =? e); [discriminate|]. destruct (Nat.ltb_spec b (length ns)) as [Hb|]; [|discriminate].
  unfold iter_next. destruct (nth_error ns b) as [n|]; [|discriminate]. cbn [obind].
  specialize (IH (b + get_extent n + 1) e ltac:(lia) ltac:(lia)).
  destruct (iter_loop fuel ns (b + get_extent n + 1) e); cbn; congruence.
Qed.

Lemma children_never_fuel (ns : list node) id : children ns id <> Fuel.
Proof.
  unfold children, subnodes_of. destruct (nth_error ns id) as [n|] eqn:Hn; [|discriminate].
  destruct (is_terminal n); [discriminate|]. cbn [obind].
  pose proof (iter_loop_fuel (S (S (length ns))) ns (iter_begin ns (id + 1)) (iter_end (id + get_extent n))
    ltac:(lia) ltac:(lia)) as H.
  destruct (iter_loop _ ns _ _); cbn; congruence.
Qed.

(** *** C09 *)

Lemma all_subnodes_flat pre (t : tree) post :
  all_subnodes_of (pre ++ flat t ++ post) (length pre) =
  Ok (if 0 <? fsize (sub_of t) then Some (length pre + 1, length pre + fsize (sub_of t)) else None).
Proof.
  unfold all_subnodes_of. rewrite nth_error_flat, get_extent_node_of, tsize_sub.
  replace (S (fsize (sub_of t)) - 1) with (fsize (sub_of t)) by lia.
  destruct (0 <? fsize (sub_of t)); reflexivity.
Qed.

Lemma flat_last (t : tree) : exists l n, flat t = l ++ [n] /\ get_extent n = 0.
Proof.
  induction t as [k sub IH|k x|k x] using tree_ind'.
  - destruct sub as [|c cs] using rev_ind.
    + exists [], (mkNode k (Ext 0)). split; reflexivity.
    + apply Forall_app in IH as [_ Hc]. inversion Hc as [|? ? (l & n & E & Hn)]; subst.
      exists (node_of (Branch k (cs ++ [c])) :: fflat cs ++ l), n. split; [|exact Hn].
      rewrite flat_unfold. cbn [sub_of]. fold (fflat (cs ++ [c])). rewrite fflat_app.
      cbn [app]. f_equal. rewrite <- app_assoc. f_equal. unfold fflat. cbn [flat_map].
      rewrite app_nil_r. exact E.
  - exists [], (mkNode k (Tok x)). split; reflexivity.
  - exists [], (mkNode k (Mono x)). split; reflexivity.
Qed.

Lemma parent_loop_stuck (ns : list node) id cand : all_subnodes_of ns cand = Ok None ->
  forall fuel, parent_loop fuel ns id (S cand) = Fuel.
Proof.
  intros H. induction fuel as [|fuel IH]; [reflexivity|].
  cbn [parent_loop]. rewrite H. cbn [obind]. exact IH.
Qed.

Lemma stuck_after_tree pre (t : tree) post fuel :
  parent fuel (pre ++ flat t ++ post) (length pre + tsize t) = Fuel.
Proof.
  destruct (flat_last t) as (l & n & E & Hn). unfold parent.
  assert (Hlen : tsize t = S (length l)) by (rewrite <- flat_length, E, app_length; cbn; lia).
  rewrite Hlen, Nat.add_succ_r. apply parent_loop_stuck.
  unfold all_subnodes_of. rewrite E, <- app_assoc, app_assoc.
  replace (length pre + length l) with (length (pre ++ l)) by apply app_length.
  cbn [app]. rewrite nth_error_mid, Hn. reflexivity.
Qed.

Lemma nth_error_snoc_tree {A} (l : list A) i x : nth_error l (S i) = Some x ->
  exists y, nth_error l i = Some y.
Proof.
  intros H. destruct (nth_error l i) as [y|] eqn:E; [exists y; reflexivity|].
  apply nth_error_None in E. assert (S i < length l) by (apply nth_error_Some; congruence). lia.
Qed.

(** exact behaviour of the parent query on a stored tree, wherever it is stored *)
Lemma parent_exact (t : tree) pre post p o s :
  locate t p = Some (o, s) ->
  let ns := pre ++ flat t ++ post in
  (* the first child of some branch: answered, and correctly *)
  (forall q, p = q ++ [0] -> exists oq sq, locate t q = Some (oq, sq) /\
      forall fuel, parent (S fuel) ns (length pre + o) = Ok (Some (length pre + oq))) /\
  (* any later child: the query never returns *)
  (forall q i, p = q ++ [S i] -> forall fuel, parent fuel ns (length pre + o) = Fuel) /\
  (* the root of the first tree of the store: no parent *)
  (p = [] -> pre = [] -> forall fuel, parent (S fuel) ns (length pre + o) = Ok None).
Proof.
  intros H ns. split; [|split].
  - intros q ->. rewrite locate_app in H.
    destruct (locate t q) as [[oq sq]|] eqn:Hq; [|discriminate].
    cbn [locate] in H. destruct (nth_error (sub_of sq) 0) as [c|] eqn:Hc; [|discriminate].
    cbn [firstn] in H. injection H as <- <-. exists oq, sq. split; [reflexivity|]. intros fuel.
    destruct (locate_flat _ _ _ _ Hq) as (pre2 & post2 & E & Hl).
    subst ns. rewrite E, <- !app_assoc, (app_assoc pre). unfold parent.
    replace (length pre + (oq + 1)) with (S (length (pre ++ pre2)))
      by (rewrite app_length; cbn; lia).
    cbn [parent_loop]. rewrite all_subnodes_flat. cbn [obind].
    destruct (sub_of sq) as [|c' cs]; [discriminate|]. rewrite fsize_cons. pose proof (tsize_pos c').
    destruct (Nat.ltb_spec 0 (tsize c' + fsize cs)); [|lia].
    destruct (Nat.leb_spec (length (pre ++ pre2) + 1) (S (length (pre ++ pre2)))); [|lia].
    destruct (Nat.leb_spec (S (length (pre ++ pre2))) (length (pre ++ pre2) + (tsize c' + fsize cs))); [|lia].
    cbn [andb]. rewrite app_length, Hl. reflexivity.
  - intros q i -> fuel. rewrite locate_app in H.
    destruct (locate t q) as [[oq sq]|] eqn:Hq; [|discriminate].
    cbn [locate] in H. destruct (nth_error (sub_of sq) (S i)) as [c|] eqn:Hc; [|discriminate].
    assert (Ho : o = oq + (1 + fsize (firstn (S i) (sub_of sq)) + 0)) by congruence. clear H. destruct (nth_error_snoc_tree _ _ _ Hc) as (d & Hd).
    assert (Hqd : locate t (q ++ [i]) = Some (oq + (1 + fsize (firstn i (sub_of sq)) + 0), d))
      by (rewrite locate_app, Hq; cbn [locate]; rewrite Hd; reflexivity).
    destruct (locate_flat _ _ _ _ Hqd) as (pre2 & post2 & E & Hl).
    subst ns. rewrite E, <- !app_assoc, (app_assoc pre).
    rewrite (fsize_firstn_S _ _ _ Hd) in Ho. subst o.
    replace (length pre + (oq + (1 + (fsize (firstn i (sub_of sq)) + tsize d) + 0)))
      with (length (pre ++ pre2) + tsize d) by (rewrite app_length; lia).
    apply stuck_after_tree.
  - intros -> -> fuel. cbn in H. injection H as <- <-. reflexivity.
Qed.

Lemma parent_of_built (t : tree) after (g g' : group) :
  run (calls t ++ flat_map calls after) g = Ok g' ->
  forall p o s, locate t p = Some (o, s) ->
  let base := length (nodes g) in
  (forall q, p = q ++ [0] -> exists oq sq, locate t q = Some (oq, sq) /\
      forall fuel, parent (S fuel) (nodes g') (base + o) = Ok (Some (base + oq))) /\
  (forall q i, p = q ++ [S i] -> forall fuel, parent fuel (nodes g') (base + o) = Fuel) /\
  (p = [] -> nodes g = [] -> forall fuel, parent (S fuel) (nodes g') (base + o) = Ok None).
Proof.
  intros Hr p o s H base.
  rewrite run_app, run_calls in Hr. cbn [obind] in Hr. rewrite run_forest in Hr. cbn [nodes pending] in Hr.
  injection Hr as <-. cbn [nodes]. rewrite <- app_assoc. apply parent_exact with (s := s). exact H.
Qed.

(** *** Rolling back *)

Lemma rollback (t : tree) (g : group) :
  exists g', run (calls t) g = Ok g' /\ remove_tail g' (length (nodes g)) = Ok g.
Proof.
  exists (mkGroup (nodes g ++ flat t) (pending g)). split; [apply run_calls|].
  unfold remove_tail. cbn [nodes pending]. rewrite (proj2 (Nat.leb_le _ _)) by (rewrite app_length; lia).
  rewrite firstn_app, Nat.sub_diag, firstn_all. cbn [firstn]. rewrite app_nil_r. destruct g; reflexivity.
Qed.

(** *** Refinement of arbitrary call histories *)

(** nodes and pending stack that represent an abstract builder state *)
Fixpoint render (st : list (K * list tree)) : list node * list nat :=
  match st with
  | [] => ([], [])
  | (k, before) :: st =>
    let '(ns, pend) := render st in
    let ns' := ns ++ fflat before in
    (ns' ++ [mkNode k (Ext 0)], length ns' :: pend)
  end.

Definition represents (g : group) (s : list (K * list tree) * list tree) : Prop :=
  nodes g = fst (render (fst s)) ++ fflat (snd s) /\ pending g = snd (render (fst s)).

Lemma fflat_leaf l : fflat [leaf_tree l] = [leaf_node (K:=K) (T:=T) (M:=M) l].
Proof. destruct l; reflexivity. Qed.

Lemma step_refines g s o : represents g s ->
  match astep s o with
  | None => step g (concrete o) = Throw
  | Some s' => exists g', step g (concrete o) = Ok g' /\ represents g' s'
  end.
Proof.
  destruct s as [st cur], g as [ns pend]. unfold represents. cbn [fst snd nodes pending]. intros [-> ->].
  destruct o as [l|k| |l]; cbn [astep concrete step].
  - eexists. split; [reflexivity|]. cbn [fst token nodes pending snd].
    rewrite fflat_app, fflat_leaf, app_assoc. split; reflexivity.
  - eexists. split; [reflexivity|]. cbn [fst start_tree nodes pending snd render].
    destruct (render st) as [ns pend]. cbn [fst snd]. unfold fflat at 3. cbn [flat_map].
    rewrite app_nil_r. split; reflexivity.
  - destruct st as [|[k before] st]; [reflexivity|]. cbn [render].
    destruct (render st) as [ns pend] eqn:E. cbn [fst snd]. unfold omap.
    rewrite <- app_assoc. cbn [app]. rewrite end_tree_closes. cbn [obind fst].
    eexists. split; [reflexivity|]. cbn [nodes pending]. rewrite E. cbn [fst snd].
    split; [|reflexivity]. rewrite fflat_app, <- app_assoc. f_equal. f_equal.
    rewrite fflat_length. unfold fflat. cbn [flat_map flat node_of]. rewrite app_nil_r. reflexivity.
  - destruct st as [|[k before] st]; [reflexivity|]. cbn [render].
    destruct (render st) as [ns pend] eqn:E. cbn [fst snd]. unfold omap, fail_tree. cbn [pending nodes].
    rewrite <- app_assoc. cbn [app]. rewrite set_nth_mid. cbn [obind fst].
    eexists. split; [reflexivity|]. cbn [nodes pending]. rewrite E. cbn [fst snd].
    split; [|reflexivity]. rewrite fflat_app, fflat_cons, <- app_assoc. f_equal. f_equal. destruct l; reflexivity.
Qed.

Lemma history_refines_builder ops : forall g s, represents g s ->
  match arun ops s with
  | None => run (map concrete ops) g = Throw
  | Some s' => exists g', run (map concrete ops) g = Ok g' /\ represents g' s'
  end.
Proof.
  induction ops as [|o ops IH]; intros g s Hr.
  - cbn. exists g. split; [reflexivity|exact Hr].
  - cbn [arun map run]. pose proof (step_refines g s o Hr) as Hs.
    destruct (astep s o) as [s'|].
    + destruct Hs as (g' & -> & Hr'). cbn [obind]. apply IH, Hr'.
    + rewrite Hs. reflexivity.
Qed.

Lemma closed_history_is_forest ops ts :
  arun ops ([], []) = Some ([], ts) ->
  exists g, run (map concrete ops) (empty_group (K:=K) (T:=T) (M:=M)) = Ok g /\
    run (flat_map calls ts) empty_group = Ok g /\ pending g = [].
Proof.
  intros H. pose proof (history_refines_builder ops empty_group ([], []) ltac:(split; reflexivity)) as Hr.
  rewrite H in Hr. destruct Hr as (g' & Hrun & Hn & Hp). exists g'. split; [exact Hrun|].
  cbn in Hn, Hp. split; [|exact Hp]. rewrite run_forest. cbn. destruct g' as [ns pend]. cbn in *. subst. reflexivity.
Qed.

Lemma unbalanced_history_throws ops :
  arun ops ([], []) = None -> run (map concrete ops) (empty_group (K:=K) (T:=T) (M:=M)) = Throw.
Proof.
  intros H. pose proof (history_refines_builder ops empty_group ([], []) ltac:(split; reflexivity)) as Hr.
  rewrite H in Hr. exact Hr.
Qed.

(** *** C10 *)
Section Eq.
Variable keqb : K -> K -> bool.
Variable teqb : T -> T -> bool.
Variable meqb : M -> M -> bool.
Hypothesis kspec : forall a b, reflect (a = b) (keqb a b).
Hypothesis tspec : forall a b, reflect (a = b) (teqb a b).
Hypothesis mspec : forall a b, reflect (a = b) (meqb a b).

Lemma payload_eqb_spec a b : reflect (a = b) (payload_eqb (T:=T) (M:=M) teqb meqb a b).
Proof.
  destruct a as [x|x|x], b as [y|y|y]; cbn; try (constructor; congruence).
  - destruct (Nat.eqb_spec x y); constructor; congruence.
  - destruct (tspec x y); constructor; congruence.
  - destruct (mspec x y); constructor; congruence.
Qed.

(** equality is exact unless exactly one side is a token node and neither is mono *)
Lemma node_eqb_exact (a b : node) :
  node_eqb keqb teqb meqb a b = true <->
  (a = b \/ (is_terminal a <> is_terminal b /\ is_mono a = is_mono b /\ kind a = kind b)).
Proof.
  unfold node_eqb. destruct a as [ka va], b as [kb vb].
  destruct (Bool.eqb_spec (is_terminal (mkNode ka va)) (is_terminal (mkNode kb vb))) as [Ht|Ht].
  - cbn [kind value]. destruct (kspec ka kb) as [->|Hk].
    + destruct (payload_eqb_spec va vb) as [->|Hv]; cbn [andb].
      * split; [left; reflexivity|reflexivity].
      * split; [discriminate|]. intros [H|(H & _)]; [congruence|contradiction].
    + cbn [andb]. split; [discriminate|]. intros [H|(H & _)]; [congruence|contradiction].
  - destruct (Bool.eqb_spec (is_mono (mkNode ka va)) (is_mono (mkNode kb vb))) as [Hm|Hm].
    + cbn [kind]. destruct (kspec ka kb) as [->|Hk].
      * split; [right; auto|reflexivity].
      * split; [discriminate|]. intros [H|(_ & _ & H)]; congruence.
    + split; [discriminate|]. intros [H|(_ & H & _)]; congruence.
Qed.

Lemma node_eqb_same_class (a b : node) :
  is_terminal a = is_terminal b -> (node_eqb keqb teqb meqb a b = true <-> a = b).
Proof. intros H. rewrite node_eqb_exact. intuition congruence. Qed.
End Eq.

End Proofs.
