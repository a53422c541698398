(** Proofs about comment blocks. *)
From Coq Require Import ZArith List Bool Lia Sorted.
From Verif Require Import Base StrModel StrSpec StrProofs CommentModel CommentSpec.
Import ListNotations.
Local Open Scope nat_scope.

Lemma lines_of_spec text : exists ls, lines_of text = Ok ls /\ has_lines text ls.
Proof.
  unfold lines_of. destruct (split_char_spec text nl) as (ls & A & B & C1 & C2 & C3). exists ls. split; [exact A|]. split; [exact B|].
  destruct text as [|c text]; [left; auto|]. right.
  destruct (Z.eq_dec (last (c :: text) 0%Z) nl) as [E|E]; [left|right].
  - split; [discriminate|]. split; [|split; [exact E|apply C2; [discriminate|exact E]]].
    intros ->. assert (X : c :: text = [nl]) by (rewrite (C2 ltac:(discriminate) E); reflexivity). rewrite X in A. discriminate A.
  - split; [discriminate|]. split; [exact E|apply C3; [discriminate|exact E]].
Qed.

Lemma find0 line p : find line p 0 = find_rel line p.
Proof. unfold find. cbn. now destruct (find_rel line p). Qed.
Lemma find_some line p i : find line p 0 = Some i <-> first_occurrence p line i.
Proof. rewrite find0. apply find_rel_Some. Qed.
Lemma find_no line p : find line p 0 = None <-> ~ occurs p line.
Proof. rewrite find0. apply find_rel_None. Qed.

Definition best_of (line : list Z) (ps : list (list Z)) (best : option (nat * list Z)) : Prop :=
  match best with
  | None => plain ps line
  | Some (pos, p) => exists ps1 ps2, ps = ps1 ++ p :: ps2 /\ occurs_at p line pos /\
      (forall q j, In q ps -> occurs_at q line j -> pos <= j) /\ forall q, In q ps1 -> ~ occurs_at q line pos
  end.
Lemma leftmost_best line : forall ps seen best, best_of line seen best -> best_of line (seen ++ ps) (leftmost ps line best).
Proof.
  induction ps as [|p ps IH]; intros seen best H; cbn [leftmost]; [now rewrite app_nil_r|].
  replace (seen ++ p :: ps) with ((seen ++ [p]) ++ ps) by now rewrite <- app_assoc. apply IH. clear IH.
  destruct (find line p 0) as [pos|] eqn:F.
  - apply find_some in F. destruct F as [F1 F2]. 
    assert (F3 : forall j, occurs_at p line j -> pos <= j).
    { intros j Hj. destruct (Nat.le_gt_cases pos j) as [L|L]; [exact L|]. exfalso. now apply (F2 j). }
    destruct best as [[old po]|]; cbn in H.
    + destruct H as (ps1 & ps2 & -> & A & B & C). destruct (Nat.ltb_spec pos old) as [L|L]; cbn.
      * exists (ps1 ++ po :: ps2), []. split; [reflexivity|]. split; [exact F1|]. split.
        -- intros q j Hq Hj. apply in_app_or in Hq. destruct Hq as [Hq|[<-|[]]]; [|auto]. specialize (B q j Hq Hj). lia.
        -- intros q Hq Hj. specialize (B q pos Hq Hj). lia.
      * exists ps1, (ps2 ++ [p]). split; [now rewrite <- app_assoc|]. split; [exact A|]. split; [|exact C].
        intros q j Hq Hj. apply in_app_or in Hq. destruct Hq as [Hq|[<-|[]]]; [eauto|]. specialize (F3 j Hj). lia.
    + exists seen, []. split; [reflexivity|]. split; [exact F1|]. split.
      * intros q j Hq Hj. apply in_app_or in Hq. destruct Hq as [Hq|[<-|[]]]; [|auto]. exfalso. apply (H q Hq). now exists j.
      * intros q Hq Hj. apply (H q Hq). now exists pos.
  - apply find_no in F. destruct best as [[old po]|]; cbn in H |- *.
    + destruct H as (ps1 & ps2 & -> & A & B & C). exists ps1, (ps2 ++ [p]). split; [now rewrite <- app_assoc|]. split; [exact A|]. split; [|exact C].
      intros q j Hq Hj. apply in_app_or in Hq. destruct Hq as [Hq|[<-|[]]]; [eauto|]. exfalso. apply F. now exists j.
    + intros q Hq. apply in_app_or in Hq. destruct Hq as [Hq|[<-|[]]]; auto.
Qed.
Lemma leftmost_spec prefixes line : match leftmost prefixes line None with
  | None => plain prefixes line
  | Some (pos, p) => comment prefixes line pos (skipn (pos + length p) line)
  end.
Proof.
  pose proof (leftmost_best line prefixes [] None (fun q H => match H with end)) as H. cbn [app] in H.
  destruct (leftmost prefixes line None) as [[pos p]|]; [|exact H].
  destruct H as (ps1 & ps2 & E & (a & b & L & La) & B & C). exists ps1, p, ps2, a. split; [exact E|].
  split; [|split; [exact La|auto]]. rewrite L at 1. do 2 f_equal. rewrite L, <- La, skipn_app, skipn_all2 by lia. cbn.
  replace (length a + length p - length a) with (length p) by lia. now rewrite skipn_app, skipn_all, Nat.sub_diag.
Qed.

(** ** Runs *)
Definition raw (r : nat * list (nat * list Z)) (f : frag) : Prop :=
  base_line f = fst r /\ (exists c b bs, snd r = (c, b) :: bs /\ base_col f = c) /\ ftext f = join [nl] (map snd (snd r)).

Lemma runs_plain prefixes i l ls rs : plain prefixes l -> runs prefixes (S i) ls rs -> runs prefixes i (l :: ls) rs.
Proof.
  intros P R. inversion R as [i' ls' F|i' ps cs bodies rest rs' F1 F2 F3 F4 F5]; subst.
  - apply runs_none. now constructor.
  - replace (S i + length ps) with (i + length (l :: ps)) in * by (cbn; lia).
    change (l :: ps ++ cs ++ rest) with ((l :: ps) ++ cs ++ rest). apply runs_more; auto.
Qed.

Lemma blocks_runs prefixes : forall lines i done,
  (exists fs rs, blocks prefixes i None done lines = done ++ fs /\ runs prefixes i lines rs /\ Forall2 raw rs fs) /\
  (forall f st bodies, raw (st, bodies) f -> exists fs rs cs bodies' rest f',
     blocks prefixes i (Some f) done lines = done ++ f' :: fs /\ lines = cs ++ rest /\
     Forall2 (fun l b => comment prefixes l (fst b) (snd b)) cs bodies' /\
     (rest = [] \/ exists l r, rest = l :: r /\ plain prefixes l) /\
     raw (st, bodies ++ bodies') f' /\ runs prefixes (i + length cs) rest rs /\ Forall2 raw rs fs).
Proof.
  induction lines as [|line lines IH]; intros i done; cbn [blocks].
  - split.
    + exists [], []. rewrite app_nil_r. repeat split; constructor. constructor.
    + intros f st bodies R. exists [], [], [], [], [], f. rewrite app_nil_r. split; [reflexivity|]. split; [reflexivity|].
      split; [constructor|]. split; [now left|]. split; [now rewrite app_nil_r|]. split; [apply runs_none; constructor|constructor].
  - pose proof (leftmost_spec prefixes line) as L. destruct (leftmost prefixes line None) as [[pos p]|].
    + remember (skipn (pos + length p) line) as text eqn:Ht. split.
      * destruct (proj2 (IH (S i) done) (mkFrag i pos text) i [(pos, text)]) as (fs & rs & cs & bodies' & rest & f' & A & B & C & D & E & F & G).
        { split; [reflexivity|]. split; [exists pos, text, []; auto|]. unfold join. cbn. now rewrite app_nil_r. }
        exists (f' :: fs), ((i, (pos, text) :: bodies') :: rs). split; [exact A|]. split; [|constructor; [exact E|exact G]].
        rewrite B. replace i with (i + length (@nil (list Z))) at 2 by (cbn; lia).
        change (line :: cs ++ rest) with ([] ++ (line :: cs) ++ rest). apply runs_more; [constructor|constructor; auto|discriminate|exact D|].
        cbn [length]. replace (i + 0 + S (length cs)) with (S i + length cs) by lia. exact F.
      * intros f st bodies R.
        destruct (proj2 (IH (S i) done) (mkFrag (base_line f) (base_col f) (ftext f ++ nl :: text)) st (bodies ++ [(pos, text)]))
          as (fs & rs & cs & bodies' & rest & f' & A & B & C & D & E & F & G).
        { destruct R as (R1 & (c & b & bs & R2 & R3) & R4). cbn [snd fst] in *. split; [exact R1|]. split.
          - rewrite R2. exists c, b, (bs ++ [(pos, text)]). auto.
          - cbn [ftext snd]. rewrite map_app. cbn [map snd]. rewrite join_snoc by (rewrite R2; discriminate). now rewrite R4. }
        exists fs, rs, (line :: cs), ((pos, text) :: bodies'), rest, f'. split; [exact A|]. split; [now rewrite B|].
        split; [constructor; auto|]. split; [exact D|]. split; [now rewrite <- app_assoc in E|].
        split; [|exact G]. cbn [length]. now replace (i + S (length cs)) with (S i + length cs) by lia.
    + split.
      * destruct (proj1 (IH (S i) done)) as (fs & rs & A & B & C). exists fs, rs. split; [exact A|]. split; [now apply runs_plain|exact C].
      * intros f st bodies R. destruct (proj1 (IH (S i) (done ++ [f]))) as (fs & rs & A & B & C).
        exists fs, rs, [], [], (line :: lines), f. split; [now rewrite A, <- app_assoc|]. split; [reflexivity|]. split; [constructor|].
        split; [right; eauto|]. split; [now rewrite app_nil_r|]. split; [|exact C]. cbn [length]. rewrite Nat.add_0_r. now apply runs_plain.
Qed.

(** ** Texts of fragments *)
Lemma getline_aux_at t r : ~ In nl t -> getline_aux nl (t ++ nl :: r) = (t, r).
Proof.
  induction t as [|c t IH]; intros H; cbn; [reflexivity|]. destruct (Z.eqb_spec c nl) as [->|N]; [exfalso; apply H; now left|].
  rewrite IH; [reflexivity|]. intros X. apply H. now right.
Qed.
Lemma getline_aux_all t : ~ In nl t -> getline_aux nl t = (t, []).
Proof.
  induction t as [|c t IH]; intros H; cbn; [reflexivity|]. destruct (Z.eqb_spec c nl) as [->|N]; [exfalso; apply H; now left|].
  rewrite IH; [reflexivity|]. intros X. apply H. now right.
Qed.
Lemma lines_of_join ts : ts <> [] -> last ts [] <> [] -> Forall (fun t => ~ In nl t) ts -> lines_of (join [nl] ts) = Ok ts.
Proof.
  intros N L F. unfold lines_of, split_char.
  assert (G : forall ts fuel acc, ts <> [] -> last ts [] <> [] -> Forall (fun t => ~ In nl t) ts -> length (join [nl] ts) < fuel ->
    split_char_loop fuel (join [nl] ts) nl acc = Ok (acc ++ ts)).
  { clear. induction ts as [|t ts IH]; intros fuel acc N L F Hf; [congruence|]. inversion F as [|? ? F1 F2]; subst.
    destruct fuel as [|fuel]; [lia|]. cbn [split_char_loop]. destruct ts as [|t2 ts].
    - assert (J : join [nl] [t] = t) by (unfold join; cbn; apply app_nil_r). rewrite J in *. cbn in L. unfold getline.
      rewrite getline_aux_all by exact F1. destruct t as [|c t]; [congruence|]. destruct fuel; [cbn in Hf; lia|]. reflexivity.
    - assert (J : join [nl] (t :: t2 :: ts) = t ++ nl :: join [nl] (t2 :: ts)).
      { rewrite !join_cons. cbn [flat_map]. now rewrite <- !app_assoc. }
      rewrite J in *. unfold getline. rewrite getline_aux_at by exact F1.
      destruct (t ++ nl :: join [nl] (t2 :: ts)) eqn:Q; [destruct t; discriminate|]. rewrite <- Q in *.
      rewrite IH; [now rewrite <- app_assoc|discriminate|exact L|exact F2|]. rewrite app_length in Hf. cbn [length] in Hf. lia. }
  apply (G ts _ [] N L F). lia.
Qed.

Lemma first_not_blank_spec s : match first_not_blank s with
  | Some i => exists a c b, s = a ++ c :: b /\ length a = i /\ forallb blank a = true /\ blank c = false
  | None => forallb blank s = true
  end.
Proof.
  induction s as [|c s IH]; cbn; [reflexivity|]. destruct (blank c) eqn:B; cbn.
  - destruct (first_not_blank s) as [i|]; cbn; [|exact IH]. destruct IH as (a & c' & b & -> & L & F & N).
    exists (c :: a), c', b. cbn. rewrite B, L. auto.
  - exists [], c, s. auto.
Qed.
Lemma strip_again_none prefixes line : ~ starts_comment prefixes line -> strip_again prefixes line = line.
Proof.
  intros H. assert (G : forall ps, incl ps prefixes -> strip_again ps line = line); [|now apply G].
  induction ps as [|p ps IH]; intros I; cbn [strip_again]; [reflexivity|]. assert (R : strip_again ps line = line) by (apply IH; intros x X; apply I; now right).
  destruct (find line p 0) as [pos|] eqn:F; [|exact R]. pose proof (first_not_blank_spec line) as B. destruct (first_not_blank line) as [st|]; [|exact R].
  destruct (Nat.eqb_spec pos st) as [->|N]; [|exact R]. exfalso. apply H. apply find_some in F. destruct F as [(a & b & L & La) _].
  destruct B as (a' & c & b' & L' & La' & Ba & _). exists p, a, b. split; [apply I; now left|]. split; [exact L|].
  replace a with a'; [exact Ba|]. rewrite L in L'. assert (Q : length a = length a') by lia. clear - L' Q. revert a L' Q.
  induction a' as [|x a' IH]; intros [|y a] E Q; cbn in *; try lia; [reflexivity|]. injection E as -> E. f_equal. apply IH; [exact E|lia].
Qed.
Lemma drop_space_spec t : one_space_off t (drop_space t).
Proof.
  unfold one_space_off. destruct t as [|c t]; cbn; [right; split; [reflexivity|discriminate]|].
  destruct (Z.eqb_spec c 32) as [->|N]; [now left|]. right. split; [reflexivity|]. congruence.
Qed.
Lemma clean_later prefixes ls : (forall t, In t ls -> ~ starts_comment prefixes t) ->
  clean_lines prefixes false ls = flat_map (fun t => [nl] ++ t) (map drop_space ls).
Proof.
  induction ls as [|l ls IH]; intros H; cbn [clean_lines map flat_map]; [reflexivity|].
  rewrite strip_again_none by (apply H; now left). rewrite IH by (intros t Ht; apply H; now right). now rewrite <- app_assoc.
Qed.

Lemma clean_frag prefixes r f : raw r f -> Forall (fun t => ~ In nl t) (map snd (snd r)) ->
  exists ls, lines_of (ftext f) = Ok ls /\ fragment_of prefixes r (mkFrag (base_line f) (base_col f) (clean_lines prefixes true ls)).
Proof.
  intros (R1 & (c & b & bs & R2 & R3) & R4) F. destruct (lines_of_spec (ftext f)) as (ls & A & _). exists ls. split; [exact A|].
  split; [exact R1|]. split; [exists c, b, bs; auto|]. cbn [ftext]. intros L H.
  rewrite R4 in A. rewrite lines_of_join in A; [|rewrite R2; discriminate|exact L|exact F]. injection A as <-.
  exists (map drop_space (map snd (snd r))). split.
  - clear. induction (map snd (snd r)) as [|x l IH]; constructor; [apply drop_space_spec|exact IH].
  - rewrite R2 in *. cbn [map snd tl] in *. cbn [clean_lines app]. rewrite join_cons. rewrite clean_later by exact H. reflexivity.
Qed.

Lemma comment_no_nl prefixes line c b : comment prefixes line c b -> ~ In nl line -> ~ In nl b.
Proof.
  intros (ps & p & ps' & a & _ & -> & _) H X. apply H. apply in_or_app. right. apply in_or_app. now right.
Qed.
Lemma runs_no_nl prefixes i lines rs : runs prefixes i lines rs -> Forall (fun l => ~ In nl l) lines ->
  Forall (fun r => Forall (fun t => ~ In nl t) (map snd (snd r))) rs.
Proof.
  induction 1 as [i ls F0|i ps cs bodies rest rs F1 F2 F3 F4 R IH]; intros H; [constructor|].
  apply Forall_app in H. destruct H as [_ H]. apply Forall_app in H. destruct H as [H1 H2]. constructor; [|auto]. cbn [snd].
  clear - F2 H1. revert H1. induction F2 as [|l b cs bodies C F IH]; intros H1; cbn; [constructor|]. inversion H1 as [|? ? Ha Hb]; subst.
  constructor; [eapply comment_no_nl; eauto|auto].
Qed.

Lemma extract_spec text prefixes : exists lines rs fs, has_lines text lines /\ runs prefixes 0 lines rs /\
  extract text prefixes = Ok fs /\ Forall2 (fragment_of prefixes) rs fs.
Proof.
  destruct (lines_of_spec text) as (lines & A & B). destruct (proj1 (blocks_runs prefixes lines 0 [])) as (raws & rs & C & D & E).
  cbn [app] in C. pose proof (runs_no_nl _ _ _ _ D (proj1 B)) as N.
  assert (G : exists fs, clean_all prefixes raws = Ok fs /\ Forall2 (fragment_of prefixes) rs fs).
  { clear - E N. induction E as [|r f rs raws R E IH]; [exists []; split; [reflexivity|constructor]|]. inversion N; subst.
    destruct (IH ltac:(assumption)) as (fs & G1 & G2). destruct (clean_frag prefixes r f R) as (ls & L1 & L2); [assumption|].
    exists (mkFrag (base_line f) (base_col f) (clean_lines prefixes true ls) :: fs). cbn [clean_all]. rewrite L1. cbn [obind omap]. rewrite G1. split; [reflexivity|].
    constructor; assumption. }
  destruct G as (fs & G1 & G2). exists lines, rs, fs. split; [exact B|]. split; [exact D|]. split; [|exact G2].
  unfold extract. rewrite A. cbn [obind]. now rewrite C.
Qed.

(** ** What runs say about single lines *)
Lemma comment_not_plain prefixes l c b : comment prefixes l c b -> ~ plain prefixes l.
Proof.
  intros (ps & p & ps' & a & -> & -> & La & _) H. apply (H p); [apply in_or_app; right; now left|]. exists c, a, b. auto.
Qed.
Lemma f2_len {A B} (P : A -> B -> Prop) a b : Forall2 P a b -> length a = length b.
Proof. induction 1; cbn; congruence. Qed.
Lemma f2_nth {A B} (P : A -> B -> Prop) a b : Forall2 P a b -> forall i x, nth_error a i = Some x -> exists y, nth_error b i = Some y /\ P x y.
Proof.
  induction 1 as [|x y a b H F IH]; intros [|i] z E; cbn in *; try discriminate; [injection E as <-; eauto|eauto].
Qed.
Lemma runs_bound prefixes i lines rs : runs prefixes i lines rs -> forall r, In r rs -> i <= fst r.
Proof.
  induction 1 as [i ls F0|i ps cs bodies rest rs F1 F2 F3 F4 R IH]; intros r H; [destruct H|]. destruct H as [<-|H]; cbn; [lia|]. specialize (IH r H). lia.
Qed.
Lemma runs_bound_plain prefixes i l r0 rs : plain prefixes l -> runs prefixes i (l :: r0) rs -> forall r, In r rs -> i < fst r.
Proof.
  intros P R. remember (l :: r0) as L eqn:E. destruct R as [i ls F|i ps cs bodies rest rs F1 F2 F3 F4 R]; intros r H; [destruct H|].
  assert (Q : ps <> []).
  { intros ->. cbn in E. destruct F2 as [|l' b cs bodies C _]; [congruence|]. cbn in E. injection E as -> _. now apply comment_not_plain in C. }
  assert (length ps <> 0) by (destruct ps; cbn; congruence).
  destruct H as [<-|H]; cbn; [lia|]. pose proof (runs_bound _ _ _ _ R r H). lia.
Qed.
Lemma runs_nil prefixes i rs : runs prefixes i [] rs -> rs = [].
Proof.
  intros R. remember [] as L eqn:E in R. destruct R as [i ls F|i ps cs bodies rest rs F1 F2 F3 F4 R]; [reflexivity|].
  destruct ps; [|discriminate]. destruct cs; [congruence|discriminate].
Qed.
(** The runs are apart, and a line is in one of them iff it is a comment. *)
Lemma runs_apart prefixes i lines rs : runs prefixes i lines rs ->
  StronglySorted (fun a b => fst a + length (snd a) < fst b) rs.
Proof.
  induction 1 as [i ls F0|i ps cs bodies rest rs F1 F2 F3 F4 R IH]; constructor; [exact IH|]. apply Forall_forall. intros r H. cbn [fst snd].
  rewrite <- (f2_len _ _ _ F2). destruct F4 as [->|(l & r0 & -> & P)].
  - rewrite (runs_nil _ _ _ R) in H. destruct H.
  - pose proof (runs_bound_plain _ _ _ _ _ P R r H). lia.
Qed.
Lemma runs_cover prefixes i lines rs : runs prefixes i lines rs -> forall k line, nth_error lines k = Some line ->
  (~ plain prefixes line <-> exists r, In r rs /\ fst r <= i + k < fst r + length (snd r)) /\
  (forall r j, In r rs -> i + k = fst r + j -> j < length (snd r) -> exists c b, nth_error (snd r) j = Some (c, b) /\ comment prefixes line c b).
Proof.
  induction 1 as [i ls F|i ps cs bodies rest rs F1 F2 F3 F4 R IH]; intros k line H.
  - rewrite Forall_forall in F. apply nth_error_In in H. specialize (F _ H). split; [|intros r j []]. split; [tauto|]. intros (r & [] & _).
  - pose proof (f2_len _ _ _ F2) as FL.
    destruct (Nat.lt_ge_cases k (length ps)) as [L1|L1].
    + rewrite nth_error_app1 in H by exact L1. rewrite Forall_forall in F1. apply nth_error_In in H. specialize (F1 _ H). split.
      * split; [tauto|]. intros (r & [<-|Hr] & Q); cbn [fst snd] in Q; [lia|]. pose proof (runs_bound _ _ _ _ R r Hr). lia.
      * intros r j [<-|Hr] Q _; cbn [fst snd] in *; [lia|]. pose proof (runs_bound _ _ _ _ R r Hr). lia.
    + rewrite nth_error_app2 in H by exact L1. destruct (Nat.lt_ge_cases (k - length ps) (length cs)) as [L2|L2].
      * rewrite nth_error_app1 in H by exact L2. destruct (f2_nth _ _ _ F2 _ _ H) as ([c b] & Y & C). cbn [fst snd] in C. split.
        -- split; [|intros _; now apply comment_not_plain in C]. intros _. exists (i + length ps, bodies). split; [now left|]. cbn [fst snd]. lia.
        -- intros r j [<-|Hr] Q Qj; cbn [fst snd] in *; [|pose proof (runs_bound _ _ _ _ R r Hr); lia].
           replace j with (k - length ps) by lia. eauto.
      * rewrite nth_error_app2 in H by exact L2. destruct (IH _ _ H) as [I1 I2].
        replace (i + length ps + length cs + (k - length ps - length cs)) with (i + k) in * by lia. split.
        -- rewrite I1. split; [intros (r & A & B); exists r; split; [now right|exact B]|].
           intros (r & [<-|Hr] & B); [cbn [fst snd] in B; lia|eauto].
        -- intros r j [<-|Hr] Q Qj; [cbn [fst snd] in *; lia|eauto].
Qed.

Lemma runs_upper prefixes i lines rs : runs prefixes i lines rs -> forall r, In r rs -> fst r + length (snd r) <= i + length lines.
Proof.
  induction 1 as [i ls F0|i ps cs bodies rest rs F1 F2 F3 F4 R IH]; intros r H; [destruct H|].
  rewrite !app_length. destruct H as [<-|H]; cbn [fst snd]; [rewrite <- (f2_len _ _ _ F2); lia|]. specialize (IH r H). lia.
Qed.

(** ** Lines are determined by the text *)
Lemma has_lines_fun text a b : has_lines text a -> has_lines text b -> a = b.
Proof.
  assert (K : forall ls, Forall (fun l => ~ In nl l) ls -> join [nl] ls <> [] -> last (join [nl] ls) 0%Z <> nl ->
    lines_of (join [nl] ls) = Ok ls).
  { intros ls F N L. apply lines_of_join; auto; [intros ->; apply N; reflexivity|]. intros E.
    destruct ls as [|l ls] using rev_ind; [now apply N|]. rewrite last_last in E. subst l. destruct ls as [|x ls]; [now apply N|].
    apply L. rewrite join_snoc by discriminate. cbn [app]. apply last_last. }
  assert (K2 : forall ls, ls <> [] -> Forall (fun l => ~ In nl l) ls -> lines_of ((join [nl] ls ++ [nl]) ++ [65%Z]) = Ok (ls ++ [[65%Z]])).
  { intros ls N F. rewrite <- app_assoc. rewrite <- (join_snoc [nl] ls [65%Z] N). apply lines_of_join.
    - destruct ls; discriminate.
    - rewrite last_last. discriminate.
    - apply Forall_app. split; [exact F|]. constructor; [|constructor]. intros [E|[]]. discriminate E. }
  intros [Fa A] [Fb B]. destruct A as [[-> ->]|[(N & A1 & A2 & A3)|(N & A1 & A2)]], B as [[E ->]|[(M & B1 & B2 & B3)|(M & B1 & B2)]]; try congruence.
  - pose proof (K2 a A1 Fa) as X. pose proof (K2 b B1 Fb) as Y. rewrite <- A3 in X. rewrite <- B3 in Y. rewrite X in Y. injection Y as Y.
    now apply app_inj_tail in Y.
  - rewrite A2 in *. pose proof (K a Fa N A1) as X. rewrite B2 in *. pose proof (K b Fb N A1) as Y. congruence.
Qed.
