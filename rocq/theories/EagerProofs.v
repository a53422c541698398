(** Proofs about the comparison of two trees node by node. *)
From Coq Require Import List Bool Arith ZArith Lia.
From Verif Require Import EagerModel EagerSpec.
Import ListNotations.

(** * Paths *)
Lemma path_eqb_eq (p q : path) : path_eqb p q = true <-> p = q.
Proof. unfold path_eqb. destruct list_eq_dec; split; congruence. Qed.
Lemma path_eqb_neq (p q : path) : path_eqb p q = false <-> p <> q.
Proof. unfold path_eqb. destruct list_eq_dec; split; congruence. Qed.
Lemma path_eqb_refl p : path_eqb p p = true.
Proof. apply path_eqb_eq. reflexivity. Qed.
(** [p] is a proper prefix of [q]. *)
Fixpoint belowb (p q : path) : bool :=
  match p, q with
  | [], [] => false
  | [], _ :: _ => true
  | x :: p', y :: q' => (x =? y) && belowb p' q'
  | _ :: _, [] => false
  end.
Lemma below_spec p q : belowb p q = true <-> exists x r, q = p ++ x :: r.
Proof.
  revert q. induction p as [|a p IH]; intros [|b q]; cbn; split; try discriminate.
  - intros (x & r & E). discriminate.
  - intros _. exists b, q. reflexivity.
  - reflexivity.
  - intros (x & r & E). discriminate.
  - rewrite andb_true_iff, Nat.eqb_eq, IH. intros (-> & x & r & ->). exists x, r. reflexivity.
  - intros (x & r & E). injection E as -> ->. rewrite Nat.eqb_refl. cbn. apply IH. eauto.
Qed.
Lemma below_child p i : belowb p (p ++ [i]) = true.
Proof. apply below_spec. exists i, []. reflexivity. Qed.
Lemma below_up p i q : belowb (p ++ [i]) q = true -> belowb p q = true.
Proof. rewrite !below_spec. intros (x & r & ->). exists i, (x :: r). rewrite <- app_assoc. reflexivity. Qed.
Lemma below_neq p q : belowb p q = true -> p <> q.
Proof. rewrite below_spec. intros (x & r & ->) E. apply (f_equal (@length _)) in E. rewrite app_length in E. cbn in E. lia. Qed.
Lemma below_apart p i j q : belowb (p ++ [i]) q = true -> i <> j -> belowb (p ++ [j]) q = false.
Proof.
  intros B N. destruct (belowb (p ++ [j]) q) eqn:C; [|reflexivity]. exfalso.
  apply below_spec in B as (x & r & ->). apply below_spec in C as (y & r' & E).
  rewrite <- !app_assoc in E. apply app_inv_head in E. cbn in E. injection E as -> _. contradiction.
Qed.
Lemma below_child_no p i j : belowb (p ++ [j]) (p ++ [i]) = false.
Proof.
  destruct (belowb (p ++ [j]) (p ++ [i])) eqn:C; [|reflexivity]. exfalso.
  apply below_spec in C as (y & r' & E). apply (f_equal (@length _)) in E. rewrite !app_length in E. cbn in E. lia.
Qed.
Lemma child_eq (p : path) i j : p ++ [i] = p ++ [j] <-> i = j.
Proof. split; [|congruence]. intros E. apply app_inv_head in E. congruence. Qed.
Lemma child_of_spec p q : child_of p q = true <-> exists i, q = p ++ [i].
Proof.
  unfold child_of. destruct (rev q) as [|x r] eqn:E.
  - split; [discriminate|]. intros (i & ->). rewrite rev_app_distr in E. discriminate.
  - rewrite path_eqb_eq. apply (f_equal (@rev _)) in E. rewrite rev_involutive in E. cbn in E. subst q. split.
    + intros ->. eauto.
    + intros (i & H). apply app_inj_tail in H as [H _]. congruence.
Qed.
Lemma child_below p q : child_of p q = true -> belowb p q = true.
Proof. rewrite child_of_spec. intros (i & ->). apply below_child. Qed.
Lemma child_of_below p i q : belowb (p ++ [i]) q = true -> child_of p q = false.
Proof.
  intros B. destruct (child_of p q) eqn:C; [|reflexivity]. apply child_of_spec in C as (j & ->).
  rewrite below_child_no in B. discriminate.
Qed.

(** * Lists *)
Lemma find_filter {B} (f g : B -> bool) l : (forall x, f x = true -> g x = true) -> find f (filter g l) = find f l.
Proof.
  intros H. induction l as [|x l IH]; cbn; [reflexivity|]. destruct (g x) eqn:G; cbn.
  - rewrite IH. reflexivity.
  - destruct (f x) eqn:F; [rewrite (H _ F) in G; discriminate|]. apply IH.
Qed.
Lemma filter_filter {B} (f g : B -> bool) l : (forall x, f x = true -> g x = true) -> filter f (filter g l) = filter f l.
Proof.
  intros H. induction l as [|x l IH]; cbn; [reflexivity|]. destruct (g x) eqn:G; cbn.
  - rewrite IH. reflexivity.
  - destruct (f x) eqn:F; [rewrite (H _ F) in G; discriminate|]. apply IH.
Qed.
Lemma existsb_filter {B} (f g : B -> bool) l : (forall x, f x = true -> g x = true) -> existsb f (filter g l) = existsb f l.
Proof.
  intros H. induction l as [|x l IH]; cbn; [reflexivity|]. destruct (g x) eqn:G; cbn.
  - rewrite IH. reflexivity.
  - destruct (f x) eqn:F; [rewrite (H _ F) in G; discriminate|]. apply IH.
Qed.
Lemma filter_none {B} (f : B -> bool) l : (forall x, In x l -> f x = false) -> filter f l = [].
Proof.
  induction l as [|x l IH]; intros H; cbn; [reflexivity|]. rewrite (H x) by (left; reflexivity).
  apply IH. intros y I. apply H. right. exact I.
Qed.
Lemma filter_same {B} (f : B -> bool) l : (forall x, In x l -> f x = true) -> filter f l = l.
Proof.
  induction l as [|x l IH]; intros H; cbn; [reflexivity|]. rewrite (H x) by (left; reflexivity).
  f_equal. apply IH. intros y I. apply H. right. exact I.
Qed.
Lemma find_app_none {B} (f : B -> bool) l m : (forall x, In x l -> f x = false) -> find f (l ++ m) = find f m.
Proof.
  induction l as [|x l IH]; intros H; cbn; [reflexivity|]. rewrite (H x) by (left; reflexivity).
  apply IH. intros y I. apply H. right. exact I.
Qed.
Lemma find_none_all {B} (f : B -> bool) l : (forall x, In x l -> f x = false) -> find f l = None.
Proof. intros H. rewrite <- (app_nil_r l). rewrite find_app_none by exact H. reflexivity. Qed.
Lemma existsb_none {B} (f : B -> bool) l : (forall x, In x l -> f x = false) -> existsb f l = false.
Proof.
  induction l as [|x l IH]; intros H; cbn; [reflexivity|]. rewrite (H x) by (left; reflexivity).
  apply IH. intros y I. apply H. right. exact I.
Qed.
Lemma mem_in i l : mem i l = true <-> In i l.
Proof.
  unfold mem. rewrite existsb_exists. split.
  - intros (x & I & E). apply Nat.eqb_eq in E. subst. exact I.
  - intros I. exists i. split; [exact I|apply Nat.eqb_refl].
Qed.
Lemma mem_out i l : mem i l = false <-> ~ In i l.
Proof. rewrite <- mem_in. destruct (mem i l); split; congruence. Qed.

Section Proofs.
Context {A : Type}.
Variable kind : A -> Z.
Variable equal : A -> A -> bool.
Notation diff := (diff_subnodes kind equal).

Lemma tree_ind' (P : tree A -> Prop) : (forall v l, Forall P l -> P (T v l)) -> forall t, P t.
Proof.
  intros H. fix IH 1. intros [v l]. apply H. induction l as [|x l IHl]; constructor; [apply IH|exact IHl].
Qed.
Lemma in_indexed (l : list (tree A)) i t : In (i, t) (indexed l) <-> nth_error l i = Some t.
Proof.
  unfold indexed. assert (G : forall l k, In (i, t) (combine (seq k (length l)) l) <-> k <= i /\ nth_error l (i - k) = Some t).
  { clear. induction l as [|x l IH]; intros k; cbn.
    - split; [tauto|]. intros [_ E]. destruct (i - k); discriminate.
    - rewrite IH. split.
      + intros [E|[L E]].
        * injection E as -> ->. rewrite Nat.sub_diag. split; [lia|reflexivity].
        * split; [lia|]. replace (i - k) with (S (i - S k)) by lia. exact E.
      + intros [L E]. destruct (Nat.eq_dec i k) as [->|N].
        * rewrite Nat.sub_diag in E. injection E as ->. left. reflexivity.
        * right. split; [lia|]. replace (i - k) with (S (i - S k)) in E by lia. exact E. }
  rewrite G. rewrite Nat.sub_0_r. split; [tauto|]. intros E. split; [lia|exact E].
Qed.

(** * The match of a child *)
Definition fits (d : tree A) (ss : list (tree A)) (ps : list nat) (j : nat) : Prop :=
  mem j ps = false /\ exists y, nth_error ss j = Some y /\ same_kind kind y d = true.
Definition cand_ok (d : tree A) ss ps (o : option candidate) : Prop := match o with Some (k, _) => fits d ss ps k | None => True end.
Definition cands_ok d ss ps (st : option candidate * option candidate * option candidate) : Prop :=
  let '(ex, dia, mv) := st in cand_ok d ss ps ex /\ cand_ok d ss ps dia /\ cand_ok d ss ps mv.
Lemma look_ok d i ss ps st k s : In (k, s) (indexed ss) -> cands_ok d ss ps st -> cands_ok d ss ps (look kind equal d i ps st (k, s)).
Proof.
  intros I C. destruct st as [[ex dia] mv]. unfold look.
  destruct (mem k ps || negb (same_kind kind s d)) eqn:M; [exact C|].
  apply orb_false_iff in M as [M K]. apply negb_false_iff in K.
  assert (F : fits d ss ps k). { split; [exact M|]. exists s. split; [apply in_indexed; exact I|exact K]. }
  destruct C as (C1 & C2 & C3). destruct (equal (val s) (val d)).
  - destruct (negb (k =? i)); [|unfold cands_ok; auto].
    destruct mv as [[m []]|]; unfold cands_ok; auto.
  - destruct ex; [unfold cands_ok; auto|]. destruct dia; unfold cands_ok; auto.
Qed.
Lemma best_fits d i ss ps j b : best_match kind equal d i ss ps = Some (j, b) -> fits d ss ps j.
Proof.
  unfold best_match.
  assert (G : forall l st, (forall p, In p l -> In p (indexed ss)) -> cands_ok d ss ps st ->
     cands_ok d ss ps (fold_left (look kind equal d i ps) l st)).
  { induction l as [|[k s] l IH]; intros st Hl C; [exact C|]. cbn [fold_left]. apply IH.
    - intros p Ip. apply Hl. right. exact Ip.
    - apply look_ok; [apply Hl; left; reflexivity|exact C]. }
  specialize (G (indexed ss) (None, None, None) (fun p I => I) (conj I (conj I I))).
  destruct (fold_left (look kind equal d i ps) (indexed ss) (None, None, None)) as [[ex dia] mv].
  destruct G as (G1 & G2 & G3).
  assert (H : match ex, dia with
      | Some c, _ => Some c
      | None, Some c => Some c
      | None, None => match find_by_kind kind d ss ps with Some si => Some (si, false) | None => None end
      end = Some (j, b) -> fits d ss ps j).
  { destruct ex as [[k c]|]; [intros E; injection E as -> ->; exact G1|].
    destruct dia as [[k c]|]; [intros E; injection E as -> ->; exact G2|].
    unfold find_by_kind. destruct find as [[k s]|] eqn:F; cbn; [|discriminate]. intros E. injection E as -> _.
    apply find_some in F as [F K]. cbn in K. apply andb_true_iff in K as [K1 K2]. apply negb_true_iff in K1.
    split; [exact K1|]. exists s. split; [apply in_indexed; exact F|exact K2]. }
  destruct mv as [[k []]|]; [intros E; injection E as -> _; exact G3|exact H|exact H].
Qed.

(** * The edits of one level *)
Definition seg (ss : list (tree A)) (sp dp : path) (i : nat) (x : tree A) (o : option nat) : list edit :=
  match o with
  | None => [Insert (dp ++ [i]) i]
  | Some j =>
      match nth_error ss j with
      | Some y => diff y x (sp ++ [j]) (dp ++ [i]) ++ matched_edit equal y x sp dp j i
      | None => []
      end
  end.
Fixpoint segs (ss : list (tree A)) (sp dp : path) (i : nat) (l : list (tree A)) (m : list (option nat)) : list edit :=
  match l, m with
  | x :: l', o :: m' => seg ss sp dp i x o ++ segs ss sp dp (S i) l' m'
  | _, _ => []
  end.
Definition somes (m : list (option nat)) : list nat := flat_map (fun o => match o with Some j => [j] | None => [] end) m.
Definition deletes (ss : list (tree A)) (sp : path) (ps : list nat) : list edit :=
  map (fun j => Delete (sp ++ [j]) j) (filter (fun j => negb (mem j ps)) (seq 0 (length ss))).
Definition matched (ss : list (tree A)) (x : tree A) (o : option nat) : Prop :=
  match o with None => True | Some j => exists y, nth_error ss j = Some y /\ same_kind kind y x = true end.
(** The place of the first tree that each child is matched with *)
Fixpoint assign (ss ds : list (tree A)) (i : nat) (l : list (tree A)) (ps pd : list nat) : list (option nat) :=
  match l with
  | [] => []
  | x :: r =>
      match best_match kind equal x i ss ps with
      | None => None :: assign ss ds (S i) r ps (i :: pd)
      | Some (j, _) =>
          if prefer_insert equal x ds pd (count_unprocessed equal x ss ps) then None :: assign ss ds (S i) r ps (i :: pd)
          else Some j :: assign ss ds (S i) r (j :: ps) (i :: pd)
      end
  end.
Lemma loop_segs ss ds sp dp l : forall i ps pd, (forall k, In k pd -> k < i) ->
  let m := assign ss ds i l ps pd in
  Forall2 (matched ss) l m /\ NoDup (somes m) /\ (forall j, In j (somes m) -> ~ In j ps) /\
  children_loop kind equal diff ss ds sp dp i l ps pd = segs ss sp dp i l m ++ deletes ss sp (rev (somes m) ++ ps).
Proof.
  induction l as [|x l IH]; intros i ps pd Hpd.
  - cbn. split; [constructor|]. split; [constructor|]. split; [tauto|]. reflexivity.
  - cbn [children_loop assign].
    assert (Mi : mem i pd = false). { apply mem_out. intros I. specialize (Hpd _ I). lia. }
    rewrite Mi.
    assert (Hpd' : forall k, In k (i :: pd) -> k < S i). { intros k [->|I]; [lia|]. specialize (Hpd _ I). lia. }
    assert (Ins : let m := None :: assign ss ds (S i) l ps (i :: pd) in
      Forall2 (matched ss) (x :: l) m /\ NoDup (somes m) /\ (forall j, In j (somes m) -> ~ In j ps) /\
      Insert (dp ++ [i]) i :: children_loop kind equal diff ss ds sp dp (S i) l ps (i :: pd) =
      segs ss sp dp i (x :: l) m ++ deletes ss sp (rev (somes m) ++ ps)).
    { destruct (IH (S i) ps (i :: pd) Hpd') as (F & N & D & E).
      split; [constructor; [exact I|exact F]|]. split; [exact N|]. split; [exact D|]. cbn [segs seg somes flat_map app].
      rewrite E. reflexivity. }
    destruct (best_match kind equal x i ss ps) as [[j b]|] eqn:B; [|exact Ins].
    destruct prefer_insert; [exact Ins|].
    destruct (best_fits _ _ _ _ _ _ B) as (Mj & y & Ey & Ky). rewrite Ey.
    destruct (IH (S i) (j :: ps) (i :: pd) Hpd') as (F & N & D & E). set (m := assign ss ds (S i) l (j :: ps) (i :: pd)) in *.
    split; [constructor; [cbn; eauto|exact F]|]. cbn [somes flat_map app].
    fold (somes m). split. { constructor; [|exact N]. intros I. apply (D _ I). left. reflexivity. }
    split. { intros k [<-|I]; [apply mem_out; exact Mj|]. intros P. apply (D _ I). right. exact P. }
    cbn [segs seg]. rewrite Ey, E, <- !app_assoc. do 2 f_equal. f_equal. cbn [rev]. rewrite <- app_assoc. reflexivity.
Qed.
Lemma diff_segs sv ss dv ds sp dp : kind sv = kind dv ->
  let m := assign ss ds 0 ds [] [] in
  Forall2 (matched ss) ds m /\ NoDup (somes m) /\
  diff (T sv ss) (T dv ds) sp dp = segs ss sp dp 0 ds m ++ deletes ss sp (rev (somes m)).
Proof.
  intros K. cbn [diff_subnodes]. destruct ((length ss =? 0) && (length ds =? 0)) eqn:Z.
  - apply andb_true_iff in Z as [Z1 Z2]. apply Nat.eqb_eq in Z1, Z2. destruct ss; [|discriminate]. destruct ds; [|discriminate].
    split; [constructor|]. split; [constructor|]. reflexivity.
  - rewrite K, Z.eqb_refl. cbn [negb].
    destruct (loop_segs ss ds sp dp ds 0 [] [] (fun k I => match I with end)) as (F & N & _ & E).
    split; [exact F|]. split; [exact N|]. rewrite E, app_nil_r. reflexivity.
Qed.
Lemma diff_kind sv ss dv ds sp dp : kind sv <> kind dv -> diff (T sv ss) (T dv ds) sp dp = [].
Proof.
  intros K. cbn [diff_subnodes]. destruct (_ && _); [reflexivity|]. apply Z.eqb_neq in K. rewrite K. reflexivity.
Qed.

(** Edits that are about nodes below the two places *)
Definition rel (sp dp : path) (e : edit) : bool :=
  match e with
  | Delete s _ => belowb sp s
  | Insert d _ => belowb dp d
  | Move _ d _ _ => belowb dp d
  | Update _ d _ _ => belowb dp d
  end.
Lemma rel_up sp dp i j e : rel (sp ++ [j]) (dp ++ [i]) e = true -> rel sp dp e = true.
Proof. destruct e; cbn; apply below_up. Qed.
Lemma in_segs ss sp dp l : forall i m e, In e (segs ss sp dp i l m) ->
  exists k x o, nth_error l k = Some x /\ nth_error m k = Some o /\ In e (seg ss sp dp (i + k) x o).
Proof.
  induction l as [|x l IH]; intros i m e I; [destruct m; contradiction|]. destruct m as [|o m]; [contradiction|].
  cbn [segs] in I. apply in_app_iff in I as [I|I].
  - exists 0, x, o. rewrite Nat.add_0_r. auto.
  - apply IH in I as (k & x' & o' & H1 & H2 & H3). exists (S k), x', o'. replace (i + S k) with (S i + k) by lia. auto.
Qed.
Lemma in_deletes ss sp ps e : In e (deletes ss sp ps) -> exists j, e = Delete (sp ++ [j]) j /\ j < length ss /\ ~ In j ps.
Proof.
  unfold deletes. rewrite in_map_iff. intros (j & <- & I). apply filter_In in I as [I N]. apply in_seq in I.
  apply negb_true_iff, mem_out in N. exists j. split; [reflexivity|]. split; [lia|exact N].
Qed.
Lemma in_matched s d sp dp i j e : In e (matched_edit equal s d sp dp j i) ->
  target e = Some (dp ++ [i]).
Proof.
  unfold matched_edit. destruct equal.
  - destruct (j =? i); [contradiction|]. intros [<-|[]]. reflexivity.
  - intros [<-|[]]. reflexivity.
Qed.
Lemma rel_target sp dp e p : target e = Some p -> rel sp dp e = belowb dp p.
Proof. destruct e; cbn; intros E; try discriminate; injection E as ->; reflexivity. Qed.
Lemma diff_rel d : forall s sp dp e, In e (diff s d sp dp) -> rel sp dp e = true.
Proof.
  induction d as [dv ds IH] using tree_ind'. intros [sv ss] sp dp e I.
  destruct (Z.eq_dec (kind sv) (kind dv)) as [K|K]; [|rewrite diff_kind in I by exact K; contradiction].
  destruct (diff_segs sv ss dv ds sp dp K) as (F & N & E). set (m := assign ss ds 0 ds [] []) in *. rewrite E in I. clear E.
  apply in_app_iff in I as [I|I].
  - apply in_segs in I as (k & x & o & Ex & Eo & I). cbn [Nat.add] in I. destruct o as [j|]; cbn [seg] in I.
    + destruct (nth_error ss j) as [y|]; [|contradiction]. apply in_app_iff in I as [I|I].
      * apply rel_up with (i := k) (j := j). eapply Forall_forall in IH; [|eapply nth_error_In; exact Ex]. apply (IH _ _ _ _ I).
      * rewrite (rel_target _ _ _ _ (in_matched _ _ _ _ _ _ _ I)). apply below_child.
    + destruct I as [<-|[]]. cbn. apply below_child.
  - apply in_deletes in I as (j & -> & _). cbn. apply below_child.
Qed.
Lemma rel_apart sp dp i j i' j' e : rel (sp ++ [j]) (dp ++ [i]) e = true -> i <> i' -> j <> j' -> rel (sp ++ [j']) (dp ++ [i']) e = false.
Proof. intros R Ni Nj. destruct e; cbn in *; eapply below_apart; eauto. Qed.

Lemma diff_placed d : forall s sp dp e, In e (diff s d sp dp) -> placed e.
Proof.
  induction d as [dv ds IH] using tree_ind'. intros [sv ss] sp dp e I.
  destruct (Z.eq_dec (kind sv) (kind dv)) as [K|K]; [|rewrite diff_kind in I by exact K; contradiction].
  destruct (diff_segs sv ss dv ds sp dp K) as (F & N & E). rewrite E in I. clear E.
  apply in_app_iff in I as [I|I].
  - apply in_segs in I as (k & x & o & Ex & Eo & I). cbn [Nat.add] in I. destruct o as [j|]; cbn [seg] in I.
    + destruct (nth_error ss j) as [y|]; [|contradiction]. apply in_app_iff in I as [I|I].
      * eapply Forall_forall in IH; [|eapply nth_error_In; exact Ex]. apply (IH _ _ _ _ I).
      * unfold matched_edit in I. destruct equal; [destruct (j =? k); [contradiction|]|]; destruct I as [<-|[]]; cbn; eauto.
    + destruct I as [<-|[]]. cbn. eauto.
  - apply in_deletes in I as (j & -> & _). cbn. eauto.
Qed.
Lemma edits_placed s d e : In e (get_edits kind equal s d) -> placed e.
Proof.
  unfold get_edits. rewrite in_app_iff. intros [I|I]; [apply (diff_placed _ _ _ _ _ I)|].
  destruct equal; [contradiction|]. destruct I as [<-|[]]. cbn. right. auto.
Qed.

(** What comes to the place of a child *)
Definition own (ss : list (tree A)) (sp dp : path) (i : nat) (x : tree A) (o : option nat) : option edit :=
  match o with
  | None => Some (Insert (dp ++ [i]) i)
  | Some j => match nth_error ss j with Some y => hd_error (matched_edit equal y x sp dp j i) | None => None end
  end.
Lemma about_target p e : about p e = true <-> target e = Some p.
Proof. unfold about. destruct (target e); [rewrite path_eqb_eq|]; split; congruence. Qed.
Lemma diff_target s d sp dp e p : In e (diff s d sp dp) -> target e = Some p -> belowb dp p = true.
Proof. intros I E. rewrite <- (rel_target sp _ _ _ E). apply (diff_rel _ _ _ _ _ I). Qed.
Lemma seg_target ss sp dp i x o e p : In e (seg ss sp dp i x o) -> target e = Some p -> p = dp ++ [i] \/ belowb (dp ++ [i]) p = true.
Proof.
  destruct o as [j|]; cbn [seg].
  - destruct (nth_error ss j) as [y|]; [|contradiction]. intros I E. apply in_app_iff in I as [I|I].
    + right. apply (diff_target _ _ _ _ _ _ I E).
    + left. apply in_matched in I. congruence.
  - intros [<-|[]] E. cbn in E. left. congruence.
Qed.
Lemma seg_about ss sp dp i x o e i' : In e (seg ss sp dp i x o) -> i <> i' -> about (dp ++ [i']) e = false.
Proof.
  intros I N. destruct (about (dp ++ [i']) e) eqn:B; [|reflexivity]. exfalso. apply about_target in B.
  destruct (seg_target _ _ _ _ _ _ _ _ I B) as [E|E].
  - apply child_eq in E. congruence.
  - rewrite below_child_no in E. discriminate.
Qed.
Lemma find_seg ss sp dp i x o : find (about (dp ++ [i])) (seg ss sp dp i x o) = own ss sp dp i x o.
Proof.
  destruct o as [j|]; cbn [seg own].
  - destruct (nth_error ss j) as [y|]; [|reflexivity]. rewrite find_app_none.
    + unfold matched_edit. destruct equal; [destruct (j =? i)|]; cbn; unfold about; cbn; rewrite ?path_eqb_refl; reflexivity.
    + intros e I. destruct (about (dp ++ [i]) e) eqn:B; [|reflexivity]. exfalso. apply about_target in B.
      pose proof (diff_target _ _ _ _ _ _ I B) as L. apply below_neq in L. congruence.
  - cbn. unfold about. cbn. rewrite path_eqb_refl. reflexivity.
Qed.
Lemma find_app {B} (f : B -> bool) l m : find f (l ++ m) = match find f l with Some x => Some x | None => find f m end.
Proof. induction l as [|x l IH]; cbn; [reflexivity|]. destruct (f x); [reflexivity|exact IH]. Qed.
Lemma find_segs ss sp dp ps l : forall i m k x o, nth_error l k = Some x -> nth_error m k = Some o ->
  find (about (dp ++ [i + k])) (segs ss sp dp i l m ++ deletes ss sp ps) = own ss sp dp (i + k) x o.
Proof.
  assert (Hd : forall p, find (about p) (deletes ss sp ps) = None).
  { intros p. apply find_none_all. intros e I. apply in_deletes in I as (j & -> & _). reflexivity. }
  assert (Hl : forall l i m k, k < i -> find (about (dp ++ [k])) (segs ss sp dp i l m) = None).
  { clear. induction l as [|x l IH]; intros i m k L; [destruct m; reflexivity|]. destruct m as [|o m]; [reflexivity|]. cbn [segs].
    rewrite find_app_none; [apply IH; lia|]. intros e I. eapply seg_about; [exact I|lia]. }
  induction l as [|x l IH]; intros i m k x' o E1 E2; [destruct k; discriminate|].
  destruct m as [|o' m]; [destruct k; discriminate|]. cbn [segs]. rewrite <- app_assoc. destruct k as [|k]; cbn in E1, E2.
  - injection E1 as ->. injection E2 as ->. rewrite Nat.add_0_r. rewrite find_app, find_seg.
    destruct own; [reflexivity|]. rewrite find_app, Hl by lia. apply Hd.
  - rewrite find_app_none; [|intros e I; eapply seg_about; [exact I|lia]].
    replace (i + S k) with (S i + k) by lia. apply IH; assumption.
Qed.
Lemma seg_filter ss sp dp i x o i' j' : i <> i' -> o <> Some j' -> filter (rel (sp ++ [j']) (dp ++ [i'])) (seg ss sp dp i x o) = [].
Proof.
  intros Ni Nj. apply filter_none. intros e I. destruct o as [j|]; cbn [seg] in I.
  - destruct (nth_error ss j) as [y|]; [|contradiction]. apply in_app_iff in I as [I|I].
    + eapply rel_apart; [apply (diff_rel _ _ _ _ _ I)|exact Ni|congruence].
    + rewrite (rel_target _ _ _ _ (in_matched _ _ _ _ _ _ _ I)). apply below_child_no.
  - destruct I as [<-|[]]. cbn. apply below_child_no.
Qed.
Lemma seg_filter_own ss sp dp i x j y : nth_error ss j = Some y ->
  filter (rel (sp ++ [j]) (dp ++ [i])) (seg ss sp dp i x (Some j)) = diff y x (sp ++ [j]) (dp ++ [i]).
Proof.
  intros E. cbn [seg]. rewrite E, filter_app, filter_same, filter_none, app_nil_r; [reflexivity| |].
  - intros e I. rewrite (rel_target _ _ _ _ (in_matched _ _ _ _ _ _ _ I)). apply below_child_no.
  - intros e I. apply (diff_rel _ _ _ _ _ I).
Qed.
Lemma in_somes m k j : nth_error m k = Some (Some j) -> In j (somes m).
Proof. intros E. apply in_flat_map. exists (Some j). split; [eapply nth_error_In; exact E|left; reflexivity]. Qed.
Lemma somes_in m j : In j (somes m) -> exists k, nth_error m k = Some (Some j).
Proof.
  intros I. apply in_flat_map in I as ([i|] & I & H); [|contradiction]. destruct H as [->|[]]. apply In_nth_error in I. exact I.
Qed.
Lemma filter_segs ss sp dp l : forall i m k x j y, Forall2 (matched ss) l m -> NoDup (somes m) ->
  nth_error l k = Some x -> nth_error m k = Some (Some j) -> nth_error ss j = Some y ->
  filter (rel (sp ++ [j]) (dp ++ [i + k])) (segs ss sp dp i l m) = diff y x (sp ++ [j]) (dp ++ [i + k]).
Proof.
  assert (Hl : forall l i m k j, k < i -> ~ In j (somes m) -> filter (rel (sp ++ [j]) (dp ++ [k])) (segs ss sp dp i l m) = []).
  { clear. induction l as [|x l IH]; intros i m k j L N; [destruct m; reflexivity|]. destruct m as [|o m]; [reflexivity|]. cbn [segs].
    rewrite filter_app, seg_filter, IH; [reflexivity|lia| |lia|].
    - intros I. apply N. cbn. apply in_app_iff. right. exact I.
    - intros ->. apply N. left. reflexivity. }
  induction l as [|x l IH]; intros i m k x' j y F N E1 E2 Ey; [destruct k; discriminate|].
  destruct m as [|o m]; [destruct k; discriminate|]. inversion F as [|? ? ? ? F1 F2]; subst. clear F. cbn [segs]. rewrite filter_app.
  destruct k as [|k]; cbn in E1, E2.
  - injection E1 as ->. injection E2 as ->. rewrite Nat.add_0_r, (seg_filter_own _ _ _ _ _ _ _ Ey), Hl, app_nil_r; [reflexivity|lia|].
    cbn in N. inversion N; assumption.
  - rewrite seg_filter; [|lia|].
    + cbn [app]. replace (i + S k) with (S i + k) by lia. apply IH; try assumption.
      destruct o as [i0|]; cbn in N; [inversion N; assumption|exact N].
    + intros ->. cbn in N. inversion N as [|? ? N1 N2]. subst. apply N1. eapply in_somes. exact E2.
Qed.
Lemma filter_deletes ss sp dp ps i j : filter (rel (sp ++ [j]) (dp ++ [i])) (deletes ss sp ps) = [].
Proof. apply filter_none. intros e I. apply in_deletes in I as (k & -> & _). cbn. apply below_child_no. Qed.

Definition inserted (dp : path) (e : edit) : bool := match e with Insert d _ => child_of dp d | _ => false end.
Definition dropped (sp : path) (e : edit) : bool := match e with Delete s _ => child_of sp s | _ => false end.
Lemma inserted_rel sp dp e : inserted dp e = true -> rel sp dp e = true.
Proof. destruct e; cbn; try discriminate. apply child_below. Qed.
Lemma dropped_rel sp dp e : dropped sp e = true -> rel sp dp e = true.
Proof. destruct e; cbn; try discriminate. apply child_below. Qed.
Lemma added_segs ss sp dp l : forall i m, Forall2 (matched ss) l m ->
  length (filter (inserted dp) (segs ss sp dp i l m)) + length (somes m) = length l.
Proof.
  induction l as [|x l IH]; intros i m F; inversion F as [|? o ? m' F1 F2]; subst; [reflexivity|]. cbn [segs].
  rewrite filter_app, app_length. specialize (IH (S i) m' F2). destruct o as [j|]; cbn [seg somes flat_map app].
  - fold (somes m'). destruct F1 as (y & -> & _). rewrite filter_none; [cbn; lia|]. intros e I. destruct (inserted dp e) eqn:N; [|reflexivity].
    exfalso. apply in_app_iff in I as [I|I].
    + destruct e; try discriminate. cbn in N. pose proof (diff_target _ _ _ _ _ _ I eq_refl) as Q. apply child_of_below in Q. congruence.
    + unfold matched_edit in I. destruct equal; [destruct (j =? i); [contradiction|]|]; destruct I as [<-|[]]; discriminate.
  - fold (somes m'). cbn [filter inserted]. assert (C : child_of dp (dp ++ [i]) = true) by (apply child_of_spec; eauto). rewrite C. cbn. lia.
Qed.
Lemma added_deletes ss sp dp ps : filter (inserted dp) (deletes ss sp ps) = [].
Proof. apply filter_none. intros e I. apply in_deletes in I as (k & -> & _). reflexivity. Qed.
Lemma removed_segs ss sp dp l : forall i m, filter (dropped sp) (segs ss sp dp i l m) = [].
Proof.
  intros i m. apply filter_none. intros e I. apply in_segs in I as (k & x & o & _ & _ & I). destruct (dropped sp e) eqn:N; [|reflexivity].
  exfalso. destruct o as [j|]; cbn [seg] in I.
  - destruct (nth_error ss j) as [y|]; [|contradiction]. apply in_app_iff in I as [I|I].
    + destruct e; try discriminate. cbn in N. apply diff_rel in I. cbn in I. apply child_of_below in I. congruence.
    + unfold matched_edit in I. destruct equal; [destruct (j =? i + k); [contradiction|]|]; destruct I as [<-|[]]; discriminate.
  - destruct I as [<-|[]]. discriminate.
Qed.
Lemma filter_out n (ps : list nat) : NoDup ps -> (forall j, In j ps -> j < n) ->
  length (filter (fun j => negb (mem j ps)) (seq 0 n)) + length ps = n.
Proof.
  intros N L.
  assert (P : length (filter (fun j => mem j ps) (seq 0 n)) = length ps).
  { assert (I1 : incl ps (filter (fun j => mem j ps) (seq 0 n))).
    { intros j I. apply filter_In. split; [apply in_seq; specialize (L _ I); lia|apply mem_in; exact I]. }
    assert (I2 : incl (filter (fun j => mem j ps) (seq 0 n)) ps).
    { intros j I. apply filter_In in I as [_ I]. apply mem_in. exact I. }
    apply NoDup_incl_length in I1; [|exact N]. apply NoDup_incl_length in I2; [lia|]. apply NoDup_filter, seq_NoDup. }
  assert (Q : forall l, length (filter (fun j => negb (mem j ps)) l) + length (filter (fun j => mem j ps) l) = length l).
  { induction l as [|x l IH]; [reflexivity|]. cbn. destruct (mem x ps); cbn; lia. }
  specialize (Q (seq 0 n)). rewrite seq_length in Q. lia.
Qed.
Lemma removed_deletes ss sp ps : NoDup ps -> (forall j, In j ps -> j < length ss) ->
  length (filter (dropped sp) (deletes ss sp ps)) + length ps = length ss.
Proof.
  intros N L. rewrite filter_same.
  - unfold deletes. rewrite map_length. apply filter_out; assumption.
  - intros e I. apply in_deletes in I as (j & -> & _). cbn. apply child_of_spec. eauto.
Qed.
Lemma node_at_child (t : tree A) p x i c : node_at t p = Some x -> nth_error (sub x) i = Some c -> node_at t (p ++ [i]) = Some c.
Proof.
  revert t. induction p as [|k p IH]; intros t E Ec; cbn in *.
  - injection E as ->. rewrite Ec. reflexivity.
  - destruct (nth_error (sub t) k); [|discriminate]. apply IH; assumption.
Qed.
Lemma all_map {B C} (f : nat -> option B) (Q : B -> C -> Prop) (l : list C) : forall k,
  (forall i c, nth_error l i = Some c -> exists x, f (k + i) = Some x /\ Q x c) ->
  exists q, all (map f (seq k (length l))) = Some q /\ Forall2 Q q l.
Proof.
  induction l as [|c l IH]; intros k H; cbn.
  - exists []. split; [reflexivity|constructor].
  - destruct (H 0 c eq_refl) as (x & E & Qx). rewrite Nat.add_0_r in E. rewrite E.
    destruct (IH (S k)) as (q & Eq & F).
    { intros i c' Ec. destruct (H (S i) c' Ec) as (x' & E' & Q'). exists x'. split; [|exact Q']. rewrite <- E'. f_equal. lia. }
    rewrite Eq. exists (x :: q). split; [reflexivity|]. constructor; assumption.
Qed.
Lemma f2_nth {B C} (P : B -> C -> Prop) l m k x : Forall2 P l m -> nth_error l k = Some x -> exists y, nth_error m k = Some y /\ P x y.
Proof.
  intros F. revert k. induction F as [|a b l m Pab F IH]; intros [|k] E; cbn in *; try discriminate.
  - injection E as ->. eauto.
  - apply IH. exact E.
Qed.
Lemma f2_nth_r {B C} (P : B -> C -> Prop) l m k y : Forall2 P l m -> nth_error m k = Some y -> exists x, nth_error l k = Some x /\ P x y.
Proof.
  intros F. revert k. induction F as [|a b l m Pab F IH]; intros [|k] E; cbn in *; try discriminate.
  - injection E as ->. eauto.
  - apply IH. exact E.
Qed.
Lemma alike_refl : (forall v, equal v v = true) -> forall t : tree A, alike equal t t.
Proof.
  intros R. induction t as [v l IH] using tree_ind'. constructor; [apply R|]. induction IH; constructor; assumption.
Qed.
Lemma depth_sub v (l : list (tree A)) c : In c l -> depth c < depth (T v l).
Proof.
  intros I. cbn. apply Nat.lt_succ_r. induction l as [|x l IH]; [contradiction|]. cbn. destruct I as [->|I]; [lia|]. specialize (IH I). lia.
Qed.
Definition isupd (p : path) (e : edit) : bool := match e with Update _ q _ _ => path_eqb q p | _ => false end.
Definition upd (o : option (@edit)) : bool := match o with Some (Update _ _ _ _) => true | _ => false end.
Lemma isupd_about p e : isupd p e = true -> about p e = true.
Proof. destruct e; cbn; try discriminate. tauto. Qed.
Lemma upd_seg ss sp dp i x o : existsb (isupd (dp ++ [i])) (seg ss sp dp i x o) = upd (own ss sp dp i x o).
Proof.
  destruct o as [j|]; cbn [seg own].
  - destruct (nth_error ss j) as [y|]; [|reflexivity]. rewrite existsb_app, existsb_none.
    + unfold matched_edit. destruct equal; [destruct (j =? i)|]; cbn; rewrite ?path_eqb_refl; reflexivity.
    + intros e I. destruct (isupd (dp ++ [i]) e) eqn:B; [|reflexivity]. exfalso. apply isupd_about, about_target in B.
      pose proof (diff_target _ _ _ _ _ _ I B) as L. apply below_neq in L. congruence.
  - reflexivity.
Qed.
Lemma upd_segs ss sp dp ps l : forall i m k x o, nth_error l k = Some x -> nth_error m k = Some o ->
  existsb (isupd (dp ++ [i + k])) (segs ss sp dp i l m ++ deletes ss sp ps) = upd (own ss sp dp (i + k) x o).
Proof.
  assert (Hd : forall p, existsb (isupd p) (deletes ss sp ps) = false).
  { intros p. apply existsb_none. intros e I. apply in_deletes in I as (j & -> & _). reflexivity. }
  assert (Hs : forall i x o k, i <> k -> existsb (isupd (dp ++ [k])) (seg ss sp dp i x o) = false).
  { intros i x o k N. apply existsb_none. intros e I. destruct (isupd (dp ++ [k]) e) eqn:U; [|reflexivity].
    apply isupd_about in U. rewrite (seg_about _ _ _ _ _ _ _ _ I N) in U. discriminate. }
  assert (Hl : forall l i m k, k < i -> existsb (isupd (dp ++ [k])) (segs ss sp dp i l m) = false).
  { clear l. induction l as [|x l IH]; intros i m k L; [destruct m; reflexivity|]. destruct m as [|o m]; [reflexivity|]. cbn [segs].
    rewrite existsb_app, Hs by lia. apply IH. lia. }
  induction l as [|x l IH]; intros i m k x' o E1 E2; [destruct k; discriminate|].
  destruct m as [|o' m]; [destruct k; discriminate|]. cbn [segs]. rewrite <- app_assoc, existsb_app. destruct k as [|k]; cbn in E1, E2.
  - injection E1 as ->. injection E2 as ->. rewrite Nat.add_0_r, upd_seg, existsb_app, Hl, Hd by lia. apply orb_false_r.
  - rewrite Hs by lia. replace (i + S k) with (S i + k) by lia. apply IH; assumption.
Qed.

(** * Carrying out the edits *)
Lemma about_rel sp dp i e : about (dp ++ [i]) e = true -> rel sp dp e = true.
Proof. intros B. apply about_target in B. rewrite (rel_target _ _ _ _ B). apply below_child. Qed.
Lemma patch_main (R : forall v, equal v v = true) (S0 D0 : tree A) (E : list edit) d : forall s sp dp n,
  node_at S0 sp = Some s -> node_at D0 dp = Some d -> kind (val s) = kind (val d) ->
  filter (rel sp dp) E = diff s d sp dp -> updated E dp = negb (equal (val s) (val d)) -> depth d <= n ->
  exists t, patch n E S0 D0 sp dp = Some t /\ alike equal t d.
Proof.
  induction d as [dv ds IH] using tree_ind'. intros [sv ss] sp dp n Ns Nd K Ef Eu Dn. cbn in K.
  destruct n as [|n]; [cbn in Dn; lia|]. cbn [patch]. rewrite Ns. cbn [sub val] in *.
  destruct (diff_segs sv ss dv ds sp dp K) as (F & N & Es). set (m := assign ss ds 0 ds [] []) in *. rewrite Es in Ef. clear Es. clearbody m.
  assert (Em : length m = length ds). { clear -F. induction F; cbn; congruence. }
  assert (Lj : forall j, In j (somes m) -> j < length ss).
  { intros j I. apply somes_in in I as (k & Ek). destruct (f2_nth_r _ _ _ _ _ F Ek) as (x & _ & y & Ey & _).
    apply nth_error_Some. congruence. }
  assert (Ea : added E dp = length ds - length (somes m) /\ length (somes m) <= length ds).
  { unfold added. change (filter _ E) with (filter (inserted dp) E). rewrite <- (filter_filter _ (rel sp dp)) by (apply inserted_rel).
    rewrite Ef, filter_app, added_deletes, app_nil_r. pose proof (added_segs ss sp dp ds 0 m F). lia. }
  assert (Er : removed E sp = length ss - length (somes m) /\ length (somes m) <= length ss).
  { unfold removed. change (filter _ E) with (filter (dropped sp) E). rewrite <- (filter_filter _ (rel sp dp)) by (apply dropped_rel).
    rewrite Ef, filter_app, removed_segs. cbn [app].
    pose proof (removed_deletes ss sp (rev (somes m)) (NoDup_rev N)) as P. rewrite rev_length in P.
    rewrite <- P; [lia|]. intros j I. apply Lj. apply in_rev. exact I. }
  replace (length ss + added E dp - removed E sp) with (length ds) by lia.
  set (f := fun i : nat => _).
  destruct (all_map f (alike equal) ds 0) as (q & Eq & Fq).
  { intros i c Ec. cbn [Nat.add]. destruct (f2_nth _ _ _ _ _ F Ec) as (o & Eo & Mo).
    assert (Efd : find (about (dp ++ [i])) E = own ss sp dp i c o).
    { rewrite <- (find_filter _ (rel sp dp)) by (intros e; apply about_rel). rewrite Ef.
      apply (find_segs ss sp dp _ ds 0 m i c o Ec Eo). }
    assert (Eud : updated E (dp ++ [i]) = upd (own ss sp dp i c o)).
    { unfold updated. change (existsb _ E) with (existsb (isupd (dp ++ [i])) E).
      rewrite <- (existsb_filter _ (rel sp dp)) by (intros e U; apply isupd_about in U; eapply about_rel; exact U). rewrite Ef.
      apply (upd_segs ss sp dp _ ds 0 m i c o Ec Eo). }
    pose proof (node_at_child _ _ _ _ _ Nd Ec) as Nc.
    unfold f. rewrite Efd. destruct o as [j|]; cbn [own].
    - destruct Mo as (y & Ey & Ky). rewrite Ey. cbn [own] in Eud. rewrite Ey in Eud.
      assert (P : exists t, patch n E S0 D0 (sp ++ [j]) (dp ++ [i]) = Some t /\ alike equal t c).
      { eapply Forall_forall in IH; [|eapply nth_error_In; exact Ec]. apply (IH y).
        - apply (node_at_child _ _ _ _ _ Ns). exact Ey.
        - exact Nc.
        - apply Z.eqb_eq. exact Ky.
        - rewrite <- (filter_filter _ (rel sp dp)) by (intros e; apply rel_up). rewrite Ef, filter_app, filter_deletes, app_nil_r.
          apply (filter_segs ss sp dp ds 0 m i c j y F N Ec Eo Ey).
        - rewrite Eud. unfold matched_edit. destruct (equal (val y) (val c)); [|reflexivity]. destruct (j =? i); reflexivity.
        - pose proof (depth_sub dv ds c (nth_error_In _ _ Ec)). lia. }
      unfold matched_edit. destruct (equal (val y) (val c)).
      + destruct (j =? i) eqn:Ji; cbn [hd_error]; [|exact P]. apply Nat.eqb_eq in Ji. subst j. exact P.
      + exact P.
    - exists c. split; [exact Nc|]. apply alike_refl. exact R. }
  rewrite Eq, Eu. rewrite Nd. destruct (equal sv dv) eqn:V; cbn [negb option_map].
  - exists (T sv q). split; [reflexivity|]. constructor; assumption.
  - exists (T dv q). split; [reflexivity|]. constructor; [apply R|exact Fq].
Qed.
Lemma get_edits_filter s d : filter (rel [] []) (get_edits kind equal s d) = diff s d [] [].
Proof.
  unfold get_edits. rewrite filter_app, filter_same by (intros e I; apply (diff_rel _ _ _ _ _ I)).
  destruct equal; cbn; apply app_nil_r.
Qed.
Lemma get_edits_updated s d : updated (get_edits kind equal s d) [] = negb (equal (val s) (val d)).
Proof.
  unfold updated, get_edits. rewrite existsb_app. change (existsb _ (diff s d [] [])) with (existsb (isupd []) (diff s d [] [])).
  rewrite existsb_none.
  - destruct equal; reflexivity.
  - intros e I. destruct (isupd [] e) eqn:U; [|reflexivity]. apply isupd_about, about_target in U.
    pose proof (diff_target _ _ _ _ _ _ I U) as L. discriminate.
Qed.
Lemma patch_edits (R : forall v, equal v v = true) s d n : kind (val s) = kind (val d) -> depth d <= n ->
  exists t, patch n (get_edits kind equal s d) s d [] [] = Some t /\ alike equal t d.
Proof.
  intros K D. apply (patch_main R s d _ d s [] [] n eq_refl eq_refl K (get_edits_filter _ _) (get_edits_updated _ _) D).
Qed.

(** * Which children are matched *)
Definition cnt (x : tree A) (l : list (tree A)) : nat := length (filter (fun t => equal (val t) (val x)) l).
Lemma count_ext x ss ps qs : (forall j, j < length ss -> mem j ps = mem j qs) -> count_unprocessed equal x ss ps = count_unprocessed equal x ss qs.
Proof.
  intros H. unfold count_unprocessed. f_equal. apply filter_ext_in. intros [j y] I. cbn. apply in_indexed in I.
  rewrite H; [reflexivity|]. apply nth_error_Some. congruence.
Qed.
Lemma filter_remove {B} (f : B -> bool) (g : B -> bool) (l : list B) :
  (forall x, g x = true -> f x = true) -> length (filter (fun x => f x && negb (g x)) l) + length (filter g l) = length (filter f l).
Proof.
  intros H. induction l as [|x l IH]; [reflexivity|]. cbn. destruct (g x) eqn:G.
  - rewrite (H _ G). cbn. lia.
  - rewrite andb_true_r. destruct (f x); cbn; lia.
Qed.
Lemma count_indexed_one (l : list (tree A)) j y : nth_error l j = Some y -> length (filter (fun p => fst p =? j) (indexed l)) = 1.
Proof.
  unfold indexed. assert (G : forall l k, length (filter (fun p : nat * tree A => fst p =? j) (combine (seq k (length l)) l)) =
    if (k <=? j) && (j <? k + length l) then 1 else 0).
  { clear. induction l as [|x l IH]; intros k; cbn [length seq combine filter fst].
    - rewrite Nat.add_0_r. destruct (k <=? j) eqn:L; [|reflexivity]. apply Nat.leb_le in L. destruct (j <? k) eqn:M; [|reflexivity].
      apply Nat.ltb_lt in M. lia.
    - destruct (k =? j) eqn:E.
      + apply Nat.eqb_eq in E. subst k. cbn [length]. rewrite IH.
        replace (S j <=? j) with false by (symmetry; apply Nat.leb_gt; lia). cbn [andb].
        rewrite Nat.leb_refl. replace (j <? j + S (length l)) with true by (symmetry; apply Nat.ltb_lt; lia). reflexivity.
      + apply Nat.eqb_neq in E. rewrite IH. replace (k + S (length l)) with (S k + length l) by lia.
        replace (S k <=? j) with (k <=? j); [reflexivity|]. destruct (k <=? j) eqn:L; symmetry.
        * apply Nat.leb_le in L. apply Nat.leb_le. lia.
        * apply Nat.leb_gt in L. apply Nat.leb_gt. lia. }
  intros E. rewrite G. cbn [Nat.leb andb]. assert (L : j < length l) by (apply nth_error_Some; congruence).
  replace (j <? 0 + length l) with true by (symmetry; apply Nat.ltb_lt; cbn; lia). reflexivity.
Qed.
Lemma count_take x ss ps j y : nth_error ss j = Some y -> mem j ps = false ->
  count_unprocessed equal x ss ps = count_unprocessed equal x ss (j :: ps) + (if equal (val y) (val x) then 1 else 0).
Proof.
  intros E M. unfold count_unprocessed. set (f := fun p : nat * tree A => _).
  rewrite <- (filter_remove f (fun p => f p && (fst p =? j))) by (intros p H; apply andb_true_iff in H; tauto).
  f_equal.
  - f_equal. apply filter_ext. intros [k z]. unfold f. cbn [fst snd]. change (mem k (j :: ps)) with ((k =? j) || mem k ps). destruct (k =? j), (mem k ps), (equal (val z) (val x)); reflexivity.
  - destruct (equal (val y) (val x)) eqn:Q.
    + rewrite <- (count_indexed_one ss j y E). f_equal. apply filter_ext_in. intros [k z] I. unfold f. cbn [fst snd].
      destruct (k =? j) eqn:K; [|apply andb_false_r]. apply Nat.eqb_eq in K. subst k. apply in_indexed in I.
      assert (z = y) by congruence. subst z. rewrite M, Q. reflexivity.
    + rewrite filter_none; [reflexivity|]. intros [k z] I. unfold f. cbn [fst snd]. destruct (k =? j) eqn:K; [|apply andb_false_r].
      apply Nat.eqb_eq in K. subst k. apply in_indexed in I. assert (z = y) by congruence. subst z. rewrite M, Q. reflexivity.
Qed.
Lemma count_some x ss ps : 0 < count_unprocessed equal x ss ps ->
  exists j y, nth_error ss j = Some y /\ mem j ps = false /\ equal (val y) (val x) = true.
Proof.
  unfold count_unprocessed. destruct filter as [|[j y] r] eqn:F; cbn; [lia|]. intros _.
  assert (I : In (j, y) (filter (fun p : nat * tree A => negb (mem (fst p) ps) && equal (val (snd p)) (val x)) (indexed ss))) by (rewrite F; left; reflexivity).
  apply filter_In in I as [I H]. cbn in H. apply andb_true_iff in H as [H1 H2]. apply negb_true_iff in H1.
  exists j, y. split; [apply in_indexed; exact I|]. split; assumption.
Qed.
Lemma count_none x ss ps j y : nth_error ss j = Some y -> mem j ps = false -> equal (val y) (val x) = true -> 0 < count_unprocessed equal x ss ps.
Proof. intros E M Q. rewrite (count_take x ss ps j y E M), Q. lia. Qed.
Lemma count_rest x pre l pd : (forall k, In k pd <-> k < length pre) -> count_unprocessed equal x (pre ++ l) pd = cnt x l.
Proof.
  intros H. unfold count_unprocessed, indexed. rewrite app_length, seq_app. cbn [Nat.add].
  assert (C : forall (a c : list nat) (b d : list (tree A)), length a = length b -> combine (a ++ c) (b ++ d) = combine a b ++ combine c d).
  { induction a as [|u a IH]; intros c [|w b] d L; try discriminate; [reflexivity|]. cbn. rewrite IH by (cbn in L; lia). reflexivity. }
  rewrite C by apply seq_length. rewrite filter_app, filter_none.
  - cbn [app]. unfold cnt. assert (G : forall l k, length pre <= k ->
      length (filter (fun p : nat * tree A => negb (mem (fst p) pd) && equal (val (snd p)) (val x)) (combine (seq k (length l)) l)) =
      length (filter (fun t => equal (val t) (val x)) l)).
    { clear -H. induction l as [|z l IH]; intros k L; [reflexivity|]. cbn [length seq combine filter fst snd].
      assert (M : mem k pd = false). { apply mem_out. intros I. apply H in I. lia. }
      rewrite M. cbn [negb andb]. destruct (equal (val z) (val x)); cbn [length]; rewrite IH by lia; reflexivity. }
    apply G. lia.
  - intros [k z] I. apply in_combine_l in I. apply in_seq in I. cbn. assert (M : mem k pd = true) by (apply mem_in, H; lia).
    rewrite M. reflexivity.
Qed.

(** An exact match is preferred to any other. *)
Definition exact_at (d : tree A) ss ps (c : candidate) : Prop :=
  exists y, nth_error ss (fst c) = Some y /\ mem (fst c) ps = false /\ equal (val y) (val d) = true.
Lemma look_exact d i ss ps st k s : In (k, s) (indexed ss) ->
  (forall c, fst (fst st) = Some c -> exact_at d ss ps c) -> (forall c, snd st = Some c -> snd c = true /\ exact_at d ss ps c) ->
  let st' := look kind equal d i ps st (k, s) in
  (forall c, fst (fst st') = Some c -> exact_at d ss ps c) /\ (forall c, snd st' = Some c -> snd c = true /\ exact_at d ss ps c) /\
  ((fst (fst st) <> None \/ snd st <> None) \/ (mem k ps = false /\ same_kind kind s d = true /\ equal (val s) (val d) = true) ->
   fst (fst st') <> None \/ snd st' <> None).
Proof.
  intros I C1 C2. destruct st as [[ex dia] mv]. cbn [fst snd] in *. unfold look.
  destruct (mem k ps || negb (same_kind kind s d)) eqn:M.
  { cbn [fst snd]. split; [exact C1|]. split; [exact C2|]. intros [H|(H1 & H2 & _)]; [exact H|]. rewrite H1, H2 in M. discriminate. }
  apply orb_false_iff in M as [M K].
  destruct (equal (val s) (val d)) eqn:Q.
  - assert (X : forall b, exact_at d ss ps (k, b)). { intros b. exists s. split; [apply in_indexed; exact I|]. split; assumption. }
    destruct (negb (k =? i)).
    + destruct mv as [[m []]|]; cbn [fst snd].
      * split; [exact C1|]. split; [exact C2|]. intros _. right. discriminate.
      * destruct (C2 _ eq_refl) as [B _]. discriminate.
      * split; [exact C1|]. split; [|intros _; right; discriminate]. intros c E. injection E as <-. split; [reflexivity|apply X].
    + cbn [fst snd]. split; [intros c E; injection E as <-; apply X|]. split; [exact C2|]. intros _. left. discriminate.
  - assert (Y : forall P Q' : Prop, P \/ (mem k ps = false /\ same_kind kind s d = true /\ false = true) -> (P -> Q') -> Q').
    { intros P Q' [H|(_ & _ & H)] G; [exact (G H)|discriminate]. }
    destruct ex, dia; cbn [fst snd]; (split; [exact C1|]; split; [exact C2|]; intros H; apply (Y _ _ H); tauto).
Qed.
Lemma best_exact d i ss ps j y : nth_error ss j = Some y -> mem j ps = false -> same_kind kind y d = true -> equal (val y) (val d) = true ->
  exists c, best_match kind equal d i ss ps = Some c /\ exact_at d ss ps c.
Proof.
  intros E M K Q. unfold best_match.
  assert (G : forall l (st : option candidate * option candidate * option candidate), (forall p, In p l -> In p (indexed ss)) ->
    (forall c, fst (fst st) = Some c -> exact_at d ss ps c) -> (forall c, snd st = Some c -> snd c = true /\ exact_at d ss ps c) ->
    ((fst (fst st) <> None \/ snd st <> None) \/ In (j, y) l) ->
    let st' := fold_left (look kind equal d i ps) l st in
    (forall c, fst (fst st') = Some c -> exact_at d ss ps c) /\ (forall c, snd st' = Some c -> snd c = true /\ exact_at d ss ps c) /\
    (fst (fst st') <> None \/ snd st' <> None)).
  { induction l as [|[k s] l IH]; intros st Hl C1 C2 H.
    - cbn. split; [exact C1|]. split; [exact C2|]. destruct H as [H|[]]. exact H.
    - cbn [fold_left].
      destruct (look_exact d i ss ps st k s (Hl _ (or_introl eq_refl)) C1 C2) as (D1 & D2 & D3). apply IH; [|exact D1|exact D2|].
      + intros p Ip. apply Hl. right. exact Ip.
      + destruct H as [H|[H|H]]; [left; apply D3; left; exact H| |right; exact H].
        injection H as -> ->. left. apply D3. right. auto. }
  specialize (G (indexed ss) (None, None, None) (fun p I => I)). cbv zeta in G. cbn [fst snd] in G.
  destruct (fold_left (look kind equal d i ps) (indexed ss) (None, None, None)) as [[ex dia] mv]. cbn [fst snd] in G.
  destruct G as (G1 & G2 & G3); [discriminate|discriminate|right; apply in_indexed; exact E|].
  destruct mv as [[k []]|].
  - destruct (G2 _ eq_refl) as [_ X]. eexists. split; [reflexivity|exact X].
  - destruct (G2 _ eq_refl) as [X _]. discriminate.
  - destruct ex as [c|]; [|destruct G3 as [[]|[]]; reflexivity]. exists c. split; [reflexivity|]. apply G1. reflexivity.
Qed.
Lemma best_none d i ss ps j y : best_match kind equal d i ss ps = None -> nth_error ss j = Some y -> mem j ps = false -> same_kind kind y d = false.
Proof.
  unfold best_match. destruct fold_left as [[ex dia] mv]. destruct mv as [[k []]|]; [discriminate| |].
  all: destruct ex; [discriminate|]; destruct dia; [discriminate|]; unfold find_by_kind;
    destruct find as [p|] eqn:F; [discriminate|]; intros _ E M; pose proof (find_none _ _ F (j, y)) as N; cbn in N;
    rewrite M in N; cbn in N; apply N, in_indexed, E.
Qed.

Section Equivalence.
Hypothesis R : forall v, equal v v = true.
Hypothesis Sy : forall v w, equal v w = true -> equal w v = true.
Hypothesis Tr : forall u v w, equal u v = true -> equal v w = true -> equal u w = true.
Hypothesis Ki : forall v w, equal v w = true -> kind v = kind w.

Definition matched_equal (ss : list (tree A)) (x : tree A) (o : option nat) : Prop :=
  match o with None => True | Some j => exists y, nth_error ss j = Some y /\ equal (val y) (val x) = true end.
Lemma same_kind_equal y x : equal (val y) (val x) = true -> same_kind kind y x = true.
Proof. intros E. apply Z.eqb_eq, Ki, E. Qed.
Lemma cnt_head x l : 0 < cnt x (x :: l).
Proof. unfold cnt. cbn. rewrite R. cbn. lia. Qed.
Lemma take_equal ss ds i x pre l ps pd j b : ds = pre ++ x :: l -> (forall k, In k pd <-> k < length pre) ->
  best_match kind equal x i ss ps = Some (j, b) -> prefer_insert equal x ds pd (count_unprocessed equal x ss ps) = false ->
  exists y, nth_error ss j = Some y /\ mem j ps = false /\ equal (val y) (val x) = true.
Proof.
  intros -> Hpd B P. unfold prefer_insert in P. apply Nat.ltb_ge in P. rewrite (count_rest _ _ _ _ Hpd) in P.
  pose proof (cnt_head x l) as C. destruct (count_some x ss ps) as (k & z & Ez & Mz & Qz); [lia|].
  destruct (best_exact x i ss ps k z Ez Mz (same_kind_equal _ _ Qz) Qz) as (c & Ec & y & Ey & My & Qy).
  rewrite B in Ec. injection Ec as <-. cbn in *. eauto.
Qed.
Lemma pd_next (pre : list (tree A)) (x : tree A) pd : (forall k, In k pd <-> k < length pre) ->
  forall k, In k (length pre :: pd) <-> k < length (pre ++ [x]).
Proof. intros H k. rewrite app_length. cbn. rewrite H. split; [intros [<-|L]; lia|]. intros L. destruct (Nat.eq_dec k (length pre)); [left|right]; lia. Qed.
Lemma assign_equal ss ds l : forall pre ps pd, ds = pre ++ l -> (forall k, In k pd <-> k < length pre) ->
  Forall2 (matched_equal ss) l (assign ss ds (length pre) l ps pd).
Proof.
  induction l as [|x l IH]; intros pre ps pd E Hpd; [constructor|]. cbn [assign].
  assert (IH' : forall ps', Forall2 (matched_equal ss) l (assign ss ds (S (length pre)) l ps' (length pre :: pd))).
  { intros ps'. specialize (IH (pre ++ [x]) ps' (length pre :: pd)). rewrite app_length, Nat.add_1_r in IH. apply IH.
    - rewrite <- app_assoc. exact E.
    - intros k. rewrite (pd_next pre x pd Hpd k), app_length. cbn. lia. }
  destruct best_match as [[j b]|] eqn:B; [|constructor; [exact I|apply IH']].
  destruct prefer_insert eqn:P; constructor; try apply IH'; [exact I|].
  destruct (take_equal _ _ _ _ _ _ _ _ _ _ E Hpd B P) as (y & Ey & _ & Q). cbn. eauto.
Qed.
Lemma cnt_equal x z l : equal (val z) (val x) = true -> cnt x l = cnt z l.
Proof.
  intros Q. unfold cnt. f_equal. apply filter_ext. intros t. destruct (equal (val t) (val x)) eqn:X; symmetry.
  - apply (Tr _ _ _ X (Sy _ _ Q)).
  - destruct (equal (val t) (val z)) eqn:Y; [|reflexivity]. rewrite (Tr _ _ _ Y Q) in X. discriminate.
Qed.
Lemma count_equal x z ss ps : equal (val z) (val x) = true -> count_unprocessed equal x ss ps = count_unprocessed equal z ss ps.
Proof.
  intros Q. unfold count_unprocessed. f_equal. apply filter_ext. intros [k t]. cbn. f_equal. destruct (equal (val t) (val x)) eqn:X; symmetry.
  - apply (Tr _ _ _ X (Sy _ _ Q)).
  - destruct (equal (val t) (val z)) eqn:Y; [|reflexivity]. rewrite (Tr _ _ _ Y Q) in X. discriminate.
Qed.
Definition used_up (ss : list (tree A)) (x : tree A) (ps : list nat) : Prop :=
  forall j y, nth_error ss j = Some y -> equal (val y) (val x) = true -> In j ps.
Lemma assign_used ss ds l : forall pre ps pd, ds = pre ++ l -> (forall k, In k pd <-> k < length pre) ->
  let m := assign ss ds (length pre) l ps pd in
  (forall x, count_unprocessed equal x ss ps <= cnt x l -> used_up ss x (somes m ++ ps)) /\
  (forall k x, nth_error l k = Some x -> nth_error m k = Some None -> used_up ss x (somes m ++ ps)).
Proof.
  induction l as [|z l IH]; intros pre ps pd E Hpd.
  - cbn. split; [|intros k x H; destruct k; discriminate]. intros x C j y Ey Q.
    destruct (mem j ps) eqn:M; [apply mem_in; exact M|]. pose proof (count_none x ss ps j y Ey M Q). lia.
  - cbn [assign].
    assert (IH' : forall ps', let m := assign ss ds (S (length pre)) l ps' (length pre :: pd) in
      (forall x, count_unprocessed equal x ss ps' <= cnt x l -> used_up ss x (somes m ++ ps')) /\
      (forall k x, nth_error l k = Some x -> nth_error m k = Some None -> used_up ss x (somes m ++ ps'))).
    { intros ps'. specialize (IH (pre ++ [z]) ps' (length pre :: pd)). rewrite app_length, Nat.add_1_r in IH. apply IH.
      - rewrite <- app_assoc. exact E.
      - intros k. rewrite (pd_next pre z pd Hpd k), app_length. cbn. lia. }
    assert (Ins : count_unprocessed equal z ss ps < cnt z (z :: l) ->
      let m := None :: assign ss ds (S (length pre)) l ps (length pre :: pd) in
      (forall x, count_unprocessed equal x ss ps <= cnt x (z :: l) -> used_up ss x (somes m ++ ps)) /\
      (forall k x, nth_error (z :: l) k = Some x -> nth_error m k = Some None -> used_up ss x (somes m ++ ps))).
    { intros C. destruct (IH' ps) as [I1 I2]. cbn [somes flat_map app]. fold (somes (assign ss ds (S (length pre)) l ps (length pre :: pd))).
      assert (I1' : forall x, count_unprocessed equal x ss ps <= cnt x (z :: l) ->
        used_up ss x (somes (assign ss ds (S (length pre)) l ps (length pre :: pd)) ++ ps)).
      { intros x Cx. apply I1. destruct (equal (val z) (val x)) eqn:Q.
        - rewrite (count_equal x z ss ps Q), (cnt_equal x z l Q). unfold cnt in C |- *. cbn in C. rewrite R in C. cbn in C. lia.
        - unfold cnt in Cx |- *. cbn in Cx. rewrite Q in Cx. exact Cx. }
      split; [exact I1'|]. intros [|k] x Ex Em; cbn in Ex, Em.
      - injection Ex as <-. apply I1'. lia.
      - apply (I2 k x Ex Em). }
    destruct best_match as [[j b]|] eqn:B.
    + destruct prefer_insert eqn:P.
      * apply Ins. unfold prefer_insert in P. apply Nat.ltb_lt in P. rewrite E in P. rewrite (count_rest _ _ _ _ Hpd) in P. exact P.
      * destruct (take_equal _ _ _ _ _ _ _ _ _ _ E Hpd B P) as (y & Ey & My & Qy).
        destruct (IH' (j :: ps)) as [I1 I2]. cbn [somes flat_map app].
        fold (somes (assign ss ds (S (length pre)) l (j :: ps) (length pre :: pd))).
        set (m := assign ss ds (S (length pre)) l (j :: ps) (length pre :: pd)) in *.
        assert (W : forall x, used_up ss x (somes m ++ j :: ps) -> used_up ss x (j :: somes m ++ ps)).
        { intros x U k w Ew Qw. specialize (U k w Ew Qw). apply in_app_iff in U as [U|[U|U]]; [right|left|right]; try apply in_app_iff; tauto. }
        split.
        -- intros x Cx. apply W, I1. rewrite (count_take x ss ps j y Ey My) in Cx. unfold cnt in Cx |- *. cbn in Cx.
           destruct (equal (val y) (val x)) eqn:Qx.
           ++ rewrite (Tr _ _ _ (Sy _ _ Qy) Qx) in Cx. cbn in Cx. lia.
           ++ destruct (equal (val z) (val x)) eqn:Qz; [|lia]. rewrite (Tr _ _ _ Qy Qz) in Qx. discriminate.
        -- intros [|k] x Ex Em; cbn in Ex, Em; [discriminate|]. apply W, (I2 k x Ex Em).
    + apply Ins. pose proof (cnt_head z l). destruct (count_unprocessed equal z ss ps) eqn:C; [lia|]. exfalso.
      destruct (count_some z ss ps) as (j & y & Ey & My & Qy); [lia|].
      pose proof (best_none _ _ _ _ _ _ B Ey My). rewrite (same_kind_equal _ _ Qy) in H0. discriminate.
Qed.

(** ** Only the root is updated *)
Lemma diff_no_update d : forall s sp dp a b i j, ~ In (Update a b i j) (diff s d sp dp).
Proof.
  induction d as [dv ds IH] using tree_ind'. intros [sv ss] sp dp a b i0 j0 I.
  destruct (Z.eq_dec (kind sv) (kind dv)) as [K|K]; [|rewrite diff_kind in I by exact K; contradiction].
  destruct (diff_segs sv ss dv ds sp dp K) as (_ & _ & E). rewrite E in I. clear E.
  apply in_app_iff in I as [I|I]; [|apply in_deletes in I as (j & E & _); discriminate].
  apply in_segs in I as (k & x & o & Ex & Eo & I). cbn [Nat.add] in I. destruct o as [j|]; cbn [seg] in I; [|destruct I as [I|[]]; discriminate].
  pose proof (assign_equal ss ds ds [] [] [] eq_refl) as F. cbn [length] in F.
  destruct (f2_nth_r _ _ _ _ _ (F ltac:(cbn; intros; lia)) Eo) as (x' & Ex' & y & Ey & Q). assert (x' = x) by congruence. subst x'.
  rewrite Ey in I. apply in_app_iff in I as [I|I].
  - eapply Forall_forall in IH; [|eapply nth_error_In; exact Ex]. apply (IH _ _ _ _ _ _ _ I).
  - unfold matched_edit in I. rewrite Q in I. destruct (j =? k); [contradiction|]. destruct I as [I|[]]. discriminate.
Qed.
Lemma update_root s d a b i j : In (Update a b i j) (get_edits kind equal s d) -> a = [] /\ b = [].
Proof.
  unfold get_edits. rewrite in_app_iff. intros [I|I]; [destruct (diff_no_update _ _ _ _ _ _ _ _ I)|].
  destruct equal; [contradiction|]. destruct I as [I|[]]. injection I as <- <-. auto.
Qed.

(** ** No value is both added and removed *)
Lemma counterpart_inv s d sp dp : kind (val s) = kind (val d) -> counterpart (get_edits kind equal s d) d sp dp ->
  exists x y, node_at s sp = Some x /\ node_at d dp = Some y /\ kind (val x) = kind (val y) /\
    filter (rel sp dp) (get_edits kind equal s d) = diff x y sp dp.
Proof.
  intros K0. set (E := get_edits kind equal s d).
  assert (St : forall sp dp i x y c, node_at s sp = Some x -> node_at d dp = Some y -> kind (val x) = kind (val y) ->
     filter (rel sp dp) E = diff x y sp dp -> nth_error (sub y) i = Some c ->
     exists o, matched (sub x) c o /\ find (about (dp ++ [i])) E = own (sub x) sp dp i c o /\
       forall j, o = Some j -> exists x', node_at s (sp ++ [j]) = Some x' /\ kind (val x') = kind (val c) /\
         filter (rel (sp ++ [j]) (dp ++ [i])) E = diff x' c (sp ++ [j]) (dp ++ [i])).
  { clear. intros sp dp i [sv ss] [dv ds] c Ns Nd K Ef Ec. cbn [val sub] in *.
    destruct (diff_segs sv ss dv ds sp dp K) as (F & N & Es). set (m := assign ss ds 0 ds [] []) in *. rewrite Es in Ef. clear Es. clearbody m.
    destruct (f2_nth _ _ _ _ _ F Ec) as (o & Eo & Mo). exists o. split; [exact Mo|]. split.
    - rewrite <- (find_filter _ (rel sp dp)) by (intros e; apply about_rel). rewrite Ef.
      apply (find_segs ss sp dp _ ds 0 m i c o Ec Eo).
    - intros j ->. destruct Mo as (y & Ey & Ky). exists y. split; [apply (node_at_child _ _ _ _ _ Ns Ey)|]. split; [apply Z.eqb_eq, Ky|].
      rewrite <- (filter_filter _ (rel sp dp)) by (intros e; apply rel_up). rewrite Ef, filter_app, filter_deletes, app_nil_r.
      apply (filter_segs ss sp dp ds 0 m i c j y F N Ec Eo Ey). }
  assert (Dn : forall dp y i, node_at d dp = Some y -> node_at d (dp ++ [i]) = nth_error (sub y) i).
  { clear. intros dp y i. revert d. induction dp as [|k dp IH]; intros d H; cbn in *.
    - injection H as ->. destruct (nth_error (sub y) i); reflexivity.
    - destruct (nth_error (sub d) k); [|discriminate]. apply IH. exact H. }
  intros C. induction C as [|sp dp i C IH Hn Hf|sp dp i q si di C IH Hf].
  - exists s, d. repeat split; [exact K0|apply get_edits_filter].
  - destruct IH as (x & y & Nx & Ny & K & Ef). rewrite (Dn _ _ _ Ny) in Hn. destruct (nth_error (sub y) i) as [c|] eqn:Ec; [|congruence].
    destruct (St sp dp i x y c Nx Ny K Ef Ec) as (o & Mo & Fo & Ho). rewrite Fo in Hf. destruct o as [j|]; cbn [own] in Hf; [|discriminate].
    destruct Mo as (x1 & E1 & _). rewrite E1 in Hf. unfold matched_edit in Hf. destruct (equal (val x1) (val c)); [|discriminate].
    destruct (j =? i) eqn:Ji; [|discriminate]. apply Nat.eqb_eq in Ji. subst j.
    destruct (Ho i eq_refl) as (x' & N' & K' & F'). exists x', c. split; [exact N'|]. split; [rewrite (Dn _ _ _ Ny); exact Ec|]. split; assumption.
  - destruct IH as (x & y & Nx & Ny & K & Ef).
    destruct (nth_error (sub y) i) as [c|] eqn:Ec.
    + destruct (St sp dp i x y c Nx Ny K Ef Ec) as (o & Mo & Fo & Ho). rewrite Fo in Hf. destruct o as [j|]; cbn [own] in Hf; [|destruct Hf; discriminate].
      destruct Mo as (x1 & E1 & _). rewrite E1 in Hf.
      assert (Q : q = sp ++ [j]).
      { unfold matched_edit in Hf. destruct (equal (val x1) (val c)); [destruct (j =? i)|]; cbn in Hf; destruct Hf; try discriminate; congruence. }
      subst q. destruct (Ho j eq_refl) as (x' & N' & K' & F'). exists x', c. split; [exact N'|]. split; [rewrite (Dn _ _ _ Ny); exact Ec|]. split; assumption.
    + exfalso. assert (In' : exists e, In e E /\ about (dp ++ [i]) e = true).
      { destruct Hf as [H|H]; apply find_some in H; eauto. }
      destruct In' as (e & Ie & Ae).
      assert (Ie' : In e (diff x y sp dp)). { rewrite <- Ef. apply filter_In. split; [exact Ie|]. eapply about_rel. exact Ae. }
      destruct x as [sv ss], y as [dv ds]. cbn [val sub] in *. destruct (diff_segs sv ss dv ds sp dp K) as (_ & _ & Es). rewrite Es in Ie'.
      apply in_app_iff in Ie' as [I|I]; [|apply in_deletes in I as (? & -> & _); discriminate].
      apply in_segs in I as (k & z & o & Ez & _ & I). cbn [Nat.add] in I. destruct (Nat.eq_dec k i) as [->|Nk]; [congruence|].
      rewrite (seg_about _ _ _ _ _ _ _ _ I Nk) in Ae. discriminate.
Qed.
Lemma insert_delete s d sp dp i j k k' x y : counterpart (get_edits kind equal s d) d sp dp ->
  In (Insert (dp ++ [i]) k) (get_edits kind equal s d) -> In (Delete (sp ++ [j]) k') (get_edits kind equal s d) ->
  node_at s (sp ++ [j]) = Some x -> node_at d (dp ++ [i]) = Some y -> equal (val x) (val y) = false.
Proof.
  intros C II ID Nx Ny. destruct (Z.eq_dec (kind (val s)) (kind (val d))) as [K0|K0].
  2: { exfalso. destruct s as [sv ss], d as [dv ds]. cbn in K0. unfold get_edits in II. rewrite diff_kind in II by exact K0.
       cbn in II. destruct equal; [contradiction|]. destruct II as [II|[]]. discriminate. }
  destruct (counterpart_inv s d sp dp K0 C) as ([sv ss] & [dv ds] & Ns & Nd & K & Ef). cbn [val] in K.
  assert (Sn : forall (t : tree A) p v l i, node_at t p = Some (T v l) -> node_at t (p ++ [i]) = nth_error l i).
  { clear. intros t p v l i. revert t. induction p as [|k p IH]; intros t H; cbn in *.
    - injection H as ->. cbn. destruct (nth_error l i); reflexivity.
    - destruct (nth_error (sub t) k); [|discriminate]. apply IH. exact H. }
  rewrite (Sn _ _ _ _ _ Ns) in Nx. rewrite (Sn _ _ _ _ _ Nd) in Ny.
  destruct (diff_segs sv ss dv ds sp dp K) as (F & N & Es). rewrite Es in Ef. clear Es.
  assert (II' : In (Insert (dp ++ [i]) k) (filter (rel sp dp) (get_edits kind equal s d))).
  { apply filter_In. split; [exact II|]. cbn. apply below_child. }
  assert (ID' : In (Delete (sp ++ [j]) k') (filter (rel sp dp) (get_edits kind equal s d))).
  { apply filter_In. split; [exact ID|]. cbn. apply below_child. }
  rewrite Ef in II', ID'. clear II ID.
  assert (Mi : nth_error (assign ss ds 0 ds [] []) i = Some None).
  { apply in_app_iff in II' as [I|I]; [|apply in_deletes in I as (? & E & _); discriminate].
    apply in_segs in I as (h & z & o & Ez & Eo & I). cbn [Nat.add] in I.
    destruct (Nat.eq_dec h i) as [->|Nh].
    - destruct o as [j0|]; [|exact Eo]. exfalso. cbn [seg] in I. destruct (nth_error ss j0) as [w|]; [|contradiction]. apply in_app_iff in I as [I|I].
      + pose proof (diff_target _ _ _ _ _ _ I eq_refl) as B. rewrite below_child_no in B. discriminate.
      + unfold matched_edit in I. destruct (equal (val w) (val z)); [destruct (j0 =? i)|]; cbn in I; destruct I as [I|[]] || destruct I; discriminate.
    - pose proof (seg_about _ _ _ _ _ _ _ _ I Nh) as B. unfold about in B. cbn in B. rewrite path_eqb_refl in B. discriminate. }
  assert (Mj : ~ In j (somes (assign ss ds 0 ds [] []))).
  { apply in_app_iff in ID' as [I|I].
    - exfalso. assert (Z : In (Delete (sp ++ [j]) k') (filter (dropped sp) (segs ss sp dp 0 ds (assign ss ds 0 ds [] [])))).
      { apply filter_In. split; [exact I|]. cbn. apply child_of_spec. eauto. }
      rewrite removed_segs in Z. contradiction.
    - apply in_deletes in I as (h & E & _ & Nh). assert (Eh : sp ++ [j] = sp ++ [h]) by congruence. apply child_eq in Eh. subst h. intros I. apply Nh. rewrite <- in_rev. exact I. }
  destruct (equal (val x) (val y)) eqn:Q; [|reflexivity]. exfalso.
  destruct (assign_used ss ds ds [] [] [] eq_refl) as [_ U]; [cbn; intros; lia|]. cbn [length] in U.
  specialize (U i y Ny Mi j x Nx Q). rewrite app_nil_r in U. contradiction.
Qed.

(** ** Equal trees *)
Lemma patch_none d (t : tree A) : forall s p q n, node_at s p = Some t -> depth t <= n -> patch n [] s d p q = Some t.
Proof.
  induction t as [v l IH] using tree_ind'. intros s p q n Np Dn. destruct n as [|n]; [cbn in Dn; lia|]. cbn [patch]. rewrite Np.
  cbn [updated existsb val sub find]. unfold added, removed. cbn [filter length]. rewrite Nat.add_0_r, Nat.sub_0_r.
  destruct (all_map (fun i => patch n [] s d (p ++ [i]) (q ++ [i])) eq l 0) as (r & Er & Fr).
  { intros i c Ec. exists c. split; [|reflexivity]. cbn [Nat.add]. eapply Forall_forall in IH; [|eapply nth_error_In; exact Ec].
    apply IH; [apply (node_at_child _ _ _ _ _ Np); exact Ec|]. pose proof (depth_sub v l c (nth_error_In _ _ Ec)). lia. }
  rewrite Er. assert (r = l). { clear -Fr. induction Fr; congruence. } subst r. reflexivity.
Qed.
Lemma no_edits s d : get_edits kind equal s d = [] -> alike equal s d.
Proof.
  intros E. assert (Q : equal (val s) (val d) = true).
  { unfold get_edits in E. apply app_eq_nil in E as [_ E]. destruct (equal (val s) (val d)); [reflexivity|discriminate]. }
  destruct (patch_edits R s d (Nat.max (depth s) (depth d)) (Ki _ _ Q)) as (t & P & L); [lia|].
  rewrite E, (patch_none d s s [] [] _ eq_refl) in P by lia. injection P as <-. exact L.
Qed.
Lemma segs_nil ss sp dp l : forall i m, (forall k x o, nth_error l k = Some x -> nth_error m k = Some o -> seg ss sp dp (i + k) x o = []) -> segs ss sp dp i l m = [].
Proof.
  induction l as [|x l IH]; intros i [|o m] H; try reflexivity. cbn [segs]. pose proof (H 0 x o eq_refl eq_refl) as H0. rewrite Nat.add_0_r in H0. rewrite H0. apply IH.
  intros k x' o' E1 E2. replace (S i + k) with (i + S k) by lia. apply (H (S k)); assumption.
Qed.
Lemma alike_assign ss ds l : Forall2 (alike equal) ss ds ->
  (forall i j x y, nth_error ds i = Some x -> nth_error ds j = Some y -> equal (val x) (val y) = true -> i = j) ->
  forall pre ps pd, ds = pre ++ l -> (forall k, In k pd <-> k < length pre) -> (forall k, In k ps <-> k < length pre) ->
  assign ss ds (length pre) l ps pd = map Some (seq (length pre) (length l)).
Proof.
  intros F Dx. induction l as [|x l IH]; intros pre ps pd E Hpd Hps; [reflexivity|]. cbn [assign length seq map].
  assert (Ex : nth_error ds (length pre) = Some x). { rewrite E, nth_error_app2, Nat.sub_diag by lia. reflexivity. }
  destruct (f2_nth_r _ _ _ _ _ F Ex) as (y & Ey & Al). assert (Q : equal (val y) (val x) = true). { inversion Al; subst; assumption. }
  assert (M : mem (length pre) ps = false). { apply mem_out. intros I. apply Hps in I. lia. }
  destruct (best_exact x (length pre) ss ps _ y Ey M (same_kind_equal _ _ Q) Q) as ([j b] & B & z & Ez & Mz & Qz). cbn in Ez, Mz. rewrite B.
  assert (J : j = length pre).
  { destruct (f2_nth _ _ _ _ _ F Ez) as (w & Ew & Aw). apply (Dx j (length pre) w x Ew Ex).
    assert (Qw : equal (val z) (val w) = true) by (inversion Aw; subst; assumption). apply (Tr _ _ _ (Sy _ _ Qw) Qz). }
  subst j. assert (P : prefer_insert equal x ds pd (count_unprocessed equal x ss ps) = false).
  { unfold prefer_insert. apply Nat.ltb_ge. rewrite E at 1. rewrite (count_rest _ _ _ _ Hpd).
    pose proof (count_none x ss ps _ y Ey M Q). enough (cnt x (x :: l) <= 1) by lia. unfold cnt. cbn. rewrite R. cbn.
    rewrite filter_none; [cbn; lia|]. intros u Iu. apply In_nth_error in Iu as (h & Eh). destruct (equal (val u) (val x)) eqn:Qu; [|reflexivity]. exfalso.
    assert (Eu : nth_error ds (length pre + S h) = Some u). { rewrite E, nth_error_app2 by lia. replace (length pre + S h - length pre) with (S h) by lia. exact Eh. }
    pose proof (Dx _ _ _ _ Eu Ex Qu). lia. }
  rewrite P. f_equal. specialize (IH (pre ++ [x]) (length pre :: ps) (length pre :: pd)). rewrite app_length, Nat.add_1_r in IH. apply IH.
  - rewrite <- app_assoc. exact E.
  - intros k. rewrite (pd_next pre x pd Hpd k), app_length. cbn. lia.
  - intros k. rewrite (pd_next pre x ps Hps k), app_length. cbn. lia.
Qed.
Lemma somes_all n : somes (map Some (seq 0 n)) = seq 0 n.
Proof. unfold somes. generalize 0 as k. induction n as [|n IH]; intros k; [reflexivity|]. cbn. rewrite IH. reflexivity. Qed.
Lemma alike_diff d : distinct equal d -> forall s sp dp, alike equal s d -> diff s d sp dp = [].
Proof.
  induction d as [dv ds IH] using tree_ind'. intros D s sp dp Al. inversion Al as [sv dv' ss ds' Q F]; subst. clear Al.
  inversion D as [dv' ds' Dx Dl]; subst.
  destruct (diff_segs sv ss dv ds sp dp (Ki _ _ Q)) as (_ & _ & E). rewrite E. clear E.
  pose proof (alike_assign ss ds ds F Dx [] [] [] eq_refl) as As. cbn [length] in As. rewrite As; try (cbn; intros; lia). clear As.
  assert (Le : length ss = length ds). { clear -F. induction F; cbn; congruence. }
  rewrite segs_nil.
  - cbn [app]. rewrite somes_all. unfold deletes. rewrite filter_none; [reflexivity|]. intros j I. apply negb_false_iff, mem_in.
    rewrite <- in_rev, <- Le. exact I.
  - intros k x o Ex Eo. cbn [Nat.add].
    assert (o = Some k).
    { rewrite nth_error_map in Eo. assert (L : k < length ds) by (apply nth_error_Some; congruence).
      rewrite (nth_error_nth' (seq 0 (length ds)) 0) in Eo by (rewrite seq_length; exact L). rewrite seq_nth in Eo by exact L. cbn in Eo. congruence. }
    subst o. destruct (f2_nth_r _ _ _ _ _ F Ex) as (y & Ey & Al). cbn [seg]. rewrite Ey.
    eapply Forall_forall in IH; [|eapply nth_error_In; exact Ex]. rewrite IH; [|eapply Forall_forall; [exact Dl|eapply nth_error_In; exact Ex]|exact Al].
    unfold matched_edit. assert (Qx : equal (val y) (val x) = true) by (inversion Al; subst; assumption). rewrite Qx, Nat.eqb_refl. reflexivity.
Qed.
Lemma alike_no_edits s d : distinct equal d -> alike equal s d -> get_edits kind equal s d = [].
Proof.
  intros D Al. unfold get_edits. rewrite (alike_diff d D s [] [] Al). inversion Al as [v w l m Q F]; subst. cbn. rewrite Q. reflexivity.
Qed.
End Equivalence.
End Proofs.
