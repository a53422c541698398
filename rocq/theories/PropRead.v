(** Proofs for C120, part two: reading and writing of properties. *)
From Coq Require Import String Lia.
From Verif Require Import Base StrModel StrSpec StrProofs AttrModel TokModel TimeModel PropModel PropSpec PropProofs.
From Verif Require JsonModel ConvModel ConvSpec ConvProofs ConvTexts AttrProofs Utf8Proofs TokRun TimeSpec TimeProofs.
Local Open Scope Z_scope.

(** ** Blanks at the ends *)
Lemma strip_end_trimmed : forall s lead tr, (forall m c, s = c :: m -> ~ In c lead) -> (forall m c, s = m ++ [c] -> ~ In c tr) ->
  strip s (ConvModel.chars lead) (ConvModel.chars tr) = s.
Proof.
  intros s lead tr H T. destruct s as [|c m]; [reflexivity|]. apply ConvProofs.strip_trims. exists [], []. split; [now rewrite app_nil_r|].
  split; [constructor|]. split; [constructor|]. split; [exists c, m; split; [reflexivity|]; eapply H; reflexivity|].
  destruct (exists_last (l := c :: m)) as (q & d & E); [discriminate|]. exists d, q. split; [exact E|]. eapply T. exact E.
Qed.
Lemma trimmed_ends : forall s, trimmed s -> (forall m c, s = c :: m -> ~ In c [32]) /\ (forall m c, s = m ++ [c] -> ~ In c [32]).
Proof. intros s [A B]. split; intros m c E [<-|[]]; [exact (A m E)|exact (B m E)]. Qed.
Lemma strip_same : forall s, trimmed s -> ConvModel.strip_space s = s.
Proof. intros s T. destruct (trimmed_ends s T). apply strip_end_trimmed; assumption. Qed.
Lemma strip_lead : forall s, trimmed s -> ConvModel.strip_space (32 :: s) = s.
Proof.
  intros s T. destruct s as [|c m]; [reflexivity|]. destruct (trimmed_ends _ T) as [A B]. apply ConvProofs.strip_trims. exists [32], []. split; [cbn [app]; now rewrite app_nil_r|].
  split; [repeat constructor|]. split; [constructor|]. split; [exists c, m; split; [reflexivity|]; eapply A; reflexivity|].
  destruct (exists_last (l := c :: m)) as (q & d & E); [discriminate|]. exists d, q. split; [exact E|]. eapply B. exact E.
Qed.
Lemma strip_trimmed : forall s, trimmed (ConvModel.strip_space s).
Proof.
  intros s. unfold ConvModel.strip_space. destruct (strip_spec s (ConvModel.chars [32]) (ConvModel.chars [32])) as (a & b & E & _ & _ & A & B). split.
  - intros m E1. rewrite E1 in A. specialize (A 32 (m ++ b) eq_refl). discriminate A.
  - intros m E1. specialize (B m 32 E1). discriminate B.
Qed.
Lemma strip_in : forall s lead tr c, In c (strip s lead tr) -> In c s.
Proof. intros s lead tr c I. destruct (strip_spec s lead tr) as (a & b & E & _). rewrite E. apply in_or_app. right. apply in_or_app. now left. Qed.
Lemma strip_clean : forall s, one_line s -> clean (ConvModel.strip_space s).
Proof. intros s O. split; [apply strip_trimmed|]. intros I. apply O. eapply strip_in. exact I. Qed.

(** ** Splitting *)
Lemma split_char_joined : forall ch ws, ws <> [] -> last ws [] <> [] -> Forall (fun w => ~ In ch w) ws -> split_char (join [ch] ws) ch = Ok ws.
Proof.
  intros ch ws N L F. destruct (split_char_spec (join [ch] ws) ch) as (ts & E & Ft & _ & _ & G). rewrite E. f_equal.
  destruct (exists_last N) as (q & w & Ew). rewrite Ew, last_last in L. destruct (exists_last L) as (u & d & Ed).
  assert (J : exists z, join [ch] ws = z ++ [d]).
  { rewrite Ew, Ed. destruct q as [|x q]; [exists u; cbn; unfold join; cbn; now rewrite app_nil_r|]. rewrite join_snoc by discriminate. exists (join [ch] (x :: q) ++ [ch] ++ u). now rewrite <- !app_assoc. }
  destruct J as (z & Ej). assert (Nd : d <> ch).
  { intros ->. rewrite Forall_forall in F. apply (F w); [rewrite Ew; apply in_or_app; right; now left|]. rewrite Ed. apply in_or_app. right. now left. }
  assert (X : join [ch] ws = join [ch] ts) by (apply G; rewrite Ej; [destruct z; discriminate|rewrite last_last; exact Nd]).
  assert (Nt : ts <> []) by (intros ->; rewrite Ej in X; destruct z; discriminate).
  eapply split_at_functional; [|apply ConvTexts.split_joined; [exact N|exact F]]. rewrite X. apply ConvTexts.split_joined; assumption.
Qed.
Lemma split_by_joined : forall c d parts, lit d = [c] -> parts <> [] -> Forall (fun p => ~ In c p) parts -> split_by (join [c] parts) d = Ok parts.
Proof.
  intros c d parts D N F. unfold split_by. rewrite D.
  destruct (split_str_spec (join [c] parts) [c] (S (S (length (join [c] parts))))) as (ts & E & Q); [discriminate|lia|].
  rewrite E. f_equal. eapply split_at_functional; [exact Q|]. apply ConvTexts.split_joined; assumption.
Qed.
Lemma split_by_inv : forall s d, lit d <> [] -> exists ts, split_by s d = Ok ts /\ split_at (lit d) s ts.
Proof. intros s d N. unfold split_by. apply split_str_spec; [exact N|lia]. Qed.

(** ** Numbers *)
Lemma value_flip : forall s acc, fold_left (fun v c => v * 10 + (c - 48)) s acc = fold_left (fun v c => 10 * v + (c - 48)) s acc.
Proof. induction s as [|c r IH]; intros acc; [reflexivity|]. cbn [fold_left]. rewrite IH. f_equal. lia. Qed.
Lemma number_numeral : forall s n, TimeSpec.number s n -> n <= 2147483647 -> ConvSpec.numeral s n.
Proof. intros s n (N & F & ->) L. rewrite value_flip in *. repeat split; assumption. Qed.
Lemma number_digits : forall s n, TimeSpec.number s n -> ConvModel.digits s 0 false = Some n /\ 0 <= n.
Proof.
  intros s n (N & F & ->). rewrite value_flip. split.
  - destruct s as [|c s]; [congruence|]. inversion F; subst. cbn [ConvModel.digits fold_left].
    assert (is_digit c = true) as -> by (unfold is_digit; apply andb_true_iff; split; apply Z.leb_le; lia). rewrite ConvTexts.digits_value by assumption. reflexivity.
  - apply ConvTexts.value_pos; [exact F|lia].
Qed.
Lemma to_int_decimal : forall z, is_int z -> to_int (decimal z) = Ok z.
Proof.
  intros z B. unfold is_int in B. unfold to_int. destruct (Z.le_gt_cases 0 z) as [P|P].
  - rewrite (ConvTexts.numeral_ok _ z); [reflexivity|]. apply number_numeral; [apply TimeProofs.decimal_spec; exact P|lia].
  - destruct (TimeProofs.decimal_neg z P) as (s & -> & N). destruct (number_digits _ _ N) as [D _]. unfold ConvModel.stoi. cbn [ConvModel.skip_space]. change (ConvModel.is_space 45) with false. cbv iota beta.
    rewrite D. replace ((-2147483648 <=? - - z) && (- - z <=? 2147483647)) with true; [cbn; f_equal; lia|]. symmetry. apply andb_true_iff. split; apply Z.leb_le; lia.
Qed.
Lemma to_int_range : forall s z, to_int s = Ok z -> is_int z.
Proof.
  intros s z H. unfold to_int in H. destruct (ConvModel.stoi s) eqn:E; try discriminate. injection H as <-. unfold ConvModel.stoi in E.
  destruct (match ConvModel.skip_space s with 45 :: r => (true, r) | 43 :: r => (false, r) | r => (false, r) end) as [neg body].
  destruct (ConvModel.digits body 0 false) as [v|]; [|discriminate]. destruct (_ && _) eqn:B in E; [|discriminate]. injection E as <-. unfold is_int. apply andb_true_iff in B. lia.
Qed.
Lemma decimal_ends : forall z, decimal z <> [] /\ Forall (fun c => 45 = c \/ 48 <= c <= 57) (decimal z).
Proof.
  intros z. destruct (Z.le_gt_cases 0 z) as [P|P].
  - destruct (TimeProofs.decimal_spec z P) as (N & F & _). split; [exact N|]. eapply Forall_impl; [|exact F]. intros c H. now right.
  - destruct (TimeProofs.decimal_neg z P) as (s & -> & _ & F & _). split; [discriminate|]. constructor; [now left|]. eapply Forall_impl; [|exact F]. intros c H. now right.
Qed.
Lemma trimmed_all : forall s, ~ In 32 s -> trimmed s.
Proof. intros s N. split; intros m E; apply N; rewrite E; [now left|apply in_or_app; right; now left]. Qed.

(** ** Names *)
Lemma wordy_ends : forall a, ident a -> exists c m d q, a = c :: m /\ a = q ++ [d] /\ wordy c = true /\ wordy d = true.
Proof.
  intros a I. apply ident_wordy in I. destruct I as [N F]. destruct (exists_last N) as (q & d & E). destruct a as [|c m]; [congruence|]. exists c, m, d, q. repeat split; auto.
  - inversion F; assumption.
  - rewrite E in F. apply Forall_app in F as [_ F]. inversion F; assumption.
Qed.
Lemma wordy_not : forall c, wordy c = true -> c <> 32 /\ c <> 58.
Proof. intros c H. apply wordy_spec in H. unfold letter in H. lia. Qed.
(** A name: its first and last characters are those of identifiers *)
Definition named_ends (n : str) : Prop := exists c m d q, n = c :: m /\ n = q ++ [d] /\ wordy c = true /\ wordy d = true.
Lemma ends_two : forall a b, ident a -> ident b -> named_ends (a ++ 58 :: b).
Proof.
  intros a b I J. destruct (wordy_ends a I) as (c & m & _ & _ & -> & _ & C & _). destruct (wordy_ends b J) as (_ & _ & d & q & _ & -> & _ & D).
  exists c, (m ++ 58 :: q ++ [d]), d, ((c :: m) ++ 58 :: q). repeat split; auto. rewrite <- app_assoc. reflexivity.
Qed.
Lemma basename_of : forall k n, named_ends n -> strip (repeat 32 k ++ 58 :: n ++ [58]) (ConvModel.chars [32; 58]) (ConvModel.chars [58]) = n.
Proof.
  intros k n (c & m & d & q & E1 & E2 & C & D). apply wordy_not in C, D. apply ConvProofs.strip_trims. exists (repeat 32 k ++ [58]), [58].
  split; [rewrite <- app_assoc; reflexivity|]. split; [apply Forall_app; split; [apply Forall_forall; intros x X; apply repeat_spec in X; subst; now left|constructor; [right; now left|constructor]]|].
  split; [repeat constructor|]. split; [exists c, m; split; [exact E1|cbn; lia]|exists d, q; split; [exact E2|cbn; lia]].
Qed.
Lemma colon_stripped : forall n, named_ends n -> strip n (ConvModel.chars [58]) (ConvModel.chars [58]) = n /\ strip (58 :: n ++ [58]) (ConvModel.chars [58]) (ConvModel.chars [58]) = n.
Proof.
  intros n (c & m & d & q & E1 & E2 & C & D). apply wordy_not in C, D. split; apply ConvProofs.strip_trims.
  - exists [], []. split; [now rewrite app_nil_r|]. split; [constructor|]. split; [constructor|]. split; [exists c, m; split; [exact E1|cbn; lia]|exists d, q; split; [exact E2|cbn; lia]].
  - exists [58], [58]. split; [reflexivity|]. split; [repeat constructor|]. split; [repeat constructor|]. split; [exists c, m; split; [exact E1|cbn; lia]|exists d, q; split; [exact E2|cbn; lia]].
Qed.
Lemma ident_ends : forall a, ident a -> named_ends a.
Proof. exact wordy_ends. Qed.

Lemma eqb_neq : forall s (w : string), s <> lit w -> str_eqb s (lit w) = false.
Proof. intros s w N. destruct (str_eqb s (lit w)) eqn:E; [|reflexivity]. apply AttrProofs.str_eqb_eq in E. congruence. Qed.
Lemma starts_not : forall s w, (forall r, s <> w ++ r) -> starts_with s w = false.
Proof. intros s w N. destruct (starts_with s w) eqn:E; [|reflexivity]. apply starts_with_spec in E. destruct E as (r & E). exfalso. exact (N r E). Qed.

Section Lines.
Variable json_of : str -> outcome JsonModel.json.
Notation read_property := (read_property json_of).

(** ** A property under a name without a meaning of its own *)
Lemma raw_read : forall tok n s, strip tok (ConvModel.chars [32; 58]) (ConvModel.chars [58]) = n -> ~ reserved (essence n) ->
  read_property tok (VRaw s) = Ok (RProp (PRaw n (ConvModel.strip_space s))).
Proof.
  intros tok n s E R. unfold PropModel.read_property. rewrite E, essence_is.
  assert (A : forall w, In (lit w) (map lit ["exportoptions"; "id"; "customid"; "radioid"; "hashtagdef"; "created"; "visibility"; "cookiedata"; "effort";
                 "archivefile"; "archivetime"; "archivecategory"; "archivetodo"; "archive"; "archiveolpath"]%string) -> str_eqb (essence n) (lit w) = false).
  { intros w I. apply eqb_neq. intros X. apply R. left. rewrite X. exact I. }
  cbv zeta. do 15 (rewrite A by (cbn [map In]; tauto)).
  rewrite !starts_not; [reflexivity| |]; intros r X; apply R; right; [right|left]; exists r; exact X.
Qed.
Lemma reserved_dec : forall e, (forall w, In w ["exportoptions"; "id"; "customid"; "radioid"; "hashtagdef"; "created"; "visibility"; "cookiedata"; "effort";
                 "archivefile"; "archivetime"; "archivecategory"; "archivetodo"; "archive"; "archiveolpath"]%string -> str_eqb e (lit w) = false) ->
  starts_with e (lit "propjson") = false -> starts_with e (lit "propargs") = false -> ~ reserved e.
Proof.
  intros e A B C [I|[(r & ->)|(r & ->)]].
  - apply in_map_iff in I. destruct I as (w & <- & I). specialize (A w I). rewrite (proj2 (AttrProofs.str_eqb_eq _ _) eq_refl) in A. discriminate.
  - rewrite (proj2 (starts_with_spec _ _)) in B by (exists r; reflexivity). discriminate.
  - rewrite (proj2 (starts_with_spec _ _)) in C by (exists r; reflexivity). discriminate.
Qed.

(** ** What was read *)
Definition seen (tok : str) (v : values) (p : prop) : Prop :=
  match p with
  | PRaw n w => exists s, v = VRaw s /\ n = strip tok (ConvModel.chars [32; 58]) (ConvModel.chars [58]) /\ ~ reserved (essence n) /\ w = ConvModel.strip_space s
  | PCustomId w | PArchiveFile w | PArchiveCategory w | PArchiveTodo w => exists s, text_of v = Ok s /\ w = ConvModel.strip_space s
  | PRadioId ws => exists s, text_of v = Ok s /\ split_char (ConvModel.strip_space s) 32 = Ok ws
  | PArchiveOlpath path => exists s, text_of v = Ok s /\ subtree_path (ConvModel.strip_space s) = Ok path
  | PEffort h m => is_int h /\ is_int m
  | PNonblocking _ | PTrigger | PLatexClass _ | PLatexClassOptions _ | PLatexHeader _ | PLatexCompiler _ | POrdered _ | PExportOptions _ _ | PBlocker _ | PUnnumbered => False
  | _ => True
  end.
Lemma hashtag_kind : forall l d p, hashtag l d = Ok (RProp p) -> exists t, p = PHashtagDef t.
Proof.
  intros l. induction l as [|i l IH]; intros d p H; cbn in H; [injection H as <-; eauto|]. destruct i; try discriminate; [eapply IH; exact H|].
  destruct d as [[[|c h] subs]|]; try discriminate; eapply IH; exact H.
Qed.
Lemma cookie_kind : forall l r s p, cookie l r s = RProp p -> exists r s, p = PCookie r s.
Proof.
  intros l. induction l as [|w l IH]; intros r s p H; cbn [cookie] in H; [injection H as <-; eauto|].
  repeat (destruct (str_eqb _ _) in H; [eapply IH; exact H|]). discriminate.
Qed.
Lemma read_seen : forall tok v p, read_property tok v = Ok (RProp p) -> seen tok v p.
Proof.
  intros tok v p H. unfold PropModel.read_property in H. cbv zeta in H. set (n := strip tok (ConvModel.chars [32; 58]) (ConvModel.chars [58])) in *.
  unfold values_text in H.
  repeat match type of H with
  | (if str_eqb (normalize n) (lit ?w) then _ else _) = _ => let E := fresh "E" in destruct (str_eqb (normalize n) (lit w)) eqn:E
  end.
  all: try discriminate.
  all: destruct (text_of v) as [s| | |] eqn:T; cbn [omap obind] in H; try discriminate.
  all: try (injection H as <-; cbn [seen]; eauto; fail).
  all: try (apply hashtag_kind in H; destruct H as (t & ->); exact I).
  all: try (destruct (items_of v) as [|[|[t|]|t|] r]; try discriminate; injection H as <-; exact I).
  all: try (destruct (split_char _ _) eqn:S in H; cbn [omap obind] in H; try discriminate; injection H as <-; cbn [seen]; eauto; fail).
  all: try (destruct (parse_level s); try discriminate; injection H as <-; exact I).
  all: try (destruct (split_by (ConvModel.strip_space s) " ") in H; cbn [omap obind] in H; try discriminate; injection H as H; apply cookie_kind in H; destruct H as (r & q & ->); exact I).
  all: try (unfold archive_time in H; repeat (match type of H with obind ?x _ = _ => destruct x; cbn [obind] in H; try discriminate end); match type of H with match ?x with _ => _ end = _ => destruct x; try discriminate end; injection H as <-; exact I).
  all: try (destruct (subtree_path _) eqn:S in H; cbn [omap obind] in H; try discriminate; injection H as <-; cbn [seen]; eauto; fail).
  all: try (destruct (split_by (ConvModel.strip_space s) "::") in H; cbn [omap obind] in H; try discriminate; destruct (at_out _ 0) in H; cbn [omap obind] in H; try discriminate;
    destruct (at_out _ 1) in H; cbn [omap obind] in H; try discriminate; destruct (split_by _ "/") in H; cbn [omap obind] in H; try discriminate; injection H as <-; exact I).
  all: try (destruct (split_by (ConvModel.strip_space s) ":") as [[|x [|y [|]]]| | |] in H; cbn [omap obind] in H; try discriminate;
    [injection H as <-; cbn [seen]; unfold is_int; lia
    |destruct (to_int x) eqn:X in H; cbn [omap obind] in H; try discriminate; injection H as <-; apply to_int_range in X; cbn [seen]; split; [unfold is_int; lia|exact X]
    |destruct (to_int y) eqn:Y in H; cbn [omap obind] in H; try discriminate; destruct (to_int x) eqn:X in H; cbn [omap obind] in H; try discriminate; injection H as <-; apply to_int_range in X, Y; cbn [seen]; split; assumption
    |injection H as <-; cbn [seen]; unfold is_int; lia]).
  all: destruct (starts_with (normalize n) (lit "propjson")) eqn:PJ.
  all: try (destruct (second_part n); cbn [omap obind] in H; try discriminate; destruct (json_of _) in H; cbn [omap obind] in H; try discriminate; injection H as <-; exact I).
  all: destruct (starts_with (normalize n) (lit "propargs")) eqn:PA.
  all: try (destruct (second_part n); cbn [omap obind] in H; try discriminate; destruct (attrs_of_values v) in H; cbn [omap obind] in H; try discriminate; injection H as <-; exact I).
  all: destruct v as [s'|l|g]; try discriminate.
  all: try (destruct (split_char _ _) in H; cbn [omap obind] in H; try discriminate; destruct (at_out _ 0) in H; cbn [omap obind] in H; try discriminate; injection H as <-; exact I).
  all: injection H as <-; cbn [seen]; exists s'; split; [reflexivity|]; split; [reflexivity|]; split; [|reflexivity].
  all: rewrite essence_is in *; apply reserved_dec; auto; intros w Iw; cbn [In] in Iw; repeat (destruct Iw as [<-|Iw]; [assumption|]); destruct Iw.
Qed.
End Lines.
