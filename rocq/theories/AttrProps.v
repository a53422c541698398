(** C46: property inheritance; C61: setting properties; C62: attributes;
    C63: hashtags. *)
From Coq Require Import String.
From Verif Require Import Base StrModel AttrModel AttrSpec AttrProofs.
Local Open Scope nat_scope.

(** ** C46 *)
(** What is combined: the first matching definition of each node, from the
    outermost inwards.  The combination fails exactly when two of them are not
    definitions of one property. *)
Theorem C46_defined : forall nodes kind sub stack,
  Forall2 (fun ps r => get_property ps kind sub = r) nodes stack ->
  (exists r, final_property nodes kind sub = Ok r) <->
  (forall p q, In (Some p) stack -> In (Some q) stack -> compatible p q).
Proof.
  intros nodes kind sub stack F. unfold final_property.
  assert (E : flat_map (fun ps => match get_property ps kind sub with Some p => [p] | None => [] end) nodes =
              flat_map (fun r => match r with Some p => [p] | None => [] end) stack).
  { induction F as [|ps r nodes stack <- F IH]; cbn; [reflexivity|]. now rewrite IH. }
  rewrite E. set (l := flat_map _ stack). assert (I : forall p, In p l <-> In (Some p) stack).
  { intros p. unfold l. rewrite in_flat_map. split.
    - intros ([q|] & H & Hp); [|destruct Hp]. destruct Hp as [<-|[]]. exact H.
    - intros H. exists (Some p). split; [exact H|now left]. }
  transitivity (forall p q, In p l -> In q l -> compatible p q); [|split; intros H p q Hp Hq; apply H; now apply I].
  clear E I F. destruct l as [|p l]; cbn [combine_stack].
  - split; [intros _ p q []|eauto].
  - transitivity (exists r, combine_loop p l = Ok r).
    + split; intros [r H].
      * destruct (combine_loop p l); try discriminate H. eauto.
      * rewrite H. cbn. eauto.
    + rewrite combine_loop_total. split.
      * intros H x y Hx Hy. assert (C : forall z, In z (p :: l) -> compatible p z) by (intros z [<-|Hz]; [apply compatible_refl|auto]).
        eapply compatible_trans; [apply compatible_sym, C, Hx|apply C, Hy].
      * intros H q Hq. apply H; [now left|now right].
Qed.
Print Assumptions C46_defined.
(** The definition taken from a node is its first one that matches. *)
Theorem C46_first_match : forall ps kind sub p, get_property ps kind sub = Some p <->
  exists l1 l2, ps = l1 ++ p :: l2 /\ answers p kind sub /\ forall q, In q l1 -> ~ answers q kind sub.
Proof.
  intros ps kind sub p. etransitivity; [exact (hd_filter (fun p => matching p kind sub) ps p)|].
  split; intros (l1 & l2 & E & A & B); exists l1, l2; (split; [exact E|]); (split; [now apply matching_answers|]); intros q Hq.
  - intros C. apply matching_answers in C. rewrite (B q Hq) in C. discriminate.
  - destruct (matching q kind sub) eqn:M; [|reflexivity]. apply matching_answers in M. now apply B in Hq.
Qed.
Print Assumptions C46_first_match.
Example C46_demo_match : get_property [PJson (lit "a") 1; PRaw (lit "propjson") 2] (lit "prop_json") (Some (lit "b")) = Some (PRaw (lit "propjson") 2) /\
  get_property [PJson (lit "a") 1; PRaw (lit "propjson") 2] (lit "prop_json") (Some (lit "A")) = Some (PJson (lit "a") 1).
Proof. vm_compute. auto. Qed.
(** Other than custom arguments: the innermost definition. *)
Theorem C46_innermost : forall l p, (forall q, In q (l ++ [p]) -> compatible p q) -> (forall n s g, p <> PArgs n s g) ->
  combine_stack (l ++ [p]) = Ok (Some p).
Proof.
  intros l p C N. destruct l as [|q l]; cbn [app combine_stack]; [reflexivity|].
  rewrite combine_last; [cbn; rewrite last_last; reflexivity| |].
  - assert (Cq : compatible p q) by (apply C; now left). destruct p, q; cbn in Cq; auto. eapply N. reflexivity.
  - intros x Hx. eapply compatible_trans; [apply compatible_sym, C; now left|]. apply C. now right.
Qed.
Print Assumptions C46_innermost.
(** Custom arguments: the innermost list of positional arguments that is not
    empty, and for every key its innermost definition. *)
Theorem C46_custom_args : forall n stack, stack <> [] ->
  Forall (fun sg => proper (snd sg)) stack ->
  exists s g, combine_stack (map (fun sg => PArgs n (fst sg) (snd sg)) stack) = Ok (Some (PArgs n s g)) /\
    last_def positional_def (map snd stack) (positional_def g) /\
    forall k, last_def (named_def k) (map snd stack) (named_def k g).
Proof.
  intros n [|[s g] stack] NE F; [contradiction|]. clear NE. inversion F as [|? ? Pg F']; subst. cbn [map fst snd combine_stack] in *.
  assert (S1 : forall {A B} (f : A -> option B) x, last_def f [x] (f x)).
  { intros A B f x. destruct (f x) eqn:E; cbn; [exists [], x, []; repeat split; auto; intros y []|]. intros y [<-|[]]. exact E. }
  assert (FM : flat_map (fun p => match p with PArgs _ _ g => [g] | _ => [] end) (map (fun sg => PArgs n (fst sg) (snd sg)) stack) = map snd stack).
  { clear. induction stack as [|x l IH]; cbn; [reflexivity|]. now rewrite IH. }
  destruct (combine_args (map (fun sg => PArgs n (fst sg) (snd sg)) stack) n s g [g]) as (g' & E & P & N).
  - clear -F'. induction F'; cbn; constructor; auto. do 2 eexists. split; [reflexivity|]. assumption.
  - apply S1.
  - intros k. apply S1.
  - rewrite FM in *. exists s, g'. rewrite E. auto.
Qed.
Print Assumptions C46_custom_args.
(** Arguments read from the text are of the required form. *)
Theorem C46_read_proper : forall l, proper (attrs_of l).
Proof. exact attrs_proper. Qed.
Print Assumptions C46_read_proper.

Definition arg (n : string) (v : nat) : attr := Attr (Some (lit n)) v.
Definition ex_outer : prop := PArgs (lit "header-args") None (attrs_of [Attr None 1; arg "results" 2; arg "cache" 3]).
Definition ex_inner : prop := PArgs (lit "header-args") None (attrs_of [arg "Results" 4; arg "dir" 5]).
Example C46_demo : final_property [[PRaw (lit "x") 0; ex_outer]; []; [ex_inner; PRaw (lit "y") 0]] (lit "Header_Args") None =
  Ok (Some (PArgs (lit "header-args") None
    (Group [Attr None 1] [(lit "results", [arg "Results" 4]); (lit "cache", [arg "cache" 3]); (lit "dir", [arg "dir" 5])]))).
Proof. vm_compute. reflexivity. Qed.
Example C46_demo_innermost : final_property [[PSimple (lit "Ordered") 0]; [PSimple (lit "Ordered") 1]; []] (lit "ordered") None = Ok (Some (PSimple (lit "Ordered") 1)).
Proof. vm_compute. reflexivity. Qed.

(** Findings: two spellings of the name, or one definition with and one without
    arguments, make the query fail although each matches; ... *)
Theorem C46_spelling_refuted :
  (exists p q kind, matching p kind None = true /\ matching q kind None = true /\ final_property [[p]; [q]] kind None = Throw) /\
  (exists n v g kind, matching (PRaw n v) kind None = true /\ matching (PArgs n None g) kind None = true /\
     final_property [[PRaw n v]; [PArgs n None g]] kind None = Throw).
Proof.
  split.
  - exists ex_outer, (PArgs (lit "HEADER-ARGS") None no_attrs), (lit "header-args"). vm_compute. auto.
  - exists (lit "x"), 0, no_attrs, (lit "x"). vm_compute. auto.
Qed.
Print Assumptions C46_spelling_refuted.
(** ... "header-args:python" answers a query for "header-args:bash"; and export
    options answer a query for any other property of the same subkind. *)
Theorem C46_subkind_refuted :
  (exists n s s' g, s <> s' /\ matching (PArgs n (Some s) g) n (Some s') = true) /\
  (exists b v kind, kind <> lit "ExportOptions" /\ final_property [[PExport b v]] kind (Some b) = Ok (Some (PExport b v))).
Proof.
  split.
  - exists (lit "header-args"), (lit "python"), (lit "bash"), no_attrs. split; [discriminate|reflexivity].
  - exists (lit "html"), 7, (lit "header-args"). split; [discriminate|reflexivity].
Qed.
Print Assumptions C46_subkind_refuted.

(** ** C61 *)
(** Setting a text property under a name none of whose present definitions is
    spelled differently: reading it gives the new value, ... *)
Theorem C61_set_get_partial : forall h v kind sub, ~ same_name kind (lit "id") ->
  (forall p, In p (hprops h) -> matching p kind sub = true -> prop_name p = kind /\ prop_sub p = sub) ->
  get_property (hprops (set_str h v kind sub)) kind sub = Some (PRaw kind v).
Proof.
  intros h v kind sub Nid H. unfold set_str. replace (str_eqb (normalize kind) (lit "id")) with false.
  2:{ symmetry. apply str_eqb_neq. intros C. apply Nid. unfold same_name. rewrite C. reflexivity. }
  cbn [hprops]. unfold get_property, get_properties. rewrite filter_app.
  assert (E : filter (fun p => matching p kind sub) (remove_property (hprops h) kind sub) = []).
  { apply filter_none. intros p Hp. unfold remove_property in Hp. apply filter_In in Hp. destruct Hp as [Hp R].
    destruct (matching p kind sub) eqn:M; [|reflexivity]. exfalso. destruct (H p Hp M) as [E1 E2]. rewrite E1, E2 in R. rewrite str_eqb_refl in R.
    replace (opt_eqb sub sub) with true in R by (symmetry; now apply opt_eqb_eq). discriminate. }
  rewrite E. cbn. now rewrite str_eqb_refl.
Qed.
Print Assumptions C61_set_get_partial.
(** ... and everything else stays, provided the name is not the name of a kind. *)
Theorem C61_others_partial : forall h v kind sub kind' sub', ~ same_name kind (lit "id") -> ~ same_name kind' kind ->
  (forall p, In p (hprops h) -> kind_name p <> kind) ->
  get_properties (hprops (set_str h v kind sub)) kind' sub' = get_properties (hprops h) kind' sub'.
Proof.
  intros h v kind sub kind' sub' Nid Nk K. unfold set_str. replace (str_eqb (normalize kind) (lit "id")) with false.
  2:{ symmetry. apply str_eqb_neq. intros C. apply Nid. unfold same_name. rewrite C. reflexivity. }
  cbn [hprops]. unfold get_properties, remove_property. rewrite filter_app. cbn [filter matching].
  replace (str_eqb (normalize kind) (normalize kind')) with false by (symmetry; apply str_eqb_neq; intros C; now apply Nk).
  rewrite app_nil_r, filter_comm. apply filter_keep. intros p Hp. apply filter_In in Hp. destruct Hp as [Hp M].
  apply negb_true_iff. destruct (str_eqb (prop_name p) kind) eqn:E; [|reflexivity]. exfalso. apply str_eqb_eq in E.
  destruct p; try (apply (K _ Hp); exact E). cbn in E. subst name. cbn in M. apply str_eqb_eq in M. now apply Nk.
Qed.
Print Assumptions C61_others_partial.
(** A whole property: it is read back under the same condition, and replaces
    those with the same name and subkind. *)
Theorem C61_set_property_partial : forall h p,
  (forall q, In q (p :: hprops h) -> matching q (prop_name p) (prop_sub p) = true <-> prop_name q = prop_name p /\ prop_sub q = prop_sub p) ->
  get_property (hprops (set_property h p)) (prop_name p) (prop_sub p) = Some p /\
  (forall q, In q (hprops (set_property h p)) <->
     q = p \/ In q (hprops h) /\ matching q (prop_name p) (prop_sub p) = false) /\
  forall kind sub, (forall q, In q (p :: hprops h) -> matching q (prop_name p) (prop_sub p) = true -> matching q kind sub = false) ->
    get_properties (hprops (set_property h p)) kind sub = get_properties (hprops h) kind sub.
Proof.
  intros h p H. unfold set_property. cbn [hprops].
  assert (R : remove_property (hprops h) (prop_name p) (prop_sub p) = filter (fun q => negb (matching q (prop_name p) (prop_sub p))) (hprops h)).
  { unfold remove_property. apply filter_ext_in. intros q Hq. f_equal. specialize (H q (or_intror Hq)).
    destruct (matching q (prop_name p) (prop_sub p)).
    - destruct (proj1 H eq_refl) as [-> ->]. rewrite str_eqb_refl. cbn. now apply opt_eqb_eq.
    - destruct (str_eqb (prop_name q) (prop_name p)) eqn:E1; [|reflexivity]. destruct (opt_eqb (prop_sub q) (prop_sub p)) eqn:E2; [|reflexivity].
      apply str_eqb_eq in E1. apply opt_eqb_eq in E2. symmetry. now apply H. }
  rewrite R. assert (Mp : matching p (prop_name p) (prop_sub p) = true) by (apply H; [now left|auto]). split; [|split].
  - unfold get_property, get_properties. rewrite filter_app, filter_none.
    + cbn. now rewrite Mp.
    + intros q Hq. apply filter_In in Hq. now apply negb_true_iff.
  - intros q. rewrite in_app_iff, filter_In, negb_true_iff. cbn. intuition.
  - intros kind sub N. unfold get_properties. rewrite filter_app. cbn [filter]. rewrite (N p (or_introl eq_refl) Mp), app_nil_r, filter_comm.
    apply filter_keep. intros q Hq. apply filter_In in Hq. destruct Hq as [Hq M]. apply negb_true_iff.
    destruct (matching q (prop_name p) (prop_sub p)) eqn:E; [|reflexivity]. rewrite (N q (or_intror Hq) E) in M. discriminate.
Qed.
Print Assumptions C61_set_property_partial.
Definition ex_heading : heading := Heading None [PRaw (lit "area") 1; PSimple (lit "Ordered") 0; PRaw (lit "owner") 2].
Example C61_demo : hprops (set_str ex_heading 9 (lit "area") None) = [PSimple (lit "Ordered") 0; PRaw (lit "owner") 2; PRaw (lit "area") 9] /\
  (forall p, In p (hprops ex_heading) -> matching p (lit "area") None = true -> prop_name p = lit "area" /\ prop_sub p = None) /\
  (forall p, In p (hprops ex_heading) -> kind_name p <> lit "area").
Proof.
  split; [reflexivity|]. split; cbn [hprops ex_heading In].
  - intros p [<-|[<-|[<-|[]]]] M; auto; vm_compute in M; discriminate.
  - intros p [<-|[<-|[<-|[]]]]; discriminate.
Qed.
Example C61_demo_property : let p := PSimple (lit "Ordered") 5 in
  hprops (set_property ex_heading p) = [PRaw (lit "area") 1; PRaw (lit "owner") 2; p] /\
  (forall q, In q (p :: hprops ex_heading) -> matching q (prop_name p) (prop_sub p) = true <-> prop_name q = prop_name p /\ prop_sub q = prop_sub p).
Proof.
  split; [reflexivity|]. cbn [hprops ex_heading In]. intros q [<-|[<-|[<-|[<-|[]]]]]; vm_compute; split; intros; auto; try discriminate;
    match goal with H : _ /\ _ |- _ => destruct H; discriminate end.
Qed.
(** Findings: with another spelling the old value is read back; a subkind
    prevents the old value from being replaced; the id cannot be read; and
    setting one property with arguments deletes all others with arguments. *)
Theorem C61_set_refuted :
  (exists h v kind old, get_property (hprops (set_str h v kind None)) kind None = Some (PRaw old 1) /\ v <> 1) /\
  (exists h v kind sub, get_property (hprops (set_str (set_str h 1 kind sub) v kind sub)) kind sub = Some (PRaw kind 1) /\ v <> 1) /\
  (exists h v, get_property (hprops (set_str h v (lit "id") None)) (lit "id") None = None) /\
  (exists h p q, In q (hprops h) /\ ~ same_name (match p with PArgs n _ _ => n | _ => [] end) (match q with PArgs n _ _ => n | _ => [] end) /\
     hprops (set_property h p) = [p]).
Proof.
  split; [|split; [|split]].
  - exists (Heading None [PRaw (lit "MY_KEY") 1]), 2, (lit "my-key"), (lit "MY_KEY"). split; [reflexivity|discriminate].
  - exists (Heading None []), 2, (lit "key"), (Some (lit "sub")). split; [reflexivity|discriminate].
  - exists (Heading None []), 2. reflexivity.
  - exists (Heading None [ex_outer]), (PArgs (lit "other") None no_attrs), ex_outer. split; [now left|]. split; [|reflexivity]. intros C. vm_compute in C. discriminate.
Qed.
Print Assumptions C61_set_refuted.

(** ** C62 *)
(** Looking up a name gives the arguments written under it, in any spelling and
    in the order of the text; *)
Theorem C62_lookup : forall l p, get_attrs (attrs_of l) (Some p) = filter (called (normalize p)) l.
Proof. exact get_attrs_named. Qed.
Print Assumptions C62_lookup.
(** without a name: those without a name and then the others by their names in
    dictionary order. *)
Theorem C62_all : forall l, exists ks, StronglySorted str_lt ks /\
  (forall k, In k ks <-> exists a n, In a l /\ aname a = Some n /\ normalize n = k) /\
  get_attrs (attrs_of l) None = filter unnamed l ++ concat (map (fun k => filter (called k) l) ks).
Proof. exact flat_spec. Qed.
Print Assumptions C62_all.
(** A statement also has those of the lines attached to it. *)
Theorem C62_attached : forall own lines p,
  cmd_attrs (attrs_of own) (map (fun l => AttrLine (attrs_of l)) lines) (Some p) = filter (called (normalize p)) (own ++ concat lines).
Proof.
  intros own lines p. unfold cmd_attrs. rewrite get_attrs_named, filter_app. f_equal. unfold stmt_attrs.
  induction lines as [|l lines IH]; [reflexivity|]. cbn [map flat_map concat]. rewrite get_attrs_named, IH, filter_app. reflexivity.
Qed.
Print Assumptions C62_attached.
(** The first attribute of a statement is the first of them; that of a command
    is when the command itself has it. *)
Theorem C62_first_partial :
  (forall lines k, stmt_first (map (fun l => AttrLine (attrs_of l)) lines) k = hd_error (filter (called (normalize k)) (concat lines))) /\
  (forall own att k, (exists a, In a own /\ called (normalize k) a = true) ->
     cmd_first (attrs_of own) att k = hd_error (cmd_attrs (attrs_of own) att (Some k))).
Proof.
  split; [intros lines k; exact (f_equal (@hd_error attr) (C62_attached [] lines k))|]. intros own att k (a & Ha & C). unfold cmd_first, cmd_attrs. rewrite get_attrs_named.
  destruct (filter (called (normalize k)) own) eqn:E; [|reflexivity]. exfalso.
  assert (H : In a (filter (called (normalize k)) own)) by (apply filter_In; auto). rewrite E in H. destruct H.
Qed.
Print Assumptions C62_first_partial.
Definition ex_args : list attr := [arg "width" 1; Attr None 2; arg "alt" 3; arg "WIDTH" 4].
Example C62_demo : get_attrs (attrs_of ex_args) (Some (lit "Width")) = [arg "width" 1; arg "WIDTH" 4] /\
  get_attrs (attrs_of ex_args) None = [Attr None 2; arg "alt" 3; arg "width" 1; arg "WIDTH" 4] /\
  cmd_first (attrs_of ex_args) [AttrLine (attrs_of ex_args)] (lit "width") = Some (arg "width" 1).
Proof. vm_compute. auto. Qed.
(** Finding: a command never finds the first attribute on an attached line. *)
Theorem C62_first_refuted : exists own att k a, hd_error (cmd_attrs (attrs_of own) att (Some k)) = Some a /\ cmd_first (attrs_of own) att k = None.
Proof. exists [], [AttrLine (attrs_of ex_args)], (lit "width"), (arg "width" 1). vm_compute. auto. Qed.
Print Assumptions C62_first_refuted.

(** ** C63 *)
Theorem C63_prefix : forall t p, prefix_match t p = true <-> p = [] \/ tag_path t p.
Proof. exact prefix_match_spec. Qed.
Print Assumptions C63_prefix.
(** The flat tags are the paths to the leaves, in order; ... *)
Theorem C63_flat : forall t, exists l, leaves t l /\ flat_hashes t false = l /\ forall l', leaves t l' -> l' = l.
Proof.
  intros t. destruct (leaves_total t) as [l H]. exists l. split; [exact H|]. split; [now apply flat_hashes_false|].
  intros l' H'. now apply (leaves_fun t).
Qed.
Print Assumptions C63_flat.
(** ... with intermediate tags every path to a tag with subtags is listed once
    more, even if the same tag is written several times. *)
Theorem C63_intermediate : forall t p,
  (inner_path t p -> cnt p (flat_hashes t true) = S (cnt p (flat_hashes t false))) /\
  (~ inner_path t p -> cnt p (flat_hashes t true) = cnt p (flat_hashes t false)).
Proof.
  intros t p. destruct (leaves_total t) as [l H]. rewrite (flat_hashes_false t l H). now apply flat_hashes_true.
Qed.
Print Assumptions C63_intermediate.
(** #1##[2##[3,4], 2##5, 6] *)
Definition ex_tag : hashtag := HashTag 1 [HashTag 2 [HashTag 3 []; HashTag 4 []]; HashTag 2 [HashTag 5 []]; HashTag 6 []].
Example C63_demo : flat_hashes ex_tag true = [[1]; [1; 2]; [1; 2; 3]; [1; 2; 4]; [1; 2; 5]; [1; 6]] /\
  flat_hashes ex_tag false = [[1; 2; 3]; [1; 2; 4]; [1; 2; 5]; [1; 6]] /\ prefix_match ex_tag [1; 2; 5] = true /\ prefix_match ex_tag [1; 5] = false.
Proof. vm_compute. auto. Qed.
