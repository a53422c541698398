(** C127: writing of XML. *)
From Coq Require Import String.
From Verif Require Import Base StrModel AttrModel XmlModel XmlSpec XmlProofs.
From Verif Require AttrProofs.
Local Open Scope Z_scope.

(** What is written for a tree of proper nodes is XML that means this tree, with any indentation. *)
Theorem C127_written : forall n, proper n -> forall indent, node_text n (to_string indent n).
Proof. intros n P indent. now apply serialize_ok. Qed.
Print Assumptions C127_written.

(** Any text of an element and any value of an attribute is written so that it means this text, and no other; a value
    contains no quote. *)
Theorem C127_escaped : forall t,
  (forall u, means false (escape t) u <-> u = t) /\ (forall u, means true (escape_attr t) u <-> u = t).
Proof.
  intros t. split; intros u; split.
  - intros U. exact (means_one _ _ _ U _ (escape_means t)).
  - intros ->. apply escape_means.
  - intros U. exact (means_one _ _ _ U _ (attr_means t)).
  - intros ->. apply attr_means.
Qed.
Print Assumptions C127_escaped.

(** No comment, whatever its text, has two dashes in a row before its end, so that it ends where it should. *)
Theorem C127_comment : forall t, without (lit "--") (escape_comment false t ++ lit "-").
Proof. intros t. apply comment_safe. Qed.
Print Assumptions C127_comment.

(** Setting an attribute gives it this value and leaves the others and the order alone; a new one is the last. *)
Theorem C127_set_attr : forall l k v,
  (forall a w b, l = a ++ (k, w) :: b -> ~ In k (map fst a) -> set_attr l k v = a ++ (k, v) :: b) /\
  (~ In k (map fst l) -> set_attr l k v = l ++ [(k, v)]).
Proof.
  assert (N : forall x y : str, x <> y -> str_eqb x y = false).
  { intros x y H. destruct (str_eqb x y) eqn:E; [|reflexivity]. apply AttrProofs.str_eqb_eq in E. contradiction. }
  intros l k v. split.
  - intros a w b -> H. induction a as [|[x y] a IH]; cbn [app set_attr].
    + now rewrite (proj2 (AttrProofs.str_eqb_eq k k) eq_refl).
    + cbn in H. rewrite N by tauto. f_equal. apply IH. tauto.
  - intros H. induction l as [|[x y] l IH]; [reflexivity|]. cbn in H |- *. rewrite N by tauto. f_equal. apply IH. tauto.
Qed.
Print Assumptions C127_set_attr.

Definition sample : node :=
  Element (lit "a") [(lit "k", lit "x""y")] (lit "1<2") [Comment (lit "p--q"); Element (lit "b") [] [] []; CData (lit "]]")].
Example C127_proper : proper sample.
Proof.
  assert (N : forall c, In c [97; 98; 107] -> name [c]).
  { intros c C. split; [discriminate|]. constructor; [|constructor].
    repeat (destruct C as [C|C]; [subst c; cbn; intros X; repeat (destruct X as [X|X]; [discriminate X|]); exact X|]). destruct C. }
  apply proper_element; [apply N; cbn; tauto|constructor; [apply N; cbn; tauto|constructor]|].
  apply Forall_cons; [|apply Forall_cons; [|apply Forall_cons; [|apply Forall_nil]]].
  - constructor. intros a E. apply (f_equal (@rev Z)) in E. rewrite rev_app_distr in E. vm_compute in E. discriminate E.
  - apply proper_element; [apply N; cbn; tauto|constructor|constructor].
  - constructor. intros [|x [|y [|z a]]] b E; discriminate E.
Qed.
Example C127_sample : to_string 0 sample =
  lit "<a k=""x&quot;y"">1&lt;2<!--p-&#45;q-->" ++ [10] ++ lit "<b/><![CDATA[]]]]>" ++ [10] ++ lit "</a>".
Proof. vm_compute. reflexivity. Qed.

(** *** What does not hold *)
(** The text of a comment is kept: false if it ends with a dash, to which another one is added. *)
Theorem C127_dash_refuted : forall t,
  escape_comment false (t ++ lit "a-") = escape_comment false (t ++ lit "a--") /\ ~ dashes (escape_comment false (lit "a-")) (lit "a-").
Proof.
  intros t. split.
  - assert (E : forall d, escape_comment d (t ++ lit "a-") = escape_comment d (t ++ lit "a--")).
    { induction t as [|c t IH]; intros d; [destruct d; reflexivity|]. cbn [app escape_comment]. now rewrite !IH. }
    apply E.
  - intros H. change (escape_comment false (lit "a-")) with [97; 45; 38; 35; 52; 53; 59] in H. change (lit "a-") with [97; 45] in H.
    inversion H as [| |? ? ? H1]; subst. inversion H1 as [| |? ? ? H2]; subst. inversion H2.
Qed.
Print Assumptions C127_dash_refuted.

(** The text of a CDATA section is kept: false if it has the sign of its end in it, which ends it: what follows is read
    as something else. *)
Theorem C127_cdata_refuted : to_string 0 (CData (lit "x]]><b/><![CDATA[y")) =
  lit "<![CDATA[x]]>" ++ lit "<b/>" ++ lit "<![CDATA[y]]>" ++ [10].
Proof. vm_compute. reflexivity. Qed.
Print Assumptions C127_cdata_refuted.

(** Raw data is written as it is: false, it is written as an element without a name, and escaped. *)
Theorem C127_raw_refuted : forall t, t <> [] -> to_string 0 (Raw t) = lit "<>" ++ escape t ++ lit "</>".
Proof. intros [|c t] N; [congruence|]. unfold to_string. cbn [serialize write_element pad brk repeat Nat.mul app flat_map]. reflexivity. Qed.
Print Assumptions C127_raw_refuted.
