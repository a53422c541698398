(** The formatter writes every construct in its syntax. *)
From Coq Require Import String.
From Verif Require Import Base StrModel LayoutModel LayoutSpec LayoutTextSpec.
From Verif Require ParseProps ConvProps.
From Verif Require Import ConvModel PlainSpec FormatModel FormatProps WriteSpec.
From Verif Require WriteBlock WriteProofs.
Local Open Scope nat_scope.

(** *** C102 *)
(** A tree of constructs that are written as the lines [ls] is formatted as these lines, without the spaces at their
    ends. *)
Theorem C102_constructs : forall i s ls o fuel pretty time_text real_text diagnostic drawers,
  writes time_text real_text i s ls -> (Z.of_nat (length (concat ls)) <= 2 ^ 28)%Z ->
  options_ok o -> (right_margin o <= 4096)%Z -> (0 <= linebreak_cost o)%Z -> Z.to_nat (2 ^ 28) < fuel ->
  exists b, fmt pretty time_text real_text diagnostic drawers i s = Done b /\
    exists fuel0, forall fuel', fuel0 <= fuel' -> exists out, block_string fuel fuel' o b = Done out /\ no_trailing (in_lines ls) out.
Proof.
  intros i s ls o fuel pretty time_text real_text diagnostic drawers W Sz Ho Hr Hc Hf.
  destruct (WriteProofs.all_good pretty time_text real_text diagnostic drawers _ s (le_n _) i ls W) as (b & E & Fb & Lb & Wb). exists b. split; [exact E|].
  destruct (WriteBlock.block_string_raw o fuel b Ho Hr Hc Hf Fb) as (f0 & G).
  - assert (T : list_sum (map (@length byte) ls) = length (concat ls)) by (clear; induction ls as [|l ls IH]; [reflexivity|]; cbn [map concat]; rewrite app_length, <- IH; reflexivity). rewrite <- T in Sz. lia.
  - exists f0. intros f' L. destruct (WriteBlock.tidy_trims (in_lines ls)) as (out & Eo & T). exists out. split; [|exact T]. rewrite (G f' L), Lb. exact Eo.
Qed.
Print Assumptions C102_constructs.

(** A document without settings: what stands in it, one below the other. *)
Theorem C102_document : forall k d f subs att lss o fuel pretty time_text real_text diagnostic preamble drawers,
  filter loud subs <> [] -> Forall2 (writes time_text real_text false) (filter loud subs) lss -> (Z.of_nat (length (concat (concat lss))) <= 2 ^ 28)%Z ->
  options_ok o -> (right_margin o <= 4096)%Z -> (0 <= linebreak_cost o)%Z -> Z.to_nat (2 ^ 28) < fuel ->
  exists fuel0, forall fuel', fuel0 <= fuel' -> exists out,
    formatted pretty time_text real_text diagnostic preamble drawers fuel fuel' o [] (Sem k d f subs att) = Done out /\ no_trailing (in_lines (concat lss)) out.
Proof.
  intros k d f subs att lss o fuel pretty time_text real_text diagnostic preamble drawers N F Sz Ho Hr Hc Hf.
  destruct (C102_constructs false (Sem oDocument d [] subs []) (concat lss) o fuel pretty time_text real_text diagnostic drawers) as (b & E & f0 & G); try assumption; [now constructor|].
  exists f0. intros f' L. destruct (G f' L) as (out & Eo & T). exists out. split; [|exact T]. unfold formatted. rewrite <- Eo.
  change (fmt_document pretty time_text real_text diagnostic preamble drawers [] (Sem k d f subs att)) with (fmt pretty time_text real_text diagnostic drawers false (Sem oDocument d [] subs [])). now rewrite E.
Qed.
Print Assumptions C102_document.

Definition mixed : str := ParseProps.ln "* TODO [#A] Title [1/2] :tag:ARCHIVE:" ++ ParseProps.ln "Text *bold* [[id:x][desc]] {{{macro(a, b)}}} #one##two" ++ ParseProps.ln "next"
  ++ ParseProps.ln "- [X] other :: more" ++ ParseProps.ln "#+begin_src cpp :x y" ++ ParseProps.ln "code" ++ ParseProps.ln "#+end_src" ++ ParseProps.ln "| a | b |"
  ++ ParseProps.ln "#+begin_quote" ++ ParseProps.ln "said" ++ ParseProps.ln "#+end_quote".
Lemma by_rows : forall tt rt i d subs rows rss att ass ls, subs = between (leaf oNewline [10%Z]) rows -> rows <> [] -> Forall (fun r => r <> []) rows -> Forall (Forall (fun x => skind x <> oNewline)) rows ->
  Forall2 (Forall2 (writes tt rt true)) rows rss -> Forall2 (writes tt rt i) att ass -> (forall x, rows = [[x]] -> skind x <> oLink) -> ls = concat ass ++ concat (map side rss) ->
  writes tt rt i (Sem oParagraph d [] subs att) ls.
Proof. intros tt rt i d subs rows rss att ass ls -> ? ? ? ? ? ? ->. now apply w_paragraph. Qed.
Ltac paragraph rows items := eapply (by_rows _ _ _ _ _ rows); [reflexivity|discriminate|repeat (apply Forall_cons; [discriminate|]); apply Forall_nil
  |repeat (apply Forall_cons; [repeat (apply Forall_cons; [discriminate|]); apply Forall_nil|]); apply Forall_nil|items|apply Forall2_nil|try discriminate; intros ? Erow; injection Erow as <-; discriminate|reflexivity].
Ltac word := eapply w_leaf; reflexivity.
Ltac words := apply Forall2_cons; [repeat (apply Forall2_cons; [word|]); apply Forall2_nil|apply Forall2_nil].
Ltac says := lazymatch goal with |- writes _ _ _ (Sem oParagraph _ _ ?s _) _ => paragraph (s :: nil) words end.
Example C102_mixed : exists sets d subs lss, read mixed = Done (sets, Sem oDocument d [] subs []) /\ filter loud subs <> [] /\
  Forall2 (writes (fun d => concat (dtext d)) FormatProps.nothing false) (filter loud subs) lss /\
  in_lines (concat lss) = removelast (ParseProps.ln "* TODO [#A] Title [1/2] :ARCHIVE:tag:" ++ ParseProps.ln "" ++ ParseProps.ln "Text *bold* [[id:x][desc]] {{{macro(a, b)}}} #one##two" ++ ParseProps.ln "next"
  ++ ParseProps.ln "- [x] other :: more" ++ ParseProps.ln "      " ++ ParseProps.ln "#+begin_src cpp :x y" ++ ParseProps.ln "code" ++ ParseProps.ln "#+end_src" ++ ParseProps.ln "|  a | b |"
  ++ ParseProps.ln "#+begin_quote " ++ ParseProps.ln "said" ++ ParseProps.ln "#+end_quote").
Proof.
  remember (read mixed) as o eqn:E. vm_compute in E. subst o. do 3 eexists. eexists. split; [reflexivity|]. split; [discriminate|]. split.
  - cbn [filter loud]. apply Forall2_cons; [|apply Forall2_nil].
    refine (w_heading _ _ false 1 (lit "TODO") (lit "A") false true [1; 2]%Z _ _ (lit "Title") [leaf oHashTag (lit "tag")] _ [] _ _ _ _ _ _ _ _ _ _); [discriminate|says|apply counted; [discriminate|refine (dec_pos 49%Z [] _ _); [repeat constructor|]; discriminate|refine (dec_pos 50%Z [] _ _); [repeat constructor|]; discriminate] |repeat constructor|apply Forall2_nil|exists false, false, false; reflexivity|].
    match goal with |- Forall2 _ ?l _ => let v := eval vm_compute in l in change l with v end.
    apply Forall2_cons; [|].
    { match goal with |- writes _ _ _ (Sem _ _ _ ?s _) _ => let r := eval vm_compute in (split_lines (map (fun x => (is_a oNewline x, x)) s)) in eapply (by_rows _ _ _ _ _ r) end.
      1: reflexivity. 1: discriminate. 1: repeat (apply Forall_cons; [discriminate|]); apply Forall_nil. 1: repeat (apply Forall_cons; [repeat (apply Forall_cons; [discriminate|]); apply Forall_nil|]); apply Forall_nil. 2: apply Forall2_nil. 2: discriminate. 2: reflexivity.
      apply Forall2_cons; [|words].
      repeat first [apply Forall2_nil | apply Forall2_cons; [|]]; try word.
      - eapply w_mark; [reflexivity|]. apply Forall2_cons; [word|apply Forall2_nil].
      - eapply w_link; [reflexivity|apply says_id|says].
      - eapply w_call; [repeat (apply Forall2_cons; [apply attr_value, value_text; cbn; intuition discriminate|]); apply Forall2_nil|repeat constructor].
      - apply w_tag. apply tag_one, tag_alone. }
    apply Forall2_cons; [|].
    { eapply w_list; [discriminate| |apply Forall2_nil]. apply Forall2_cons; [|apply Forall2_nil]. eapply w_item_described; [says|says|apply Forall2_nil]. }
    apply Forall2_cons; [|].
    { eapply w_code; [|apply Forall2_nil]. right. split; [discriminate|]. eexists. split; [|reflexivity]. eexists [], _, _. split; [reflexivity|]. split; [intros x []|]. split; [exists [lit "x"]; split; reflexivity|].
      split; [apply Forall2_cons; [apply attr_value, value_text; cbn; intuition discriminate|apply Forall2_nil]|reflexivity]. }
    apply Forall2_cons; [|].
    { eapply w_table; [discriminate|discriminate| |apply Forall2_nil]. apply Forall2_cons; [|apply Forall2_nil]. apply row_of; [discriminate|]. repeat (apply Forall2_cons; [apply cell_of; apply Forall2_cons; [says|apply Forall2_nil]|]). apply Forall2_nil. }
    apply Forall2_cons; [|apply Forall2_nil].
    eapply w_quote; [reflexivity| |apply Forall2_nil]. apply Forall2_cons; [says|apply Forall2_nil].
  - vm_compute. reflexivity.
Qed.

(** The reader or the formatter loses a part of some constructs. Two links whose protocol is not known are written alike, *)
Theorem C102_protocol_refuted : rewritten (ParseProps.ln "[[foo:bar]]") = Done (lit "[[foo:]]") /\ rewritten (ParseProps.ln "[[foo:baz]]") = Done (lit "[[foo:]]").
Proof. split; vm_compute; reflexivity. Qed.
Print Assumptions C102_protocol_refuted.
(** the level of the heading a link points at is not written, *)
Theorem C102_level_refuted : rewritten (ParseProps.ln "[[**deep]]") = Done (lit "[[*deep]]").
Proof. vm_compute. reflexivity. Qed.
Print Assumptions C102_level_refuted.
(** the arguments after a call are not written, those of its first brackets are written twice, *)
Theorem C102_call_refuted : rewritten (ParseProps.ln "#+call: f[x](a) y") = Done (lit "#+call: f[x](a) x").
Proof. vm_compute. reflexivity. Qed.
Print Assumptions C102_call_refuted.
(** and attributes of the same name are written below each other, with an empty line between them: the line is torn. *)
Theorem C102_repeated_refuted :
  rewritten (ParseProps.ln "#+begin_src sh :x a :x b" ++ ParseProps.ln "ls" ++ ParseProps.ln "#+end_src") =
    Done (ParseProps.ln "#+begin_src sh :x a" ++ ParseProps.ln "" ++ ParseProps.ln "               :x b" ++ ParseProps.ln "ls" ++ lit "#+end_src").
Proof. vm_compute. reflexivity. Qed.
Print Assumptions C102_repeated_refuted.
