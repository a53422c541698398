(** Evaluation of code blocks (src/haxorg/api/EvalContext.cpp): what the evaluator is
    asked, in what order, and what becomes of its answers. *)
From Coq Require Import String.
From Verif Require Import Base StrModel StrProofs AttrModel AttrProofs EvalModel EvalSpec EvalProofs.
From Verif Require AttrSpec.
Local Open Scope nat_scope.

(** C103: a slice of a rectangular array is the sub-array its spans describe; a span
    outside its dimension is an error, never undefined behaviour. *)
Theorem C103_slice : forall ds l sps, boxed ds (JArr l) -> length sps = length ds ->
  (forall r, slice (JArr l) sps = Ok r <-> sliced sps (JArr l) r) /\
  (slice (JArr l) sps = Throw \/ exists r, slice (JArr l) sps = Ok r).
Proof. intros ds l sps B E. now apply (slice_spec ds (JArr l) l). Qed.
Print Assumptions C103_slice.

Definition grid : json := JArr [JArr [JStr (lit "a"); JStr (lit "b"); JStr (lit "c")]; JArr [JStr (lit "d"); JStr (lit "e"); JStr (lit "f")]].
(** x[0:1,-2:-1] of a table of two rows and three columns *)
Example C103_slice_example : boxed [2; 3] grid /\
  slice grid [(0%Z, Some 1%Z); ((-2)%Z, Some (-1)%Z)] = Ok (JArr [JArr [JStr (lit "b"); JStr (lit "c")]; JArr [JStr (lit "e"); JStr (lit "f")]]) /\
  slice grid [(2%Z, None)] = Throw.
Proof. split; [|split; vm_compute; reflexivity]. refine (box_level [3] [_; _] _).
  repeat (constructor; [refine (box_level [] [_; _; _] _); repeat constructor|]). constructor. Qed.

(** A table whose rows differ in length: the size of the columns is taken from the first
    row, and the cell of a shorter row is read past its end. *)
Theorem C103_ragged_refuted : ~ (forall rows sps, slice (JArr (map (fun row => JArr (map JStr row)) rows)) sps <> UB).
Proof.
  intros H. apply (H [[lit "a"; lit "b"]; [lit "c"]] [(0%Z, Some 1%Z); (1%Z, None)]). vm_compute. reflexivity.
Qed.
Print Assumptions C103_ragged_refuted.

(** C104: the arguments of a question.  Whatever is known by name, the question has the
    language and the lines of the block, and one argument for each variable that :var or
    the call sets, in the order of their names, with the value the last setting stands for. *)
Theorem C104_arguments : forall s lang ls own att vars i, convert_input s lang ls own att vars = Ok i ->
  asks_block (tracked s) (Node [] (KCode lang ls own att) [] []) vars i.
Proof. intros. eapply asks; [|eassumption]. reflexivity. Qed.
Print Assumptions C104_arguments.

Definition plain (v t : string) : attr := Attr (Some (lit "var")) (Some (lit v)) [] (Some (lit t)).
Definition table : node := Node [lit "t"] (KTable [[lit "1"; lit "2"]; [lit "3"; lit "4"]]) [] [].
Definition block (name : string) (l : list part) (a : list (str * list attr)) : node :=
  Node [lit name] (KCode (Some (lit "py")) [l] (Group [] a) []) [] [].
Definition answered : list input -> input -> list output := fun _ i => [Output (program i) [] 0].
Definition as_text : str -> list node := fun _ => [Node [] KOther [] []].
(** Two variables: [b] is the second row of the table, [a] a plain text. *)
Example C104_arguments_example :
  let own := Group [] [(lit "var", [Attr (Some (lit "var")) (Some (lit "b")) [((-1)%Z, None)] (Some (lit "t")); plain "a" "hello"])] in
  exists i, convert_input (start (Node [] KStmts [table] [])) (Some (lit "py")) [[Raw (lit "x = "); Callout (lit "r"); Raw (lit "a")]; [Raw (lit "y")]] own [] None = Ok i /\
    args i = [(lit "a", JStr (lit "hello")); (lit "b", JArr [JArr [JStr (lit "3"); JStr (lit "4")]])] /\
    program i = lit "x = a
y".
Proof. eexists. split; [vm_compute; reflexivity|]. split; reflexivity. Qed.

(** During a whole evaluation: a variable that names a table of the document, with no other
    node of that name in it or in the answers so far, receives its cells. *)
Theorem C104_table : forall eval parse doc doc' l c l' p ns rows s r x lang ls own att bs br bn v a,
  evaluate eval parse doc = Ok (doc', l ++ c :: l') ->
  placed doc p (Node ns (KTable rows) s r) -> In x ns ->
  (forall q d, placed doc q d -> In x (nnames d) -> nkind d = KTable rows) ->
  (forall c o y q d, In c l -> In o (snd c) -> In y (parse (out o)) -> placed y q d -> ~ In x (nnames d)) ->
  placed doc (fst (fst c)) (Node bn (KCode lang ls own att) bs br) ->
  sets (var_items own) v a -> text a = Some x -> spans a = [] ->
  In (v, JArr (map (fun row => JArr (map JStr row)) rows)) (args (snd (fst c))).
Proof.
  intros eval parse doc doc' l c l' p ns rows s r x lang ls own att bs br bn v a H P IX U O B S T SP.
  apply evaluate_spec in H. destruct H as (_ & _ & _ & H & _). destruct (H l c l' eq_refl) as (_ & n & names & P' & [K1 K2] & Q).
  apply placed_iff in P', B. rewrite B in P'. injection P' as <-. cbn [nkind] in Q.
  destruct Q as (lang' & ls' & own' & att' & E & _ & _ & _ & V & A). cbn in E. injection E as <- <- <- <-.
  cbn [call_items] in V, A. rewrite app_nil_r in V, A.
  assert (IV : In v (map fst (args (snd (fst c))))) by (apply V; eauto). apply in_map_iff in IV. destruct IV as ([v' j] & EV & IV). cbn in EV. subst v'.
  destruct (A v j IV) as (a' & S' & ST). assert (a' = a). { apply callsite_sets in S, S'. congruence. } subst a'.
  destruct ST as (t & T' & ST). rewrite T in T'. injection T' as <-.
  assert (IN : In x (map fst names)) by (eapply K2; eauto). destruct (lookup names x) as [n|] eqn:L; [|apply lookup_None in L; contradiction].
  apply lookup_In in L. destruct (K1 x n L) as (NX & d & D1 & D2 & D3).
  assert (KN : nkind n = KTable rows).
  { rewrite <- D2. rewrite <- D1 in NX. destruct D3 as [(q & D3)|(c' & o & y & q & C1 & C2 & C3 & C4)]; [eapply U; eauto|].
    exfalso. eapply O; eauto. }
  destruct ST as (w & W & ST). apply shows_iff in W. destruct n as [nn nk nsb nr]. cbn in KN. subst nk. cbn in W. subst w.
  specialize (ST [] ltac:(constructor)). rewrite SP in ST. specialize (ST eq_refl). inversion ST; subst. exact IV.
Qed.
Print Assumptions C104_table.
Example C104_table_example :
  let doc := Node [] KStmts [block "first" [Raw (lit "one")] []; table; block "second" [Raw (lit "two")] [(lit "var", [plain "x" "t"])]] [] in
  exists doc' c c', evaluate answered as_text doc = Ok (doc', [c; c']) /\
    args (snd (fst c')) = [(lit "x", JArr [JArr [JStr (lit "1"); JStr (lit "2")]; JArr [JStr (lit "3"); JStr (lit "4")]])].
Proof. do 3 eexists. split; [vm_compute; reflexivity|reflexivity]. Qed.

(** A value after :var that sets no variable ends the evaluation of the whole document. *)
Theorem C104_unnamed_refuted : ~ (forall eval parse doc, evaluate eval parse doc <> Throw).
Proof.
  intros H. apply (H answered as_text (Node [] KStmts [block "b" [Raw (lit "one")] [(lit "var", [Attr (Some (lit "var")) None [] (Some (lit "5"))])]] [])).
  vm_compute. reflexivity.
Qed.
Print Assumptions C104_unnamed_refuted.
(** So does a variable set to a file reference, though every variable is named. *)
Theorem C104_file_refuted : ~ (forall s lang own ls att vars,
  (forall a, In a (var_items own) -> varname a <> None) -> (forall l t, In l ls -> ~ In (Tangle t) l) -> convert_input s lang ls own att vars <> Throw).
Proof.
  intros H. apply (H (start table) None (Group [] [(lit "var", [Attr (Some (lit "var")) (Some (lit "x")) [] None])]) [] [] None).
  - intros a [<-|[]]. discriminate.
  - intros l t [].
  - vm_compute. reflexivity.
Qed.
Print Assumptions C104_file_refuted.
(** A variable that names an evaluated block whose result is text receives the name of the block, not its result. *)
Theorem C104_text_result_refuted : ~ (forall s a n j, text a <> None -> lookup (tracked s) (match text a with Some t => t | None => [] end) = Some n ->
  nresults n <> [] -> varname a <> None -> one_arg s (match varname a with Some v => v | None => [] end, a) = Ok j -> Some (snd j) <> option_map JStr (text a)).
Proof.
  intros H. pose (n := Node [lit "b"] (KCode None [] no_attrs []) [] [Node [] (KResult [Output (lit "42") [] 0]) [Node [] KStmts [Node [] KOther [] []] []] []]).
  apply (H (start (Node [] KStmts [n] [])) (plain "x" "b") n (lit "x", JStr (lit "b"))); try discriminate; vm_compute; reflexivity.
Qed.
Print Assumptions C104_text_result_refuted.

(** C105: the options of a question are those the words after :results ask for, each
    decided by the last word about it; and they can be read exactly when the words are texts. *)
Theorem C105_options : forall s lang ls own att vars i, convert_input s lang ls own att vars = Ok i -> asked_for own att (opts i).
Proof. intros s lang ls own att vars i H. apply convert_input_ok in H. destruct H as (_ & _ & H & _). now apply options_spec. Qed.
Print Assumptions C105_options.
Theorem C105_readable : forall own att, (exists o, get_options own att = Ok o) <->
  (forall a, In a (entries own "results" ++ flat_map (fun g => entries g "results") att) -> text a <> None) /\
  (forall k a l, k = "resultcodelanguage"%string \/ k = "resultexportlanguage"%string -> entries own k = a :: l -> text a <> None).
Proof. exact options_total. Qed.
Print Assumptions C105_readable.
Definition word (t : string) : attr := Attr (Some (lit "results")) None [] (Some (lit t)).
Example C105_options_example :
  let own := Group [] [(lit "results", [word "table"; word "append"; word "html"]); (lit "resultcodelanguage", [word "py"])] in
  let on := Group [] [(lit "results", [word "Silent"; word "list"])] in
  get_options own [on] = Ok (Options TList FExport HSilent (Some (lit "py"))).
Proof. vm_compute. reflexivity. Qed.

(** C106: the questions are asked in document order, one for every source block, one for every
    call of a name in the document, and none for other places than blocks and calls; each is about the block at its place or the one
    its call names, and the evaluator sees each once. *)
Theorem C106_questions : forall eval parse doc doc' cs, evaluate eval parse doc = Ok (doc', cs) ->
  StronglySorted earlier (map (fun c => fst (fst c)) cs) /\
  (forall p ns lang ls own att s r, placed doc p (Node ns (KCode lang ls own att) s r) -> In p (map (fun c => fst (fst c)) cs)) /\
  (forall p ns t vars hs s r q d, placed doc p (Node ns (KCall t vars hs) s r) -> placed doc q d -> In t (nnames d) -> In p (map (fun c => fst (fst c)) cs)) /\
  (forall l c l', cs = l ++ c :: l' -> snd c = eval (map (fun c => snd (fst c)) l) (snd (fst c)) /\ about parse doc l c).
Proof.
  intros eval parse doc doc' cs H. apply evaluate_spec in H. destruct H as (A & B & B' & C & _). split; [exact A|split; [|split; [|exact C]]].
  - intros p ns lang ls own att s r P. eapply B; [exact P|reflexivity].
  - intros p ns t vars hs s r q d P Q T. eapply B'; [exact P|reflexivity|]. exists q, d. auto.
Qed.
Print Assumptions C106_questions.
(** A block inside another node, and a call of it with an argument. *)
Example C106_questions_example :
  let doc := Node [] KStmts [Node [] KOther [block "f" [Raw (lit "x+1")] [(lit "var", [plain "x" "1"])]] []; Node [] (KCall (lit "f") (Group [plain "x" "7"] []) no_attrs) [] []] [] in
  exists doc' cs, evaluate answered as_text doc = Ok (doc', cs) /\
    map (fun c => (fst (fst c), args (snd (fst c)))) cs = [([Sub 0; Sub 0], [(lit "x", JStr (lit "1"))]); ([Sub 1], [(lit "x", JStr (lit "7"))])].
Proof. do 2 eexists. split; [vm_compute; reflexivity|reflexivity]. Qed.

(** Documents whose blocks are self-contained are evaluated to the end, whatever the
    evaluator answers; a call of an unknown name is passed over. *)
Theorem C106_total : forall eval parse doc, self_contained parse doc -> exists r, evaluate eval parse doc = Ok r.
Proof. exact evaluate_total. Qed.
Print Assumptions C106_total.
Example C106_total_example :
  self_contained as_text (Node [] KStmts [block "b" [Raw (lit "x")] [(lit "var", [plain "x" "1"])]; Node [] (KCall (lit "nothing") no_attrs no_attrs) [] []] []).
Proof.
  assert (U : forall x, x <> lit "b" -> unknown as_text (Node [] KStmts [block "b" [Raw (lit "x")] [(lit "var", [plain "x" "1"])]; Node [] (KCall (lit "nothing") no_attrs no_attrs) [] []] []) x).
  { intros x N. split.
    - intros p d P. apply placed_iff in P. destruct p as [|[[|[|j]]|j] p]; cbn in P; try (destruct j; discriminate P); [injection P as <-; intros []| |];
        (destruct p as [|[[|j]|[|j]] p]; cbn in P; try discriminate P; injection P as <-); [intros [X|[]]; now apply N|intros []].
    - intros o y p d [<-|[]] P. apply placed_iff in P. destruct p as [|[[|j]|[|j]] p]; cbn in P; try discriminate P. injection P as <-. intros []. }
  intros p n P. apply placed_iff in P. destruct p as [|[[|[|j]]|j] p]; cbn in P; try (destruct j; discriminate P); [injection P as <-; exact I| |];
    (destruct p as [|[[|j]|[|j]] p]; cbn in P; try discriminate P; injection P as <-); cbn [nkind block].
  - split; [intros l t [<-|[]] [X|[]]; discriminate|]. split; [intros a []|]. split; [intros k a l [->| ->]; discriminate|].
    intros a [<-|[]]. split; [discriminate|]. exists (lit "1"). split; [reflexivity|]. apply U. discriminate.
  - apply U. discriminate.
Qed.

(** C107: what becomes of the answers.  The returned document is the given one, or it
    differs at one place: where the first question that changes its block was asked. *)
Theorem C107_stored_partial : forall eval parse doc doc' cs, evaluate eval parse doc = Ok (doc', cs) ->
  (doc' = doc /\ forall c, In c cs -> ~ changes parse doc c) \/
  exists l c l' x, cs = l ++ c :: l' /\ (forall d, In d l -> ~ changes parse doc d) /\
    should_become parse doc c x /\ ~ placed doc (fst (fst c)) x /\ changed (fst (fst c)) x doc doc'.
Proof. intros eval parse doc doc' cs H. now apply evaluate_spec in H. Qed.
Print Assumptions C107_stored_partial.
Definition silent (name : string) : node := block name [Raw (lit "zero")] [(lit "results", [word "silent"])].
Definition three : node := Node [] KStmts [silent "z"; block "first" [Raw (lit "one")] []; Node [] KOther [block "second" [Raw (lit "two")] []] []] [].
Example C107_stored_example : exists c1 c2 c3, evaluate answered as_text three =
  Ok (Node [] KStmts [silent "z"; with_results (block "first" [Raw (lit "one")] []) [result_node as_text [Output (lit "one") [] 0]];
        Node [] KOther [block "second" [Raw (lit "two")] []] []] [], [c1; c2; c3]) /\
  map (fun c => fst (fst c)) [c1; c2; c3] = [[Sub 0]; [Sub 1]; [Sub 2; Sub 0]].
Proof. do 3 eexists. split; [vm_compute; reflexivity|reflexivity]. Qed.

(** The answers to all later questions are lost: the second block stays as it was. *)
Theorem C107_second_refuted : ~ (forall eval parse doc doc' cs, evaluate eval parse doc = Ok (doc', cs) ->
  forall c x, In c cs -> should_become parse doc c x -> placed doc' (fst (fst c)) x).
Proof.
  intros H. destruct C107_stored_example as (c1 & c2 & c3 & E & P). pose proof (C106_questions _ _ _ _ _ E) as (_ & _ & _ & Q).
  specialize (H _ _ _ _ _ E c3). injection P as P1 P2 P3. destruct c3 as [[p i] outs]. cbn in P3. subst p.
  specialize (H (with_results (block "second" [Raw (lit "two")] []) [result_node as_text [Output (lit "two") [] 0]])).
  assert (X : i = Input (lit "py") (lit "two") (Options TScalar FNone HReplace None) [] /\ outs = [Output (lit "two") [] 0]).
  { vm_compute in E. injection E. intros. subst. split; reflexivity. }
  destruct X as [-> ->]. assert (SB : placed (Node [] KStmts [silent "z"; with_results (block "first" [Raw (lit "one")] []) [result_node as_text [Output (lit "one") [] 0]];
        Node [] KOther [block "second" [Raw (lit "two")] []] []] []) [Sub 2; Sub 0] (with_results (block "second" [Raw (lit "two")] []) [result_node as_text [Output (lit "two") [] 0]])).
  { apply H; [right; right; now left|]. apply (proj2 (should_become_is as_text three [Sub 2; Sub 0] _ [Output (lit "two") [] 0] (block "second" [Raw (lit "two")] []) ltac:(discriminate) eq_refl _)). reflexivity. }
  apply placed_iff in SB. vm_compute in SB. discriminate.
Qed.
Print Assumptions C107_second_refuted.
(** And a later reference to such a block ends the evaluation of the whole document, though
    the block is in the document and has been evaluated. *)
Theorem C107_reference_refuted : ~ (forall eval parse doc,
  (forall p ns k s r, placed doc p (Node ns k s r) ->
     match k with
     | KCode _ ls own _ => (forall a, In a (var_items own) -> varname a <> None /\ spans a = [] /\ exists t, text a = Some t /\ exists q ns' k' s' r', placed doc q (Node ns' k' s' r') /\ In t ns') /\
         forall l t, In l ls -> ~ In (Tangle t) l
     | KCall _ _ _ => False
     | _ => True
     end) -> evaluate eval parse doc <> Throw).
Proof.
  intros H. apply (H answered as_text (Node [] KStmts [block "first" [Raw (lit "one")] []; block "second" [Raw (lit "two")] [];
    block "third" [Raw (lit "three")] [(lit "var", [plain "x" "second"])]] [])); [|vm_compute; reflexivity].
  intros p ns k s r P. apply placed_iff in P. destruct p as [|[[|[|[|j]]]|j] p]; cbn in P; try (destruct j; discriminate P);
    [injection P as <- <- <- <-; exact I| | |]; (destruct p as [|[[|j]|[|j]] p]; cbn in P; try discriminate P; injection P as <- <- <- <-).
  - split; [intros a []|]. intros l t [<-|[]] [X|[]]. discriminate.
  - split; [intros a []|]. intros l t [<-|[]] [X|[]]. discriminate.
  - split; [|intros l t [<-|[]] [X|[]]; discriminate]. intros a [<-|[]]. split; [discriminate|split; [reflexivity|]]. exists (lit "second"). split; [reflexivity|].
    exists [Sub 1]. do 4 eexists. split; [apply placed_iff; reflexivity|now left].
Qed.
Print Assumptions C107_reference_refuted.
(** A call of a name that belongs to a table ends it as well. *)
Theorem C107_call_table_refuted : ~ (forall eval parse doc, (forall p ns k s r, placed doc p (Node ns k s r) -> match k with KCode _ _ _ _ => False | _ => True end) ->
  evaluate eval parse doc <> Throw).
Proof.
  intros H. apply (H answered as_text (Node [] KStmts [table; Node [] (KCall (lit "t") no_attrs no_attrs) [] []] [])); [|vm_compute; reflexivity].
  intros p ns k s r P. apply placed_iff in P. destruct p as [|[[|[|j]]|j] p]; cbn in P; try (destruct j; discriminate P);
    [injection P as <- <- <- <-; exact I| |]; (destruct p as [|[[|j]|[|j]] p]; cbn in P; try discriminate P; injection P as <- <- <- <-; exact I).
Qed.
Print Assumptions C107_call_table_refuted.
