(** What the evaluation of code blocks is claimed to do, stated without the
    functions of the model: slices of arrays, the value a name stands for, the
    words after :results, the order of the document. *)
From Coq Require Import String.
From Verif Require Import Base StrModel AttrModel EvalModel.
From Verif Require AttrSpec.
Local Open Scope nat_scope.

(** ** Slices *)
(** A negative position counts from the end. *)
Definition place (i : Z) (n : nat) : Z := if (i <? 0)%Z then (Z.of_nat n + i)%Z else i.
(** Each span keeps, of one dimension, the elements from [a] to [b] inclusive. *)
Inductive sliced : list (Z * option Z) -> json -> json -> Prop :=
| sliced_whole j : sliced [] j j
| sliced_part f o sps l l' a b :
    Z.of_nat a = place f (length l) ->
    Z.of_nat b = place (match o with Some v => v | None => f end) (length l) ->
    a <= b < length l ->
    Forall2 (sliced sps) (firstn (S b - a) (skipn a l)) l' ->
    sliced ((f, o) :: sps) (JArr l) (JArr l').
(** All arrays of one level have the same size. *)
Inductive boxed : list nat -> json -> Prop :=
| box_any j : boxed [] j
| box_level ns l : Forall (boxed ns) l -> boxed (length l :: ns) (JArr l).

(** ** The value of a node *)
(** A table is its cells; a code block what its last result shows; a statement list shows
    the one value among its statements, or all of them when there are several; other
    nodes, and blocks without results, show nothing. *)
Definition combined (l : list json) : option json :=
  match l with [] => None | [j] => Some j | _ => Some (JArr l) end.
Inductive shows : node -> option json -> Prop :=
| shows_table ns rows s r : shows (Node ns (KTable rows) s r) (Some (JArr (map (fun row => JArr (map JStr row)) rows)))
| shows_code ns l c o a s before rns k x more rr v :
    shows x v -> shows (Node ns (KCode l c o a) s (before ++ [Node rns k (x :: more) rr])) v
| shows_hollow ns l c o a s before rns k rr : shows (Node ns (KCode l c o a) s (before ++ [Node rns k [] rr])) None
| shows_unevaluated ns l c o a s : shows (Node ns (KCode l c o a) s []) None
| shows_statements ns subs r vs : Forall2 shows subs vs ->
    shows (Node ns KStmts subs r) (combined (flat_map (fun v => match v with Some j => [j] | None => [] end) vs))
| shows_nothing ns k s r : match k with KCall _ _ _ | KResult _ | KOther => True | _ => False end -> shows (Node ns k s r) None.

(** The value of a variable set by [a]: what the node of that name shows, cut down by
    the spans; when no node has the name, or it shows nothing, the text itself. *)
Definition stands_for (names : list (str * node)) (a : attr) (j : json) : Prop :=
  exists t, text a = Some t /\
  match lookup names t with
  | None => j = JStr t
  | Some n => exists v, shows n v /\
      match v with
      | None => j = JStr t
      | Some w => forall ds, boxed ds w -> length ds = length (spans a) -> sliced (spans a) w j
      end
  end.
(** The attribute that sets a variable: the last one for it. *)
Definition sets (l : list attr) (v : str) (a : attr) : Prop :=
  exists l1 l2, l = l1 ++ a :: l2 /\ varname a = Some v /\ forall b, In b l2 -> varname b <> Some v.
Definition var_items (own : group) : list attr := match lookup (named own) (lit "var") with Some l => l | None => [] end.
Definition call_items (vars : option group) : list attr := match vars with Some g => positional g | None => [] end.

(** ** The words after :results *)
Definition word_among {A} (table : list (string * A)) (w : str) : option A :=
  option_map snd (List.find (fun e => str_eqb (normalize w) (lit (fst e))) table).
Definition type_word : str -> option rtype := word_among
  [("table", TTable); ("vector", TTable); ("list", TList); ("scalar", TScalar); ("verbatim", TScalar); ("file", TFile)]%string.
Definition format_word : str -> option rformat := word_among
  [("raw", FRaw); ("code", FCode); ("drawer", FDrawer); ("html", FExport); ("latex", FExport); ("link", FLink);
   ("graphics", FLink); ("org", FCode); ("pp", FCode)]%string.
Definition handling_word : str -> option rhandling := word_among
  [("replace", HReplace); ("silent", HSilent); ("none", HNone); ("discard", HDiscard); ("append", HAppend); ("prepend", HPrepend)]%string.
Definition export_word : str -> option str := word_among
  [("html", lit "html"); ("latex", lit "latex"); ("org", lit "org")]%string.
(** The last word that says something decides. *)
Definition decided {A} (f : str -> option A) (ws : list str) (d v : A) : Prop :=
  (exists l w l', ws = l ++ w :: l' /\ f w = Some v /\ forall u, In u l' -> f u = None) \/
  ((forall u, In u ws -> f u = None) /\ v = d).

(** ** Documents *)
(** Document order: a node before what it contains, subnodes before results. *)
Inductive step_before : step -> step -> Prop :=
| sub_sub i j : i < j -> step_before (Sub i) (Sub j)
| sub_res i j : step_before (Sub i) (Res j)
| res_res i j : i < j -> step_before (Res i) (Res j).
Inductive earlier : list step -> list step -> Prop :=
| earlier_above st q : earlier [] (st :: q)
| earlier_here a b p q : step_before a b -> earlier (a :: p) (b :: q)
| earlier_below a p q : earlier p q -> earlier (a :: p) (a :: q).
(** [placed n p x]: at place [p] of [n] is [x]. *)
Inductive placed : node -> list step -> node -> Prop :=
| placed_here n : placed n [] n
| placed_sub ns k l1 c l2 r p x : placed c p x -> placed (Node ns k (l1 ++ c :: l2) r) (Sub (length l1) :: p) x
| placed_res ns k s l1 c l2 p x : placed c p x -> placed (Node ns k s (l1 ++ c :: l2)) (Res (length l1) :: p) x.
(** [changed p x n n']: [n'] is [n] with [x] at place [p] and nothing else different. *)
Inductive changed : list step -> node -> node -> node -> Prop :=
| changed_here x n : changed [] x n x
| changed_sub ns k l1 c c' l2 r p x : changed p x c c' ->
    changed (Sub (length l1) :: p) x (Node ns k (l1 ++ c :: l2) r) (Node ns k (l1 ++ c' :: l2) r)
| changed_res ns k s l1 c c' l2 p x : changed p x c c' ->
    changed (Res (length l1) :: p) x (Node ns k s (l1 ++ c :: l2)) (Node ns k s (l1 ++ c' :: l2)).

(** What a block's results become, by how they are to be handled. *)
Inductive results_after : rhandling -> list node -> node -> list node -> Prop :=
| after_replace old r : results_after HReplace old r [r]
| after_append old r : results_after HAppend old r (old ++ [r])
| after_prepend old r : results_after HPrepend old r (r :: old)
| after_silent h old r : h = HSilent \/ h = HDiscard \/ h = HNone -> results_after h old r old.
(** The node that holds the answer of the evaluator: all of it, and the statements the
    output of the last command consists of. *)
Definition holds_answer (parse : str -> list node) (outs : list output) (r : node) : Prop :=
  exists before o, outs = before ++ [o] /\ r = Node [] (KResult outs) [Node [] KStmts (parse (out o)) []] [].
(** [asked doc parse c x]: the question [c] was about the block or call at its place, which after the
    answer should be [x]. *)
Definition should_become (parse : str -> list node) (doc : node) (c : list step * input * list output) (x : node) : Prop :=
  let '(p, i, outs) := c in
  exists ns k s old new r, placed doc p (Node ns k s old) /\ holds_answer parse outs r /\
    results_after (ohandling (opts i)) old r new /\ x = Node ns k s new.
(** The question changes its block. *)
Definition changes (parse : str -> list node) (doc : node) (c : list step * input * list output) : Prop :=
  exists x, should_become parse doc c x /\ ~ placed doc (fst (fst c)) x.

(** The text of a line of code is its raw parts. *)
Definition raw_text (l : list part) : str := concat (map (fun p => match p with Raw t => t | _ => [] end) l).
(** A node with the names and the content of [b] stands in the document or in one of the answers [cs]. *)
Definition origin (parse : str -> list node) (doc : node) (cs : list (list step * input * list output)) (b : node) : Prop :=
  exists d, nnames d = nnames b /\ nkind d = nkind b /\
    ((exists p, placed doc p d) \/ exists c o x p, In c cs /\ In o (snd c) /\ In x (parse (out o)) /\ placed x p d).
(** What is known by name after the answers [cs]: each name belongs to a node of the document or of
    an answer, and every name in the document is known. *)
Definition known (parse : str -> list node) (doc : node) (cs : list (list step * input * list output)) (names : list (str * node)) : Prop :=
  (forall x n, In (x, n) names -> In x (nnames n) /\ origin parse doc cs n) /\
  (forall p d x, placed doc p d -> In x (nnames d) -> In x (map fst names)).
(** The arguments of a question: one for each variable that is set, in the order of the
    names, with the value its attribute stands for. *)
Definition arguments (names : list (str * node)) (own : group) (vars : option group) (l : list (str * json)) : Prop :=
  StronglySorted AttrSpec.str_lt (map fst l) /\
  (forall v, In v (map fst l) <-> exists a, sets (var_items own ++ call_items vars) v a) /\
  (forall v j, In (v, j) l -> exists a, sets (var_items own ++ call_items vars) v a /\ stands_for names a j).
(** The question has the language and the lines of the block [b]; [vars] are the arguments of a call. *)
Definition asks_block (names : list (str * node)) (b : node) (vars : option group) (i : input) : Prop :=
  exists lang ls own att, nkind b = KCode lang ls own att /\ language i = match lang with Some l => l | None => [] end /\
    program i = join (lit "
") (map raw_text ls) /\ arguments names own vars (args i).
(** What the question [c], asked after [cs], is about: the block at its place, or, at the
    place of a call, a block of the called name. *)
Definition about (parse : str -> list node) (doc : node) (cs : list (list step * input * list output)) (c : list step * input * list output) : Prop :=
  exists n names, placed doc (fst (fst c)) n /\ known parse doc cs names /\
  match nkind n with
  | KCode _ _ _ _ => asks_block names n None (snd (fst c))
  | KCall t vars _ => exists b, In (t, b) names /\ asks_block names b (Some vars) (snd (fst c))
  | _ => False
  end.

(** ** Options *)
(** The attributes of a group under a key; keys are kept normalized. *)
Definition entries (g : group) (k : string) : list attr := match lookup (named g) (lit k) with Some l => l | None => [] end.
(** The first attribute under the key, when there is one, gives the value. *)
Definition given (g : group) (k : string) (d : option str) : option str := match entries g k with a :: _ => text a | [] => d end.
(** The options a block asks for: the words after :results, of the block and of the
    attributes attached to it, each option decided by the last word about it; the
    language of exported results may be given apart. *)
Definition asked_for (own : group) (attached : list group) (o : options) : Prop :=
  exists ws x, Forall2 (fun a w => text a = Some w) (entries own "results" ++ flat_map (fun g => entries g "results") attached) ws /\
    decided type_word ws TScalar (otype o) /\ decided format_word ws FNone (oformat o) /\ decided handling_word ws HReplace (ohandling o) /\
    decided (fun w => option_map Some (export_word w)) ws None x /\
    oexport o = given own "resultcodelanguage" (given own "resultexportlanguage" x).

(** ** What can always be evaluated *)
(** No node of the document or of anything the parser returns has the name. *)
Definition unknown (parse : str -> list node) (doc : node) (x : str) : Prop :=
  (forall p d, placed doc p d -> ~ In x (nnames d)) /\ (forall o y p d, In y (parse o) -> placed y p d -> ~ In x (nnames d)).
(** Blocks without references to other blocks, with readable options, whose variables are
    set to texts that name nothing; calls of unknown names. *)
Definition self_contained (parse : str -> list node) (doc : node) : Prop :=
  forall p n, placed doc p n ->
  match nkind n with
  | KCode _ ls own att =>
      (forall l t, In l ls -> ~ In (Tangle t) l) /\
      (forall a, In a (entries own "results" ++ flat_map (fun g => entries g "results") att) -> text a <> None) /\
      (forall k a l, k = "resultcodelanguage"%string \/ k = "resultexportlanguage"%string -> entries own k = a :: l -> text a <> None) /\
      (forall a, In a (var_items own) -> varname a <> None /\ exists t, text a = Some t /\ unknown parse doc t)
  | KCall t _ _ => unknown parse doc t
  | _ => True
  end.
