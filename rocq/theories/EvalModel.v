(** Evaluation of code blocks: src/haxorg/api/EvalContext.cpp.

    Simplified:
    - a node of the immutable tree is its value: by C05 and C39 two ids are
      equal exactly when the values are (source locations aside), so comparing
      ids is comparing trees; the step from a path to the new root is the one
      proved for the cascade in C37;
    - of a node only what evaluation reads is kept: its names, its subnodes, its
      results and, by kind, the fields below; the clean text of a table cell is
      its text;
    - parsing the output is a parameter; so is the evaluator, which may depend
      on everything it was asked before;
    - tracing, the file written to /tmp (532-537) and the conversion back to the
      mutable tree (541, C38) are left out. *)
From Coq Require Import String.
From Verif Require Import Base StrModel AttrModel.
Local Open Scope nat_scope.

(** ** Values *)
Inductive json := JStr (s : str) | JArr (l : list json).
(** SemOrgSharedTypes.hpp:281-287 DimensionSpan *)
Notation span := (Z * option Z)%type (only parsing).

(** EvalContext.cpp:30-35: the sizes found by following the first elements. *)
Fixpoint dimensions (j : json) : list nat :=
  match j with
  | JStr _ => []
  | JArr [] => []
  | JArr ((x :: _) as l) => length l :: dimensions x
  end.
(** EvalContext.cpp:42-59: the positions one span asks for. *)
Definition positions (sp : span) (size : nat) : outcome (list nat) :=
  let n := Z.of_nat size in
  let first := if (fst sp <? 0)%Z then (n + fst sp)%Z else fst sp in
  if ((first <? 0) || (n <=? first))%Z then Throw
  else let last := match snd sp with Some v => v | None => first end in
       let last := if (last <? 0)%Z then (n + last)%Z else last in
       if ((last <? 0) || (n <=? last) || (last <? first))%Z then Throw
       else Ok (seq (Z.to_nat first) (Z.to_nat (last - first + 1))).
Fixpoint all_positions (sps : list span) (dims : list nat) : outcome (list (list nat)) :=
  match sps, dims with
  | [], _ => Ok []
  | _ :: _, [] => Throw
  | sp :: sps', d :: dims' => obind (positions sp d) (fun i => omap (cons i) (all_positions sps' dims'))
  end.
(** EvalContext.cpp:64-68: operator[] of a constant value; outside an array it is
    undefined, on something that is no array it throws. *)
Fixpoint follow (j : json) (path : list nat) : outcome json :=
  match path with
  | [] => Ok j
  | i :: path' => match j with
                  | JStr _ => Throw
                  | JArr l => match nth_error l i with Some x => follow x path' | None => UB end
                  end
  end.
Fixpoint collect_all {A} (l : list (outcome A)) : outcome (list A) :=
  match l with [] => Ok [] | x :: l' => obind x (fun v => omap (cons v) (collect_all l')) end.
(** EvalContext.cpp:61-83 sliceRecursive: the path to the element is followed from
    the whole input, once for every combination of positions. *)
Fixpoint slice_rec (j : json) (indices : list (list nat)) (path : list nat) : outcome json :=
  match indices with
  | [] => follow j path
  | is :: rest => omap JArr (collect_all (map (fun i => slice_rec j rest (path ++ [i])) is))
  end.
(** EvalContext.cpp:25-86 sliceJson *)
Definition slice (j : json) (sps : list span) : outcome json :=
  match j with
  | JStr _ => Throw
  | JArr _ =>
      match sps with
      | [] => Ok j
      | _ => if length (dimensions j) <? length sps then Throw
             else obind (all_positions sps (dimensions j)) (fun ix => slice_rec j ix [])
      end
  end.

(** ** Documents *)
(** AttrValue: the attribute's name, the variable it sets, the span after the value, and the
    text; [text] is [None] for a file reference or a lisp value, for which getString throws
    (SemOrgApi.cpp:293). *)
Record attr := Attr { aname : option str; varname : option str; spans : list span; text : option str }.
Record group := Group { positional : list attr; named : list (str * list attr) }.
Definition no_attrs : group := Group [] [].
Inductive part := Raw (s : str) | Callout (s : str) | Tangle (s : str).
(** OrgCodeEvalOutput *)
Record output := Output { out : str; err : str; code : Z }.

Inductive kind :=
| KCode (lang : option str) (lines : list (list part)) (attrs : group) (attached : list group)
| KCall (target : str) (vars : group) (headers : group)
| KTable (rows : list (list str))
| KStmts
| KResult (raw : list output)
| KOther.
(** A node: names (getName), what it is, its subnodes and, for blocks and calls, its
    results; the [node] field of a KResult is its only subnode. *)
Inductive node := Node (names : list str) (k : kind) (subs : list node) (results : list node).

Definition nnames (n : node) := let '(Node a _ _ _) := n in a.
Definition nkind (n : node) := let '(Node _ a _ _) := n in a.
Definition nsubs (n : node) := let '(Node _ _ a _) := n in a.
Definition nresults (n : node) := let '(Node _ _ _ a) := n in a.
Definition with_results (n : node) (r : list node) : node := Node (nnames n) (nkind n) (nsubs n) r.

Definition kind_dec (a b : kind) : {a = b} + {a <> b}.
Proof.
  assert (S : forall x y : str, {x = y} + {x <> y}) by apply str_dec.
  assert (A : forall x y : attr, {x = y} + {x <> y}) by (repeat decide equality).
  assert (L : forall x y : list attr, {x = y} + {x <> y}) by (decide equality).
  assert (G : forall x y : group, {x = y} + {x <> y}) by (repeat decide equality).
  assert (P : forall x y : part, {x = y} + {x <> y}) by (decide equality).
  assert (O : forall x y : output, {x = y} + {x <> y}) by (decide equality; apply Z.eq_dec).
  repeat decide equality.
Defined.
Fixpoint node_eqb (a b : node) {struct a} : bool :=
  let fix go (l m : list node) {struct l} : bool :=
    match l, m with
    | [], [] => true
    | x :: l', y :: m' => node_eqb x y && go l' m'
    | _, _ => false
    end in
  match a, b with
  | Node n k s r, Node n' k' s' r' =>
      (if list_eq_dec str_dec n n' then true else false) && (if kind_dec k k' then true else false) && go s s' && go r r'
  end.

(** A path: the i-th subnode or the i-th result. *)
Inductive step := Sub (i : nat) | Res (i : nat).
Notation path := (list step) (only parsing).
Definition child (n : node) (st : step) : option node :=
  match st with Sub i => nth_error (nsubs n) i | Res i => nth_error (nresults n) i end.
(** ImmOrgStore.cpp:542-546 *)
Fixpoint at_path (n : node) (p : path) : option node :=
  match p with [] => Some n | st :: p' => match child n st with Some c => at_path c p' | None => None end end.
Fixpoint set_nth {A} (l : list A) (i : nat) (x : A) : list A :=
  match l, i with [], _ => [] | _ :: l', 0 => x :: l' | y :: l', S i' => y :: set_nth l' i' x end.
Definition set_child (n : node) (st : step) (c : node) : node :=
  match st with
  | Sub i => Node (nnames n) (nkind n) (set_nth (nsubs n) i c) (nresults n)
  | Res i => Node (nnames n) (nkind n) (nsubs n) (set_nth (nresults n) i c)
  end.
(** cascadeUpdate of one replacement (C37); with the nodes rebuilt on the way, innermost first. *)
Fixpoint cascade (n : node) (p : path) (x : node) : node * list (node * node) :=
  match p with
  | [] => (x, [])
  | st :: p' => match child n st with
                | Some c => let (c', l) := cascade c p' x in (set_child n st c', l ++ [(n, set_child n st c')])
                | None => (n, [])
                end
  end.
(** ImmOrg.cpp:160-165 eachSubnodeRec with paths, and the nodes evalAll keeps (466-476);
    the fields of the bases come first (reflection.hpp:285-291), so subnodes before results. *)
Definition runnable (n : node) : bool := match nkind n with KCode _ _ _ _ | KCall _ _ _ => true | _ => false end.
Fixpoint collect (p : path) (n : node) {struct n} : list (path * node) :=
  let fix go (mk : nat -> step) (i : nat) (l : list node) {struct l} : list (path * node) :=
    match l with [] => [] | x :: l' => collect (p ++ [mk i]) x ++ go mk (S i) l' end in
  match n with
  | Node _ _ s r => (if runnable n then [(p, n)] else []) ++ go Sub 0 s ++ go Res 0 r
  end.
(** Nodes strictly below a node. *)
Fixpoint within (n : node) : list node :=
  match n with Node _ _ s r => flat_map (fun x => x :: within x) s ++ flat_map (fun x => x :: within x) r end.
(** The order in which nodes are added to the store: a node after its subnodes. *)
Fixpoint added (n : node) : list node :=
  match n with Node _ _ s r => flat_map added s ++ flat_map added r ++ [n] end.

(** ** The state of one evaluation *)
(** OrgCodeEvalInput *)
Inductive rtype := TTable | TList | TScalar | TFile.
Inductive rformat := FNone | FRaw | FCode | FDrawer | FExport | FLink.
Inductive rhandling := HNone | HReplace | HSilent | HDiscard | HAppend | HPrepend.
Record options := Options { otype : rtype; oformat : rformat; ohandling : rhandling; oexport : option str }.
Record input := Input { language : str; program : str; opts : options; args : list (str * json) }.

(** [first]: the root every collected path starts from; [root]: the root of the current
    version; [apart]: nodes that were written to the store but are not part of a version;
    [tracked]: currentTrack->names; [calls]: what the evaluator was asked and answered. *)
Record state := State {
  first : node; root : node; apart : list node; tracked : list (str * node); calls : list (path * input * list output) }.

(** ImmOrg.cpp:663-677: names of a node are set or erased. *)
Definition track (m : list (str * node)) (n : node) : list (str * node) :=
  fold_left (fun m x => assign m x n) (nnames n) m.
Definition untrack (m : list (str * node)) (n : node) : list (str * node) :=
  filter (fun e => negb (existsb (str_eqb (fst e)) (nnames n))) m.
(** getPathsFor (ImmOrg.cpp:1180-1214) is not empty: the node has a parent on record. *)
Definition has_paths (s : state) (n : node) : bool :=
  existsb (fun t => existsb (node_eqb n) (within t)) (first s :: root s :: apart s).

(** EvalContext.cpp:121-186 getTargetValue with asFlatText *)
Fixpoint value_of (n : node) : option json :=
  match n with
  | Node _ k subs results =>
      match k with
      | KStmts =>
          match flat_map (fun x => match value_of x with Some j => [j] | None => [] end) subs with
          | [] => None
          | [j] => Some j
          | l => Some (JArr l)
          end
      | KTable rows => Some (JArr (map (fun r => JArr (map JStr r)) rows))
      | KCode _ _ _ _ =>
          last (map (fun r => match r with Node _ _ (x :: _) _ => value_of x | _ => None end) results) None
      | _ => None
      end
  end.
Definition text_of (a : attr) : outcome str := match text a with Some t => Ok t | None => Throw end.
(** EvalContext.cpp:188-206 getAttrValue *)
Definition attr_value (s : state) (a : attr) : outcome (option json) :=
  obind (text_of a) (fun t =>
  match lookup (tracked s) t with
  | None => Ok None
  | Some n => if negb (has_paths s n) then Throw
              else match value_of n with
                   | None => Ok None
                   | Some j => omap Some (slice j (spans a))
                   end
  end).

(** SemOrgApi.cpp:42-53, SemOrgSharedApi.cpp:420-436, 553-560, 574-587 (see C28) *)
Definition group_attrs (g : group) (k : str) : list attr :=
  match lookup (named g) (normalize k) with Some l => l | None => [] end.
Definition block_attrs (own : group) (attached : list group) (k : str) : list attr :=
  group_attrs own k ++ flat_map (fun g => group_attrs g k) attached.

(** EvalContext.cpp:304-346: one word after :results *)
Definition one_result (o : options) (w : str) : options :=
  let norm := normalize w in
  let is := fun s => str_eqb norm (lit s) in
  let ty := fun t => Options t (oformat o) (ohandling o) (oexport o) in
  let fo := fun f => Options (otype o) f (ohandling o) (oexport o) in
  let ha := fun h => Options (otype o) (oformat o) h (oexport o) in
  if is "table"%string || is "vector"%string then ty TTable
  else if is "list"%string then ty TList
  else if is "scalar"%string || is "verbatim"%string then ty TScalar
  else if is "file"%string then ty TFile
  else if is "raw"%string then fo FRaw
  else if is "code"%string then fo FCode
  else if is "drawer"%string then fo FDrawer
  else if is "html"%string then Options (otype o) FExport (ohandling o) (Some (lit "html"%string))
  else if is "latex"%string then Options (otype o) FExport (ohandling o) (Some (lit "latex"%string))
  else if is "link"%string || is "graphics"%string then fo FLink
  else if is "org"%string then Options (otype o) FCode (ohandling o) (Some (lit "org"%string))
  else if is "pp"%string then fo FCode
  else if is "replace"%string then ha HReplace
  else if is "silent"%string then ha HSilent
  else if is "none"%string then ha HNone
  else if is "discard"%string then ha HDiscard
  else if is "append"%string then ha HAppend
  else if is "prepend"%string then ha HPrepend
  else o.
Fixpoint texts (l : list attr) : outcome (list str) :=
  match l with [] => Ok [] | a :: l' => obind (text_of a) (fun t => omap (cons t) (texts l')) end.
Definition export_from (g : group) (k : str) (o : options) : outcome options :=
  match group_attrs g k with
  | [] => Ok o
  | a :: _ => omap (fun t => Options (otype o) (oformat o) (ohandling o) (Some t)) (text_of a)
  end.
(** EvalContext.cpp:276-277, 304-354 *)
Definition get_options (own : group) (attached : list group) : outcome options :=
  obind (texts (block_attrs own attached (lit "results"))) (fun ws =>
  obind (export_from own (lit "result-export-language") (fold_left one_result ws (Options TScalar FNone HReplace None))) (fun o =>
  export_from own (lit "result-code-language") o)).

(** EvalContext.cpp:280-302: callouts are dropped, a reference to another block throws. *)
Definition line_text (l : list part) : outcome str :=
  fold_left (fun o p => obind o (fun s => match p with Raw t => Ok (s ++ t) | Callout _ => Ok s | Tangle _ => Throw end)) l (Ok []).
Definition program_text (ls : list (list part)) : outcome str := omap (join (lit "
")) (collect_all (map line_text ls)).

(** EvalContext.cpp:356-369: which attribute sets which variable *)
Fixpoint defaults (m : list (str * attr)) (l : list attr) : outcome (list (str * attr)) :=
  match l with
  | [] => Ok m
  | a :: l' => match varname a with Some v => defaults (assign m v a) l' | None => Throw end
  end.
Definition callsite (m : list (str * attr)) (l : list attr) : list (str * attr) :=
  fold_left (fun m a => match varname a with Some v => assign m v a | None => m end) l m.
(** EvalContext.cpp:371-385 *)
Definition one_arg (s : state) (e : str * attr) : outcome (str * json) :=
  match varname (snd e) with
  | None => Throw
  | Some v =>
      obind (attr_value s (snd e)) (fun o =>
      match o with
      | Some j => Ok (v, j)
      | None => omap (fun t => (v, JStr t)) (text_of (snd e))
      end)
  end.
(** EvalContext.cpp:267-389 convertInput; [vars] are the call's arguments. *)
Definition convert_input (s : state) (lang : option str) (lines : list (list part)) (own : group) (attached : list group)
    (vars : option group) : outcome input :=
  obind (program_text lines) (fun prog =>
  obind (get_options own attached) (fun o =>
  obind (match lookup (named own) (lit "var") with Some l => defaults [] l | None => Ok [] end) (fun d =>
  let m := match vars with Some g => callsite d (positional g) | None => d end in
  omap (Input (match lang with Some l => l | None => [] end) prog o) (collect_all (map (one_arg s) (by_key m)))))).

(** EvalContext.cpp:215-248 getTargetBlock *)
Definition target_block (s : state) (n : node) : outcome (option (node * option group)) :=
  match nkind n with
  | KCode _ _ _ _ => Ok (Some (n, None))
  | KCall name vars _ =>
      match lookup (tracked s) name with
      | None => Ok None
      | Some b => if negb (has_paths s b) then Throw
                  else match nkind b with KCode _ _ _ _ => Ok (Some (b, Some vars)) | _ => Throw end
      end
  | _ => Throw
  end.

(** EvalContext.cpp:424-442 assign_result *)
Definition handled (h : rhandling) (old : list node) (new : node) : list node :=
  match h with
  | HAppend => old ++ [new]
  | HPrepend => new :: old
  | HReplace => [new]
  | HDiscard | HSilent | HNone => old
  end.
(** ImmOrgStore.cpp:57-117 setNode, what it does to the names. *)
Definition retrack (m : list (str * node)) (e : node * node) : list (str * node) := track (untrack m (fst e)) (snd e).

Section Evaluation.
  (** conf.evalBlock, given the earlier questions *)
  Variable eval : list input -> input -> list output.
  (** conf.parseContext->parseString: the statements of the output *)
  Variable parse : str -> list node.

  (** EvalContext.cpp:250-265, 400-403: the node that holds one answer; only the last command's output is read (520). *)
  Definition result_node (outs : list output) : node :=
    Node [] (KResult outs) [Node [] KStmts (parse (out (last outs (Output [] [] 0)))) []] [].
  (** EvalContext.cpp:392-459 setOutput.  The target is looked up from the root its path
      starts with (398, ImmOrgStore.cpp:543).  The replacement is found by cascadeUpdate only
      when that root is the root of the current version: it is keyed by root, path and id
      (ImmOrgStore.cpp:305-318, 396, 446). *)
  Definition set_output (s : state) (p : path) (i : input) (outs : list output) : outcome state :=
    match at_path (first s) p with
    | None => Throw
    | Some old =>
        let r := result_node outs in
        let m := fold_left track (added r) (tracked s) in
        let new := with_results old (handled (ohandling (opts i)) (nresults old) r) in
        let m := retrack m (old, new) in
        if node_eqb new old then Ok (State (first s) (root s) (apart s) m (calls s))
        else if node_eqb (root s) (first s)
             then let (root', ups) := cascade (root s) p new in
                  Ok (State (first s) root' (apart s) (fold_left retrack ups m) (calls s))
             else Ok (State (first s) (root s) (new :: apart s) m (calls s))
    end.

  (** EvalContext.cpp:485-523: one turn of the loop *)
  Definition turn (s : state) (e : path * node) : outcome state :=
    obind (target_block s (snd e)) (fun t =>
    match t with
    | None => Ok s
    | Some (b, vars) =>
        match nkind b with
        | KCode lang lines own attached =>
            obind (convert_input s lang lines own attached vars) (fun i =>
            let outs := eval (map (fun c => snd (fst c)) (calls s)) i in
            let s' := State (first s) (root s) (apart s) (tracked s) (calls s ++ [(fst e, i, outs)]) in
            match outs with [] => Ok s' | _ => set_output s' (fst e) i outs end)
        | _ => Throw
        end
    end).
  Fixpoint turns (l : list (path * node)) (s : state) : outcome state :=
    match l with [] => Ok s | e :: l' => obind (turn s e) (turns l') end.
  (** EvalContext.cpp:461-542 evalAll *)
  Definition start (doc : node) : state := State doc doc [] (fold_left track (added doc) []) [].
  Definition evaluate (doc : node) : outcome (node * list (path * input * list output)) :=
    omap (fun s => (root s, calls s)) (turns (collect [] doc) (start doc)).
End Evaluation.
