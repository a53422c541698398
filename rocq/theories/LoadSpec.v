(** What C44 and C64 speak about. *)
From Coq Require Import List Bool Arith.
From Verif Require Import Base LoadModel.
Import ListNotations.

(** [x] occurs as a label in the tree. *)
Inductive occurs (x : label) : tree -> Prop :=
| oc_here ch : occurs x (T x ch)
| oc_sub l ch c : In c ch -> occurs x c -> occurs x (T l ch).
(** A document as the parser makes it: nothing loaded yet. *)
Definition raw (t : tree) : Prop :=
  forall x, occurs x t -> match x with LInclude _ _ | LLink _ _ | LPlain _ => True | _ => False end.

Section Spec.
  Variable is_symlink : path -> bool.
  Variable read_link : path -> path.
  Variable is_dir : path -> bool.
  Variable is_file : path -> bool.
  Variable entries : path -> list path.
  Variable wanted : path -> bool.
  Variable exists_ : path -> bool.
  Variable is_org : path -> bool.
  Variable contents : path -> tree.
  Variable find_include : path -> option path.

  (** In the file [f] the target means [q]: what lies at it (seen from the
      directory of [f], unless it is absolute), or else what the search finds
      for it. *)
  Definition refers (f : path) (abs : bool) (target q : path) : Prop :=
    is_dir (removelast f) = true /\
    exists full, full = (if abs then target else removelast f ++ target) /\
      ((exists_ full = true /\ q = full) \/ (exists_ full = false /\ find_include target = Some q /\ exists_ q = true)).
  (** It means nothing. *)
  Definition dangling (f : path) (abs : bool) (target : path) : Prop :=
    is_dir (removelast f) = true /\ exists_ (if abs then target else removelast f ++ target) = false /\
    forall q, find_include target = Some q -> exists_ q = false.

  (** A file that is parsed when it is reached. *)
  Definition loadable (p : path) : Prop := wanted p = true /\ is_symlink p = false /\ is_dir p = false /\ is_file p = true /\ is_org p = true.

  (** A finite set of paths that cannot be left: through directories, symbolic
      links, and includes resolved against the directory of any file of the
      set. *)
  Definition closed (U : list path) : Prop :=
    (forall p, In p U -> is_symlink p = true -> In (read_link p) U) /\
    (forall p q, In p U -> is_dir p = true -> In q (entries p) -> In q U) /\
    (forall p f abs target q, In p U -> In f U -> occurs (LInclude abs target) (contents f) -> refers p abs target q -> In q U).

  (** [q] is needed for [p]. *)
  Definition needs (p q : path) : Prop :=
    wanted p = true /\
    ((is_symlink p = true /\ q = read_link p /\ (is_dir q = true \/ is_file q = true)) \/
     (is_symlink p = false /\ is_dir p = true /\ In q (entries p)) \/
     (loadable p /\ exists abs target, occurs (LInclude abs target) (contents p) /\ refers p abs target q)).

  (** [c] is what loading the path [q] gives. *)
  Definition loaded_from (q : path) (c : tree) : Prop :=
    match label_of c with
    | LFile p => p = q
    | LDir p => p = q
    | LSym d => is_symlink q = true /\ (is_dir (read_link q) = true /\ d = read_link q \/
                                        is_dir (read_link q) = false /\ is_file (read_link q) = true /\ d = removelast (read_link q))
    | _ => False
    end.
  (** [cs] come from some of the paths [qs], in their order. *)
  Inductive listed : list path -> list tree -> Prop :=
  | ls_nil : listed [] []
  | ls_in q qs c cs : loaded_from q c -> listed qs cs -> listed (q :: qs) (c :: cs)
  | ls_out q qs cs : listed qs cs -> listed (q :: qs) cs.

  (** A tree nested in the files [files], the innermost first. *)
  Inductive done : list path -> tree -> Prop :=
  | d_plain files n ch : Forall (done files) ch -> done files (T (LPlain n) ch)
  | d_link files abs target ch refs : Forall (done files) ch -> links files abs target refs -> done files (T (LLink abs target) (ch ++ refs))
  | d_incl files abs target ch subs : Forall (done files) ch -> loads files abs target subs -> done files (T (LInclude abs target) (ch ++ subs))
  | d_file files p doc : done (p :: files) doc -> done files (T (LFile p) [doc])
  | d_dir files p ch : Forall (done files) ch -> listed (entries p) ch -> done files (T (LDir p) ch)
  | d_sym files q d ch : Forall (done files) ch -> listed [read_link q] ch -> loaded_from q (T (LSym d) ch) -> done files (T (LSym d) ch)
  (** A link has one reference for every file it is nested in against whose
      directory it can be resolved. *)
  with links : list path -> bool -> path -> list tree -> Prop :=
  | lk_nil abs target : links [] abs target []
  | lk_some f files abs target q refs : refers f abs target q -> links files abs target refs ->
      links (f :: files) abs target (T (LFileRef q) [] :: refs)
  | lk_none f files abs target refs : dangling f abs target -> links files abs target refs ->
      links (f :: files) abs target refs
  (** An include is tried for every file it is nested in, from the innermost. *)
  with loads : list path -> bool -> path -> list tree -> Prop :=
  | ld_nil abs target : loads [] abs target []
  | ld_error f files abs target subs : dangling f abs target -> loads files abs target subs ->
      loads (f :: files) abs target (T LError [] :: subs)
  | ld_some f files abs target q c subs : refers f abs target q -> loaded_from q c -> done (f :: files) c ->
      loads files abs target subs -> loads (f :: files) abs target (c :: subs)
  | ld_seen f files abs target q subs : refers f abs target q -> loads files abs target subs ->
      loads (f :: files) abs target subs.
End Spec.

(** The files whose contents the tree holds. *)
Fixpoint files_in (t : tree) : list path :=
  match t with T l ch => match l with LFile p => [p] | _ => [] end ++ flat_map files_in ch end.
