(** Recursive loading of files and directories: src/haxorg/api/ParseContext.cpp.

    Simplified: a path is the list of its components, "." and ".." included as
    they are written; the file system and the callbacks are functions of the
    path that do not change during the call; the parsed document is a tree in
    which only includes of org documents and links to files are distinguished
    (the include kinds that copy text and custom includes load nothing);
    getParsedNode never returns nil; relative paths (relPath) are left out.
    The list [parsed] of files handed to the parser is added for the proofs. *)
From Coq Require Import List Bool Arith Lia.
From Verif Require Import Base.
Import ListNotations.
Local Open Scope nat_scope.

Notation path := (list nat) (only parsing).
Definition path_dec : forall a b : path, {a = b} + {a <> b} := list_eq_dec Nat.eq_dec.

Inductive label :=
| LInclude (abs : bool) (target : path)
| LLink (abs : bool) (target : path)
| LPlain (n : nat)
| LFile (p : path)
| LFileRef (p : path)
| LDir (p : path)
| LSym (p : path)
| LError.
Inductive tree := T (l : label) (ch : list tree).
Definition label_of (t : tree) : label := match t with T l _ => l end.
Definition children (t : tree) : list tree := match t with T _ ch => ch end.

Record state := State { visited : list path; parsed : list path }.

Section Loading.
  (** opts->isSymlink, resolveSymlink, isDirectory, isRegularFile,
      getDirectoryEntries, shouldProcessPath (558-601); fs::exists; the test of
      the extension (382); the parser (319-320); findIncludeTarget. *)
  Variable is_symlink : path -> bool.
  Variable read_link : path -> path.
  Variable is_dir : path -> bool.
  Variable is_file : path -> bool.
  Variable entries : path -> list path.
  Variable wanted : path -> bool.
  Variable exists_ : path -> bool.
  Variable is_org : path -> bool.
  Variable contents : path -> tree.
  Variable find_include : path -> option path.

  (** fs::path::parent_path and operator/ *)
  Definition parent (p : path) : path := removelast p.
  Definition full_path (workdir : path) (abs : bool) (target : path) : path := if abs then target else workdir ++ target.

  (** 393-414 resolvePath *)
  Definition resolve (workdir : path) (abs : bool) (target : path) : outcome (option path) :=
    if is_dir workdir then
      let full := full_path workdir abs target in
      let full := if exists_ full then full else match find_include target with Some p => p | None => full end in
      Ok (if exists_ full then Some full else None)
    else Throw.

  Fixpoint each {A} (f : A -> state -> outcome (A * state)) (l : list A) (s : state) : outcome (list A * state) :=
    match l with
    | [] => Ok ([], s)
    | x :: l' => obind (f x s) (fun r => obind (each f l' (snd r)) (fun r' => Ok (fst r :: fst r', snd r')))
    end.
  Fixpoint collect {A B} (f : A -> state -> outcome (option B * state)) (l : list A) (s : state) : outcome (list B * state) :=
    match l with
    | [] => Ok ([], s)
    | x :: l' => obind (f x s) (fun r => obind (collect f l' (snd r)) (fun r' =>
        Ok (match fst r with Some y => y :: fst r' | None => fst r' end, snd r')))
    end.

  Definition is_visited (s : state) (p : path) : bool := existsb (fun q => if path_dec q p then true else false) (visited s).
  Definition visit (s : state) (p : path) : state := State (p :: visited s) (parsed s).
  Definition note_parsed (s : state) (p : path) : state := State (visited s) (parsed s ++ [p]).
  Definition opt_list {A} (o : option A) : list A := match o with Some x => [x] | None => [] end.

  Fixpoint parse_path (fuel : nat) (p : path) (s : state) {struct fuel} : outcome (option tree * state) :=
    match fuel with
    | 0 => Fuel
    | S fuel' =>
        (* 333-391 parsePathAux *)
        if is_visited s p then Ok (None, s) else
        let s := visit s p in
        if negb (wanted p) then Ok (None, s)
        else if is_symlink p then
          let target := read_link p in
          if is_dir target then
            obind (parse_path fuel' target s) (fun r => Ok (Some (T (LSym target) (opt_list (fst r))), snd r))
          else if is_file target then
            obind (parse_path fuel' target s) (fun r => Ok (Some (T (LSym (parent target)) (opt_list (fst r))), snd r))
          else Ok (None, s)
        else if is_dir p then
          obind (collect (parse_path fuel') (entries p) s) (fun r => Ok (Some (T (LDir p) (fst r)), snd r))
        else if is_file p then
          if is_org p then obind (parse_file fuel' p s) (fun r => Ok (Some (fst r), snd r)) else Ok (None, s)
        else Ok (None, s)
    end
  (** 308-331 parseFileAux *)
  with parse_file (fuel : nat) (p : path) (s : state) {struct fuel} : outcome (tree * state) :=
    match fuel with
    | 0 => Fuel
    | S fuel' =>
        if is_file p then
          obind (walk fuel' p (contents p) (note_parsed s p)) (fun r => Ok (T (LFile p) [fst r], snd r))
        else Throw
    end
  (** 516-530 postProcessFileReferences: eachSubnodeRec (SemBaseApi.cpp:144-210)
      calls the visitor on a node and then goes through its subnodes, including
      those the visitor has just added (430-431, 479, 507). *)
  with walk (fuel : nat) (p : path) (t : tree) (s : state) {struct fuel} : outcome (tree * state) :=
    match fuel with
    | 0 => Fuel
    | S fuel' =>
        obind (match label_of t with
               | LInclude abs target =>
                   (* 416-481 postProcessInclude *)
                   obind (resolve (parent p) abs target) (fun full =>
                     match full with
                     | Some q => obind (parse_path fuel' q s) (fun r => Ok (children t ++ opt_list (fst r), snd r))
                     | None => Ok (children t ++ [T LError []], s)
                     end)
               | LLink abs target =>
                   (* 483-514 postProcessFileLink *)
                   obind (resolve (parent p) abs target) (fun full =>
                     match full with
                     | Some q => Ok (children t ++ [T (LFileRef q) []], s)
                     | None => Ok (children t, s)
                     end)
               | _ => Ok (children t, s)
               end) (fun r =>
        obind (each (walk fuel' p) (fst r) (snd r)) (fun r' => Ok (T (label_of t) (fst r'), snd r')))
    end.

  (** 534-540 parseDirectoryOpts; [root] is already absolute *)
  Definition load_directory (fuel : nat) (root : path) : outcome (option tree * state) := parse_path fuel root (State [] []).
  (** 546-556 parseFileWithIncludes *)
  Definition load_file (fuel : nat) (file : path) : outcome (tree * state) := parse_file fuel file (State [] []).
End Loading.
