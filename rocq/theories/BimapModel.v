(** Model of the two-way maps of src/hstd/ext/bimap_wrap.hpp and of the source registry of
    src/haxorg/lexbase/SourceManager.cpp.

    A boost::bimap is the list of its pairs. Simplified: the order in which boost lists hashed entries is
    the insertion order here; the theorems use listings up to permutation. Hash functions are not modelled
    (they are assumed to agree with equality). *)
From Verif Require Import Base DodModel.

Section Bimap.
  Context {L R : Type} (eql : L -> L -> bool) (eqr : R -> R -> bool).

  Definition bimap := list (L * R).

  (** bimap.left.find / bimap.right.find: first pair with the key. *)
  Fixpoint find_left (m : bimap) (l : L) : option (L * R) :=
    match m with [] => None | p :: m' => if eql (fst p) l then Some p else find_left m' l end.
  Fixpoint find_right (m : bimap) (r : R) : option (L * R) :=
    match m with [] => None | p :: m' => if eqr (snd p) r then Some p else find_right m' r end.

  (** erase_left, erase_right, bimap_wrap.hpp:23-24; erasing by key removes every pair with the key. *)
  Definition erase_left (m : bimap) (l : L) : bimap := filter (fun p => negb (eql (fst p) l)) m.
  Definition erase_right (m : bimap) (r : R) : bimap := filter (fun p => negb (eqr (snd p) r)) m.

  (** contains_left, contains_right, bimap_wrap.hpp:26-32, 231-237. *)
  Definition contains_left (m : bimap) (l : L) : bool :=
    match find_left m l with Some _ => true | None => false end.
  Definition contains_right (m : bimap) (r : R) : bool :=
    match find_right m r with Some _ => true | None => false end.

  (** left_keys, right_keys, bimap_wrap.hpp:34-44. *)
  Definition left_keys (m : bimap) : list L := map fst m.
  Definition right_keys (m : bimap) : list R := map snd m.

  (** get_left and get_right of the one-to-one map, bimap_wrap.hpp:72-82. *)
  Definition get_left (m : bimap) (r : R) : option L := option_map fst (find_right m r).
  Definition get_right (m : bimap) (l : L) : option R := option_map snd (find_left m l).

  (** at_left, at_right, bimap_wrap.hpp:84-101; None is the thrown key error. *)
  Definition at_left (m : bimap) (r : R) : option L := if contains_right m r then get_left m r else None.
  Definition at_right (m : bimap) (l : L) : option R := if contains_left m l then get_right m l else None.

  (** Unordered1to1Bimap::add_unique, bimap_wrap.hpp:103-108; the boost insert is refused (silently) when a
      key exists. *)
  Definition boost_insert_11 (m : bimap) (l : L) (r : R) : bimap :=
    if contains_left m l || contains_right m r then m else m ++ [(l, r)].
  Definition add_unique_11 (m : bimap) (l : L) (r : R) : option bimap :=
    if contains_left m l || contains_right m r then None else Some (boost_insert_11 m l r).

  (** UnorderedNto1Bimap::get_left and StableNto1Bimap::get_left, bimap_wrap.hpp:130-135, 186-191. *)
  Definition get_left_n (m : bimap) (r : R) : list L := map fst (filter (fun p => eqr (snd p) r) m).
  (** at_left, bimap_wrap.hpp:143-148, 202-207. *)
  Definition at_left_n (m : bimap) (r : R) : option (list L) :=
    if contains_right m r then Some (get_left_n m r) else None.
  (** add_unique, bimap_wrap.hpp:152-161, 219-229. *)
  Definition add_unique_n1 (m : bimap) (l : L) (r : R) : option bimap :=
    if contains_left m l then None else Some (m ++ [(l, r)]).
  (** reassign, bimap_wrap.hpp:163-168, 247-255: modifies the first pair with the key. *)
  Fixpoint set_first (m : bimap) (l : L) (r : R) : bimap :=
    match m with
    | [] => []
    | p :: m' => if eql (fst p) l then (fst p, r) :: m' else p :: set_first m' l r
    end.
  Definition reassign (m : bimap) (l : L) (r : R) : bimap * bool :=
    if contains_left m l then (set_first m l r, true) else (m, false).
  (** StableNto1Bimap::erase_left, bimap_wrap.hpp:239-245: erases the first pair with the key. *)
  Fixpoint erase_first (m : bimap) (l : L) : bimap :=
    match m with [] => [] | p :: m' => if eql (fst p) l then m' else p :: erase_first m' l end.
End Bimap.
Arguments bimap : clear implicits.

(** ** Source registry

    A path and a text are values of arbitrary types with an equality test; SourceFileId is a 32 bit id
    without mask bits (SourceManager.hpp:10-15). *)
Section Sources.
  Context {P T : Type} (eqp : P -> P -> bool) (eqt : T -> T -> bool).

  (** SourceFile and SourceManager, SourceManager.hpp:17-26. *)
  Record source_file := mkSource { sf_content : T; sf_path : P }.
  Record manager := mkManager { m_store : list source_file; m_ids : bimap P N }.
  Definition manager_empty : manager := mkManager [] [].

  (** getPath, getId, getSourceContent, getContentTextForPath, SourceManager.cpp:4-16, 47-49; None is a
      throw. *)
  Definition sm_get_path (s : manager) (id : N) : option P := at_left N.eqb (m_ids s) id.
  Definition sm_get_id (s : manager) (path : P) : option N := at_right eqp (m_ids s) path.
  Definition sm_get_content (s : manager) (id : N) : option T :=
    option_map sf_content (store_at 32 0 (m_store s) id).
  Definition sm_get_content_for_path (s : manager) (path : P) : option T :=
    match sm_get_id s path with Some id => sm_get_content s id | None => None end.

  (** addSource, SourceManager.cpp:18-45; None is a failed assertion. *)
  Definition sm_add (s : manager) (path : P) (content : T) : option (manager * N) :=
    match get_right eqp (m_ids s) path with
    | Some id =>
        match sm_get_content s id with
        | Some c => if eqt c content then Some (s, id) else None
        | None => None
        end
    | None =>
        match store_add 32 0 (m_store s) (mkSource content path) None with
        | None => None
        | Some (st, id) =>
            match get_left N.eqb (m_ids s) id with
            | Some _ => None
            | None =>
                match add_unique_11 eqp N.eqb (m_ids s) path id with
                | None => None
                | Some ids => Some (mkManager st ids, id)
                end
            end
        end
    end.
End Sources.
Arguments source_file : clear implicits.
Arguments manager : clear implicits.
