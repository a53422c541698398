(** Grouping of paragraph children by radio targets and the tracking maps:
    src/haxorg/imm/ImmOrg.cpp.

    Simplified: texts, node ids, flat hashtags and names are numbers; a child
    node is a leaf with its text, a hashtag with its flat forms, or something
    else; the paths of the adapters are left out. *)
From Coq Require Import List Bool Arith Lia.
From Verif Require Import Base.
Import ListNotations.
Local Open Scope nat_scope.

Inductive child :=
| Leaf (space : bool) (text : nat)
| Tag (flat : list nat)
| Other (n : nat).

(** What a tracked id is: a radio target with its words, a heading with the
    word lists of its radio ids, or another node. *)
Inductive target := Radio (words : list nat) | Heading (ids : list (list nat)) | Stray.

(** The persistent maps of the immer library. *)
Notation mapping A := (list (nat * A)) (only parsing).
Fixpoint get {A} (m : mapping A) (k : nat) : option A :=
  match m with [] => None | (k', v) :: m' => if Nat.eqb k' k then Some v else get m' k end.
Definition erase {A} (m : mapping A) (k : nat) : mapping A := filter (fun x => negb (Nat.eqb (fst x) k)) m.
Definition put {A} (m : mapping A) (k : nat) (v : A) : mapping A := (k, v) :: erase m k.

(** ImmOrg.cpp:1259-1321 tryRadioTargetSearch; [sub] are the children from the
    current one on, [off] is sourceOffset.  The result is nextGroupIdx -
    groupingIdx.  Vec::at throws outside the vector (Vec.hpp:51-59). *)
Fixpoint search (sub : list child) (words : list nat) (off : nat) : outcome (option nat) :=
  match words with
  | [] => Ok None
  | w :: ws =>
      match sub with
      | [] => Throw
      | Leaf space t :: sub' =>
          if Nat.eqb t w then match ws with [] => Ok (Some off) | _ => search sub' ws (S off) end
          else if space then search sub' words (S off)
          else Ok None
      | _ => Ok None
      end
  end.

(** ImmOrg.hpp ImmSubnodeGroup *)
Inductive group :=
| Single (c : child)
| RadioHit (id : nat) (nodes : list child)
| TrackedTag (c : child) (targets : mapping nat).

(** ImmOrg.cpp:1374-1383 *)
Fixpoint try_lists (sub : list child) (id : nat) (wss : list (list nat)) : outcome (option (nat * nat)) :=
  match wss with
  | [] => Ok None
  | ws :: wss' => obind (search sub ws 0) (fun r =>
      match r with Some off => Ok (Some (id, off)) | None => try_lists sub id wss' end)
  end.
(** ImmOrg.cpp:1361-1392: the ids in turn, the first hit ends the search. *)
Fixpoint try_ids (info : nat -> target) (sub : list child) (ids : list nat) : outcome (option (nat * nat)) :=
  match ids with
  | [] => Ok None
  | id :: ids' =>
      obind (match info id with
             | Radio ws => try_lists sub id [ws]
             | Heading wss => try_lists sub id wss
             | Stray => Throw
             end) (fun r => match r with Some x => Ok (Some x) | None => try_ids info sub ids' end)
  end.

Section Groups.
  Variable info : nat -> target.
  (** currentTrack->radioTargets and ->hashtagDefinitions *)
  Variable radio : mapping (list nat).
  Variable tags : mapping nat.

  (** ImmOrg.cpp:1348-1430; [fuel] bounds the number of children. *)
  Fixpoint group_loop (fuel : nat) (sub : list child) : outcome (list group) :=
    match fuel with
    | 0 => Fuel
    | S fuel' =>
        match sub with
        | [] => Ok []
        | c :: sub' =>
            let single := omap (cons (Single c)) (group_loop fuel' sub') in
            match c with
            | Leaf false t =>
                match get radio t with
                | None => single
                | Some ids =>
                    obind (try_ids info sub ids) (fun r =>
                    match r with
                    | Some (id, off) =>
                        omap (cons (RadioHit id (firstn (S off) sub))) (group_loop fuel' (skipn (S off) sub))
                    | None => single
                    end)
                end
            | Leaf true _ => single
            | Tag flat =>
                let hits := fold_left (fun m f => match get tags f with Some t => put m f t | None => m end) flat [] in
                match hits with
                | [] => single
                | _ => omap (cons (TrackedTag c hits)) (group_loop fuel' sub')
                end
            | Other _ => single
            end
        end
    end.
  (** ImmOrg.cpp:1438-1457: the assertion on the number of nodes *)
  Definition group_size (g : group) : nat := match g with RadioHit _ l => length l | _ => 1 end.
  Definition groups (sub : list child) : outcome (list group) :=
    obind (group_loop (S (length sub)) sub) (fun gs =>
      if Nat.eqb (fold_left (fun n g => n + group_size g) gs 0) (length sub) then Ok gs else Throw).
End Groups.

(** ** Tracking *)
(** What updateTracking reads from a node: its names, its subtree or footnote
    id and custom ids, its radio word lists (of a paragraph: those of the radio
    targets inside, each with its own id), its hashtag definitions. *)
Record facts := mkF {
  f_names : list nat; f_subtree : option nat; f_custom : list nat; f_foot : option nat;
  f_radio : list (list nat * nat); f_tags : list nat }.
Record track := mkT {
  t_names : mapping nat; t_subtrees : mapping nat; t_custom : mapping nat; t_foot : mapping nat;
  t_radio : mapping (list nat); t_tags : mapping nat }.

(** Vec::indexOf and erase of one position *)
Fixpoint remove_first (x : nat) (l : list nat) : option (list nat) :=
  match l with
  | [] => None
  | y :: l' => if Nat.eqb y x then Some l' else option_map (cons y) (remove_first x l')
  end.
(** ImmOrg.cpp:611-646 edit_radio_targets *)
Definition edit_radio (add : bool) (m : mapping (list nat)) (words : list nat) (id : nat) : outcome (mapping (list nat)) :=
  match words with
  | [] => Throw
  | w :: _ =>
      if add then
        match get m w with
        | None => Ok (put m w [id])
        | Some l => if existsb (Nat.eqb id) l then Ok m else Ok (put m w (l ++ [id]))
        end
      else
        match get m w with
        | None => Throw
        | Some l =>
            match remove_first id l with
            | None => Throw
            | Some [] => Ok (erase m w)
            | Some l' => Ok (put m w l')
            end
        end
  end.
Fixpoint edit_radios (add : bool) (m : mapping (list nat)) (l : list (list nat * nat)) : outcome (mapping (list nat)) :=
  match l with
  | [] => Ok m
  | (ws, id) :: l' => obind (edit_radio add m ws id) (fun m' => edit_radios add m' l')
  end.
Definition edit_key (add : bool) (m : mapping nat) (keys : list nat) (id : nat) : mapping nat :=
  fold_left (fun m k => if add then put m k id else erase m k) keys m.
Definition opt_list (o : option nat) : list nat := match o with Some x => [x] | None => [] end.
(** ImmOrg.cpp:609-750 updateTracking.  Hashtag definitions are inserted for
    removals as well (727-729). *)
Definition update_tracking (add : bool) (t : track) (f : facts) (id : nat) : outcome track :=
  omap (fun r => mkT (edit_key add (t_names t) (f_names f) id) (edit_key add (t_subtrees t) (opt_list (f_subtree f)) id)
                     (edit_key add (t_custom t) (f_custom f) id) (edit_key add (t_foot t) (opt_list (f_foot f)) id)
                     r (edit_key true (t_tags t) (f_tags f) id))
       (edit_radios add (t_radio t) (f_radio f)).

(** What happens to the tracking maps: a node is added (ImmOrgStore.cpp:463-475)
    or replaced (57-121 setNode: the old value is untracked, the new one
    tracked). *)
Inductive event := Added (id : nat) | Replaced (old new : nat).
Definition track_event (facts_of : nat -> facts) (t : track) (e : event) : outcome track :=
  match e with
  | Added id => update_tracking true t (facts_of id) id
  | Replaced old new => obind (update_tracking false t (facts_of old) old) (fun t' => update_tracking true t' (facts_of new) new)
  end.
Fixpoint track_events (facts_of : nat -> facts) (t : track) (es : list event) : outcome track :=
  match es with [] => Ok t | e :: es' => obind (track_event facts_of t e) (fun t' => track_events facts_of t' es') end.
Definition no_track : track := mkT [] [] [] [] [] [].
