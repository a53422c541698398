(** Histories of two-way maps and of the source registry. *)
From Verif Require Import Base DodModel BimapModel.

Section Ops.
  Context {L R : Type} (eql : L -> L -> bool) (eqr : R -> R -> bool).

  Inductive op11 := Add11 (l : L) (r : R) | EraseL11 (l : L) | EraseR11 (r : R).

  (** An addition that throws is caught by the caller and leaves what the code leaves. *)
  Definition step11 (m : bimap L R) (o : op11) : bimap L R :=
    match o with
    | Add11 l r => match add_unique_11 eql eqr m l r with Some m' => m' | None => m end
    | EraseL11 l => erase_left eql m l
    | EraseR11 r => erase_right eqr m r
    end.
  Definition run11 (ops : list op11) : bimap L R := fold_left step11 ops [].

  Inductive opn1 := AddN1 (l : L) (r : R) | EraseLN1 (l : L) | EraseRN1 (r : R) | ReassignN1 (l : L) (r : R).
  Definition stepn1 (m : bimap L R) (o : opn1) : bimap L R :=
    match o with
    | AddN1 l r => match add_unique_n1 eql m l r with Some m' => m' | None => m end
    | EraseLN1 l => erase_first eql m l
    | EraseRN1 r => erase_right eqr m r
    | ReassignN1 l r => fst (reassign eql m l r)
    end.
  Definition runn1 (ops : list opn1) : bimap L R := fold_left stepn1 ops [].

  (** What a history means: the current partner of a left key, computed from the operations alone. *)
  Fixpoint partner (ops : list opn1) (l : L) : option R :=
    match ops with
    | [] => None
    | o :: before => (* newest first *)
        match o, partner before l with
        | AddN1 l' r, None => if eql l' l then Some r else None
        | AddN1 _ _, Some r => Some r
        | EraseLN1 l', p => if eql l' l then None else p
        | EraseRN1 r', Some r => if eqr r r' then None else Some r
        | EraseRN1 _, None => None
        | ReassignN1 l' r', Some r => if eql l' l then Some r' else Some r
        | ReassignN1 _ _, None => None
        end
    end.

  (** The same for the one-to-one map: the set of pairs after a history. *)
  Fixpoint linked (ops : list op11) (l : L) (r : R) : Prop :=
    match ops with
    | [] => False
    | Add11 l' r' :: before =>
        linked before l r \/
        (l = l' /\ r = r' /\ (forall x, ~ linked before l' x) /\ (forall x, ~ linked before x r'))
    | EraseL11 l' :: before => linked before l r /\ l <> l'
    | EraseR11 r' :: before => linked before l r /\ r <> r'
    end.
End Ops.
Arguments op11 : clear implicits.
Arguments opn1 : clear implicits.

Section Registry.
  Context {P T : Type} (eqp : P -> P -> bool) (eqt : T -> T -> bool).

  (** Registering in sequence; every answered id, None when some call throws. *)
  Definition sm_run (ops : list (P * T)) : option (manager P T * list N) :=
    fold_left (fun acc o => match acc with
                | None => None
                | Some (s, ids) => match sm_add eqp eqt s (fst o) (snd o) with
                                   | None => None
                                   | Some (s', id) => Some (s', ids ++ [id])
                                   end
                end) ops (Some (manager_empty, [])).
End Registry.
