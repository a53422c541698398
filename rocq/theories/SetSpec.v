(** What a finite set of integers is, independent of bit positions: a boolean membership function. *)
From Verif Require Import Base SetModel.
Local Open Scope Z_scope.

Definition fset := Z -> bool.

(** The mutations a user performs on one set variable; the second operand of the binary operations is any
    other set of the same type. *)
Inductive set_op :=
| OIncl (v : Z)
| OExcl (v : Z)
| OInclRange (l : list Z)
| OExclRange (l : list Z)
| OUnion (t : bitset)
| ODiff (t : bitset)
| OInter (t : bitset)
| OXor (t : bitset).

Definition mem (l : list Z) (v : Z) : bool := existsb (Z.eqb v) l.

Definition fset_op (has : bitset -> fset) (f : fset) (o : set_op) : fset :=
  fun v =>
    match o with
    | OIncl x => (v =? x) || f v
    | OExcl x => negb (v =? x) && f v
    | OInclRange l => mem l v || f v
    | OExclRange l => negb (mem l v) && f v
    | OUnion t => f v || has t v
    | ODiff t => f v && negb (has t v)
    | OInter t => f v && has t v
    | OXor t => xorb (f v) (has t v)
    end.

Definition fset_run (has : bitset -> fset) (f : fset) (ops : list set_op) : fset :=
  fold_left (fset_op has) ops f.

(** The same mutations through the interface of the code. *)
Definition set_step (d : domain) (s : bitset) (o : set_op) : outcome bitset :=
  match o with
  | OIncl x => set_incl d s x
  | OExcl x => set_excl d s x
  | OInclRange l => set_incl_all d s l
  | OExclRange l => set_excl_all d s l
  | OUnion t => Ok (set_union s t)
  | ODiff t => Ok (set_diff s t)
  | OInter t => Ok (set_inter s t)
  | OXor t => Ok (set_xor s t)
  end.

Fixpoint set_run (d : domain) (s : bitset) (ops : list set_op) : outcome bitset :=
  match ops with
  | [] => Ok s
  | o :: ops' => obind (set_step d s o) (fun s' => set_run d s' ops')
  end.

(** The values an element type can hold, per kind of type; [n] is the number of bit positions. For enums the
    declared enumerators, all inside the underlying type. *)
Definition in_type (d : domain) (n : nat) (v : Z) : Prop :=
  match d with
  | DUnsigned => 0 <= v < Z.of_nat n
  | DSigned bits => - 2 ^ (bits - 1) <= v < 2 ^ (bits - 1)
  | DChar => -128 <= v < 128
  | DUngapped low => low <= v < Z.of_nat n
  | DDescribed l => In v l
  end.

(** Number of bit positions of the type, 2^(8*sizeof T). *)
Definition type_bits (d : domain) (n : nat) : Prop :=
  match d with
  | DSigned bits => 0 < bits /\ Z.of_nat n = 2 ^ bits
  | DChar => n = 256%nat
  | DUngapped low => 0 <= low < Z.of_nat n
  | DDescribed l => NoDup l /\ (length l <= n)%nat /\ Forall (fun v => 0 <= v < Z.of_nat n) l
  | DUnsigned => True
  end.

(** Element types for which the code converts bit positions back to the right values: everything but signed
    integers, and enums only when their values are 0, 1, 2, ... in declaration order. *)
Definition zero_based (d : domain) : Prop :=
  match d with
  | DUnsigned => True
  | DSigned _ => False
  | DChar => True
  | DUngapped low => low = 0
  | DDescribed l => l = map Z.of_nat (seq 0 (length l))
  end.

(** Element types for which every value has a bit position. *)
Definition indexed (d : domain) : Prop := match d with DSigned _ => False | _ => True end.

Definition op_in_type (d : domain) (n : nat) (o : set_op) : Prop :=
  match o with
  | OIncl x | OExcl x => in_type d n x
  | OInclRange l | OExclRange l => Forall (in_type d n) l
  | OUnion t | ODiff t | OInter t | OXor t => length t = n
  end.

(** Sets that only contain values of the type: what starting from the empty set and the operations above
    give (an enum has fewer values than bit positions). *)
Definition proper (d : domain) (s : bitset) : Prop :=
  forall i, nth i s false = true -> exists v, in_type d (length s) v /\ ord d v = Z.of_nat i.

Definition op_proper (d : domain) (o : set_op) : Prop :=
  match o with OUnion t | ODiff t | OInter t | OXor t => proper d t | _ => True end.

(** What the interface answers when asked for membership. *)
Definition has (d : domain) (s : bitset) : fset :=
  fun v => match set_contains d s v with Ok b => b | _ => false end.

(** Bit positions that are set, ascending. *)
Definition positions (s : bitset) : list nat := filter (fun i => nth i s false) (seq 0 (length s)).
