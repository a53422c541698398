(** Model of the bit sets of src/hstd/stdlib/IntSet.hpp and src/hstd/stdlib/SetCommon.hpp, with the value
    domains of src/hstd/system/basic_templates.hpp and src/hstd/system/reflection.hpp.

    Values of the element type are integers (type [Z]); a std::bitset is the list of its bits, of fixed
    length. Simplified: the only element types are those below, the 32 bit int passed to
    value_from_bitset_index is exact (the bitset has at most 65536 bits). [operator~] (IntSet.hpp:138) is
    not modelled: its body is a designated initialiser of a non-aggregate, no instantiation compiles. *)
From Verif Require Import Base.
Local Open Scope Z_scope.

(** Element types: how a value is turned into a bit position and back.
    - [DUnsigned]: unsigned integral types, ord is static_cast<int> (basic_templates.hpp:66-73)
    - [DSigned]: signed integral types with [bits] bits (basic_templates.hpp:66-73)
    - [DChar]: char, signed, negative values shifted by 256 (basic_templates.hpp:163-177)
    - [DUngapped low]: enums declared with value_domain_ungapped (basic_templates.hpp:97-123)
    - [DDescribed l]: other enums, [l] the enumerators in declaration order (reflection.hpp:265-280) *)
Inductive domain :=
| DUnsigned
| DSigned (bits : Z)
| DChar
| DUngapped (low : Z)
| DDescribed (l : list Z).

(** reflection.hpp:273-278, the loop over the described enumerators; -1 when absent. *)
Fixpoint described_ord (l : list Z) (v : Z) (i : Z) : Z :=
  match l with
  | [] => -1
  | x :: l' => if x =? v then i else described_ord l' v (i + 1)
  end.

(** value_domain<T>::ord. *)
Definition ord (d : domain) (v : Z) : Z :=
  match d with
  | DUnsigned => v
  | DSigned _ => v
  | DChar => if v <? 0 then v + 256 else v
  | DUngapped low => v - low
  | DDescribed l => described_ord l v 0
  end.

(** value_from_bitset_index, IntSet.hpp:24-27: a plain static_cast<T> of the index. For the signed types
    this wraps modulo 2^bits; for unsigned types and enums the index fits. *)
Definition from_index (d : domain) (i : nat) : Z :=
  let z := Z.of_nat i in
  match d with
  | DSigned bits => if z <? 2 ^ (bits - 1) then z else z - 2 ^ bits
  | DChar => if z <? 128 then z else z - 256
  | _ => z
  end.

Definition bitset := list bool.

(** A default constructed set over a type with [n] bit positions, IntSet.hpp:106-107. *)
Definition set_empty (n : nat) : bitset := repeat false n.

(** toIdx, IntSet.hpp:73-75, followed by the range check of bitset::test/set/reset: the position as
    std::size_t, None when std::out_of_range is thrown (a negative number converts to a huge one). *)
Definition to_idx (d : domain) (s : bitset) (v : Z) : option nat :=
  let o := ord d v in
  if (0 <=? o) && (o <? Z.of_nat (length s)) then Some (Z.to_nat o) else None.

Fixpoint set_bit (s : bitset) (i : nat) (b : bool) : bitset :=
  match s, i with
  | [], _ => []
  | _ :: s', O => b :: s'
  | x :: s', S i' => x :: set_bit s' i' b
  end.

(** contains(value), IntSet.hpp:109. *)
Definition set_contains (d : domain) (s : bitset) (v : Z) : outcome bool :=
  match to_idx d s v with
  | Some i => Ok (nth i s false)
  | None => Throw
  end.

(** incl(value) / excl(value), IntSet.hpp:119-120. *)
Definition set_incl (d : domain) (s : bitset) (v : Z) : outcome bitset :=
  match to_idx d s v with
  | Some i => Ok (set_bit s i true)
  | None => Throw
  end.

Definition set_excl (d : domain) (s : bitset) (v : Z) : outcome bitset :=
  match to_idx d s v with
  | Some i => Ok (set_bit s i false)
  | None => Throw
  end.

(** Bitwise operators of std::bitset. *)
Fixpoint zip_bits (f : bool -> bool -> bool) (s t : bitset) : bitset :=
  match s, t with
  | a :: s', b :: t' => f a b :: zip_bits f s' t'
  | _, _ => []
  end.

Fixpoint bits_eqb (s t : bitset) : bool :=
  match s, t with
  | [], [] => true
  | a :: s', b :: t' => eqb a b && bits_eqb s' t'
  | _, _ => false
  end.

(** incl(set)/excl(set), IntSet.hpp:117-118; also operator+, operator|, operator-, SetCommon.hpp:32-48. *)
Definition set_union (s t : bitset) : bitset := zip_bits orb s t.
Definition set_diff (s t : bitset) : bitset := zip_bits andb s (map negb t).
(** operator^ and operator&, IntSet.hpp:124-134. *)
Definition set_xor (s t : bitset) : bitset := zip_bits xorb s t.
Definition set_inter (s t : bitset) : bitset := zip_bits andb s t.

(** contains(set), IntSet.hpp:112-114. *)
Definition set_contains_set (s t : bitset) : bool := bits_eqb (zip_bits andb s t) t.
(** operator==, IntSet.hpp:122. *)
Definition set_eqb (s t : bitset) : bool := bits_eqb s t.
(** size, IntSet.hpp:140 (bitset::count), empty, IntSet.hpp:141. *)
Definition set_size (s : bitset) : nat := length (filter (fun b => b) s).
Definition set_is_empty (s : bitset) : bool := (set_size s =? 0)%nat.
(** operator< and operator<=, SetCommon.hpp:58-62. *)
Definition set_lt (s t : bitset) : bool := set_contains_set t s && (set_size s <? set_size t)%nat.
Definition set_le (s t : bitset) : bool := set_contains_set t s.

(** The while loop of iterator::operator++, IntSet.hpp:177. *)
Fixpoint it_skip (fuel : nat) (s : bitset) (i : nat) : outcome nat :=
  match fuel with
  | O => Fuel
  | S fuel' =>
      if (i <? length s)%nat && negb (nth i s false) then it_skip fuel' s (S i) else Ok i
  end.

(** iterator::operator++, IntSet.hpp:173-179. *)
Definition it_incr (s : bitset) (i : nat) : outcome nat :=
  let i := if (i <? length s)%nat && nth i s false then S i else i in
  it_skip (S (length s)) s i.

(** The iterator constructor, IntSet.hpp:165-169. *)
Definition it_make (s : bitset) (i : nat) : outcome nat :=
  if (i <? length s)%nat && negb (nth i s false) then it_incr s i else Ok i.

(** A range-for over the set: begin/end (IntSet.hpp:184-187), !=, * and ++ (IntSet.hpp:171-181). *)
Fixpoint it_loop (fuel : nat) (d : domain) (s : bitset) (i fin : nat) : outcome (list Z) :=
  match fuel with
  | O => Fuel
  | S fuel' =>
      if (i =? fin)%nat then Ok []
      else obind (it_incr s i) (fun j =>
             obind (it_loop fuel' d s j fin) (fun r => Ok (from_index d i :: r)))
  end.

Definition set_iterate (d : domain) (s : bitset) : outcome (list Z) :=
  obind (it_make s 0) (fun i =>
    obind (it_make s (length s)) (fun fin => it_loop (S (length s)) d s i fin)).

(** incl(range)/excl(range), SetCommon.hpp:50-56, for a list of the range's values (the iteration of ranges
    is modelled in SliceModel). *)
Fixpoint set_incl_all (d : domain) (s : bitset) (l : list Z) : outcome bitset :=
  match l with
  | [] => Ok s
  | v :: l' => obind (set_incl d s v) (fun s' => set_incl_all d s' l')
  end.

Fixpoint set_excl_all (d : domain) (s : bitset) (l : list Z) : outcome bitset :=
  match l with
  | [] => Ok s
  | v :: l' => obind (set_excl d s v) (fun s' => set_excl_all d s' l')
  end.

(** The variadic constructor over plain values, IntSet.hpp:77-93, 145-150. *)
Definition set_of (d : domain) (n : nat) (l : list Z) : outcome bitset := set_incl_all d (set_empty n) l.

(** JSON round trip, IntSetSerde.hpp:10-20: the array of the elements and back. *)
Definition set_json_round_trip (d : domain) (s : bitset) : outcome bitset :=
  obind (set_iterate d s) (set_of d (length s)).
