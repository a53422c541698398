(** Model of the data-oriented ids and stores:
    src/hstd/stdlib/dod_base.hpp, src/hstd/stdlib/dod_base_intern.hpp,
    src/haxorg/imm/ImmOrgBase.{hpp,cpp} and src/haxorg/imm/ImmOrg.cpp (id packing). *)
From Verif Require Import Base.
Open Scope N_scope.

(** ** Ids

    An id type is given by the width [w] of its unsigned base type in bits and the number [m] of mask
    bits (template parameters [IdType], [MaskSizeT], dod_base.hpp:65-76).  A value of the type is a
    number below [2^w]; [wrap] is the conversion to that type.  Simplification: [MaskType] has the
    same width as [IdType] (as in every DECL_ID_TYPE_MASKED use, dod_base.hpp:236-237). *)
Definition wrap (w x : N) : N := x mod 2 ^ w.

(** Bitwise complement in the base type. *)
Definition bnot (w x : N) : N := N.lxor x (N.ones w).

(** [mask_offset], dod_base.hpp:93. *)
Definition mask_offset (w m : N) : N := w - m.

(** [~IdType(0) << mask_offset] (dod_base.hpp:114,122).  Shifting by the full width or more ([m = 0])
    is undefined behaviour in C++; only [getUnmasked] guards against it. *)
Definition high_ones (w m : N) : N := wrap w (N.shiftl (bnot w 0) (mask_offset w m)).

(** The same expression with its undefined case: [m = 0] makes the shift count equal to the width.
    [getMask] (dod_base.hpp:122), [getMaskUnshifed] (dod_base.hpp:128) and everything using them
    evaluate it without a guard. *)
Definition high_ones_run (w m : N) : outcome N :=
  if mask_offset w m <? w then Ok (high_ones w m) else UB.

(** [Id(IdType in)], dod_base.hpp:81; also [FromIndex], dod_base.hpp:98. *)
Definition from_index (w idx : N) : N := wrap w (idx + 1).

(** [getUnmasked], dod_base.hpp:110-116. *)
Definition get_unmasked (w m v : N) : N :=
  if m =? 0 then v else N.land v (bnot w (high_ones w m)).

(** [getMaskUnshifed], dod_base.hpp:127-129. *)
Definition get_mask_unshifted (w m v : N) : N := N.land v (high_ones w m).

(** [getMask], dod_base.hpp:120-123. *)
Definition get_mask (w m v : N) : N :=
  N.shiftr (N.land v (high_ones w m)) (mask_offset w m).

(** [setUnmasked], dod_base.hpp:132. *)
Definition set_unmasked (w m v base : N) : N := N.lor (get_mask w m v) base.

(** [setMask], dod_base.hpp:135-156.  [None] is the thrown [logic_error] (mask too wide) or the failed
    assertion (shift count not below the width).  [mask_check] is computed in 64 bits. *)
Definition set_mask (w m v mask : N) : option N :=
  let mask_check := wrap 64 (N.shiftl 1 m - 1) in
  if negb (N.land mask (bnot 64 mask_check) =? 0) then None
  else if negb (mask_offset w m <? w) then None
  else Some (N.lor (get_unmasked w m v) (wrap w (N.shiftl mask (mask_offset w m)))).

(** [FromMaskedIdx], dod_base.hpp:101-105. *)
Definition from_masked_idx (w m idx mask : N) : option N :=
  set_mask w m (from_index w idx) mask.

(** [isNil], dod_base.hpp:159. *)
Definition is_nil (w m v : N) : bool := get_unmasked w m v =? 0.

(** [getIndex], dod_base.hpp:173-179; [None] is the thrown [range_error]. *)
Definition get_index (w m v : N) : option N :=
  if is_nil w m v then None else Some (get_unmasked w m v - 1).

(** [operator<], dod_base.hpp:192-194. *)
Definition id_lt (w m a b : N) : bool := get_unmasked w m a <? get_unmasked w m b.

(** [operator==], dod_base.hpp:204. *)
Definition id_eq (a b : N) : bool := a =? b.

(** [saturating_add], src/hstd/system/basic_templates.hpp:126-132. [change] is non-negative here. *)
Definition saturating_add (w value change : N) : N :=
  let res := wrap w (value + change) in
  if res <? value then N.ones w else res.

(** [saturating_sub], basic_templates.hpp:134-140; [2^w] is added before the subtraction so that the
    wrap-around of the unsigned difference is explicit. *)
Definition saturating_sub (w value change : N) : N :=
  let res := wrap w (value + 2 ^ w - wrap w change) in
  if value <? res then 0 else res.

(** [operator++], dod_base.hpp:298-302. *)
Definition id_incr (w m v : N) : N :=
  N.lor (get_mask_unshifted w m v) (saturating_add w (get_unmasked w m v) 1).

(** [operator--], dod_base.hpp:283-287. *)
Definition id_decr (w m v : N) : N :=
  N.lor (get_mask_unshifted w m v) (saturating_sub w (get_unmasked w m v) 1).

(** [operator+(Id, int)] with [saturating_add_any], dod_base.hpp:311-315 and
    basic_templates.hpp:142-149. *)
Definition id_plus (w m v : N) (extent : Z) : N :=
  N.lor (get_mask_unshifted w m v)
    (if (0 <=? extent)%Z
     then saturating_add w (get_unmasked w m v) (Z.to_N extent)
     else saturating_sub w (get_unmasked w m v) (Z.to_N (Z.abs extent))).

(** [distance], dod_base.hpp:328-331. *)
Definition id_distance (w m first last : N) : N :=
  saturating_sub w (get_unmasked w m last) (get_unmasked w m first).

(** [getMask] and [operator+] with the undefined case of [high_ones_run] made explicit. *)
Definition get_mask_run (w m v : N) : outcome N :=
  omap (fun h => N.shiftr (N.land v h) (mask_offset w m)) (high_ones_run w m).
Definition id_plus_run (w m v : N) (extent : Z) : outcome N :=
  omap (fun _ => id_plus w m v extent) (high_ones_run w m).

(** ** Store (dod_base.hpp:363-486)

    The store is its [content] vector. *)

(** [int index = content.size()] (dod_base.hpp:388): conversion of a size to a 32 bit signed int. *)
Definition int_of_size (n : nat) : Z :=
  let z := (Z.of_nat n mod 2 ^ 32)%Z in
  if (z <? 2 ^ 31)%Z then z else (z - 2 ^ 32)%Z.

(** Implicit conversion of that int to [IdType]. *)
Definition id_of_int (w : N) (z : Z) : N := Z.to_N (z mod 2 ^ Z.of_N w).

(** [Store::add] with and without a mask, dod_base.hpp:387-424.  [None] is a throw from [setMask] or
    the failed non-nil assertion. *)
Definition store_add {V} (w m : N) (c : list V) (v : V) (mask : option N) : option (list V * N) :=
  let index := id_of_int w (int_of_size (length c)) in
  let c' := c ++ [v] in
  match (match mask with
         | Some k => from_masked_idx w m index k
         | None => Some (from_index w index)
         end) with
  | None => None
  | Some r => if is_nil w m r then None else Some (c', r)
  end.

(** [Store::at], dod_base.hpp:447-450; [None] is a throw (nil id, or out of range in the checked
    [Vec::at]). *)
Definition store_at {V} (w m : N) (c : list V) (id : N) : option V :=
  match get_index w m id with
  | None => None
  | Some i => nth_error c (N.to_nat i)
  end.

(** [Store::contains], dod_base.hpp:379-384. *)
Definition store_contains {V} (w m : N) (c : list V) (id : N) : bool :=
  match get_index w m id with
  | None => false
  | Some i => i <? N.of_nat (length c)
  end.

(** Replace position [i] of a list (assignment through [operator[]]). *)
Fixpoint list_set {V} (c : list V) (i : nat) (v : V) : list V :=
  match c, i with
  | [], _ => []
  | _ :: c', O => v :: c'
  | x :: c', S i' => x :: list_set c' i' v
  end.

(** [Store::insert], dod_base.hpp:476-485; an index above the size is silently ignored. *)
Definition store_insert {V} (w m : N) (c : list V) (id : N) (v : V) : option (list V) :=
  match get_index w m id with
  | None => None
  | Some i =>
      if i =? N.of_nat (length c) then Some (c ++ [v])
      else if i <? N.of_nat (length c) then Some (list_set c (N.to_nat i) v)
      else Some c
  end.

(** [Store::pairs], dod_base.hpp:456-461: the loop over indices, starting at [i]. *)
Fixpoint store_pairs_from {V} (w : N) (c : list V) (i : N) : list (N * V) :=
  match c with
  | [] => []
  | v :: c' => (from_index w i, v) :: store_pairs_from w c' (i + 1)
  end.
Definition store_pairs {V} (w : N) (c : list V) : list (N * V) := store_pairs_from w c 0.

(** [Store::back] and [Store::high], dod_base.hpp:427-428. *)
Definition store_back {V} (w : N) (c : list V) : N := wrap w (N.of_nat (length c)).
Definition store_high {V} (w : N) (c : list V) : N :=
  wrap w (N.of_nat (length c) + 2 ^ 64 - 1).

(** ** InternStore (dod_base_intern.hpp:13-76)

    [id_map] is an unordered map keyed by value: an association list searched with the equality
    test [eqb] of the value type (hash assumed consistent with it). *)
Record intern (V : Type) := mkIntern { id_map : list (V * N); content : list V }.
Arguments mkIntern {V} _ _.
Arguments id_map {V} _.
Arguments content {V} _.

Definition intern_empty {V} : intern V := mkIntern [] [].

(** [id_map.find]. *)
Fixpoint map_find {V} (eqb : V -> V -> bool) (l : list (V * N)) (v : V) : option N :=
  match l with
  | [] => None
  | (x, i) :: l' => if eqb x v then Some i else map_find eqb l' v
  end.

(** [InternStore::add], dod_base_intern.hpp:26-42.  [unordered_map::insert] does nothing when the
    key is present; here it is known to be absent. *)
Definition intern_add {V} (eqb : V -> V -> bool) (w m : N) (s : intern V) (v : V) (mask : option N)
  : option (intern V * N) :=
  match map_find eqb (id_map s) v with
  | Some i => if is_nil w m i then None else Some (s, i)
  | None =>
      match store_add w m (content s) v mask with
      | None => None
      | Some (c', r) =>
          if is_nil w m r then None else Some (mkIntern (id_map s ++ [(v, r)]) c', r)
      end
  end.

(** [InternStore::at], dod_base_intern.hpp:52-54. *)
Definition intern_at {V} (w m : N) (s : intern V) (id : N) : option V := store_at w m (content s) id.

(** [InternStore::contains], dod_base_intern.hpp:45. *)
Definition intern_contains {V} (eqb : V -> V -> bool) (s : intern V) (v : V) : bool :=
  match map_find eqb (id_map s) v with Some _ => true | None => false end.

(** [InternStore::insert], dod_base_intern.hpp:60-67. *)
Definition intern_insert {V} (eqb : V -> V -> bool) (w m : N) (s : intern V) (id : N) (v : V)
  : option (intern V) :=
  if intern_contains eqb s v then Some s
  else if is_nil w m id then None
  else match store_insert w m (content s) id v with
       | None => None
       | Some c' => Some (mkIntern (id_map s ++ [(v, id)]) c')
       end.

(** ** Immutable document node ids (64 bit, 24 mask bits) *)

(** Constants, src/haxorg/imm/ImmOrg.cpp:39-42 and ImmOrgBase.hpp:211-212. *)
Definition NodeIdxMask : N := 0x000000FFFFFFFFFF.
Definition NodeIdxOffset : N := 0.
Definition NodeKindMask : N := 0x000FFF0000000000.
Definition NodeKindOffset : N := 40.
Definition ImmIdMaskSize : N := 24.
Definition ImmIdMaskOffset : N := 8 * 8 - ImmIdMaskSize.

(** [ImmId::getKind(IdType)], ImmOrgBase.cpp:51-53.  Simplification: the kind is its number; the
    conversion to [enum : short int] is the identity for the 12 bit values read here. *)
Definition imm_get_kind (v : N) : N := N.shiftr (N.land v NodeKindMask) NodeKindOffset.

(** [ImmId::getNodeIdx(IdType)], ImmOrgBase.cpp:47-49: truncated to 32 bits ([NodeIdxT]). *)
Definition imm_get_node_idx (v : N) : N := wrap 32 (N.shiftr (N.land v NodeIdxMask) NodeIdxOffset).

(** [ImmId::combineMask], ImmOrg.cpp:53-78; [None] is a failed assertion or throw. *)
Definition imm_combine_mask (kind : N) : option N :=
  let res := N.land (wrap 64 (N.shiftl kind NodeKindOffset)) NodeKindMask in
  match from_masked_idx 64 ImmIdMaskSize 0 (N.shiftr res ImmIdMaskOffset) with
  | None => None
  | Some t => if imm_get_kind t =? kind then Some (N.shiftr res ImmIdMaskOffset) else None
  end.

(** [ImmId::combineFullValue], ImmOrg.cpp:80-83 ([&] binds tighter than [|]). *)
Definition imm_combine_full (kind node : N) : option N :=
  match imm_combine_mask kind with
  | None => None
  | Some k => Some (N.lor (wrap 64 (N.shiftl k ImmIdMaskOffset))
                          (N.land (wrap 64 (N.shiftl node NodeIdxOffset)) NodeIdxMask))
  end.

(** [ImmId(OrgSemKind, NodeIdxT)], ImmOrgBase.hpp:243-244: the base constructor adds one
    (dod_base.hpp:81).  [node] is a 32 bit value. *)
Definition imm_id_make (kind node : N) : option N :=
  match imm_combine_full kind node with
  | None => None
  | Some v => Some (wrap 64 (v + 1))
  end.

(** Id given to the value stored at index [idx] of the store of its kind:
    [ImmAstKindStore::add] calls [values.add(value, ImmId::combineMask(kind))]
    (src/haxorg/imm/ImmOrgStore.cpp:901 and following). *)
Definition imm_store_id (kind idx : N) : option N :=
  match imm_combine_mask kind with
  | None => None
  | Some k => from_masked_idx 64 ImmIdMaskSize idx k
  end.

(** Default constructor [ImmId()], ImmOrgBase.hpp:239. *)
Definition imm_id_default : N := from_index 64 0.
