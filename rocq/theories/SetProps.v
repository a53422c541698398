(** C13: integer sets behave as mathematical sets. *)
From Verif Require Import Base SetModel SetSpec SetProofs.
Local Open Scope Z_scope.

(** Any history of insertions, removals (of values, ranges and sets), unions, intersections, differences and
    symmetric differences of values of the type succeeds, and afterwards membership is what the
    corresponding history on mathematical sets gives. *)
Theorem set_history_refines_sets : forall d n ops s,
  indexed d -> type_bits d n -> length s = n -> Forall (op_in_type d n) ops ->
  exists s', set_run d s ops = Ok s' /\ length s' = n
    /\ (proper d s -> Forall (op_proper d) ops -> proper d s')
    /\ forall v, in_type d n v -> set_contains d s' v = Ok (fset_run (has d) (has d s) ops v).
Proof. intros d n ops s Hi Hb. exact (history_ok d n Hi Hb ops s). Qed.
Print Assumptions set_history_refines_sets.

(** The element type of the style sets of src/hstd/stdlib/ColText.hpp:89-115. *)
Definition style_domain := DDescribed [1;2;3;4;5;6;7;8;9].

Example set_history_ex :
  indexed style_domain /\ type_bits style_domain 256
  /\ Forall (op_in_type style_domain 256) [OIncl 3; OInclRange [5;6;7]; OExcl 6]
  /\ omap (fun s => map (fun v => has style_domain s v) [1;3;5;6;7;9])
       (set_run style_domain (set_empty 256) [OIncl 3; OInclRange [5;6;7]; OExcl 6])
     = Ok [false; true; true; false; true; false].
Proof.
  repeat split.
  - repeat constructor; cbn; intuition congruence.
  - cbn; lia.
  - repeat constructor; cbn; lia.
  - repeat constructor; cbn; tauto.
Qed.

Theorem set_equality_is_same_members : forall d n s t,
  indexed d -> type_bits d n -> length s = n -> length t = n -> proper d s -> proper d t ->
  (set_eqb s t = true <-> forall v, in_type d n v -> set_contains d s v = set_contains d t v).
Proof. intros d n s t Hi Hb. exact (eq_members d n Hi Hb s t). Qed.
Print Assumptions set_equality_is_same_members.

(** contains(set) and operator<= are inclusion, operator< is proper inclusion. *)
Theorem set_inclusion_tests : forall d n s t,
  indexed d -> type_bits d n -> length s = n -> length t = n -> proper d s -> proper d t ->
  (set_contains_set s t = true <->
     forall v, in_type d n v -> set_contains d t v = Ok true -> set_contains d s v = Ok true)
  /\ (set_le s t = true <->
     forall v, in_type d n v -> set_contains d s v = Ok true -> set_contains d t v = Ok true)
  /\ (set_lt s t = true <->
     (forall v, in_type d n v -> set_contains d s v = Ok true -> set_contains d t v = Ok true)
     /\ exists v, in_type d n v /\ set_contains d t v = Ok true /\ set_contains d s v = Ok false).
Proof.
  intros d n s t Hi Hb Hs Ht Ps Pt.
  exact (conj (contains_set_members d n Hi Hb s t Hs Ht Pt)
        (conj (contains_set_members d n Hi Hb t s Ht Hs Ps)
              (lt_members d n s t Hi Hb Hs Ht Ps Pt))).
Qed.
Print Assumptions set_inclusion_tests.

Example set_inclusion_ex :
  obind (set_of DUnsigned 4 [1;2]) (fun s => obind (set_of DUnsigned 4 [0;1;2]) (fun t =>
    Ok (set_contains_set t s, set_le s t, set_lt s t, set_lt t s, set_lt s s, set_eqb s t)))
  = Ok (true, true, true, false, false, false).
Proof. vm_compute. reflexivity. Qed.

(** Sizes: the size is additive as for finite sets (the count itself is tied to the members by
    [set_iteration_lists_members]). *)
Theorem set_sizes_add_up : forall s t, length s = length t ->
  (set_size (set_union s t) + set_size (set_inter s t) = set_size s + set_size t
   /\ set_size (set_diff s t) + set_size (set_inter s t) = set_size s)%nat.
Proof. intros s t H. exact (conj (size_union_inter s t H) (size_diff s t H)). Qed.
Print Assumptions set_sizes_add_up.

Example set_sizes_ex :
  obind (set_of DUnsigned 4 [1;2;3]) (fun s => obind (set_of DUnsigned 4 [0;1]) (fun t =>
    Ok (set_size (set_union s t), set_size (set_inter s t), set_size (set_diff s t))))
  = Ok (4, 1, 2)%nat.
Proof. vm_compute. reflexivity. Qed.

(** Iteration terminates and lists every member exactly once, in ascending order of position (for char:
    as unsigned bytes), and as many as size() says - for unsigned types, char, and enums whose values count
    up from zero in declaration order. *)
Theorem set_iteration_lists_members : forall d n s,
  zero_based d -> type_bits d n -> length s = n -> proper d s ->
  exists l, set_iterate d s = Ok l
    /\ StronglySorted (fun a b => ord d a < ord d b) l
    /\ (forall v, In v l <-> in_type d n v /\ set_contains d s v = Ok true)
    /\ length l = set_size s.
Proof. exact iterate_members. Qed.
Print Assumptions set_iteration_lists_members.

Example set_iteration_ex :
  zero_based DChar /\ type_bits DChar 256
  /\ obind (set_of DChar 256 [-1; 97; -128; 98]) (set_iterate DChar) = Ok [97; 98; -128; -1]
  /\ zero_based (DDescribed [0;1;2;3]) /\ type_bits (DDescribed [0;1;2;3]) 256.
Proof.
  repeat split; try reflexivity.
  - repeat constructor; cbn; intuition congruence.
  - cbn; lia.
  - repeat constructor; cbn; lia.
Qed.

(** For every other enum, iteration is off: exactly the positions cast to the type. *)
Theorem set_iteration_exact : forall d s,
  set_iterate d s = Ok (map (from_index d) (positions s)).
Proof. exact iterate_ok. Qed.
Print Assumptions set_iteration_exact.

Example set_iteration_exact_ex :
  obind (set_of style_domain 256 [3;4]) (set_iterate style_domain) = Ok [2;3].
Proof. vm_compute. reflexivity. Qed.

(** Full claim of C13 for all element types, false: a set holding one style (Style::Italic, value 3) lists
    another one (Style::Dim, value 2); printing coloured text iterates such sets. The same holds for enums
    declared with value_domain_ungapped and a non-zero lowest value. *)
Theorem set_iteration_lists_members_refuted :
  ~ (forall d n s l v, indexed d -> type_bits d n -> length s = n -> proper d s ->
       set_iterate d s = Ok l -> in_type d n v ->
       (In v l <-> set_contains d s v = Ok true)).
Proof.
  intros H.
  assert (Ht : type_bits style_domain 256).
  { repeat split; [|cbn; lia|]; repeat constructor; cbn; try lia; intuition congruence. }
  assert (Hs : exists s, set_of style_domain 256 [3] = Ok s /\ length s = 256%nat
            /\ set_iterate style_domain s = Ok [2] /\ set_contains style_domain s 2 = Ok false
            /\ positions s = [2%nat]).
  { eexists. repeat split; vm_compute; reflexivity. }
  destruct Hs as (s & _ & Hl & E & C & Hp).
  assert (Pp : proper style_domain s).
  { intros i Hi. apply positions_in in Hi. rewrite Hp in Hi. destruct Hi as [<-|[]].
    exists 3. rewrite Hl. split; [cbn; tauto|reflexivity]. }
  pose proof (H style_domain 256%nat s [2] 2 I Ht Hl Pp E ltac:(cbn; tauto)) as H1.
  rewrite C in H1. destruct H1 as [H1 _]. specialize (H1 (or_introl eq_refl)). discriminate.
Qed.
Print Assumptions set_iteration_lists_members_refuted.

(** Serialising a set to JSON and reading it back gives the same set. *)
Theorem set_json_round_trips : forall d n s,
  zero_based d -> type_bits d n -> length s = n -> proper d s -> set_json_round_trip d s = Ok s.
Proof. exact json_round_trip. Qed.
Print Assumptions set_json_round_trips.

Example set_json_ex :
  obind (set_of DUnsigned 6 [5;1;2]) (fun s => omap (set_eqb s) (set_json_round_trip DUnsigned s)) = Ok true.
Proof. vm_compute. reflexivity. Qed.

(** Signed integer types: negative values can neither be stored nor asked for. *)
Theorem set_signed_values_refuted :
  (forall bits n s v, type_bits (DSigned bits) n -> length s = n -> in_type (DSigned bits) n v ->
    (v < 0 -> set_contains (DSigned bits) s v = Throw /\ set_incl (DSigned bits) s v = Throw)
    /\ (0 <= v -> exists b, set_contains (DSigned bits) s v = Ok b))
  /\ ~ (forall n s v, type_bits (DSigned 8) n -> length s = n -> in_type (DSigned 8) n v ->
          exists s', set_incl (DSigned 8) s v = Ok s').
Proof.
  split; [exact signed_negative|].
  intros H. destruct (H 256%nat (set_empty 256) (-1)) as [s' E].
  - split; reflexivity.
  - vm_compute. reflexivity.
  - cbn. lia.
  - vm_compute in E. discriminate.
Qed.
Print Assumptions set_signed_values_refuted.

Example set_signed_ex :
  set_incl (DSigned 8) (set_empty 256) (-1) = Throw
  /\ omap (fun s => has (DSigned 8) s 5) (set_incl (DSigned 8) (set_empty 256) 5) = Ok true.
Proof. vm_compute. auto. Qed.
