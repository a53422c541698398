(** Shared imports and the outcome type used by the models.

    Simplification shared by all models: C++ exceptions are the [Throw] outcome (or [None] where a
    function has no other failure), undefined behaviour is [UB], loops without an obvious bound run on
    fuel and report [Fuel] when it is exhausted. *)
From Coq Require Export List Arith NArith ZArith Lia Bool Permutation Sorted.
From Coq Require Export ZifyBool ZifyNat ZifyN.
Export ListNotations.

Inductive outcome (A : Type) : Type :=
| Ok (a : A)
| Throw
| UB
| Fuel.
Arguments Ok {A} a.
Arguments Throw {A}.
Arguments UB {A}.
Arguments Fuel {A}.

Definition obind {A B} (o : outcome A) (f : A -> outcome B) : outcome B :=
  match o with
  | Ok a => f a
  | Throw => Throw
  | UB => UB
  | Fuel => Fuel
  end.

Definition omap {A B} (f : A -> B) (o : outcome A) : outcome B :=
  obind o (fun a => Ok (f a)).
