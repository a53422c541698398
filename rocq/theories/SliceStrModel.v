(** Slices of a string. *)
From Verif Require Import Base StrModel SliceModel.
Local Open Scope Z_scope.

(** Str::at(slice), Str.hpp:48-57: a view that begins at the start of the span and whose length is the end of the span.
    A view that goes over the end of the string is undefined. *)
Definition str_at (s : str) (a b : endpoint) : outcome str :=
  obind (get_span (Z.of_nat (length s)) a b true) (fun p =>
    if fst p + snd p <=? Z.of_nat (length s) then Ok (substr s (Z.to_nat (fst p)) (Z.to_nat (snd p))) else UB).
