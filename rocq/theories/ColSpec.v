(** What C125 speaks about. *)
From Coq Require Import String.
From Verif Require Import Base StrModel ConvModel ColModel.
From Verif Require TimeSpec.
Local Open Scope Z_scope.

Definition letter (c : Z) : Prop := 65 <= c <= 90 \/ 97 <= c <= 122.
Definition word_char (c : Z) : Prop := letter c \/ 48 <= c <= 57 \/ c = 95.
Definition name (s : str) : Prop := exists c r, s = c :: r /\ letter c /\ Forall word_char r.
Definition title (s : str) : Prop := s <> [] /\ Forall (fun c => 0 <= c <= 127 /\ c <> 41) s.
Definition gap (c : Z) : Prop := 9 <= c <= 13 \/ c = 32.

(** How widths, properties and summaries are written. *)
Inductive width_text : option Z -> str -> Prop :=
| no_width : width_text None []
| a_width s n : TimeSpec.number s n -> n <= 2147483647 -> width_text (Some n) s.
Inductive field_text : option str -> option str -> str -> Prop :=
| no_field : field_text None None []
| a_field p : name p -> field_text (Some p) None p
| titled p t : name p -> title t -> field_text (Some p) (Some t) (p ++ lit "(" ++ t ++ lit ")").
(** The names of summaries in the manual, as far as they have a kind. *)
Definition known : list (string * summary) :=
  [("min", Math Min); (":min", Math Min); ("@min", Math Min); ("max", Math Max); (":max", Math Max); ("@max", Math Max);
   ("est+", Math LowHighEst); ("X", Check IfAllNested); ("x", Check IfAllNested); ("X/", Check FractionRec);
   ("x/", Check FractionRec); ("X%", Check PercentRec); ("x%", Check PercentRec)]%string.
Definition missed : list (string * summary) :=
  [("+", Math Sum); (":", Math Sum); ("mean", Math Mean); (":mean", Math Mean); ("@mean", Math Mean)]%string.
Inductive summary_text (names : list (string * summary)) : option summary -> str -> Prop :=
| no_summary : summary_text names None []
| a_summary w a : In (w, a) names -> summary_text names (Some a) (lit "{" ++ lit w ++ lit "}").
Inductive column_text (names : list (string * summary)) : column -> str -> Prop :=
| a_column w ws p t fs a ss : width_text w ws -> field_text p t fs -> summary_text names a ss ->
    column_text names (Column w p t a) (lit "%" ++ ws ++ fs ++ ss).
(** Columns with one space, tab or the like between them. *)
Inductive view_text (names : list (string * summary)) : list column -> str -> Prop :=
| one_column c s : column_text names c s -> view_text names [c] s
| more_columns c s g l r : column_text names c s -> gap g -> view_text names l r -> view_text names (c :: l) (s ++ g :: r).

(** Columns that can be written. *)
Definition plain_column (c : column) : Prop :=
  (forall n, cwidth c = Some n -> 0 <= n <= 2147483647) /\ (forall p, cprop c = Some p -> name p) /\
  (forall t, ctitle c = Some t -> title t /\ cprop c <> None).
