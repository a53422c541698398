(** What is attached to a statement. *)
From Coq Require Import String.
From Verif Require Import Base StrModel ConvModel.
Local Open Scope nat_scope.

(** Exactly those that have the property, in their order. *)
Inductive picks {A} (P : A -> Prop) : list A -> list A -> Prop :=
| picks_nil : picks P [] []
| picks_yes x l m : P x -> picks P l m -> picks P (x :: l) (x :: m)
| picks_no x l m : ~ P x -> picks P l m -> picks P (x :: l) m.

(** Names that are the same but for case and the characters that are no letters or digits. *)
Definition lower_of (c : Z) : Z := if ((65 <=? c) && (c <=? 90))%Z then (c + 32)%Z else c.
Definition alnum (c : Z) : bool := ((48 <=? c) && (c <=? 57) || (65 <=? c) && (c <=? 90) || (97 <=? c) && (c <=? 122))%Z.
Definition letters (s : str) : str := map lower_of (filter alnum s).
Definition alike (a b : str) : Prop := letters a = letters b.

Definition caption (x : sem) : Prop := skind x = oCmdCaption.
Definition naming (x : sem) : Prop := skind x = oCmdName.
(** A line of attributes for the exporter or the kind of statement [t]. *)
Definition attrs_for (t : str) (x : sem) : Prop := exists t' l, x = Sem oCmdAttr (D [t'] [] [l] []) [] [] [] /\ alike t' t.
(** As the converter makes them: a line of attributes has its target and its attributes, a caption its text, a name its
    text. *)
Inductive well_made : sem -> Prop :=
| made_attr t l : well_made (Sem oCmdAttr (D [t] [] [l] []) [] [] [])
| made_caption p : well_made (Sem oCmdCaption nothing [(FText, p)] [] [])
| made_name s : well_made (Sem oCmdName (text [s]) [] [] [])
| made_other k d f subs att : k <> oCmdAttr -> k <> oCmdCaption -> k <> oCmdName -> well_made (Sem k d f subs att).
(** No line of attributes is for something called attr... *)
Definition usual (x : sem) : Prop := forall t l, x = Sem oCmdAttr (D [t] [] [l] []) [] [] [] -> forall u, letters t <> lit "attr" ++ u.
Definition keyed (k : str) (a : attrv) : Prop := exists n, an a = Some n /\ alike n k.

(** The texts, in order. *)
Inductive caption_texts : list sem -> list sem -> Prop :=
| ct_nil : caption_texts [] []
| ct_cons p l m : caption_texts l m -> caption_texts (Sem oCmdCaption nothing [(FText, p)] [] [] :: l) (p :: m)
| ct_skip x l m : skind x <> oCmdCaption -> caption_texts l m -> caption_texts (x :: l) m.
Inductive names_given : list sem -> list str -> Prop :=
| ng_nil : names_given [] []
| ng_cons s l m : names_given l m -> names_given (Sem oCmdName (text [s]) [] [] [] :: l) (s :: m)
| ng_skip x l m : skind x <> oCmdName -> names_given l m -> names_given (x :: l) m.
(** The attributes called [k] of the lines for [t]. *)
Inductive attrs_given (t k : str) : list sem -> list attrv -> Prop :=
| ag_nil : attrs_given t k [] []
| ag_line t' l a b m : alike t' t -> picks (keyed k) l a -> attrs_given t k m b ->
    attrs_given t k (Sem oCmdAttr (D [t'] [] [l] []) [] [] [] :: m) (a ++ b)
| ag_other t' l m b : ~ alike t' t -> attrs_given t k m b -> attrs_given t k (Sem oCmdAttr (D [t'] [] [l] []) [] [] [] :: m) b
| ag_skip x m b : skind x <> oCmdAttr -> attrs_given t k m b -> attrs_given t k (x :: m) b.
