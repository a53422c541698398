(** What C127 speaks about: a part of the grammar of XML. *)
From Coq Require Import String.
From Verif Require Import Base StrModel AttrModel XmlModel.
Local Open Scope Z_scope.

(** Characters and references, and the text they mean. [quoted]: inside of double quotes. *)
Inductive means (quoted : bool) : str -> str -> Prop :=
| means_nil : means quoted [] []
| means_amp s t : means quoted s t -> means quoted (lit "&amp;" ++ s) (38 :: t)
| means_lt s t : means quoted s t -> means quoted (lit "&lt;" ++ s) (60 :: t)
| means_gt s t : means quoted s t -> means quoted (lit "&gt;" ++ s) (62 :: t)
| means_quot s t : means quoted s t -> means quoted (lit "&quot;" ++ s) (34 :: t)
| means_apos s t : means quoted s t -> means quoted (lit "&apos;" ++ s) (39 :: t)
| means_char c s t : c <> 38 -> c <> 60 -> (quoted = true -> c <> 34) -> means quoted s t -> means quoted (c :: s) (c :: t).

Definition blank (s : str) : Prop := Forall (fun c => c = 32 \/ c = 10) s.
(** A name: no signs that end it. *)
Definition name (s : str) : Prop := s <> [] /\ Forall (fun c => ~ In c (lit " <>/=&""'!" ++ [10])) s.
(** A text without a part. *)
Definition without (p s : str) : Prop := forall a b, s <> a ++ p ++ b.

(** The dashes of a comment, written as themselves or as a reference. *)
Inductive dashes : str -> str -> Prop :=
| dashes_nil : dashes [] []
| dashes_ref s t : dashes s t -> dashes (lit "&#45;" ++ s) (45 :: t)
| dashes_char c s t : dashes s t -> dashes (c :: s) (c :: t).

Inductive attrs_text : list (str * str) -> str -> Prop :=
| no_attrs : attrs_text [] []
| more_attrs k v e r s : name k -> means true e v -> attrs_text r s ->
    attrs_text ((k, v) :: r) ([32] ++ k ++ lit "=""" ++ e ++ lit """" ++ s).
(** Text that means a node; blanks around it do not count, those around a text beside other nodes neither. *)
Inductive node_text : node -> str -> Prop :=
| comment_text a b c t : blank a -> blank b -> without (lit "--") c -> without (lit "--") (c ++ lit "-") -> dashes c t ->
    node_text (Comment t) (a ++ lit "<!--" ++ c ++ lit "-->" ++ b)
| cdata_text a b t : blank a -> blank b -> without (lit "]]>") t -> node_text (CData t) (a ++ lit "<![CDATA[" ++ t ++ lit "]]>" ++ b)
| empty_text a b tag attrs s : blank a -> blank b -> name tag -> attrs_text attrs s ->
    node_text (Element tag attrs [] []) (a ++ lit "<" ++ tag ++ s ++ lit "/>" ++ b)
| plain_text a b tag attrs s t e : blank a -> blank b -> name tag -> attrs_text attrs s -> means false e t ->
    node_text (Element tag attrs t []) (a ++ lit "<" ++ tag ++ s ++ lit ">" ++ e ++ lit "</" ++ tag ++ lit ">" ++ b)
| element_text a b c d f tag attrs s t e l i : blank a -> blank b -> blank c -> blank d -> blank f -> name tag -> attrs_text attrs s -> means false e t ->
    l <> [] -> nodes_text l i ->
    node_text (Element tag attrs t l) (a ++ lit "<" ++ tag ++ s ++ lit ">" ++ c ++ e ++ d ++ i ++ f ++ lit "</" ++ tag ++ lit ">" ++ b)
with nodes_text : list node -> str -> Prop :=
| no_nodes : nodes_text [] []
| more_nodes n l s r : node_text n s -> nodes_text l r -> nodes_text (n :: l) (s ++ r).

(** Nodes that can be written: names are names, no raw nodes, no dash at the end of a comment, no end of a
    CDATA section inside of it. *)
Inductive proper : node -> Prop :=
| proper_comment t : (forall a, t <> a ++ [45]) -> proper (Comment t)
| proper_cdata t : without (lit "]]>") t -> proper (CData t)
| proper_element tag attrs t l : name tag -> Forall (fun a => name (fst a)) attrs -> Forall proper l -> proper (Element tag attrs t l).
