(** What C124 speaks about. *)
From Verif Require Import Base StrModel ConvModel EditModel.
From Verif Require ParaModel.

(** The node inside of any number of lists of statements and documents, each with one child. *)
Definition wrapper (s : sem) : Prop := skind s = oStmtList \/ skind s = oDocument.
Inductive only : sem -> sem -> Prop :=
| only_self s : ~ wrapper s -> only s s
| only_in s x y : wrapper s -> ssubs s = [x] -> only x y -> only s y.

(** An item with a header of this clean text. *)
Definition headed (x h : sem) : Prop :=
  exists a b, sfields x = a ++ (FHeader, h) :: b /\ forall y, ~ In (FHeader, y) a.
Definition named (clean : sem -> str) (t : str) (x : sem) : Prop :=
  skind x = oListItem /\ exists h, headed x h /\ clean h = t.

(** Two nodes that differ in their children only. *)
Definition same_but_subs (s r : sem) : Prop :=
  skind r = skind s /\ sdata r = sdata s /\ sfields r = sfields s /\ sattached r = sattached s.

(** The first time of a title and of the properties. *)
Inductive first_titled : list ParaModel.title_item -> nat -> Prop :=
| ft_time t l : first_titled (ParaModel.TTime t :: l) t
| ft_range a b l : first_titled (ParaModel.TRange a b :: l) a
| ft_other l t : first_titled l t -> first_titled (ParaModel.TOther :: l) t.
Inductive first_created : list ParaModel.prop_entry -> nat -> Prop :=
| fc_time t l : first_created (ParaModel.PCreated t :: l) t
| fc_other l t : first_created l t -> first_created (ParaModel.POther :: l) t.
(** The creation time of a heading: its property, without one the time in its title. *)
Definition created_at (h : ParaModel.subtree) (t : nat) : Prop :=
  first_created (ParaModel.tprops h) t
  \/ (forall u, ~ In (ParaModel.PCreated u) (ParaModel.tprops h)) /\ first_titled (ParaModel.title h) t.

(** [p] are the nodes from [t] down to above [n]. *)
Inductive leads : tree -> list tree -> tree -> Prop :=
| leads_here t : leads t [] t
| leads_down x l s p n : In s l -> leads s p n -> leads (Tree x l) (Tree x l :: p) n.
(** The nodes of a tree in the order of the text, each before what is inside of it. *)
Inductive listed : tree -> list tree -> Prop :=
| listed_tree x l ls : listed_all l ls -> listed (Tree x l) (Tree x l :: ls)
with listed_all : list tree -> list tree -> Prop :=
| all_nil : listed_all [] []
| all_cons t l a b : listed t a -> listed_all l b -> listed_all (t :: l) (a ++ b).
