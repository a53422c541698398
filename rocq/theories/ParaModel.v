(** Leading nodes and body of a paragraph, and the time periods of a heading:
    src/haxorg/sem/SemOrgSharedApi.cpp.

    Simplified: a child is its position-independent identity (a number) with
    the part of it the code looks at; times are numbers.  Both tree
    representations instantiate one template, so there is one model. *)
From Coq Require Import List Bool Arith Lia.
From Verif Require Import Base.
Import ListNotations.
Local Open Scope nat_scope.

(** OrgSemKind, as far as it is looked at: all kinds not named are [KOther]. *)
Inductive kind := KBigIdent | KPunctuation | KLink | KHashTag | KTime | KRadioTarget | KSpace | KOther.
Definition kind_eqb (a b : kind) : bool :=
  match a, b with
  | KBigIdent, KBigIdent | KPunctuation, KPunctuation | KLink, KLink | KHashTag, KHashTag
  | KTime, KTime | KRadioTarget, KRadioTarget | KSpace, KSpace | KOther, KOther => true
  | _, _ => false
  end.

(** [colon]: the text is ":"; [footnote]: the target of the link is one. *)
Record node := Node { nid : nat; nkind : kind; colon : bool; footnote : bool }.

(** SemOrgSharedApi.cpp:864-870 LeadParagraphNodes, and the same set in 522-529 *)
Definition lead_kind (k : kind) : bool :=
  match k with KHashTag | KBigIdent | KTime | KRadioTarget | KSpace => true | _ => false end.

(** SemOrgSharedApi.cpp:457-491 Org_getLeadNodes *)
Fixpoint lead_nodes (k : kind) (l : list node) : list node :=
  match l with
  | [] => []
  | x :: l' =>
      if kind_eqb (nkind x) k then x :: lead_nodes k l'
      else if lead_kind (nkind x) then lead_nodes k l'
      else []
  end.

(** SemOrgSharedApi.cpp:493-538 Paragraph_dropAdmonitionNodes: the loop while
    [lead] holds; [skip] is the extra increment of 509. *)
Fixpoint body_loop (skip : bool) (l : list node) : list node :=
  match l with
  | [] => []
  | x :: l' =>
      if skip then body_loop false l'
      else match nkind x with
      | KBigIdent =>
          match l' with
          | y :: _ => body_loop (kind_eqb (nkind y) KPunctuation && colon y) l'
          | [] => body_loop false l'
          end
      | KLink => if footnote x then body_loop false l' else l'
      | k => if lead_kind k then body_loop false l' else x :: l'
      end
  end.
(** getBody, 882 and 930 *)
Definition body (l : list node) : list node := body_loop false l.

(** 875-881, 923-929 *)
Definition admonition_nodes := lead_nodes KBigIdent.
Definition timestamp_nodes := lead_nodes KTime.
Definition lead_hashtags := lead_nodes KHashTag.

(** SemOrgSharedApi.cpp:974-991 getFootnoteName *)
Definition is_footnote_definition (l : list node) : bool :=
  match l with x :: _ => kind_eqb (nkind x) KLink && footnote x | [] => false end.

(** ** Periods *)
Inductive pkind := Titled | Deadline | Scheduled | Closed | Clocked | Created | Repeated.
Record period := Period { pk : pkind; from : nat; until : option nat }.
(** A child of the title: a time, a range of times, or something else. *)
Inductive title_item := TTime (t : nat) | TRange (a b : nat) | TOther.
(** A log entry: a clock with its start and optional end, or something else. *)
Inductive log_entry := LClock (a : nat) (b : option nat) | LOther.
(** A property: the creation time, or something else. *)
Inductive prop_entry := PCreated (t : nat) | POther.
Record subtree := Subtree {
  title : list title_item; deadline : option nat; scheduled : option nat; closed : option nat;
  logbook : list log_entry; tprops : list prop_entry }.

Definition title_period (x : title_item) : list period :=
  match x with TTime t => [Period Titled t None] | TRange a b => [Period Titled a (Some b)] | TOther => [] end.
Definition clock_period (x : log_entry) : list period :=
  match x with LClock a b => [Period Clocked a b] | LOther => [] end.
Definition created_period (x : prop_entry) : list period :=
  match x with PCreated t => [Period Created t None] | POther => [] end.
(** 329-363, one of the three blocks *)
Definition planned (want : pkind -> bool) (k : pkind) (t : option nat) : list period :=
  if want k then match t with Some t => [Period k t None] | None => [] end else [].
(** SemOrgSharedApi.cpp:285-404 Subtree_getTimePeriodsImpl *)
Definition periods (want : pkind -> bool) (h : subtree) : list period :=
  flat_map title_period (title h)
  ++ planned want Deadline (deadline h) ++ planned want Scheduled (scheduled h) ++ planned want Closed (closed h)
  ++ (if want Clocked then flat_map clock_period (logbook h) else [])
  ++ flat_map created_period (tprops h).
