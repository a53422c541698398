(** What C45 and C60 speak about. *)
From Coq Require Import List Bool Arith.
From Verif Require Import ParaModel.
Import ListNotations.

(** A node that may stand in the lead of a paragraph. *)
Definition marker (x : node) : Prop :=
  In (nkind x) [KHashTag; KTime; KRadioTarget; KSpace] \/ (nkind x = KLink /\ footnote x = true).
Definition is_colon (x : node) : Prop := nkind x = KPunctuation /\ colon x = true.

(** The lead of a paragraph: markers and admonitions ("NOTE" or "NOTE:"). *)
Inductive lead : list node -> Prop :=
| lead_nil : lead []
| lead_marker x l : marker x -> lead l -> lead (x :: l)
| lead_word x l : nkind x = KBigIdent -> lead l -> lead (x :: l)
| lead_colon x y l : nkind x = KBigIdent -> is_colon y -> lead l -> lead (x :: y :: l).

(** [a] is the whole lead of [a ++ b]. *)
Definition whole_lead (a b : list node) : Prop :=
  lead a /\ forall c d, b = c ++ d -> lead (a ++ c) -> c = [].
(** An ordinary node: neither marker nor admonition. *)
Definition ordinary (x : node) : Prop := ~ marker x /\ nkind x <> KBigIdent.
(** A link that is not a footnote. *)
Definition plain_link (x : node) : Prop := nkind x = KLink /\ footnote x = false.

(** The children before the first one that is not a word in capitals, hashtag,
    time, radio target or space. *)
Definition simple_lead (a b : list node) : Prop :=
  (forall x, In x a -> In (nkind x) [KBigIdent; KHashTag; KTime; KRadioTarget; KSpace]) /\
  match b with [] => True | x :: _ => ~ In (nkind x) [KBigIdent; KHashTag; KTime; KRadioTarget; KSpace] end.

(** The periods of a heading. *)
Inductive has_period (h : subtree) : period -> Prop :=
| hp_time t : In (TTime t) (title h) -> has_period h (Period Titled t None)
| hp_range a b : In (TRange a b) (title h) -> has_period h (Period Titled a (Some b))
| hp_deadline t : deadline h = Some t -> has_period h (Period Deadline t None)
| hp_scheduled t : scheduled h = Some t -> has_period h (Period Scheduled t None)
| hp_closed t : closed h = Some t -> has_period h (Period Closed t None)
| hp_clock a b : In (LClock a b) (logbook h) -> has_period h (Period Clocked a b)
| hp_created t : In (PCreated t) (tprops h) -> has_period h (Period Created t None).

(** The entries of each kind that a heading has, in the order of the text. *)
Definition of_kind (k : pkind) (l : list period) : list period :=
  filter (fun p => match pk p, k with
    | Titled, Titled | Deadline, Deadline | Scheduled, Scheduled | Closed, Closed | Clocked, Clocked | Created, Created | Repeated, Repeated => true
    | _, _ => false end) l.
Inductive titles : list title_item -> list period -> Prop :=
| ts_nil : titles [] []
| ts_time t l ps : titles l ps -> titles (TTime t :: l) (Period Titled t None :: ps)
| ts_range a b l ps : titles l ps -> titles (TRange a b :: l) (Period Titled a (Some b) :: ps)
| ts_other l ps : titles l ps -> titles (TOther :: l) ps.
Inductive clocks : list log_entry -> list period -> Prop :=
| ck_nil : clocks [] []
| ck_clock a b l ps : clocks l ps -> clocks (LClock a b :: l) (Period Clocked a b :: ps)
| ck_other l ps : clocks l ps -> clocks (LOther :: l) ps.
