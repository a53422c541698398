(** What a line [#+options:] asks for: the names and the values of the manual of Org, each item [name:value] with
    spaces before it, the last request for a setting winning. *)
From Coq Require Import String.
From Verif Require Import Base StrModel ConvModel OptModel.
Local Open Scope nat_scope.

Inductive request :=
| Switch (f : switch) (b : bool) | Levels (z : Z) | Broken (x : broken) | Tags (x : tags) | Tasks (x : tasks)
| Archived (x : archived) | Toc (x : toc).
(** The names made of letters. *)
Definition names : list (string * switch) :=
  [("author", Author); ("c", Clock); ("creator", Creator); ("d", Drawers); ("date", Date); ("e", Entities); ("email", Email);
   ("expand-links", ExpandLinks); ("f", Footnotes); ("inline", InlineTasks); ("num", SectionNumbers); ("p", Planning);
   ("pri", Priority); ("prop", PropertyDrawers); ("stat", Cookies); ("tex", Latex); ("timestamp", Timestamp);
   ("title", Title); ("todo", TodoText); ("\n", PreserveBreaks)]%string.
(** The names made of signs. *)
Definition signs : list (string * switch) :=
  [("*", Emphasis); ("-", SpecialStrings); ("'", SmartQuotes); (":", FixedWidth); ("<", Timestamps); ("^", SubSuper);
   ("|", Tables)]%string.
Definition plain (v : str) : Prop := v <> [] /\ ~ In 32%Z v /\ ~ In 58%Z v.
(** A number from its decimal digits. *)
Definition number (z : Z) (v : str) : Prop :=
  exists ds, ds <> [] /\ Forall (fun d => 0 <= d <= 9)%Z ds /\ v = map (fun d => 48 + d)%Z ds /\
    z = fold_left (fun a d => 10 * a + d)%Z ds 0%Z /\ (z < 2147483648)%Z.
Inductive asks : str -> str -> request -> Prop :=
| ask_yes n f v : In (n, f) names -> v = lit "t" \/ v = lit "T" -> asks (lit n) v (Switch f true)
| ask_no n f v : In (n, f) names -> plain v -> v <> lit "t" -> v <> lit "T" -> asks (lit n) v (Switch f false)
| ask_levels z v : number z v -> asks (lit "H") v (Levels z)
| ask_toc_levels z v : number z v -> asks (lit "toc") v (Toc (TocLevels z))
| ask_toc : asks (lit "toc") (lit "t") (Toc (TocIs true))
| ask_no_toc : asks (lit "toc") (lit "nil") (Toc (TocIs false))
| ask_mark : asks (lit "broken-links") (lit "mark") (Broken BMark)
| ask_ignore : asks (lit "broken-links") (lit "t") (Broken BIgnore)
| ask_arch_headline : asks (lit "arch") (lit "headline") (Archived ArHeadline)
| ask_arch : asks (lit "arch") (lit "t") (Archived ArAll)
| ask_no_arch : asks (lit "arch") (lit "nil") (Archived ArSkip)
| ask_tags_toc : asks (lit "tags") (lit "not-in-toc") (Tags TgNotInToc)
| ask_tags : asks (lit "tags") (lit "t") (Tags TgAll)
| ask_no_tags : asks (lit "tags") (lit "nil") (Tags TgNone)
| ask_tasks : asks (lit "tasks") (lit "t") (Tasks TkAll)
| ask_no_tasks : asks (lit "tasks") (lit "nil") (Tasks TkNone).

(** A line: every item after one or more spaces. *)
Record item := Item { spaces_before : nat; name_of : str; value_of : str; wants : request }.
Definition sound (i : item) : Prop := asks (name_of i) (value_of i) (wants i).
Definition text_of (l : list item) : str :=
  flat_map (fun i => repeat 32%Z (Datatypes.S (spaces_before i)) ++ name_of i ++ [58%Z] ++ value_of i) l.

(** The value of a switch. *)
Fixpoint value_in (l : list (switch * bool)) (f : switch) : option bool :=
  match l with [] => None | (g, b) :: r => if switch_dec g f then Some b else value_in r f end.
Definition switch_of (c : config) (f : switch) : option bool := value_in (switches c) f.
(** The last of the requests that is about the setting; the value before if there is none. *)
Fixpoint last_of {A} (about : request -> option A) (before : A) (l : list item) : A :=
  match l with
  | [] => before
  | i :: r => last_of about (match about (wants i) with Some x => x | None => before end) r
  end.
Definition of_switch (f : switch) (r : request) : option (option bool) :=
  match r with Switch g b => if switch_dec g f then Some (Some b) else None | _ => None end.
Definition of_levels (r : request) : option (option Z) := match r with Levels z => Some (Some z) | _ => None end.
Definition of_broken (r : request) : option broken := match r with Broken x => Some x | _ => None end.
Definition of_tags (r : request) : option tags := match r with Tags x => Some x | _ => None end.
Definition of_tasks (r : request) : option tasks := match r with Tasks x => Some x | _ => None end.
Definition of_archived (r : request) : option archived := match r with Archived x => Some x | _ => None end.
Definition of_toc (r : request) : option toc := match r with Toc x => Some x | _ => None end.
Definition answered (l : list item) (c c' : config) : Prop :=
  (forall f, switch_of c' f = last_of (of_switch f) (switch_of c f) l) /\
  levels c' = last_of of_levels (levels c) l /\ brokenLinks c' = last_of of_broken (brokenLinks c) l /\
  tagExport c' = last_of of_tags (tagExport c) l /\ taskFiltering c' = last_of of_tasks (taskFiltering c) l /\
  archivedTrees c' = last_of of_archived (archivedTrees c) l /\ tocExport c' = last_of of_toc (tocExport c) l /\
  complaints c' = complaints c.
(** Nothing changed but the complaints. *)
Definition only_complains (v : str) (c c' : config) : Prop :=
  (forall f, switch_of c' f = switch_of c f) /\ levels c' = levels c /\ brokenLinks c' = brokenLinks c /\ tagExport c' = tagExport c /\
  taskFiltering c' = taskFiltering c /\ archivedTrees c' = archivedTrees c /\ tocExport c' = tocExport c /\
  complaints c' = complaints c ++ [v].

(** Letters and digits, and names that are the same but for other characters and case. *)
Definition lower_of (c : Z) : Z := if ((65 <=? c) && (c <=? 90))%Z then (c + 32)%Z else c.
Definition alnum (c : Z) : bool := ((48 <=? c) && (c <=? 57) || (65 <=? c) && (c <=? 90) || (97 <=? c) && (c <=? 122))%Z.
Definition letters (s : str) : str := map lower_of (filter alnum s).
Definition known : list string := map fst names ++ ["H"; "toc"; "broken-links"; "arch"; "tags"; "tasks"]%string.
Definition unknown (n : str) : Prop := letters n <> [] /\ forall k, In k known -> letters n <> letters (lit k).

(** The words of [#+startup:]. *)
Definition startup_word (v : visibility) : string :=
  match v with
  | VContent => "content" | VOverview => "overview" | VAll => "showall" | V2 => "show2levels" | V3 => "show3levels"
  | V4 => "show4levels" | V5 => "show5levels" | VEverything => "showeverything"
  end%string.
