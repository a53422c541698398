(** The settings of a document for its export and its first display: the lines [#+options:] and [#+startup:],
    src/haxorg/sem/SemConvert.cpp:2749-2889 (convertDocumentOptions) and 2927-2956 (updateDocument), the settings
    themselves, src/haxorg/sem/SemOrgSharedTypes.hpp:872-1025, and writing, src/haxorg/sem/SemOrgFormat.cpp:176-330.
    Line numbers without a file name are those of SemConvert.cpp.

    Simplified: the switches are the list of the values set so far, the newest first, where C++ has one field for
    each; a diagnostic is the text it is about. Not modelled here: titles, authors, columns, properties. *)
From Coq Require Import String.
From Verif Require Import Base StrModel ConvModel.
Local Open Scope nat_scope.

(** DocumentExportConfig: the members of type Opt<bool> *)
Inductive switch :=
| InlineTasks | Footnotes | Clock | Author | TodoText | Emphasis | SpecialStrings | SmartQuotes | FixedWidth | Timestamps
| PreserveBreaks | SubSuper | ExpandLinks | Creator | Drawers | Date | Entities | Email | SectionNumbers | Planning
| Priority | PropertyDrawers | Cookies | Latex | Timestamp | Title | Tables.
Definition switch_dec (a b : switch) : {a = b} + {a <> b}.
Proof. decide equality. Defined.
Inductive broken := BNone | BMark | BRaise | BIgnore.
Inductive tags := TgNone | TgAll | TgNotInToc.
Inductive tasks := TkWhitelist | TkDone | TkNone | TkAll.
Inductive archived := ArSkip | ArHeadline | ArAll.
Inductive toc := TocIs (b : bool) | TocLevels (z : Z).
Record config := Config {
  switches : list (switch * bool); levels : option Z; brokenLinks : broken; tagExport : tags; taskFiltering : tasks;
  archivedTrees : archived; tocExport : toc; fixedSections : option bool; complaints : list str }.
(** The default member values; a variant has the first of its kinds, of zeros. *)
Definition fresh : config := Config [] None BNone TgNotInToc TkAll ArHeadline (TocIs false) None [].

Definition set_switch f b c := Config ((f, b) :: switches c) (levels c) (brokenLinks c) (tagExport c) (taskFiltering c) (archivedTrees c) (tocExport c) (fixedSections c) (complaints c).
Definition set_levels z c := Config (switches c) (Some z) (brokenLinks c) (tagExport c) (taskFiltering c) (archivedTrees c) (tocExport c) (fixedSections c) (complaints c).
Definition set_broken x c := Config (switches c) (levels c) x (tagExport c) (taskFiltering c) (archivedTrees c) (tocExport c) (fixedSections c) (complaints c).
Definition set_tags x c := Config (switches c) (levels c) (brokenLinks c) x (taskFiltering c) (archivedTrees c) (tocExport c) (fixedSections c) (complaints c).
Definition set_tasks x c := Config (switches c) (levels c) (brokenLinks c) (tagExport c) x (archivedTrees c) (tocExport c) (fixedSections c) (complaints c).
Definition set_archived x c := Config (switches c) (levels c) (brokenLinks c) (tagExport c) (taskFiltering c) x (tocExport c) (fixedSections c) (complaints c).
Definition set_toc x c := Config (switches c) (levels c) (brokenLinks c) (tagExport c) (taskFiltering c) (archivedTrees c) x (fixedSections c) (complaints c).
Definition set_fixed c := Config (switches c) (levels c) (brokenLinks c) (tagExport c) (taskFiltering c) (archivedTrees c) (tocExport c) (Some true) (complaints c).
Definition complain s c := Config (switches c) (levels c) (brokenLinks c) (tagExport c) (taskFiltering c) (archivedTrees c) (tocExport c) (fixedSections c) (complaints c ++ [s]).

(** org_streq, 145-147 *)
Definition streq (s : str) (v : string) : bool := AttrModel.str_eqb (normalize s) (normalize (lit v)).
(** parseBool, 2753 *)
Definition parse_bool (s : str) : bool := str_is s "t" || str_is s "T".

(** The branches with parseBool, 2776-2829, in their order *)
Definition plain_switches : list (string * switch) :=
  [("inline", InlineTasks); ("f", Footnotes); ("c", Clock); ("author", Author); ("todo", TodoText); ("*", Emphasis);
   ("-", SpecialStrings); ("'", SmartQuotes); (":", FixedWidth); ("<", Timestamps); ("\n", PreserveBreaks); ("^", SubSuper);
   ("expand-links", ExpandLinks); ("creator", Creator); ("d", Drawers); ("date", Date); ("e", Entities); ("email", Email);
   ("num", SectionNumbers); ("p", Planning); ("pri", Priority); ("prop", PropertyDrawers); ("stat", Cookies); ("tex", Latex);
   ("timestamp", Timestamp); ("title", Title); ("|", Tables)]%string.
Fixpoint first_switch (l : list (string * switch)) (head : str) : option switch :=
  match l with [] => None | (v, f) :: r => if streq head v then Some f else first_switch r head end.

(** One value with a colon, 2759-2876 *)
Definition option_item (value head tail : str) (c : config) : res config :=
  if streq head "broken-links" then
    Done (if streq tail "mark" then set_broken BMark c else if streq tail "t" then set_broken BIgnore c else c)
  else if streq head "toc" then
    if streq tail "t" then Done (set_toc (TocIs true) c)
    else if streq tail "nil" then Done (set_toc (TocIs false) c)
    else match tail with
         | x :: _ => if is_digit x then z <- stoi tail ;; Done (set_toc (TocLevels z) c) else Done c
         | [] => Done c
         end
  else match first_switch plain_switches head with
  | Some f => Done (set_switch f (parse_bool tail) c)
  | None =>
      if streq head "H" then z <- stoi tail ;; Done (set_levels z c)
      else if streq head "arch" then
        Done (if streq tail "headline" then set_archived ArHeadline c else if streq tail "t" then set_archived ArAll c
              else if streq tail "nil" then set_archived ArSkip c else c)
      else if streq head "tags" then
        Done (if streq tail "not-in-toc" then set_tags TgNotInToc c else if streq tail "t" then set_tags TgAll c
              else if streq tail "nil" then set_tags TgNone c else c)
      else if streq head "tasks" then
        Done (if streq tail "nil" then set_tasks TkNone c else if streq tail "t" then set_tasks TkAll c
              else if streq tail "todo" then set_tasks TkDone c else c)
      else Done (complain value c)
  end.
(** 2755-2887; split[0] and split[1] check the bounds, Vec.hpp:337-345 *)
Definition option_value (value : str) (c : config) : res config :=
  if contains value [58%Z] then
    parts <- split_on value 58%Z ;; head <- at_ parts 0 ;; tail <- at_ parts 1 ;; option_item value head tail c
  else if streq value ":" then Done (set_fixed c)
  else Done (complain value c).
Fixpoint option_values (l : list str) (c : config) : res config :=
  match l with [] => Done c | v :: r => c <- option_value v c ;; option_values r c end.
(** convertDocumentOptions; the text is that of the line after [#+options:], with the space *)
Definition read_options (s : str) (c : config) : res config := l <- split_on s 32%Z ;; option_values l c.

(** [#+startup:], 2927-2956; the text is that after the colon, the second value whether indentation is turned on *)
Inductive visibility := VContent | VOverview | VAll | V2 | V3 | V4 | V5 | VEverything.
Definition read_startup (s : str) : res (visibility * bool) :=
  parts <- split_by (strip_space s) " " ;; a <- at_ parts 0 ;;
  let indent := match nth_error parts 1 with Some i => streq i "indent" | None => false end in
  let t := normalize a in
  if str_is t "content" then Done (VContent, indent)
  else if str_is t "overview" then Done (VOverview, indent)
  else if str_is t "showall" then Done (VAll, indent)
  else if str_is t "show2levels" then Done (V2, indent)
  else if str_is t "show3levels" then Done (V3, indent)
  else if str_is t "show4levels" then Done (V4, indent)
  else if str_is t "showeverything" then Done (VEverything, indent)
  else Thrown.

(** *** Writing, SemOrgFormat.cpp *)
(** 187-203: no line for the default *)
Definition write_startup (v : visibility) : option str :=
  match v with
  | VEverything => None
  | VContent => Some (lit "#+startup: content") | VOverview => Some (lit "#+startup: overview")
  | VAll => Some (lit "#+startup: showall") | V2 => Some (lit "#+startup: show2levels")
  | V3 => Some (lit "#+startup: show3levels") | V4 => Some (lit "#+startup: show4levels")
  | V5 => Some (lit "#+startup: show5levels")
  end.
(** 304-325 *)
Definition write_options (c : config) : option str :=
  match brokenLinks c with
  | BNone => None
  | BIgnore => Some (lit "#+options: broken-links:ignore")
  | BMark => Some (lit "#+options: broken-links:mark")
  | BRaise => Some (lit "#+options: broken-links:raise")
  end.
(** 277-299, with the keywords as their texts *)
Fixpoint join_space (l : list str) : str := match l with [] => [] | [x] => x | x :: r => x ++ 32%Z :: join_space r end.
Definition write_keywords (todo done : list str) : option str :=
  match todo, done with
  | [], [] => None
  | _, _ => Some (lit "#+keywords" ++ join_space (todo ++ match done with [] => lit "|" :: done | _ => [] end))
  end.
