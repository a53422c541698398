(** The lines of a property drawer: how they are told apart (src/haxorg/base_lexer/base_token_tokenize.cpp:1009-1026,
    1071-1145), what is made of them (convertPropertyList, src/haxorg/sem/SemConvert.cpp:662-905) and how they are
    written (src/haxorg/sem/SemOrgFormat.cpp:1201-1404).

    A line is its bytes without the newline. Simplified: the paragraph of a text property and the arguments of an
    argument property are what arbitrary functions give for the text (TokModel, ParseModel and ConvModel are their
    models); json::parse is an arbitrary function; the order of an unordered map is that of a list. *)
From Coq Require Import String.
From Verif Require Import Base StrModel AttrModel TokModel TimeModel.
From Verif Require JsonModel ConvModel.
Local Open Scope nat_scope.

(** ** Properties *)
(** HashTagText, SemOrgSharedTypes.hpp; nestedHashtag, SemOrgFormat.cpp:145-160 *)
Inductive tag := Tag (head : str) (subs : list tag).
Fixpoint tag_text (t : tag) : str :=
  let 'Tag h subs := t in
  match subs with
  | [] => h
  | [s] => h ++ lit "##" ++ tag_text s
  | _ => h ++ lit "##[" ++ join (lit ",") (map tag_text subs) ++ lit "]"
  end.
(** Visibility::Level, SubtreeTodoSource: SemOrgSharedTypes.hpp:1177, SemOrgEnums.hpp:1986-1993 *)
Inductive level := Folded | Children | Content | All.
Inductive source := Checkbox | Todo | Both.
(** NamedProperty, SemOrgSharedTypes.hpp:1066-1380. The two fields of CookieData (1132-1137) have no initial value:
    [None] if they were never set *)
Inductive prop :=
| PNonblocking (b : bool) | PArchiveTime (t : utime) | PArchiveFile (v : str) | PArchiveOlpath (path : list str)
| PArchiveTarget (path : list str) (pattern : str) | PArchiveCategory (v : str) | PArchiveTodo (v : str) | PTrigger
| PLatexClass (v : str) | PCookie (recursive : option bool) (src : option source) | PLatexClassOptions (l : list str)
| PLatexHeader (v : str) | PLatexCompiler (v : str) | POrdered (b : bool) | PEffort (hours minutes : Z)
| PVisibility (l : level) | PExportOptions (backend : str) (values : list (str * str)) | PBlocker (l : list str)
| PUnnumbered | PCreated (t : utime) | PRadioId (words : list str) | PHashtagDef (t : option tag)
| PArgs (name : str) (sub : option str) (g : group) | PRaw (name value : str) | PCustomId (v : str)
| PJson (name : str) (j : JsonModel.json) | PFlags (name : str) (g : group).

(** ** Telling lines apart *)
Inductive pkind := KArguments | KText | KLiteral.
(** The end of the name token when the name itself ends at [p]: property_subname, 1081-1086 *)
Definition with_subname (l : str) (p : nat) : nat :=
  match p_seq p_ident (p_chr c_colon) (skipn p l) with Some k => p + k | None => p end.
Definition colons (p : pat) : pat := p_seq (p_chr c_colon) (p_seq p (p_chr c_colon)).
(** 1071-1141 for a line which has a colon after its spaces: the kind of the property, the text of the token of the
    name and the rest of the line; [None] for all other lines *)
Definition property_line (l : str) : option (pkind * str * str) :=
  let sk := run_len (Z.eqb c_sp) l in
  let s := skipn sk l in
  let found k span := let e := with_subname l (span + sk) in Some (k, firstn e l, skipn e l) in
  match p_ilit (lit ":end:") s with Some _ => None | None =>
  match p_ilit (lit ":properties:") s with Some _ => None | None =>
  match p_ilit (lit ":logbook:") s with Some _ => None | None =>
  match colons p_argument_property s with Some span => found KArguments span | None =>
  match colons p_text_property s with Some span => found KText span | None =>
  match colons p_ident s with Some span => found KLiteral span | None => None
  end end end end end end.

(** ** Reading *)
(** A subnode of the paragraph: a blank, a time (fixed, or computed: [None]), a tag, something else *)
Inductive item := IBlank | ITime (t : option utime) | ITag (t : tag) | IOther.
(** one(a, N::Values): a terminal, a paragraph, a list of arguments *)
Inductive values := VRaw (s : str) | VPar (l : list item) | VArgs (g : group).
(** What a line does: it sets the id of the heading, adds a property or an error *)
Inductive result := RId (v : str) | RProp (p : prop) | RError.

(** get_text, 234-250: throws for a paragraph, and for a list of arguments that is not empty *)
Definition text_of (v : values) : outcome str :=
  match v with
  | VRaw s => Ok s
  | VPar _ => Throw
  | VArgs g => match positional g, named g with [], [] => Ok [] | _, _ => Throw end
  end.
Definition values_text (v : values) : outcome str := omap ConvModel.strip_space (text_of v).
(** convertParagraph of the values: a terminal has no children. Arguments are never found under the names it is used for *)
Definition items_of (v : values) : list item := match v with VPar l => l | _ => [] end.
(** convertAttrs, 2208-2240: an assertion for anything else *)
Definition attrs_of_values (v : values) : outcome group := match v with VArgs g => Ok g | _ => Throw end.
Definition to_int (s : str) : outcome Z := match ConvModel.stoi s with ConvModel.Done z => Ok z | _ => Throw end.
Definition split_by (s : str) (d : string) : outcome (list str) := split_str (S (S (length s))) s (lit d).
Definition at_out (l : list str) (i : nat) : outcome str := match nth_error l i with Some x => Ok x | None => Throw end.

(** convertSubtreePath, 151-158 *)
Definition subtree_path (s : str) : outcome (list str) :=
  omap (map ConvModel.strip_space) (split_by (strip s (ConvModel.chars [42; 32]%Z) (ConvModel.chars [32%Z])) "/").
(** parseOrgEnum<Visibility::Level>, 252-269 *)
Definition level_name (l : level) : str :=
  match l with Folded => lit "Folded" | Children => lit "Children" | Content => lit "Content" | All => lit "All" end.
Definition parse_level (s : str) : option level :=
  List.find (fun l => str_eqb (normalize (level_name l)) (normalize s)) [Folded; Children; Content; All].
(** The loop over the words of a cookie, 766-785 *)
Fixpoint cookie (words : list str) (r : option bool) (s : option source) : result :=
  match words with
  | [] => RProp (PCookie r s)
  | w :: rest =>
      let n := normalize w in
      if str_eqb n (lit "todo") then cookie rest r (Some Todo)
      else if str_eqb n (lit "recursive") then cookie rest (Some true) s
      else if str_eqb n (lit "both") then cookie rest r (Some Both)
      else if str_eqb n (lit "checkbox") then cookie rest r (Some Checkbox)
      else RError
  end.
(** The loop over the subnodes of a hashtag definition, 716-736: the kind of a node that does not exist is asked for
    when there is something else *)
Fixpoint hashtag (l : list item) (def : option tag) : outcome result :=
  match l with
  | [] => Ok (RProp (PHashtagDef def))
  | IBlank :: r => hashtag r def
  | ITag t :: r =>
      match def with
      | None | Some (Tag [] _) => hashtag r (Some t)
      | Some _ => Ok RError
      end
  | _ :: _ => UB
  end.
(** archivetime, 806-835 *)
Definition back (s : str) (k : nat) : outcome byte :=
  if k <=? length s then match nth_error s (length s - k) with Some c => Ok c | None => Throw end else Throw.
Definition is_sign (c : byte) : bool := Z.eqb c c_plus || Z.eqb c c_minus.
Definition archive_time (s : str) : outcome result :=
  obind (obind (back s 3) (fun c =>
    if is_sign c then omap (fun z => (3, Some z)) (zone_of (skipn (length s - 2) s))
    else obind (back s 5) (fun c =>
      if is_sign c then omap (fun z => (5, Some z)) (zone_of (skipn (length s - 4) s)) else Ok (0, None))))
  (fun kz => obind (parse_user_time (firstn (length s - fst kz) s) (snd kz)) (fun r =>
     match r with Some t => Ok (RProp (PArchiveTime t)) | None => Throw end)).

Section Read.
Variable paragraph : str -> list item.
Variable arguments : str -> group.
Variable json_of : str -> outcome JsonModel.json.

(** The values of the property for the rest of the line: parseSubtreeProperties, OrgParser.cpp:1833-1858 *)
Definition values_of (k : pkind) (rest : str) : values :=
  match k with KLiteral => VRaw rest | KText => VPar (paragraph rest) | KArguments => VArgs (arguments rest) end.

(** The second part of a name: split(strip(basename, ':', ':'), ':'), has(1), at(1) *)
Definition second_part (basename : str) : outcome (option str) :=
  omap (fun l => nth_error l 1) (split_char (strip basename (ConvModel.chars [58%Z]) (ConvModel.chars [58%Z])) 58%Z).

(** convertPropertyList, 662-905 *)
Definition read_property (token : str) (v : values) : outcome result :=
  let basename := strip token (ConvModel.chars [32; 58]%Z) (ConvModel.chars [58%Z]) in
  let name := normalize basename in
  let is (w : string) := str_eqb name (lit w) in
  let valued (f : str -> prop) := omap (fun s => RProp (f s)) (values_text v) in
  if is "exportoptions"%string then Throw   (* one(a, N::Subname): there is no such field *)
  else if is "id"%string then omap RId (values_text v)
  else if is "customid"%string then valued PCustomId
  else if is "radioid"%string then obind (values_text v) (fun s => omap (fun l => RProp (PRadioId l)) (split_char s 32%Z))
  else if is "hashtagdef"%string then hashtag (items_of v) None
  else if is "created"%string then
    match items_of v with
    | [] => Throw
    | ITime (Some t) :: _ => Ok (RProp (PCreated t))
    | ITime None :: _ => Throw
    | _ => Ok RError
    end
  else if is "visibility"%string then
    obind (text_of v) (fun s => match parse_level s with Some l => Ok (RProp (PVisibility l)) | None => Throw end)
  else if is "cookiedata"%string then
    obind (values_text v) (fun s => omap (fun l => cookie l None None) (split_by s " "))
  else if is "effort"%string then
    obind (values_text v) (fun s => obind (split_by s ":") (fun l =>
      match l with
      | [m] => omap (fun m => RProp (PEffort 0 m)) (to_int m)
      | [h; m] => obind (to_int m) (fun m => omap (fun h => RProp (PEffort h m)) (to_int h))
      | _ => Ok (RProp (PEffort 0 0))
      end))
  else if is "archivefile"%string then valued PArchiveFile
  else if is "archivetime"%string then obind (values_text v) archive_time
  else if is "archivecategory"%string then valued PArchiveCategory
  else if is "archivetodo"%string then valued PArchiveTodo
  else if is "archive"%string then
    obind (values_text v) (fun s => obind (split_by s "::") (fun dsl =>
      obind (at_out dsl 0) (fun pattern => obind (at_out dsl 1) (fun rest =>
        omap (fun path => RProp (PArchiveTarget path pattern)) (split_by (ConvModel.lstrip rest [42; 32]%Z) "/")))))
  else if is "archiveolpath"%string then
    obind (values_text v) (fun s => omap (fun path => RProp (PArchiveOlpath path)) (subtree_path s))
  else if starts_with name (lit "propjson") then
    obind (second_part basename) (fun n => obind (values_text v) (fun s =>
      omap (fun j => RProp (PJson (match n with Some n => normalize n | None => [] end) j)) (json_of s)))
  else if starts_with name (lit "propargs") then
    obind (second_part basename) (fun n =>
      omap (fun g => RProp (PFlags (match n with Some n => normalize n | None => [] end) g)) (attrs_of_values v))
  else match v with
  | VArgs g =>
      obind (split_char (strip token (ConvModel.chars [58%Z]) (ConvModel.chars [58%Z])) 58%Z) (fun l =>
        omap (fun n => RProp (PArgs n (nth_error l 1) g)) (at_out l 0))
  | VRaw s => Ok (RProp (PRaw basename (ConvModel.strip_space s)))
  | VPar _ => Throw
  end.

(** What is read from a line; [None] when it is not the line of a property *)
Definition read_line (l : str) : option (outcome result) :=
  match property_line l with
  | Some (k, token, rest) => Some (read_property token (values_of k rest))
  | None => None
  end.

(** ** Writing *)
(** nlohmann::json::dump(0): a line for every element *)
Fixpoint dump0 (j : JsonModel.json) : outcome str :=
  match j with
  | JsonModel.JArr [] => Ok (lit "[]")
  | JsonModel.JObj [] => Ok (lit "{}")
  | JsonModel.JArr l =>
      omap (fun ts => lit "[" ++ 10%Z :: join (lit "," ++ [10%Z]) ts ++ 10%Z :: lit "]")
        (JsonModel.all_ok (map dump0 l))
  | JsonModel.JObj l =>
      omap (fun ts => lit "{" ++ 10%Z :: join (lit "," ++ [10%Z]) ts ++ 10%Z :: lit "}")
        (JsonModel.all_ok (map (fun e => obind (JsonModel.dump_str (fst e)) (fun k =>
           omap (fun t => k ++ lit ": " ++ t) (dump0 (snd e)))) l))
  | _ => JsonModel.dump j
  end.
Variable attrs_text : group -> str.

Definition bool_word (b : bool) : str := if b then lit "t" else lit "nil".
Definition source_name (s : source) : str :=
  match s with Checkbox => lit "Checkbox" | Todo => lit "Todo" | Both => lit "Both" end.
(** A vector of strings *)
Definition vector_text (l : list str) : str := lit "[" ++ join (lit ", ") l ++ lit "]".

(** SemOrgFormat.cpp:1203, 1205-1404 *)
Definition write_id (v : str) : str := lit ":ID: " ++ v.
Definition write (p : prop) : outcome str :=
  match p with
  | PFlags n g => Ok (lit ":prop_args:" ++ n ++ lit ":" ++ attrs_text g)
  | PJson n j => omap (fun t => lit ":prop_json:" ++ n ++ lit ": " ++ t) (dump0 j)
  | PLatexCompiler v => Ok (lit ":latex_compiler: " ++ v)
  | PExportOptions b l =>
      Ok (lit ":export_options:" ++ b ++ lit ": " ++ join (lit " ") (map (fun e => fst e ++ lit ":" ++ snd e) l))
  | PLatexClassOptions l => Ok (lit ":latex_class_options: " ++ vector_text l)
  | PCookie (Some r) (Some s) => Ok (lit ":cookie: " ++ source_name s ++ (if r : bool then lit " recursive" else []))
  | PCookie _ _ => UB
  | PLatexHeader v => Ok (lit ":latex_header: " ++ v)
  | PCustomId v => Ok (lit ":custom_id: " ++ v)
  | PLatexClass v => Ok (lit ":latex_class: " ++ v)
  | PTrigger => Ok (lit ":trigger:")
  | PArchiveTodo v => Ok (lit ":archive_todo: " ++ v)
  | PArchiveTarget path pattern => Ok (lit ":archive: " ++ pattern ++ lit "::* " ++ join (lit "/") path)
  | PArchiveOlpath path => Ok (lit ":archive_olpath: " ++ join (lit "/") path)
  | PArchiveTime t => Ok (lit ":archive_time: [" ++ format_org t ++ lit "]")
  | POrdered b => Ok (lit ":ordered: " ++ bool_word b)
  | PNonblocking b => Ok (lit ":nonblocking: " ++ bool_word b)
  | PHashtagDef t => Ok (lit ":hashtag_def: " ++ match t with Some t => tag_text t | None => [] end)
  | PArgs n sub g =>
      Ok (lit ":" ++ n ++ lit ":" ++ match sub with Some s => s ++ lit ":" | None => [] end ++ lit " " ++ attrs_text g)
  | PRadioId l => Ok (lit ":radio_id: " ++ join (lit " ") l)
  | PUnnumbered => Ok (lit ":unnumbered:")
  | PBlocker l => Ok (lit ":blocker: " ++ vector_text l)
  | PArchiveCategory v => Ok (lit ":archive_category: " ++ v)
  | PCreated t => Ok (lit ":CREATED: [" ++ format_org t ++ lit "]")
  | PRaw n v => Ok (lit ":" ++ n ++ lit ": " ++ v)
  | PEffort h m => Ok (lit ":EFFORT: " ++ decimal h ++ lit ":" ++ decimal m)
  | PVisibility l => Ok (lit ":visibility: " ++ level_name l)
  | PArchiveFile v => Ok (lit ":archive_file: " ++ v)
  end.
End Read.
