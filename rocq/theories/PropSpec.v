(** What the lines of a property drawer mean: names, values, and which properties a line can hold. Written without the
    functions of PropModel that read lines. *)
From Coq Require Import String.
From Verif Require Import Base StrModel AttrModel TimeModel PropModel.
From Verif Require JsonModel.
Local Open Scope Z_scope.

(** ** Texts *)
Definition one_line (s : str) : Prop := ~ In 10 s.
(** No spaces at the ends *)
Definition trimmed (s : str) : Prop := (forall m, s <> 32 :: m) /\ (forall m, s <> m ++ [32]).
Definition clean (s : str) : Prop := trimmed s /\ one_line s.
(** Two colons in a row *)
Definition double_colon (s : str) : Prop := exists a b, s = a ++ 58 :: 58 :: b.

(** ** Names *)
Definition letter (c : Z) : Prop := 97 <= c <= 122 \/ 65 <= c <= 90 \/ 48 <= c <= 57.
Definition ident (s : str) : Prop := s <> [] /\ Forall (fun c => letter c \/ c = 95 \/ c = 45) s.
Definition low (c : Z) : Z := if (65 <=? c) && (c <=? 90) then c + 32 else c.
(** The lower case letters and digits of a name, which is what it is recognised by *)
Fixpoint essence (s : str) : str :=
  match s with
  | [] => []
  | c :: r =>
      if ((97 <=? c) && (c <=? 122)) || ((65 <=? c) && (c <=? 90)) || ((48 <=? c) && (c <=? 57))
      then low c :: essence r else essence r
  end.
(** Names with a meaning of their own in a drawer: the lines that are not read as a name and a text *)
Definition special (s : str) : Prop :=
  In (map low s)
    (map lit ["end"; "properties"; "logbook"; "header-args"; "header_args"; "prop_args"; "prop-args"; "description";
              "created"; "hashtag"; "hashtag_def"; "hashtag-def"])%string.
(** Names, by what they are recognised by, for which there is another property *)
Definition reserved (e : str) : Prop :=
  In e (map lit ["exportoptions"; "id"; "customid"; "radioid"; "hashtagdef"; "created"; "visibility"; "cookiedata"; "effort";
                 "archivefile"; "archivetime"; "archivecategory"; "archivetodo"; "archive"; "archiveolpath"])%string
  \/ (exists r, e = lit "propjson" ++ r) \/ (exists r, e = lit "propargs" ++ r).
(** A name of one part or of two *)
Inductive plain_name : str -> Prop :=
| plain_one a : ident a -> ~ special a -> ~ reserved (essence a) -> plain_name a
| plain_two a b : ident a -> ident b -> ~ special a -> ~ reserved (essence (a ++ 58 :: b)) -> plain_name (a ++ 58 :: b).
(** A name that is already what it is recognised by *)
Definition short_name (s : str) : Prop := s <> [] /\ Forall (fun c => 97 <= c <= 122 \/ 48 <= c <= 57) s.

Definition is_int (z : Z) : Prop := -2147483648 <= z <= 2147483647.
(** JSON on one line *)
Definition scalar (j : JsonModel.json) : Prop :=
  match j with JsonModel.JNull | JsonModel.JBool _ | JsonModel.JInt _ | JsonModel.JStr _ => True | _ => False end.
Definition compound (j : JsonModel.json) : Prop :=
  match j with JsonModel.JArr (_ :: _) | JsonModel.JObj (_ :: _) => True | _ => False end.

Section Lines.
Variable paragraph : str -> list item.
Variable arguments : str -> group.
Variable json_of : str -> outcome JsonModel.json.
Variable attrs_text : group -> str.

(** The properties a line can hold *)
Definition writable (p : prop) : Prop :=
  match p with
  | PRaw n v => plain_name n /\ clean v
  | PCustomId v | PArchiveFile v | PArchiveCategory v | PArchiveTodo v => clean v
  | PRadioId ws =>
      Forall (fun w => ~ In 32 w /\ one_line w) ws /\ (ws = [] \/ (hd [] ws <> [] /\ last ws [] <> []))
  | PArchiveOlpath path =>
      path <> [] /\ Forall (fun x => clean x /\ ~ In 47 x) path /\ (forall m, hd [] path <> 42 :: m)
  | PArchiveTarget path pattern =>
      path <> [] /\ Forall (fun x => one_line x /\ ~ In 47 x /\ ~ double_colon x) path /\
      (forall m, hd [] path <> 42 :: m) /\ (forall m, hd [] path <> 32 :: m) /\ (forall m, last path [] <> m ++ [32]) /\
      one_line pattern /\ ~ double_colon pattern /\ (forall m, pattern <> m ++ [58]) /\ (forall m, pattern <> 32 :: m)
  | PEffort h m => is_int h /\ is_int m
  | PVisibility _ => True
  | PJson n j => short_name n /\ scalar j /\ exists t, JsonModel.dump j = Ok t /\ one_line t /\ json_of t = Ok j
  | PFlags n g => short_name n /\ one_line (attrs_text g) /\ arguments (attrs_text g) = g
  | PArgs n sub g =>
      In (map low n) [lit "header-args"; lit "header_args"] /\ match sub with Some s => ident s | None => True end /\
      one_line (attrs_text g) /\ arguments (32 :: attrs_text g) = g
  | PCreated t => one_line (format_org t) /\ exists r, paragraph (lit " [" ++ format_org t ++ lit "]") = ITime (Some t) :: r
  | _ => False
  end.

(** The kinds of properties for which everything that is read can be written *)
Definition settled (p : prop) : Prop :=
  match p with
  | PRaw _ _ | PCustomId _ | PArchiveFile _ | PArchiveCategory _ | PArchiveTodo _ | PRadioId _ | PArchiveOlpath _
  | PEffort _ _ | PVisibility _ => True
  | _ => False
  end.
End Lines.

(** Properties that are written under a name by which they are not recognised: the name, the text *)
Definition word (b : bool) : str := if b then lit "t" else lit "nil".
Definition listed (l : list str) (s : str) : Prop :=
  exists body, s = lit "[" ++ body ++ lit "]" /\
    (l = [] -> body = []) /\ (forall x r, l = x :: r -> body = x ++ concat (map (fun y => lit ", " ++ y) r)).
Inductive unread : prop -> str -> str -> Prop :=
| un_nonblocking b : unread (PNonblocking b) (lit "nonblocking") (word b)
| un_ordered b : unread (POrdered b) (lit "ordered") (word b)
| un_trigger : unread PTrigger (lit "trigger") []
| un_unnumbered : unread PUnnumbered (lit "unnumbered") []
| un_class v : unread (PLatexClass v) (lit "latex_class") v
| un_header v : unread (PLatexHeader v) (lit "latex_header") v
| un_compiler v : unread (PLatexCompiler v) (lit "latex_compiler") v
| un_class_options l s : listed l s -> unread (PLatexClassOptions l) (lit "latex_class_options") s
| un_blocker l s : listed l s -> unread (PBlocker l) (lit "blocker") s
| un_options b k v : ident b -> essence b <> [] -> unread (PExportOptions b [(k, v)]) (lit "export_options:" ++ b) (k ++ 58 :: v)
| un_cookie s : unread (PCookie (Some false) (Some s)) (lit "cookie")
                  (match s with Checkbox => lit "Checkbox" | Todo => lit "Todo" | Both => lit "Both" end)
| un_cookie_rec s : unread (PCookie (Some true) (Some s)) (lit "cookie")
                  (match s with Checkbox => lit "Checkbox" | Todo => lit "Todo" | Both => lit "Both" end ++ lit " recursive").
