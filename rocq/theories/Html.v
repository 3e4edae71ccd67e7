(** * Html: what it means for html to be free of injected markup.

    Specification vocabulary, independent of the renderer: not code of /repo. *)
From Coq Require Import Ascii String.
From Verif Require Import Strings.
Open Scope list_scope.

(** The tags of the renderer's own vocabulary.  The values of the attributes
    [href], [src], [alt], [title] and [id] are left open (written as two double
    quotes); all other attribute values are fixed. *)
Definition allowed_tags : list str :=
  [ lit "p"; lit "/p"; lit "blockquote"; lit "/blockquote"; lit "ol"; lit "/ol"; lit "ul";
    lit "/ul"; lit "ul class=""contains-task-list"""; lit "li"; lit "/li"; lit "pre"; lit "/pre";
    lit "code"; lit "/code"; lit "em"; lit "/em"; lit "strong"; lit "/strong"; lit "strike";
    lit "/strike"; lit "br"; lit "hr /"; lit "h1"; lit "h2"; lit "h3"; lit "h4"; lit "h5"; lit "h6";
    lit "/h1"; lit "/h2"; lit "/h3"; lit "/h4"; lit "/h5"; lit "/h6";
    lit "table class=""table table-bordered"""; lit "/table"; lit "thead"; lit "/thead";
    lit "tbody"; lit "/tbody"; lit "tr"; lit "/tr";
    lit "th style=""text-align: left"""; lit "th style=""text-align: right""";
    lit "th style=""text-align: center"""; lit "/th";
    lit "td style=""text-align: left"""; lit "td style=""text-align: right""";
    lit "td style=""text-align: center"""; lit "/td";
    lit "div class=""footnotes"" role=""doc-endnotes"""; lit "/div";
    lit "li id="""" role=""doc-endnote""";
    lit "a href="""" class=""reversefootnote"" role=""doc-backlink""";
    lit "sup id="""" role=""doc-noteref"""; lit "/sup";
    lit "a href="""" class=""footnote"" rel=""footnote""";
    lit "a href="""""; lit "a href="; lit "a href="""" title="""""; lit "/a";
    lit "img src="""" alt="""""; lit "img src="""""; lit "img src="""" alt="""" referrerpolicy=""no-referrer""";
    lit "details"; lit "/details"; lit "summary"; lit "/summary";
    lit "li class=""task-list-item""";
    lit "input type=""checkbox"" class=""task-list-item-checkbox""";
    lit "input type=""checkbox"" class=""task-list-item-checkbox"" checked=""""" ].

(** A text that cannot leave a double-quoted attribute value. *)
Definition clean_value (v : str) : Prop := ~ In c_quot v /\ ~ In c_lt v.

(** The attributes whose values are open. *)
Definition open_attr (k : str) : bool :=
  existsb (fun a => ends_with a k)
    [lit " href="; lit " src="; lit " alt="; lit " title="; lit " id="].

(** [fills bad k b]: [b] is the tag [k] with its open attribute values filled in
    with clean texts; [bad k v] says which values [v] are not allowed for the
    attribute that [k] ends with. *)
Inductive fills (bad : str -> str -> bool) : str -> str -> Prop :=
| f_nil : fills bad [] []
| f_char k b c : fills bad k b -> c <> c_quot -> c <> c_lt -> c <> c_gt ->
    fills bad (k ++ [c]) (b ++ [c])
| f_fixed k b v : fills bad k b -> open_attr k = false -> clean_value v ->
    fills bad (k ++ [c_quot] ++ v ++ [c_quot]) (b ++ [c_quot] ++ v ++ [c_quot])
| f_open k b v : fills bad k b -> open_attr k = true -> clean_value v ->
    bad k v = false ->
    fills bad (k ++ [c_quot; c_quot]) (b ++ [c_quot] ++ v ++ [c_quot]).

(** A single character of text, or a tag of the vocabulary. *)
Definition html_piece (bad : str -> str -> bool) (p : str) : Prop :=
  (exists c, p = [c] /\ c <> c_lt) \/
  (exists k b, In k allowed_tags /\ fills bad k b /\ p = [c_lt] ++ b ++ [c_gt]).

(** The html is a sequence of such pieces. *)
Definition safe_html (bad : str -> str -> bool) (h : str) : Prop :=
  exists ps, h = concat ps /\ Forall (html_piece bad) ps.

(** Values that are not allowed for links, or for links and images. *)
Definition on_href (p : str -> bool) (k v : str) : bool := ends_with (lit " href=") k && p v.
Definition on_href_src (p : str -> bool) (k v : str) : bool :=
  (ends_with (lit " href=") k || ends_with (lit " src=") k) && p v.
(** Ids which are neither that of the first footnote nor that of a reference. *)
Definition other_id (k v : str) : bool :=
  ends_with (lit " id=") k && negb (str_eqb v (lit "fn:1") || starts_with (lit "fnref:") v).

(** ** URL schemes as a browser sees them (WHATWG URL): leading control characters
    and spaces, and all tabs and line breaks, are ignored; case does not matter. *)
Definition ignorable (c : char) : bool := ceq c c_tab || ceq c c_nl || ceq c c_cr.
Fixpoint strip_scheme_ci (p v : str) : option str :=
  match p with
  | [] => Some v
  | x :: p' =>
      (fix go (v : str) : option str :=
         match v with
         | [] => None
         | c :: v' => if ignorable c then go v'
                      else if ceq (to_lower_c c) x then strip_scheme_ci p' v' else None
         end) v
  end.
Definition url_start (v : str) : str := drop_while (fun c => N.leb c 32) v.
(** The url has the scheme [javascript]. *)
Definition is_javascript (v : str) : bool :=
  match strip_scheme_ci (lit "javascript:") (url_start v) with Some _ => true | None => false end.
(** The url has the scheme [data] but not an image type. *)
Definition is_data_not_image (v : str) : bool :=
  match strip_scheme_ci (lit "data:") (url_start v) with
  | Some r => negb (starts_with (lit "image/") r)
  | None => false
  end.

(** ** Where a document has urls *)

(** [dests pre ok s]: what stands in [s] where the destination [d] and the title [e]
    of a link would, or of an image if [pre] is '!', is [ok]: [pre], '[', a text
    without ']', "](", [d] up to a ')' or space and, in the latter case, [e] up to
    a ')'. *)
Definition dests (pre : str) (ok : str -> str -> Prop) (s : str) : Prop :=
  forall t d c e, infix (pre ++ c_lbrk :: t ++ lit "](" ++ d ++ c :: e) s ->
    ~ In c_rbrk t -> ~ In c_rpar d -> ~ In c_sp d ->
    (c = c_rpar /\ e = []) \/ (c = c_sp /\ ~ In c_rpar e) -> ok d e.
(** What stands between '<' and '>' is [ok]. *)
Definition angles (ok : str -> Prop) (s : str) : Prop :=
  forall d, infix (c_lt :: d ++ [c_gt]) s -> ~ In c_gt d -> ok d.
(** Not an autolink. *)
Definition no_url (d : str) : Prop := ~ In c_colon d /\ ~ In c_at d.
(** No '<' in the document, or no footnote reference. *)
Definition no_raw (s : str) : Prop := ~ In c_lt s \/ ~ infix (lit "[^") s.

(** A document whose urls cannot leave their attributes. *)
Definition harmless (s : str) : Prop :=
  no_raw s /\ dests [] (fun d e => clean_value d /\ ~ In c_lt e) s /\ angles (fun d => no_url d \/ clean_value d) s.
(** A document without '<' in its urls. *)
Definition no_leak (s : str) : Prop :=
  no_raw s /\ dests [] (fun d e => ~ In c_lt d /\ ~ In c_lt e) s /\ angles (fun d => no_url d \/ ~ In c_lt d) s.
(** An image destination without ':', or with a scheme before "://". *)
Definition plain_src (d : str) : Prop :=
  ~ In c_colon d \/ exists a b, d = a ++ lit "://" ++ b /\ 2 <= length a <= 32 /\
    forallb (fun c => ((97 <=? c)%N && (c <=? 122)%N)) a = true.

(** ** Counting tags *)

(** The number of places at which [p] begins in [h]. *)
Fixpoint occurs (p h : str) : nat :=
  match h with
  | [] => 0
  | _ :: h' => (if starts_with p h then 1 else 0) + occurs p h'
  end.
(** Start and end tags of the element [e]. *)
Definition opens (e h : str) : nat := occurs (lit "<" ++ e ++ lit ">") h + occurs (lit "<" ++ e ++ lit " ") h.
Definition closes (e h : str) : nat := occurs (lit "</" ++ e ++ lit ">") h.

(** The elements of the vocabulary that have an end tag. *)
Definition elements : list str :=
  [ lit "p"; lit "blockquote"; lit "ol"; lit "ul"; lit "li"; lit "em"; lit "strong"; lit "strike"; lit "a";
    lit "pre"; lit "code"; lit "table"; lit "thead"; lit "tbody"; lit "tr"; lit "th"; lit "td";
    lit "h1"; lit "h2"; lit "h3"; lit "h4"; lit "h5"; lit "h6"; lit "div"; lit "sup"; lit "details";
    lit "summary" ].

(** ** Nesting *)

(** The characters of a tag name; a '/' in front makes an end tag. *)
Definition name_char (c : char) : bool := ((97 <=? c)%N && (c <=? 122)%N) || is_digit c || ceq c 47%N.
(** Elements without an end tag. *)
Definition voids : list str := [lit "br"; lit "hr"; lit "img"; lit "input"].
(** One tag: a start tag puts its name on the stack of open elements, an end tag
    takes its name off the top and is wrong if another one is there. *)
Definition tag_step (st : list str) (n : str) : option (list str) :=
  match n with
  | [] => Some st
  | c :: m =>
      if ceq c 47%N then
        match st with
        | x :: st' => if str_eqb x m then Some st' else None
        | [] => None
        end
      else if existsb (str_eqb n) voids then Some st else Some (n :: st)
  end.
Fixpoint nest (st : list str) (h : str) : option (list str) :=
  match h with
  | [] => Some st
  | c :: h' =>
      if ceq c c_lt then
        match tag_step st (take_while name_char h') with
        | Some st' => nest st' h'
        | None => None
        end
      else nest st h'
  end.
(** Every element is closed, and inside the one it was opened in. *)
Definition nested (h : str) : Prop := nest [] h = Some [].
