(** Model of the mark-up repair: utils/xml.py L163-234 *)
From Verif Require Import Base.

(** The calls that Python's [html.parser.HTMLParser] makes while it is fed with a text
    and closed (the parser itself is not modelled).  An attribute without a value has the
    value None.  Comments, declarations and processing instructions are not handled by
    the class, i.e. the inherited empty methods are called. *)
Inductive event :=
| EStart (tag : str) (attrs : list (str * ostr))
| EEnd (tag : str)
| EData (data : str)
| EIgnored (data : str).

(** [s.replace(c, r)] for a single character *)
Definition replace_char (c : N) (r s : str) : str := flat_map (fun x => if N.eqb x c then r else [x]) s.
(** [xml.sax.saxutils.escape] *)
Definition escape (s : str) : str :=
  replace_char 60 (u "&lt;") (replace_char 62 (u "&gt;") (replace_char 38 (u "&amp;") s)).
(** [xml.sax.saxutils.quoteattr]; 34 and 39 are the quotation marks, 10, 13 and 9 line
    feed, carriage return and tab *)
Definition DQ : N := 34%N.
Definition SQ : N := 39%N.
Definition quoteattr (v : str) : str :=
  let d := replace_char 9 (u "&#9;") (replace_char 13 (u "&#13;") (replace_char 10 (u "&#10;") (escape v))) in
  if existsb (N.eqb DQ) d then
    if existsb (N.eqb SQ) d then [DQ] ++ replace_char DQ (u "&quot;") d ++ [DQ]
    else [SQ] ++ d ++ [SQ]
  else [DQ] ++ d ++ [DQ].

(** buffer and [tag_stack] (innermost first) *)
Definition fstate := (str * list str)%type.
(** L172-179; [quoteattr(None)] raises an AttributeError *)
Fixpoint write_attrs (attrs : list (str * ostr)) : res str :=
  match attrs with
  | [] => Ok []
  | (_, None) :: _ => Err AttributeError
  | (k, Some v) :: attrs' => do r <- write_attrs attrs' ;; Ok (u " " ++ k ++ u "=" ++ quoteattr v ++ r)
  end.
Definition handle_starttag (st : fstate) (tag : str) (attrs : list (str * ostr)) : res fstate :=
  do a <- write_attrs attrs ;; Ok (fst st ++ u "<" ++ tag ++ a ++ u ">", tag :: snd st).
(** L181-184 (only called with an open element) *)
Definition close_current (st : fstate) : fstate :=
  match snd st with
  | [] => st
  | t :: s => (fst st ++ u "</" ++ t ++ u ">", s)
  end.
(** L204-209: while the current tag is another one *)
Fixpoint close_until (tag : str) (b : str) (s : list str) : fstate :=
  match s with
  | [] => (b, [])
  | t :: s' => if streq tag t then (b, s) else close_until tag (b ++ u "</" ++ t ++ u ">") s'
  end.
(** L190-209 *)
Definition handle_endtag (st : fstate) (tag : str) : fstate :=
  match snd st with
  | [] => st
  | t :: _ =>
      if streq tag t then close_current st
      else if negb (mem tag (snd st)) then close_current st
      else close_until tag (fst st) (snd st)
  end.
Definition handle (st : fstate) (e : event) : res fstate :=
  match e with
  | EStart t a => handle_starttag st t a
  | EEnd t => Ok (handle_endtag st t)
  | EData d => Ok (fst st ++ escape d, snd st)     (* L211-213 *)
  | EIgnored _ => Ok st
  end.
(** L215-218 *)
Fixpoint close_all (b : str) (s : list str) : str :=
  match s with [] => b | t :: s' => close_all (b ++ u "</" ++ t ++ u ">") s' end.
Definition fix_events (es : list event) : res str :=
  do st <- foldM handle ([], []) es ;; Ok (close_all (fst st) (snd st)).

(** L221-234: [get_fixed_xml_str]; [valid] is whether [etree.fromstring] accepts the text,
    [events] the calls of the HTML parser *)
Definition get_fixed_xml (valid : str -> bool) (events : str -> list event) (s : str) : res str :=
  if valid s then Ok s else fix_events (events s).
