(** Model of the calls that [html.parser.HTMLParser] of Python 3.7 makes for a text (the input of
    ModelFixXml): [feed] and [close] with [convert_charrefs], as used in utils/xml.py L229-231.
    Simplified: only plain mark-up is read: names of ASCII letters, digits and "-.:_", attributes
    with quoted values, comments without "--" inside, processing instructions, and any text, in
    which a "<" may stand before anything but a letter, "/", "!" or "?".  For other texts, and
    with the elements script and style, whose content is read in another way, the result is
    [None].  That the parser behaves so on plain mark-up is an assumption.  *)
From Verif Require Import Base ModelFixXml.
Open Scope list_scope.
Open Scope nat_scope.

Definition LT : N := 60%N.
Definition GT : N := 62%N.
Definition DIV : N := 47%N.
Definition EQUALS : N := 61%N.
Definition DASH : N := 45%N.
Definition is_letter (c : N) : bool := ((65 <=? c) && (c <=? 90) || (97 <=? c) && (c <=? 122))%N.
Definition name_char (c : N) : bool :=
  is_letter c || ((48 <=? c) && (c <=? 57) || (c =? 45) || (c =? 46) || (c =? 58) || (c =? 95))%N.
Definition attr_start (c : N) : bool := is_letter c || ((c =? 95) || (c =? 58))%N.
Definition tag_space (c : N) : bool := ((c =? 9) || (c =? 10) || (c =? 13) || (c =? 32))%N.
Definition is_quote (c : N) : bool := N.eqb c DQ || N.eqb c SQ.
(** [str.lower] of such names *)
Definition lower_name (s : str) : str := map (fun c => if ((65 <=? c) && (c <=? 90))%N then (c + 32)%N else c) s.
(** [CDATA_CONTENT_ELEMENTS] *)
Definition cdata_element (n : str) : bool := streq n (u "script") || streq n (u "style").

Fixpoint span (p : N -> bool) (s : str) : str * str :=
  match s with
  | [] => ([], [])
  | c :: s' => if p c then let (a, b) := span p s' in (c :: a, b) else ([], s)
  end.
Definition p_name (start : N -> bool) (s : str) : option (str * str) :=
  match s with c :: s' => if start c then let (a, b) := span name_char s' in Some (c :: a, b) else None | [] => None end.

Section Html.
(** [html.unescape] *)
Variable unescape : str -> str.

(** the value between the quotes: an empty one is not unescaped *)
Definition attr_value (v : str) : str := match v with [] => [] | _ => unescape v end.
(** the attributes up to the end of the start tag; whether it ends with "/>" *)
Fixpoint p_attrs (fuel : nat) (s : str) : option (list (str * ostr) * bool * str) :=
  match fuel with
  | O => None
  | S f =>
      let (w, r) := span tag_space s in
      match p_name attr_start r with
      | Some (n, e :: q :: r1) =>
          if negb (streq w []) && N.eqb e EQUALS && is_quote q then
            match span (fun c => negb (N.eqb c q)) r1 with
            | (v, _ :: r2) =>
                match p_attrs f r2 with
                | Some (l, closed, r3) => Some ((lower_name n, Some (attr_value v)) :: l, closed, r3)
                | None => None
                end
            | (_, []) => None
            end
          else None
      | Some _ => None
      | None =>
          match r with
          | c :: r' =>
              if N.eqb c GT then Some ([], false, r')
              else match r' with c' :: r'' => if N.eqb c DIV && N.eqb c' GT then Some ([], true, r'') else None | [] => None end
          | [] => None
          end
      end
  end.
(** after "<": a start tag; [handle_startendtag] calls both handlers *)
Definition p_start (s : str) : option (list event * str) :=
  match p_name is_letter s with
  | Some (n, r) =>
      match p_attrs (S (length r)) r with
      | Some (l, closed, r') =>
          let t := lower_name n in
          if closed then Some ([EStart t l; EEnd t], r')
          else if cdata_element t then None else Some ([EStart t l], r')
      | None => None
      end
  | None => None
  end.
(** after "</" *)
Definition p_end (s : str) : option (list event * str) :=
  match p_name is_letter s with
  | Some (n, r) =>
      match snd (span tag_space r) with
      | c :: r' => if N.eqb c GT then Some ([EEnd (lower_name n)], r') else None
      | [] => None
      end
  | None => None
  end.
(** after "<?" *)
Definition p_pi (s : str) : option (list event * str) :=
  match span (fun c => negb (N.eqb c GT)) s with (b, _ :: r) => Some ([EIgnored b], r) | (_, []) => None end.
(** up to the first "--" *)
Fixpoint until_dashes (s : str) : option (str * str) :=
  match s with
  | [] => None
  | c :: s' =>
      match s' with
      | c' :: s'' =>
          if N.eqb c DASH && N.eqb c' DASH then Some ([], s'')
          else match until_dashes s' with Some (a, b) => Some (c :: a, b) | None => None end
      | [] => None
      end
  end.
(** after "<!" *)
Definition p_comment (s : str) : option (list event * str) :=
  match s with
  | a :: b :: r =>
      if N.eqb a DASH && N.eqb b DASH then
        match until_dashes r with
        | Some (body, c :: r') => if N.eqb c GT then Some ([EIgnored body], r') else None
        | _ => None
        end
      else None
  | _ => None
  end.
(** one piece of the text, and the rest *)
Definition p_piece (s : str) : option (list event * str) :=
  match s with
  | [] => None
  | c :: r =>
      if N.eqb c LT then
        match r with
        | [] => Some ([EData [LT]], [])
        | c' :: r' =>
            if is_letter c' then p_start r
            else if N.eqb c' DIV then p_end r'
            else if N.eqb c' 63 then p_pi r'
            else if N.eqb c' 33 then p_comment r'
            else Some ([EData [LT]], r)
        end
      else let (t, r') := span (fun c => negb (N.eqb c LT)) s in Some ([EData (unescape t)], r')
  end.
Fixpoint p_pieces (fuel : nat) (s : str) : option (list event) :=
  match s, fuel with
  | [], _ => Some []
  | _, O => None
  | _, S f =>
      match p_piece s with
      | Some (es, r) => option_map (fun l => es ++ l) (p_pieces f r)
      | None => None
      end
  end.
Definition html_events (s : str) : option (list event) := p_pieces (length s) s.
End Html.
