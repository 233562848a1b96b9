(** Model of loading and saving of GROBID training TEI:
    sciencebeam_trainer_grobid_tools/structured_document/grobid_training_tei.py *)
From Verif Require Import Base ModelTags ModelTokenize ModelXml.

(** grobid_training_tei.py L69-70 [TeiTagNames.LB] *)
Definition LB : str := u "lb".

(** grobid_training_tei.py L79-117: [TeiText] / [TeiSpace].  The attributes
    'tag', 'level2_tag', 'preserved_tag' and 'level2_preserved_tag' are separate
    fields (no other attribute or scope is used by the modelled code).  The
    class [TeiSpace] is chosen by [_to_text_token] (L243-246) exactly for blank
    texts, so it is recomputed from the text ([is_space]).
    [line] (the back reference to the line) is positional in the model. *)
Record tok := mkTok {
  tx : str; tag : ostr; sub : ostr; ptag : ostr; psub : ostr; ws : ostr }.
Definition line := list tok.

Section Tei.
(** character classes: white space, regex \w, upper case, lower case *)
Variables sp wd up lo : N -> bool.

(** L84 / L243-246: [isinstance(token, TeiSpace)]; also [not token.stripped_text] *)
Definition is_space (t : tok) : bool := blank sp (tx t).

(* ------------------------------------------------------------------ *)
(** ** Loading *)

(** L131-201: [TokenWriter] / [LineBuffer].  [b_lines] are the lines flushed so
    far (they are only collected by the caller). *)
Record buf := mkBuf { b_lines : list line; b_toks : list tok; b_tag : ostr; b_sub : ostr }.

(** L160-163: assignment to [self.tokens[-1].whitespace] *)
Fixpoint set_last_ws (w : str) (l : list tok) : list tok :=
  match l with
  | [] => []
  | [t] => [mkTok (tx t) (tag t) (sub t) (ptag t) (psub t) (Some w)]
  | t :: l' => t :: set_last_ws w l'
  end.

(** L158-176: [append_tokenized_text_token] *)
Definition append_token (b : buf) (text : str) : buf :=
  mkBuf (b_lines b)
    (set_last_ws (if blank sp text then text else []) (b_toks b)
       ++ [mkTok text (b_tag b) (b_sub b) None None None])
    (add_tag_prefix (strip_tag_prefix (b_tag b)) (Some I_PREFIX))
    (add_tag_prefix (strip_tag_prefix (b_sub b)) (Some I_PREFIX)).

(** L178-185: [append_text] / [append_tokenized_text] *)
Definition append_text (b : buf) (text : str) : buf :=
  match text with
  | [] => b
  | _ => fold_left append_token (tokenize_text wd up lo text) b
  end.

(** L198-201: [flush] *)
Definition flush (b : buf) : buf :=
  mkBuf (b_lines b ++ [b_toks b]) [] (b_tag b) (b_sub b).

(** L137-153 *)
Definition reset_next_tag (b : buf) : buf := mkBuf (b_lines b) (b_toks b) None (b_sub b).
Definition reset_next_sub_tag (b : buf) : buf := mkBuf (b_lines b) (b_toks b) (b_tag b) None.
Definition set_next_tag (b : buf) (t : ostr) : buf :=
  mkBuf (b_lines b) (b_toks b) (add_tag_prefix t (Some B_PREFIX)) (b_sub b).
Definition set_next_sub_tag (b : buf) (t : ostr) : buf :=
  mkBuf (b_lines b) (b_toks b) (b_tag b) (add_tag_prefix t (Some B_PREFIX)).

(** L262-268: [_node_to_tag_expression].  (For comments the code returns the
    lxml factory function as "tag"; joining the path then fails, see
    [read_elem].) *)
Definition node_to_tag_expression (e : xml) : res str :=
  match e with
  | Elem name [] _ _ _ => Ok name
  | Elem name [(k, v)] _ _ _ => Ok (name ++ u "[@" ++ k ++ u "=""" ++ v ++ u """]")
  | Elem _ _ _ _ _ => Err ValueError
  | Misc _ => Ok []
  end.

(** L271-277: [has_direct_text] with [is_blank] (utils/string.py L13-14) *)
Definition has_direct_text (text : str) (children : list xml) : bool :=
  negb (blank sp text) || existsb (fun c => negb (blank sp (xtail c))) children.

Definition is_lb (e : xml) : bool :=
  match e with Elem name _ _ _ _ => streq name LB | Misc _ => false end.

(** Python ['/'.join(path)] *)
Fixpoint join_path (p : list str) : str :=
  match p with
  | [] => []
  | [a] => a
  | a :: p' => a ++ u "/" ++ join_path p'
  end.

Variable root_paths : list str.

(** L288: [current_tag] *)
Definition path_tag (path : list str) : ostr :=
  match path with [] => None | _ => Some (join_path path) end.

(** L289 *)
Definition is_tagging (path : list str) (text : str) (children : list xml) : bool :=
  has_direct_text text children || omem (path_tag path) root_paths.

(** L280-317: [_iter_extract_lines_from_element].  Generators are run to the
    end by the caller, in order, so the state is threaded through.
    A comment makes ['/'.join] fail with a TypeError (L288). *)
Fixpoint read_elem (e : xml) (path : list str) (b : buf) {struct e} : res buf :=
  match e with
  | Misc _ => Err TypeError
  | Elem _ _ text children tl =>
      let prev := b_tag b in
      let b1 :=
        if is_tagging path text children
        then if truthy prev then set_next_sub_tag b (path_tag path)
             else set_next_tag b (path_tag path)
        else b in
      let b2 := append_text b1 text in
      do b3 <- (fix go (cs : list xml) (b : buf) : res buf :=
                  match cs with
                  | [] => Ok b
                  | c :: cs' =>
                      let b' := if is_lb c then flush b else b in
                      do frag <- node_to_tag_expression c ;;
                      do b'' <- read_elem c (path ++ [frag]) b' ;;
                      go cs' b''
                  end) children b2 ;;
      let b4 := if truthy prev then reset_next_sub_tag b3 else reset_next_tag b3 in
      Ok (append_text b4 tl)
  end.

(** L320-333: [_iter_extract_lines_from_container_elements] *)
Definition empty_buf : buf := mkBuf [] [] None None.
Definition read_containers (es : list xml) : res (list line) :=
  do b <- foldM (fun b e =>
            do b1 <- read_elem e [] b ;;
            Ok (match b_toks b1 with [] => b1 | _ => flush b1 end)) empty_buf es ;;
  Ok (b_lines b).

(* ------------------------------------------------------------------ *)
(** ** Saving *)

(** L400-401: [_split_path]: split at '/' that is not preceded by a '{' without
    a '}' in between. *)
Fixpoint split_path_go (inb : bool) (cur : str) (s : str) : list str :=
  match s with
  | [] => [rev cur]
  | c :: s' =>
      if N.eqb c 47 && negb inb then rev cur :: split_path_go false [] s'
      else split_path_go (if N.eqb c 123 then true else if N.eqb c 125 then false else inb)
             (c :: cur) s'
  end.
Definition split_path (s : str) : list str := split_path_go false [] s.

(** L249-259: [_parse_tag_expression]: the regular expression
    [^([^\[]+)(\[@?([^=]+)="(.+)"\])?$] written out.  [.] does not match a line
    feed; [$] also matches before a final line feed. *)
Fixpoint span (f : N -> bool) (s : str) : str * str :=
  match s with
  | c :: s' => if f c then let (a, b) := span f s' in (c :: a, b) else ([], s)
  | [] => ([], [])
  end.

(** what follows the '[': optional '@', key, '="', value, '"]' *)
Definition parse_key_value (s : str) : option (str * str) :=
  let (k, rest) := span (fun c => negb (N.eqb c 61)) s in      (* up to '=' *)
  match k, rest with
  | _ :: _, _ :: 34%N :: v =>                                  (* equals sign, quote *)
      let v := match rev v with 10%N :: v' => rev v' | _ => v end in
      match rev v with
      | 93%N :: 34%N :: ((_ :: _) as v') =>                    (* quote, bracket *)
          if existsb (N.eqb 10) v' then None else Some (k, rev v')
      | _ => None
      end
  | _, _ => None
  end.
Definition parse_tag_expression (s : str) : res (str * list (str * str)) :=
  let (name, rest) := span (fun c => negb (N.eqb c 91)) s in   (* up to '[' *)
  match name, rest with
  | [], _ => Err ValueError
  | _, [] => Ok (name, [])
  | _, _ :: rest' =>
      let r :=
        match rest' with
        | 64%N :: rest'' =>                                    (* '@' *)
            match parse_key_value rest'' with
            | Some kv => Some kv
            | None => parse_key_value rest'
            end
        | _ => parse_key_value rest'
        end in
      match r with Some kv => Ok (name, [kv]) | None => Err ValueError end
  end.

(** L209-217: [TagExpression.create_node]; whether lxml accepts the name and
    attributes is a parameter. *)
Variable node_ok : str -> list (str * str) -> bool.
Definition create_node (fragment : str) : res (str * list (str * str)) :=
  do na <- parse_tag_expression fragment ;;
  if node_ok (fst na) (snd na) then Ok na else Err ValueError.

(** L361-369: [_get_common_path] *)
Fixpoint common_path (p q : list str) : list str :=
  match p, q with
  | a :: p', b :: q' => if streq a b then a :: common_path p' q' else []
  | _, _ => []
  end.

Definition path_eqb (p q : list str) : bool :=
  if list_eq_dec str_eq_dec p q then true else false.

(** L372-373: [_path_starts_with] *)
Definition path_starts_with (p q : list str) : bool := path_eqb (common_path p q) p.

(** Mutable elements under construction.  In lxml a new child is appended to
    its parent at once and then filled; here the open elements (the writer's
    current element and its ancestors up to the container) are kept on a stack
    and appended to their parent when the writer moves up ([getparent]).  Only
    the current element is ever modified, and it is always the last child of
    its parent, so both give the same tree. *)
Record frame := mkFrame {
  f_name : str; f_attrib : list (str * str); f_text : str; f_kids : list xml }.
Definition close (f : frame) : xml := Elem (f_name f) (f_attrib f) (f_text f) (f_kids f) [].
Definition add_kid (f : frame) (k : xml) : frame :=
  mkFrame (f_name f) (f_attrib f) (f_text f) (f_kids f ++ [k]).

(** L347-358: [_append_text] *)
Definition add_tail (e : xml) (t : str) : xml :=
  match e with
  | Elem n a x c tl => Elem n a x c (tl ++ t)
  | Misc tl => Misc (tl ++ t)
  end.
Fixpoint add_last_tail (l : list xml) (t : str) : list xml :=
  match l with
  | [] => []
  | [e] => [add_tail e t]
  | e :: l' => e :: add_last_tail l' t
  end.
Definition frame_append_text (f : frame) (t : str) : frame :=
  match f_kids f with
  | [] => mkFrame (f_name f) (f_attrib f) (f_text f ++ t) []
  | ks => mkFrame (f_name f) (f_attrib f) (f_text f) (add_last_tail ks t)
  end.

(** L418-440: [XmlTreeWriter]: current element, its open ancestors (innermost
    first), current path. *)
Record writer := mkWriter { w_cur : frame; w_up : list frame; w_path : list str }.

Definition w_append (w : writer) (e : xml) : writer :=
  mkWriter (add_kid (w_cur w) e) (w_up w) (w_path w).
Definition w_append_text (w : writer) (t : str) : writer :=
  mkWriter (frame_append_text (w_cur w) t) (w_up w) (w_path w).

(** L383-384: [getparent] [n] times; leaving the container is an error *)
Fixpoint climb (n : nat) (cur : frame) (ups : list frame) : res (frame * list frame) :=
  match n with
  | O => Ok (cur, ups)
  | S n' => match ups with
            | [] => Err RuntimeError
            | p :: ups' => climb n' (add_kid p (close cur)) ups'
            end
  end.

(** L386-396: creating the missing elements *)
Fixpoint descend (frags : list str) (cur : frame) (ups : list frame) : res (frame * list frame) :=
  match frags with
  | [] => Ok (cur, ups)
  | f :: frags' =>
      do na <- create_node f ;;
      descend frags' (mkFrame (fst na) (snd na) [] []) (cur :: ups)
  end.

(** L376-397 / L429-434: [_get_element_at_path] / [require_path] *)
Definition require_path (w : writer) (required : list str) : res writer :=
  if path_eqb required (w_path w) then Ok w
  else
    let common := common_path (w_path w) required in
    do cu <- climb (length (w_path w) - length common) (w_cur w) (w_up w) ;;
    do cu' <- descend (skipn (length common) required) (fst cu) (snd cu) ;;
    Ok (mkWriter (fst cu') (snd cu') required).

(** L436-440: [require_path_or_below] *)
Definition require_path_or_below (w : writer) (required : list str) : res writer :=
  require_path w (common_path (w_path w) required).

Variable mapping : list (str * str).

(** L404-415: [_get_tag_required_path] *)
Definition tag_required_path (t : ostr) : list str :=
  match t with
  | Some ((_ :: _) as s) =>
      split_path (match dict_get s mapping with Some p => p | None => s end)
  | _ => match dict_get [] mapping with
         | Some ((_ :: _) as p) => split_path p
         | _ => []
         end
  end.

(** state of the loop in [_lines_to_tei] *)
Record wstate := mkWs { s_w : writer; s_pend : list tok; s_reset : list str }.

(** L456-463: effective main and sub tag of a token *)
Definition main_full_tag (t : tok) : ostr := oor (tag t) (ptag t).
Definition sub_full_tag (t : tok) : ostr := oor (sub t) (psub t).

(** L470-483: required paths of a non-space token: main path, and the sub path
    if there is a sub tag that lies within the main path *)
Definition main_path (t : tok) : list str :=
  tag_required_path (strip_tag_prefix (main_full_tag t)).
Definition sub_path (t : tok) : option (list str) :=
  if truthy (sub_full_tag t) then
    let p := tag_required_path (strip_tag_prefix (sub_full_tag t)) in
    if path_starts_with (main_path t) p then Some p else None
  else None.
Definition required_path (t : tok) : list str :=
  match sub_path t with Some p => p | None => main_path t end.

(** L517-521: the pending spaces *)
Definition write_pending (required : list str) (w : writer) (pend : list tok) : res writer :=
  foldM (fun w p => do w' <- require_path_or_below w required ;; Ok (w_append_text w' (tx p))) w pend.

(** L455-524: one token *)
Definition write_token (s : wstate) (t : tok) : res wstate :=
  let (main_prefix, main_tag) := split_tag_prefix (main_full_tag t) in
  let sub_prefix := fst (split_tag_prefix (sub_full_tag t)) in
  if is_space t then
    Ok (mkWs (s_w s) (s_pend s ++ [t])
          (match main_tag with
           | Some v => if is_b main_prefix then v :: s_reset s else s_reset s
           | None => s_reset s
           end))
  else
    do w1 <- (if is_b main_prefix then require_path (s_w s) (removelast (main_path t))
              else if omem main_tag (s_reset s) then require_path (s_w s) []
              else if is_b sub_prefix
                   then require_path_or_below (s_w s)
                          (match sub_path t with Some p => removelast p | None => [] end)
              else Ok (s_w s)) ;;
    do w2 <- write_pending (required_path t) w1 (s_pend s) ;;
    do w3 <- require_path w2 (required_path t) ;;
    Ok (mkWs (w_append_text w3 (tx t)) [] []).

(** L452-454: one line *)
Definition lb_elem : xml := Elem LB [] [] [] [].
Definition write_line (first : bool) (s : wstate) (l : line) : res wstate :=
  let s' := if first then s else mkWs (w_append (s_w s) lb_elem) (s_pend s) (s_reset s) in
  foldM write_token s' l.

Definition write_lines (s : wstate) (ls : list line) : res wstate :=
  match ls with
  | [] => Ok s
  | l :: ls' => do s1 <- write_line true s l ;; foldM (write_line false) s1 ls'
  end.

(** L443-531: [_lines_to_tei] into an emptied container (L547 [clear()] drops
    text, children, attributes and tail); the result is the container *)
Definition lines_to_tei (container_name : str) (ls : list line) : res xml :=
  do s <- write_lines (mkWs (mkWriter (mkFrame container_name [] [] []) [] []) [] []) ls ;;
  do w <- write_pending [] (s_w s) (s_pend s) ;;
  (* all open elements become children of their parents *)
  do cu <- climb (length (w_up w)) (w_cur w) (w_up w) ;;
  Ok (close (fst cu)).

(* ------------------------------------------------------------------ *)
(** ** The document *)

(** L577-592: [_preserve_current_tags]; [rev_mapping] inverts the mapping, later
    entries win *)
Definition rev_mapping : list (str * str) :=
  fold_left (fun d kv => dict_set (snd kv) (fst kv) d) mapping [].
Definition map_rev (t : ostr) : ostr :=
  match t with
  | Some s => Some (match dict_get s rev_mapping with Some k => k | None => s end)
  | None => None
  end.
Definition preserve_tag (full : ostr) : ostr :=
  let (p, t) := split_tag_prefix full in add_tag_prefix (map_rev t) p.
Definition preserve_tok (t : tok) : tok :=
  mkTok (tx t) (tag t) (sub t) (preserve_tag (tag t)) (preserve_tag (sub t)) (ws t).
(** L594-598: [_reset_current_tags] *)
Definition reset_tok (t : tok) : tok := mkTok (tx t) None None (ptag t) (psub t) (ws t).

(** L553-575: construction of the document from its container elements *)
Definition load_doc (preserve : bool) (containers : list xml) : res (list line) :=
  do ls <- read_containers containers ;;
  Ok (map (map (fun t => reset_tok (if preserve then preserve_tok t else t))) ls).

End Tei.

(** L553-575: the constructor of [GrobidTrainingTeiStructuredDocument] applied to
    the container elements found ([root.findall], not modelled); the root paths
    are the paths of the mapping (L571). *)
Definition new_document (sp wd up lo : N -> bool) (mapping : list (str * str))
    (preserve : bool) (containers : list xml) : res (list line) :=
  load_doc sp wd up lo (map snd mapping) mapping preserve containers.
