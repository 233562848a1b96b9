(** Model of [json.loads] as used by [parse_json_with_default] (core/annotation/target_annotation.py
    L255-256) for the options [.children.concat] and [.children.range] of the mapping
    (annotation/target_annotation.py L118-123), with what [extract_children_source_list],
    [extract_children_concat] and [extract_children_range] expect of the value (L151-210).

    Simplified: a number is kept as it is written; [NaN], [Infinity] and escaped surrogates are not
    read; the members of an object are kept as they are written (the last one with a key counts).  A
    value of another form (lists of lists of objects with texts; lists of objects with two such
    objects) is an error when it is read, in the code when it is used. *)
From Verif Require Import Base ModelXml ModelWordMatch ModelTarget ModelTargets ModelRuns ModelXPath ModelPrefixes.
Open Scope list_scope.
Open Scope nat_scope.

Inductive json := JNull | JBool (b : bool) | JNum (text : str) | JStr (s : str) | JArr (l : list json) | JObj (ms : list (str * json)).

Definition jws (c : N) : bool := N.eqb c 32 || N.eqb c 9 || N.eqb c 10 || N.eqb c 13.
Fixpoint skip_ws (s : str) : str := match s with c :: r => if jws c then skip_ws r else s | [] => [] end.
(** digits of [\uXXXX] *)
Definition hex_digit (c : N) : option N :=
  if N.leb 48 c && N.leb c 57 then Some (c - 48)%N
  else if N.leb 97 c && N.leb c 102 then Some (c - 87)%N
  else if N.leb 65 c && N.leb c 70 then Some (c - 55)%N
  else None.
Definition hex4 (a b c d : N) : option N :=
  match hex_digit a, hex_digit b, hex_digit c, hex_digit d with
  | Some a, Some b, Some c, Some d => Some (((a * 16 + b) * 16 + c) * 16 + d)%N
  | _, _, _, _ => None
  end.
Definition surrogate (x : N) : bool := N.leb 55296 x && N.leb x 57343.
Definition escape (e : N) : option N :=
  if N.eqb e 34 || N.eqb e 92 || N.eqb e 47 then Some e
  else if N.eqb e 98 then Some 8%N
  else if N.eqb e 102 then Some 12%N
  else if N.eqb e 110 then Some 10%N
  else if N.eqb e 114 then Some 13%N
  else if N.eqb e 116 then Some 9%N
  else None.
Definition with_char (x : N) (r : option (str * str)) : option (str * str) := option_map (fun y => (x :: fst y, snd y)) r.
(** after the first quote *)
Fixpoint p_chars (s : str) : option (str * str) :=
  match s with
  | [] => None
  | c :: r =>
      if N.eqb c 34 then Some ([], r)
      else if N.eqb c 92 then
        match r with
        | [] => None
        | e :: r1 =>
            if N.eqb e 117 then
              match r1 with
              | a :: b :: d :: f :: r2 =>
                  match hex4 a b d f with
                  | Some x => if surrogate x then None else with_char x (p_chars r2)
                  | None => None
                  end
              | _ => None
              end
            else match escape e with Some x => with_char x (p_chars r1) | None => None end
        end
      else if N.ltb c 32 then None
      else with_char c (p_chars r)
  end.

(** numbers *)
Definition jdigit (c : N) : bool := N.leb 48 c && N.leb c 57.
Definition number_char (c : N) : bool := jdigit c || N.eqb c 45 || N.eqb c 43 || N.eqb c 46 || N.eqb c 101 || N.eqb c 69.
Fixpoint span (p : N -> bool) (s : str) : str * str :=
  match s with c :: r => if p c then (c :: fst (span p r), snd (span p r)) else ([], s) | [] => ([], []) end.
Definition is_exponent (s : str) : bool :=
  match s with
  | [] => true
  | e :: r =>
      (N.eqb e 101 || N.eqb e 69) &&
      let d := match r with x :: r' => if N.eqb x 43 || N.eqb x 45 then r' else r | [] => [] end in
      nonempty d && forallb jdigit d
  end.
Definition is_fraction (s : str) : bool :=
  match s with
  | x :: r => if N.eqb x 46 then let '(d, e) := span jdigit r in nonempty d && is_exponent e else is_exponent s
  | [] => true
  end.
Definition is_number (s : str) : bool :=
  let s := match s with x :: r => if N.eqb x 45 then r else s | [] => s end in
  let '(d, r) := span jdigit s in
  match d with
  | [] => false
  | x :: d' => (negb (N.eqb x 48) || match d' with [] => true | _ => false end) && is_fraction r
  end.

Fixpoint p_value (fuel : nat) (s : str) : option (json * str) :=
  match fuel with
  | O => None
  | S f =>
      match s with
      | [] => None
      | c :: r =>
          if N.eqb c 34 then option_map (fun x => (JStr (fst x), snd x)) (p_chars r)
          else if N.eqb c 91 then
            match skip_ws r with
            | [] => None
            | x :: r' => if N.eqb x 93 then Some (JArr [], r') else option_map (fun x => (JArr (fst x), snd x)) (p_elems f r)
            end
          else if N.eqb c 123 then
            match skip_ws r with
            | [] => None
            | x :: r' => if N.eqb x 125 then Some (JObj [], r') else option_map (fun x => (JObj (fst x), snd x)) (p_members f r)
            end
          else if starts_with (u "null") s then Some (JNull, skipn 4 s)
          else if starts_with (u "true") s then Some (JBool true, skipn 4 s)
          else if starts_with (u "false") s then Some (JBool false, skipn 5 s)
          else let '(t, r) := span number_char s in if is_number t then Some (JNum t, r) else None
      end
  end
with p_elems (fuel : nat) (s : str) : option (list json * str) :=
  match fuel with
  | O => None
  | S f =>
      match p_value f (skip_ws s) with
      | None => None
      | Some (v, r) =>
          match skip_ws r with
          | [] => None
          | x :: r' =>
              if N.eqb x 44 then option_map (fun y => (v :: fst y, snd y)) (p_elems f r')
              else if N.eqb x 93 then Some ([v], r') else None
          end
      end
  end
with p_members (fuel : nat) (s : str) : option (list (str * json) * str) :=
  match fuel with
  | O => None
  | S f =>
      match skip_ws s with
      | [] => None
      | q :: s1 =>
          if N.eqb q 34 then
            match p_chars s1 with
            | None => None
            | Some (k, s2) =>
                match skip_ws s2 with
                | [] => None
                | x :: s3 =>
                    if N.eqb x 58 then
                      match p_value f (skip_ws s3) with
                      | None => None
                      | Some (v, r) =>
                          match skip_ws r with
                          | [] => None
                          | y :: r' =>
                              if N.eqb y 44 then option_map (fun z => ((k, v) :: fst z, snd z)) (p_members f r')
                              else if N.eqb y 125 then Some ([(k, v)], r') else None
                          end
                      end
                    else None
                end
            end
          else None
      end
  end.
Definition parse_json (s : str) : option json :=
  match p_value (S (2 * length s)) (skip_ws s) with
  | Some (v, r) => match skip_ws r with [] => Some v | _ => None end
  | None => None
  end.

(* ------------------------------------------------------------------ *)
(** ** The two options *)
(** [d.get(key)] *)
Definition jget (k : str) (ms : list (str * json)) : json :=
  match find (fun m => streq k (fst m)) (rev ms) with Some m => snd m | None => JNull end.
Definition text_of (j : json) : res ostr := match j with JNull => Ok None | JStr s => Ok (Some s) | _ => Err RuntimeError end.
Definition source_of (j : json) : res source :=
  match j with
  | JObj ms => do x <- text_of (jget (u "xpath") ms) ;; do v <- text_of (jget (u "value") ms) ;; Ok (mkSource x v)
  | _ => Err RuntimeError
  end.
Definition list_of (j : json) : res (list json) := match j with JArr l => Ok l | _ => Err RuntimeError end.
Definition loads (s : str) : res json := match parse_json s with Some j => Ok j | None => Err RuntimeError end.
Definition read_concat (s : str) : res (list (list source)) :=
  do j <- loads s ;; do l <- list_of j ;; mapM (fun x => do y <- list_of x ;; mapM source_of y) l.
Definition json_truth (j : json) : res bool :=
  match j with
  | JNull => Ok false | JBool b => Ok b | JStr s => Ok (nonempty s) | JArr l => Ok (nonempty l) | JObj m => Ok (nonempty m)
  | JNum _ => Err RuntimeError
  end.
Definition range_of (j : json) : res range_item :=
  match j with
  | JObj ms => do a <- source_of (jget (u "min") ms) ;; do b <- source_of (jget (u "max") ms) ;;
               do st <- json_truth (jget (u "standalone") ms) ;; Ok (mkRangeItem a b st)
  | _ => Err RuntimeError
  end.
Definition read_range (s : str) : res (list range_item) := do j <- loads s ;; do l <- list_of j ;; mapM range_of l.

(* ------------------------------------------------------------------ *)
(** ** A target document and the readers, with XPath, JSON and regular expressions of the models *)
(** the parsed target document (annotation/target_annotation.py L57-62: [xml_root.tag],
    [xml_root.xpath(...)]); [get_text_content] without some elements is an argument *)
Definition article_doc (excluding : xml -> list npath -> npath -> str) (root : xml) : target_doc :=
  mkTargetDoc (match root with Elem n _ _ _ _ => n | Misc _ => [] end) (erase root) (xpath_at root) (excluding root).
Definition with_texts (rd : readers) : readers :=
  mkReaders (rd_lb rd) re_compiles (rd_show_int rd) read_concat read_range (rd_group rd) (rd_spans rd) (rd_order rd).
