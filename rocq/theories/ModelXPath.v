(** Model of the XPath expressions of config/xml-mapping.conf, as evaluated by
    [element.xpath(expression)] (lxml): core/annotation/target_annotation.py L158, L217-218 (T) and
    annotation/target_annotation.py L59-62 (A), [match_xpaths].

    A subset of XPath 1.0: location paths of steps with the axes child, self, ancestor and
    descendant-or-self (only as [//]), tests for a name or any element, [.], unions, paths
    starting with an expression in parentheses, and predicates of attributes, attributes with a
    value, single steps, [not], [and], [or].  Anything else (numbers, other functions, positions,
    prefixes of name spaces, [..], longer paths in predicates) is not parsed; the model does not
    tell such expressions from wrong ones.  A name is the tag of lxml, so that a test for a name
    does not hold for elements with a name space. *)
From Verif Require Import Base ModelXml ModelExtend ModelTarget ModelTargets.
Open Scope list_scope.
Open Scope nat_scope.

(* ------------------------------------------------------------------ *)
(** ** Words of an expression *)
Inductive xtok :=
| XName (n : str) | XLit (s : str) | XSlash | XSlashes | XBar | XLpar | XRpar | XLbr | XRbr | XDot | XAt | XEq | XStar | XColons.
Definition is_letter (c : N) : bool :=
  (N.leb 65 c && N.leb c 90) || (N.leb 97 c && N.leb c 122) || N.eqb c 95 || N.leb 128 c.
Definition is_name_char (c : N) : bool := is_letter c || (N.leb 48 c && N.leb c 57) || N.eqb c 45 || N.eqb c 46.
Definition is_xspace (c : N) : bool := N.eqb c 32 || N.eqb c 9 || N.eqb c 10 || N.eqb c 13.
(** inside of a name (reversed) or of a text in quotes, after one slash or colon *)
Inductive lexing := LStart | LName (acc : str) | LText (q : N) (acc : str) | LSlash | LColon.
Definition lex_start (c : N) : option (list xtok * lexing) :=
  if is_xspace c then Some ([], LStart)
  else if is_letter c then Some ([], LName [c])
  else if N.eqb c 47 then Some ([], LSlash)
  else if N.eqb c 58 then Some ([], LColon)
  else if N.eqb c 34 || N.eqb c 39 then Some ([], LText c [])
  else if N.eqb c 124 then Some ([XBar], LStart)
  else if N.eqb c 40 then Some ([XLpar], LStart)
  else if N.eqb c 41 then Some ([XRpar], LStart)
  else if N.eqb c 91 then Some ([XLbr], LStart)
  else if N.eqb c 93 then Some ([XRbr], LStart)
  else if N.eqb c 46 then Some ([XDot], LStart)
  else if N.eqb c 64 then Some ([XAt], LStart)
  else if N.eqb c 61 then Some ([XEq], LStart)
  else if N.eqb c 42 then Some ([XStar], LStart)
  else None.
Definition after (t : xtok) (r : option (list xtok * lexing)) : option (list xtok * lexing) :=
  option_map (fun x => (t :: fst x, snd x)) r.
Definition lex_step (st : lexing) (c : N) : option (list xtok * lexing) :=
  match st with
  | LStart => lex_start c
  | LName acc => if is_name_char c then Some ([], LName (c :: acc)) else after (XName (rev acc)) (lex_start c)
  | LText q acc => if N.eqb c q then Some ([XLit (rev acc)], LStart) else Some ([], LText q (c :: acc))
  | LSlash => if N.eqb c 47 then Some ([XSlashes], LStart) else after XSlash (lex_start c)
  | LColon => if N.eqb c 58 then Some ([XColons], LStart) else None
  end.
Fixpoint lex (st : lexing) (s : str) : option (list xtok) :=
  match s with
  | [] => match st with
          | LStart => Some [] | LName acc => Some [XName (rev acc)] | LSlash => Some [XSlash]
          | LText _ _ | LColon => None
          end
  | c :: s' =>
      match lex_step st c with
      | Some (ts, st') => option_map (app ts) (lex st' s')
      | None => None
      end
  end.

(* ------------------------------------------------------------------ *)
(** ** Expressions *)
Inductive xaxis := AChild | ASelf | AAncestor | ADescend (* descendant-or-self *).
Inductive xtest := TName (n : str) | TElement (* [*] *) | TNode (* [node()] *).
Inductive xpred :=
| PAttr (n : str) | PAttrIs (n v : str) | PHas (a : xaxis) (t : xtest)
| PNot (p : xpred) | PAnd (p q : xpred) | POr (p q : xpred).
Record xstep := mkStep { st_axis : xaxis; st_test : xtest; st_preds : list xpred }.
Inductive xexpr :=
| ELoc (absolute : bool) (steps : list xstep)
| EFrom (e : xexpr) (steps : list xstep) (* [(e)/steps] *)
| EUnion (e f : xexpr).

Definition slashes : xstep := mkStep ADescend TNode [].
Definition axis_named (n : str) : option xaxis :=
  if streq n (u "child") then Some AChild
  else if streq n (u "self") then Some ASelf
  else if streq n (u "ancestor") then Some AAncestor
  else None.
(** an axis (child if there is none) with a test *)
Definition p_node (ts : list xtok) : option (xaxis * xtest * list xtok) :=
  match ts with
  | XName a :: XColons :: XName n :: r => option_map (fun x => (x, TName n, r)) (axis_named a)
  | XName a :: XColons :: XStar :: r => option_map (fun x => (x, TElement, r)) (axis_named a)
  | XName _ :: XColons :: _ => None
  | XName _ :: XLpar :: _ => None
  | XName n :: r => Some (AChild, TName n, r)
  | XStar :: r => Some (AChild, TElement, r)
  | _ => None
  end.
Fixpoint p_or (fuel : nat) (ts : list xtok) : option (xpred * list xtok) :=
  match fuel with
  | O => None
  | S f =>
      match p_and f ts with
      | Some (p, XName o :: r) =>
          if streq o (u "or") then option_map (fun x => (POr p (fst x), snd x)) (p_or f r) else None
      | x => x
      end
  end
with p_and (fuel : nat) (ts : list xtok) : option (xpred * list xtok) :=
  match fuel with
  | O => None
  | S f =>
      match p_atom f ts with
      | Some (p, XName o :: r) =>
          if streq o (u "and") then option_map (fun x => (PAnd p (fst x), snd x)) (p_and f r)
          else Some (p, XName o :: r)
      | x => x
      end
  end
with p_atom (fuel : nat) (ts : list xtok) : option (xpred * list xtok) :=
  match fuel with
  | O => None
  | S f =>
      match ts with
      | XAt :: XName n :: XEq :: XLit v :: r => Some (PAttrIs n v, r)
      | XAt :: XName n :: r => Some (PAttr n, r)
      | XName n :: XLpar :: r =>
          if streq n (u "not")
          then match p_or f r with Some (p, XRpar :: r') => Some (PNot p, r') | _ => None end
          else None
      | XLpar :: r => match p_or f r with Some (p, XRpar :: r') => Some (p, r') | _ => None end
      | _ => option_map (fun x => (PHas (fst (fst x)) (snd (fst x)), snd x)) (p_node ts)
      end
  end.
Fixpoint p_preds (fuel : nat) (ts : list xtok) : option (list xpred * list xtok) :=
  match fuel, ts with
  | S f, XLbr :: r =>
      match p_or f r with
      | Some (p, XRbr :: r') => option_map (fun x => (p :: fst x, snd x)) (p_preds f r')
      | _ => None
      end
  | _, XLbr :: _ => None
  | _, _ => Some ([], ts)
  end.
Definition p_step (fuel : nat) (ts : list xtok) : option (xstep * list xtok) :=
  match ts with
  | XDot :: r => Some (mkStep ASelf TNode [], r)
  | _ =>
      match p_node ts with
      | Some (a, t, r) => option_map (fun x => (mkStep a t (fst x), snd x)) (p_preds fuel r)
      | None => None
      end
  end.
Fixpoint p_steps (fuel : nat) (ts : list xtok) : option (list xstep * list xtok) :=
  match fuel with
  | O => None
  | S f =>
      match p_step f ts with
      | Some (s, XSlash :: r) => option_map (fun x => (s :: fst x, snd x)) (p_steps f r)
      | Some (s, XSlashes :: r) => option_map (fun x => (s :: slashes :: fst x, snd x)) (p_steps f r)
      | Some (s, r) => Some ([s], r)
      | None => None
      end
  end.
Definition with_steps (g : list xstep -> xexpr) (r : option (list xstep * list xtok)) : option (xexpr * list xtok) :=
  option_map (fun x => (g (fst x), snd x)) r.
Fixpoint p_union (fuel : nat) (ts : list xtok) : option (xexpr * list xtok) :=
  match fuel with
  | O => None
  | S f =>
      match p_path f ts with
      | Some (e, XBar :: r) => option_map (fun x => (EUnion e (fst x), snd x)) (p_union f r)
      | x => x
      end
  end
with p_path (fuel : nat) (ts : list xtok) : option (xexpr * list xtok) :=
  match fuel with
  | O => None
  | S f =>
      match ts with
      | XLpar :: r =>
          match p_union f r with
          | Some (e, XRpar :: XSlash :: r') => with_steps (EFrom e) (p_steps f r')
          | Some (e, XRpar :: XSlashes :: r') => with_steps (fun l => EFrom e (slashes :: l)) (p_steps f r')
          | Some (e, XRpar :: r') => Some (e, r')
          | _ => None
          end
      | XSlash :: r => with_steps (ELoc true) (p_steps f r)
      | XSlashes :: r => with_steps (fun l => ELoc true (slashes :: l)) (p_steps f r)
      | _ => with_steps (ELoc false) (p_steps f ts)
      end
  end.
Definition parse_xpath (s : str) : option xexpr :=
  match lex LStart s with
  | Some ts => match p_union (2 * length ts + 4) ts with Some (e, []) => Some e | _ => None end
  | None => None
  end.

(* ------------------------------------------------------------------ *)
(** ** Evaluation *)
Definition xchildren (x : xml) : list xml := match x with Elem _ _ _ cs _ => cs | Misc _ => [] end.
Fixpoint xml_at (x : xml) (p : npath) : option xml :=
  match p with
  | [] => Some x
  | i :: p' => match nth_error (xchildren x) i with Some c => xml_at c p' | None => None end
  end.
(** the tree as used by ModelTarget and ModelTargets (comments: only the tail) *)
Fixpoint erase (x : xml) : node :=
  match x with Elem _ _ text cs tail => El text (map erase cs) tail | Misc tail => Cm [] tail end.
(** all nodes in document order *)
Definition all_paths (x : xml) : list npath := paths_from [] (erase x).

Section Eval.
Variable root : xml.
(** a node of the document, or ([None]) the document itself, whose child is the root element *)
Definition cnode := option npath.
Definition ceq (a b : cnode) : bool :=
  match a, b with None, None => true | Some p, Some q => peq p q | _, _ => false end.
Definition cmem (a : cnode) (l : list cnode) : bool := existsb (ceq a) l.
Definition elem_at (c : cnode) : option (str * list (str * str)) :=
  match c with
  | Some p => match xml_at root p with Some (Elem n a _ _ _) => Some (n, a) | _ => None end
  | None => None
  end.
(** proper prefixes *)
Fixpoint prefixes (p : npath) : list npath :=
  match p with [] => [] | i :: p' => [] :: map (cons i) (prefixes p') end.
Definition axis_nodes (a : xaxis) (c : cnode) : list cnode :=
  match a, c with
  | AChild, None => [Some []]
  | AChild, Some p =>
      map (fun i => Some (p ++ [i])) (seq 0 (match xml_at root p with Some x => length (xchildren x) | None => 0 end))
  | ASelf, _ => [c]
  | AAncestor, None => []
  | AAncestor, Some p => None :: map Some (prefixes p)
  | ADescend, None => None :: map Some (all_paths root)
  | ADescend, Some p => match xml_at root p with Some x => map (fun q => Some (p ++ q)) (all_paths x) | None => [] end
  end.
Definition test_holds (t : xtest) (c : cnode) : bool :=
  match t with
  | TNode => true
  | TElement => match elem_at c with Some _ => true | None => false end
  | TName n => match elem_at c with Some (m, _) => streq m n | None => false end
  end.
Fixpoint pred_holds (p : xpred) (c : cnode) : bool :=
  match p with
  | PAttr n => match elem_at c with Some (_, a) => match dict_get n a with Some _ => true | None => false end | None => false end
  | PAttrIs n v => match elem_at c with Some (_, a) => ostreq (dict_get n a) (Some v) | None => false end
  | PHas a t => existsb (test_holds t) (axis_nodes a c)
  | PNot p => negb (pred_holds p c)
  | PAnd p q => pred_holds p c && pred_holds q c
  | POr p q => pred_holds p c || pred_holds q c
  end.
Definition step_nodes (s : xstep) (c : cnode) : list cnode :=
  filter (fun d => test_holds (st_test s) d && forallb (fun p => pred_holds p d) (st_preds s)) (axis_nodes (st_axis s) c).
Fixpoint steps_nodes (ss : list xstep) (c : cnode) : list cnode :=
  match ss with [] => [c] | s :: ss' => flat_map (steps_nodes ss') (step_nodes s c) end.
Fixpoint expr_nodes (e : xexpr) (c : cnode) : list cnode :=
  match e with
  | ELoc absolute ss => steps_nodes ss (if absolute then None else c)
  | EFrom e ss => flat_map (steps_nodes ss) (expr_nodes e c)
  | EUnion e f => expr_nodes e c ++ expr_nodes f c
  end.
(** a set of nodes, in document order *)
Definition eval_xpath (e : xexpr) (p : npath) : list npath :=
  filter (fun q => cmem (Some q) (expr_nodes e (Some p))) (all_paths root).
(** [element.xpath(s)], where [p] is the path of the element *)
Definition xpath_at (p : npath) (s : str) : res (list npath) :=
  match parse_xpath s with Some e => Ok (eval_xpath e p) | None => Err RuntimeError end.
End Eval.
