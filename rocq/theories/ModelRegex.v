(** Model of the regular expressions that the code gives to Python's [re] (3.7 or later): how
    a pattern is read, how it is matched (backtracking), searched and replaced.
    [re] is a library: the model says what is assumed of it.  Left out (a pattern with them is
    [Unsupported]): references to groups, named groups, look-around, flags other than a first
    [(?i)], octal and hexadecimal escapes, [\Z].
    Simplified: an iteration beyond the required ones has to read something (the real engine
    allows one that is empty, which changes nothing but groups inside of it). *)
From Verif Require Import Base.
Open Scope nat_scope.

(* ------------------------------------------------------------------ *)
(** ** Expressions *)
Inductive kind := KDigit | KSpace | KWord.
Inductive item := ILit (c : N) | IRange (a b : N) | IKind (k : kind) (neg : bool).
Inductive re :=
| REmpty
| RChar (neg : bool) (items : list item)
| RStart | REnd | RBound (neg : bool)
| RSeq (a b : re) | RAlt (a b : re)
| RGroup (n : nat) (a : re)
| RRep (greedy : bool) (lo : nat) (hi : option nat) (a : re).
Definition RLit (c : N) : re := RChar false [ILit c].
Definition RAny : re := RChar true [ILit 10%N].
Definition RKind (k : kind) (neg : bool) : re := RChar false [IKind k neg].

(* ------------------------------------------------------------------ *)
(** ** Matching *)
Section Engine.
(** white space, word characters and digits; [fold] makes letters that differ in case only the same *)
Variables sp wd dg : N -> bool.
Variable fold : N -> N.

Definition kind_ok (k : kind) (c : N) : bool := match k with KDigit => dg c | KSpace => sp c | KWord => wd c end.
(** [ic]: ignoring the case *)
Definition item_ok (ic : bool) (c : N) (i : item) : bool :=
  match i with
  | ILit a => if ic then N.eqb (fold c) (fold a) else N.eqb c a
  | IRange a b => (N.leb a c && N.leb c b) || (ic && N.leb a (fold c) && N.leb (fold c) b)
  | IKind k neg => xorb neg (kind_ok k c)
  end.
Definition char_ok (ic neg : bool) (items : list item) (c : N) : bool := xorb neg (existsb (item_ok ic c) items).

(** groups: number, start and end; the last one that was read is first *)
Definition groups := list (nat * (nat * nat)).
(** where the matching is: the position, the character before it, what follows *)
Record place := mkPlace { pl_pos : nat; pl_prev : option N; pl_rest : str; pl_groups : groups }.

(** [$]: at the end, or before a last newline *)
Definition at_end (s : str) : bool := match s with [] => true | [x] => N.eqb x 10 | _ => false end.
Definition is_word (c : option N) : bool := match c with Some x => wd x | None => false end.
Definition at_boundary (x : place) : bool := xorb (is_word (pl_prev x)) (is_word (hd_error (pl_rest x))).

Definition body := place -> (place -> option place) -> option place.
(** the iterations beyond the required ones; [fuel]: each of them reads something *)
Fixpoint more (greedy : bool) (b : body) (fuel : nat) (hi : option nat) (x : place) (k : place -> option place) : option place :=
  let again (_ : unit) :=
    match fuel, hi with
    | O, _ | _, Some O => None
    | S f, _ => b x (fun y => if pl_pos y =? pl_pos x then None else more greedy b f (option_map pred hi) y k)
    end in
  if greedy then match again tt with Some z => Some z | None => k x end
  else match k x with Some z => Some z | None => again tt end.
Fixpoint repeat_body (greedy : bool) (b : body) (lo : nat) (hi : option nat) (x : place) (k : place -> option place) : option place :=
  match lo with
  | O => more greedy b (length (pl_rest x)) hi x k
  | S l => b x (fun y => repeat_body greedy b l (option_map pred hi) y k)
  end.

(** the first way to match [r] at [x] such that the rest, [k], succeeds as well *)
Fixpoint bt (ic : bool) (r : re) (x : place) (k : place -> option place) : option place :=
  match r with
  | REmpty => k x
  | RChar neg items =>
      match pl_rest x with
      | c :: s => if char_ok ic neg items c then k (mkPlace (S (pl_pos x)) (Some c) s (pl_groups x)) else None
      | [] => None
      end
  | RStart => if pl_pos x =? 0 then k x else None
  | REnd => if at_end (pl_rest x) then k x else None
  | RBound neg => if xorb neg (at_boundary x) then k x else None
  | RSeq a b => bt ic a x (fun y => bt ic b y k)
  | RAlt a b => match bt ic a x k with Some z => Some z | None => bt ic b x k end
  | RGroup n a =>
      bt ic a x (fun y => k (mkPlace (pl_pos y) (pl_prev y) (pl_rest y) ((n, (pl_pos x, pl_pos y)) :: pl_groups y)))
  | RRep greedy lo hi a => repeat_body greedy (bt ic a) lo hi x k
  end.

(** a compiled pattern: ignoring the case, the number of groups, the expression *)
Record pattern := mkPattern { pt_ic : bool; pt_groups : nat; pt_re : re }.
(** a match: its start, its end and the groups *)
Record found := mkFound { fo_start : nat; fo_end : nat; fo_groups : groups }.
(** [m.start(n)], [m.end(n)]: -1 if the group is not in the match *)
Fixpoint group_in (n : nat) (g : groups) : option (nat * nat) :=
  match g with [] => None | (k, se) :: g' => if n =? k then Some se else group_in n g' end.
Definition group (n : nat) (m : found) : option (nat * nat) :=
  if n =? 0 then Some (fo_start m, fo_end m) else group_in n (fo_groups m).

(** [must]: the match may not be empty *)
Definition match_here (p : pattern) (must : bool) (pos : nat) (prev : option N) (s : str) : option found :=
  match bt (pt_ic p) (pt_re p) (mkPlace pos prev s [])
          (fun y => if must && (pl_pos y =? pos) then None else Some y) with
  | Some y => Some (mkFound pos (pl_pos y) (pl_groups y))
  | None => None
  end.
Fixpoint search_from (p : pattern) (must : bool) (pos : nat) (prev : option N) (s : str) : option found :=
  match match_here p must pos prev s with
  | Some m => Some m
  | None => match s with [] => None | c :: s' => search_from p false (S pos) (Some c) s' end
  end.
(** [re.match], [re.search] *)
Definition re_match (p : pattern) (s : str) : option found := match_here p false 0 None s.
Definition re_search (p : pattern) (s : str) : option found := search_from p false 0 None s.

(** [finditer]: the next search starts at the end of the match; a match that was empty is not
    found again *)
Definition last_char (prev : option N) (s : str) : option N := match rev s with c :: _ => Some c | [] => prev end.
Fixpoint find_all (fuel : nat) (p : pattern) (must : bool) (pos : nat) (prev : option N) (s : str) : list found :=
  match fuel with
  | O => []
  | S f =>
      match search_from p must pos prev s with
      | None => []
      | Some m =>
          let n := fo_end m - pos in
          m :: find_all f p (fo_start m =? fo_end m) (fo_end m) (last_char prev (firstn n s)) (skipn n s)
      end
  end.
Definition re_finditer (p : pattern) (s : str) : list found := find_all (2 * length s + 2) p false 0 None s.
End Engine.

(* ------------------------------------------------------------------ *)
(** ** Reading a pattern *)
(** [BadPattern]: [re.error] *)
Inductive parsed (A : Type) := Parsed (a : A) | BadPattern | Unsupported.
Arguments Parsed {A} a.
Arguments BadPattern {A}.
Arguments Unsupported {A}.
Definition pbind {A B} (x : parsed A) (f : A -> parsed B) : parsed B :=
  match x with Parsed a => f a | BadPattern => BadPattern | Unsupported => Unsupported end.
Notation "'pdo' p <- x ;; e" := (pbind x (fun p => e)) (at level 200, p pattern, x at level 100, e at level 200).

Definition ascii_letter (c : N) : bool := (N.leb 65 c && N.leb c 90) || (N.leb 97 c && N.leb c 122).
Definition ascii_number (c : N) : bool := N.leb 48 c && N.leb c 57.
(** [\n], [\t], [\r], [\f], [\v], [\a] *)
Definition control (c : N) : option N :=
  if N.eqb c 110 then Some 10%N else if N.eqb c 116 then Some 9%N else if N.eqb c 114 then Some 13%N
  else if N.eqb c 102 then Some 12%N else if N.eqb c 118 then Some 11%N else if N.eqb c 97 then Some 7%N else None.
(** [\d], [\D], [\s], [\S], [\w], [\W] *)
Definition kind_of (c : N) : option (kind * bool) :=
  if N.eqb c 100 then Some (KDigit, false) else if N.eqb c 68 then Some (KDigit, true)
  else if N.eqb c 115 then Some (KSpace, false) else if N.eqb c 83 then Some (KSpace, true)
  else if N.eqb c 119 then Some (KWord, false) else if N.eqb c 87 then Some (KWord, true) else None.
(** [\x], [\u], [\U], [\N], [\Z] and digits *)
Definition unsupported_escape (c : N) : bool :=
  N.eqb c 120 || N.eqb c 117 || N.eqb c 85 || N.eqb c 78 || N.eqb c 90 || ascii_number c.
(** after the backslash, outside and inside of a set *)
Definition parse_escape (c : N) : parsed re :=
  match kind_of c, control c with
  | Some (k, neg), _ => Parsed (RKind k neg)
  | None, Some x => Parsed (RLit x)
  | None, None =>
      if N.eqb c 98 then Parsed (RBound false) else if N.eqb c 66 then Parsed (RBound true)
      else if N.eqb c 65 then Parsed RStart
      else if unsupported_escape c then Unsupported
      else if ascii_letter c then BadPattern else Parsed (RLit c)
  end.
Definition parse_set_escape (c : N) : parsed item :=
  match kind_of c, control c with
  | Some (k, neg), _ => Parsed (IKind k neg)
  | None, Some x => Parsed (ILit x)
  | None, None =>
      if N.eqb c 98 then Parsed (ILit 8%N)
      else if unsupported_escape c then Unsupported
      else if ascii_letter c then BadPattern else Parsed (ILit c)
  end.
(** one member of a set, up to a range; [s] is not empty *)
Definition parse_member (s : str) : parsed (item * str) :=
  match s with
  | 92%N :: c :: r => pdo i <- parse_set_escape c ;; Parsed (i, r)
  | [92%N] | [] => BadPattern
  | c :: r => Parsed (ILit c, r)
  end.
(** up to the closing bracket; [first]: a bracket stands for itself *)
Fixpoint parse_members (fuel : nat) (first : bool) (s : str) : parsed (list item * str) :=
  match fuel with
  | O => Unsupported
  | S f =>
      match s with
      | [] => BadPattern
      | c :: r =>
          if N.eqb c 93 && negb first then Parsed ([], r) else
          pdo (i, r1) <- parse_member s ;;
          match r1 with
          | 45%N :: ((d :: _) as r2) =>
              if N.eqb d 93 then pdo (l, r3) <- parse_members f false r1 ;; Parsed (i :: l, r3)
              else
                pdo (j, r3) <- parse_member r2 ;;
                match i, j with
                | ILit a, ILit b =>
                    if N.leb a b then pdo (l, r4) <- parse_members f false r3 ;; Parsed (IRange a b :: l, r4) else BadPattern
                | _, _ => BadPattern
                end
          | _ => pdo (l, r3) <- parse_members f false r1 ;; Parsed (i :: l, r3)
          end
      end
  end.
(** after the opening bracket *)
Definition parse_set (s : str) : parsed (re * str) :=
  let (neg, s) := match s with 94%N :: r => (true, r) | _ => (false, s) end in
  pdo (l, r) <- parse_members (S (length s)) true s ;; Parsed (RChar neg l, r).

Fixpoint number_of (acc : option nat) (s : str) : option nat * str :=
  match s with
  | c :: r => if ascii_number c then number_of (Some (10 * match acc with Some n => n | None => 0 end + N.to_nat (c - 48))) r else (acc, s)
  | [] => (acc, [])
  end.
(** the bounds of a repetition; [None]: there is none here *)
Definition parse_bounds (s : str) : option (nat * option nat * str) :=
  match s with
  | 42%N :: r => Some (0, None, r)
  | 43%N :: r => Some (1, None, r)
  | 63%N :: r => Some (0, Some 1, r)
  | 123%N :: 125%N :: _ => None
  | 123%N :: r =>
      let (lo, r1) := number_of None r in
      let low := match lo with Some n => n | None => 0 end in
      match r1 with
      | 44%N :: r2 =>
          let (hi, r3) := number_of None r2 in
          match r3 with 125%N :: r4 => Some (low, hi, r4) | _ => None end
      | 125%N :: r2 => Some (low, lo, r2)
      | _ => None
      end
  | _ => None
  end.
Definition repeatable (a : re) : bool := match a with RStart | REnd | RBound _ => false | _ => true end.
(** the repetition of [a], if there is one *)
Definition parse_repeat (a : re) (s : str) : parsed (re * str) :=
  match parse_bounds s with
  | None => Parsed (a, s)
  | Some (lo, hi, r) =>
      if negb (repeatable a) || match hi with Some h => h <? lo | None => false end then BadPattern else
      let (greedy, r) := match r with 63%N :: r' => (false, r') | _ => (true, r) end in
      match parse_bounds r with Some _ => BadPattern | None => Parsed (RRep greedy lo hi a, r) end
  end.

(** [n]: the number of groups so far *)
Fixpoint parse_alt (fuel : nat) (n : nat) (s : str) : parsed (re * nat * str) :=
  match fuel with
  | O => Unsupported
  | S f =>
      pdo (a, n1, r) <- parse_seq f n s ;;
      match r with
      | 124%N :: r1 => pdo (b, n2, r2) <- parse_alt f n1 r1 ;; Parsed (RAlt a b, n2, r2)
      | _ => Parsed (a, n1, r)
      end
  end
with parse_seq (fuel : nat) (n : nat) (s : str) : parsed (re * nat * str) :=
  match fuel with
  | O => Unsupported
  | S f =>
      match s with
      | [] => Parsed (REmpty, n, s)
      | c :: _ =>
          if N.eqb c 124 || N.eqb c 41 then Parsed (REmpty, n, s) else
          pdo (a, n1, r) <- parse_atom f n s ;;
          pdo (a', r1) <- parse_repeat a r ;;
          pdo (b, n2, r2) <- parse_seq f n1 r1 ;;
          Parsed (RSeq a' b, n2, r2)
      end
  end
with parse_atom (fuel : nat) (n : nat) (s : str) : parsed (re * nat * str) :=
  match fuel with
  | O => Unsupported
  | S f =>
      match s with
      | [] => BadPattern
      | c :: r =>
          if N.eqb c 40 then
            match r with
            | 63%N :: 58%N :: r1 =>
                pdo (a, n1, r2) <- parse_alt f n r1 ;;
                match r2 with 41%N :: r3 => Parsed (a, n1, r3) | _ => BadPattern end
            | 63%N :: _ => Unsupported
            | _ =>
                pdo (a, n1, r2) <- parse_alt f (S n) r ;;
                match r2 with 41%N :: r3 => Parsed (RGroup (S n) a, n1, r3) | _ => BadPattern end
            end
          else if N.eqb c 91 then pdo (a, r1) <- parse_set r ;; Parsed (a, n, r1)
          else if N.eqb c 46 then Parsed (RAny, n, r)
          else if N.eqb c 94 then Parsed (RStart, n, r)
          else if N.eqb c 36 then Parsed (REnd, n, r)
          else if N.eqb c 92 then match r with d :: r1 => pdo a <- parse_escape d ;; Parsed (a, n, r1) | [] => BadPattern end
          else match parse_bounds s with Some _ => BadPattern | None => Parsed (RLit c, n, r) end
      end
  end.

(** [re.compile] *)
Definition re_compile (s : str) : parsed pattern :=
  let (ic, s) := if starts_with (u "(?i)") s then (true, skipn 4 s) else (false, s) in
  pdo (a, n, r) <- parse_alt (3 * length s + 3) 0 s ;;
  match r with [] => Parsed (mkPattern ic n a) | _ => BadPattern end.

(** [re.escape] *)
Definition special (c : N) : bool := existsb (N.eqb c) (u "()[]{}?*+-|^$\.&~# " ++ [9; 10; 13; 11; 12]%N).
Definition re_escape (s : str) : str := flat_map (fun c => if special c then [92%N; c] else [c]) s.

(* ------------------------------------------------------------------ *)
(** ** Replacing *)
Inductive part := PText (s : str) | PGroup (n : nat).
(** the template of [re.sub]; [n]: the number of groups *)
Fixpoint parse_template (fuel n : nat) (s : str) : parsed (list part) :=
  match fuel with
  | O => Unsupported
  | S f =>
      match s with
      | [] => Parsed []
      | 92%N :: [] => BadPattern
      | 92%N :: c :: r =>
          if N.eqb c 48 then Unsupported
          else if ascii_number c then
            let (k, r1) := match r with
                           | d :: r' => if ascii_number d then (N.to_nat (c - 48) * 10 + N.to_nat (d - 48), r') else (N.to_nat (c - 48), r)
                           | [] => (N.to_nat (c - 48), r)
                           end in
            match r1 with
            | e :: _ => if ascii_number e && negb (length r1 =? length r) then Unsupported
                        else if k <=? n then pdo l <- parse_template f n r1 ;; Parsed (PGroup k :: l) else BadPattern
            | [] => if k <=? n then Parsed [PGroup k] else BadPattern
            end
          else if N.eqb c 103 then Unsupported
          else if N.eqb c 92 then pdo l <- parse_template f n r ;; Parsed (PText [92%N] :: l)
          else match control c with
               | Some x => pdo l <- parse_template f n r ;; Parsed (PText [x] :: l)
               | None => if ascii_letter c then BadPattern else pdo l <- parse_template f n r ;; Parsed (PText [92%N; c] :: l)
               end
      | c :: r => pdo l <- parse_template f n r ;; Parsed (PText [c] :: l)
      end
  end.

Section Sub.
Variables sp wd dg : N -> bool.
Variable fold : N -> N.
Definition group_text (s : str) (m : found) (n : nat) : str :=
  match group n m with Some (i, j) => firstn (j - i) (skipn i s) | None => [] end.
Definition expand (s : str) (m : found) (t : list part) : str :=
  flat_map (fun p => match p with PText x => x | PGroup n => group_text s m n end) t.
(** what is between the matches and the expanded templates; [pos]: the end of the last match *)
Fixpoint replace_found (s : str) (t : list part) (pos : nat) (l : list found) : str :=
  match l with
  | [] => skipn pos s
  | m :: l' => firstn (fo_start m - pos) (skipn pos s) ++ expand s m t ++ replace_found s t (fo_end m) l'
  end.
(** [re.sub(pattern, template, s)] *)
Definition re_sub (pat template s : str) : parsed str :=
  pdo p <- re_compile pat ;;
  pdo t <- parse_template (S (length template)) (pt_groups p) template ;;
  Parsed (replace_found s t 0 (re_finditer sp wd dg fold p s)).
End Sub.
