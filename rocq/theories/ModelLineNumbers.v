(** Model of annotation/line_number_annotator.py. *)
From Verif Require Import Base ModelTags ModelTei ModelTeiDoc ModelClusters.
Open Scope Z_scope.

Section LineNumbers.
Variable sp : N -> bool.
(** [int(text)]; [None] for ValueError.  [get_text] is the stripped text; [int]
    ignores white space around the number, stripping is part of this function. *)
Variable parse_int : str -> option Z.

(** L28-34: [iter_first_tokens_of_lines]; a token is given by its position (line and
    index in the line) and its text *)
Fixpoint first_word (j : nat) (l : line) : option (nat * tok) :=
  match l with
  | [] => None
  | t :: l' => if is_space sp t then first_word (S j) l' else Some (j, t)
  end.
Fixpoint first_tokens (i : nat) (d : doc) : list (nat * nat * str) :=
  match d with
  | [] => []
  | l :: d' => match first_word 0 l with Some (j, t) => [((i, j), tx t)] | None => [] end ++ first_tokens (S i) d'
  end.
(** L37-46: [parse_line_number], [is_line_number] *)
Definition line_number (text : str) : option Z :=
  match parse_int text with Some n => if 0 <? n then Some n else None | None => None end.
(** L54-58: token, number, 1 + index *)
Record item := mkItem { it_tok : nat * nat; it_num : Z; it_pos : Z }.
Fixpoint items (index : Z) (ts : list (nat * nat * str)) : list item :=
  match ts with
  | [] => []
  | (ij, text) :: ts' =>
      match line_number text with Some n => [mkItem ij n (1 + index)] | None => [] end ++ items (index + 1) ts'
  end.
Definition item_leb (a b : item) : bool :=
  (it_num a <? it_num b) || ((it_num a =? it_num b) && (it_pos a <=? it_pos b)).
(** L65-79: sequences; [done] are the finished ones, [cur] the last one, reversed, with
    its last item [prev] *)
Definition seq_step (gap : Z) (st : list (list item) * list item * item) (x : item)
  : list (list item) * list item * item :=
  let '(done, cur, prev) := st in
  let expected := it_num prev + 1 in
  if (it_pos x <? it_pos prev) || (it_num x =? it_num prev) then st
  else if (expected <=? it_num x) && (it_num x <=? expected + gap) then (done, prev :: cur, x)
  else (done ++ [rev (prev :: cur)], [], x).
Definition sequences (gap : Z) (first : item) (rest : list item) : list (list item) :=
  let '(done, cur, prev) := fold_left (seq_step gap) rest ([], [], first) in
  done ++ [rev (prev :: cur)].
(** L49-87: [get_line_number_candidates] *)
Definition candidate_items (ts : list (nat * nat * str)) (min gap : Z) : list item :=
  match sort item_leb (items 0 ts) with
  | [] => []
  | first :: rest => concat (filter (fun s => min <=? Z.of_nat (length s)) (sequences gap first rest))
  end.
Definition candidates ts min gap : list (nat * nat) := map it_tok (candidate_items ts min gap).

(** L90-117: [iter_find_line_number_tokens_in_lines].  [below n m]: the float [n / m]
    is less than the threshold; a threshold that is a text cannot be compared. *)
Inductive threshold := TNumber (below : Z -> Z -> bool) | TText.
Record config := mkConfig { c_tag : str; c_min : Z; c_gap : Z; c_threshold : threshold }.
Definition find_line_numbers (c : config) (d : doc) : res (list (nat * nat)) :=
  let first := first_tokens 0 d in
  let cands := candidates first (c_min c) (c_gap c) in
  let n := Z.of_nat (length cands) in
  if n <? c_min c then Ok []
  else if Z.of_nat (length first) =? 0 then Err ZeroDivisionError
  else match c_threshold c with
       | TText => Err TypeError
       | TNumber below => if below n (Z.of_nat (length first)) then Ok [] else Ok cands
       end.
(** L156-168: [annotate]; there is one page *)
Definition annotate_line_numbers (c : config) (d : doc) : res doc :=
  do ts <- find_line_numbers c d ;;
  Ok (fold_left (fun d ij => set_tag sp LMain ij (Some (c_tag c)) d) ts d).
End LineNumbers.

(** auto_annotate_utils.py L226-245, L592-602: the options and the configuration made
    from them.  [--min-line-number-ratio] has type str; its default is a number. *)
Record cli := mkCli { o_min : Z; o_gap : Z; o_ratio : option str }.
Definition cli_config (default_below : Z -> Z -> bool) (o : cli) : config :=
  mkConfig (u "line_no") (o_min o) 10
    (match o_ratio o with Some _ => TText | None => TNumber default_below end).
