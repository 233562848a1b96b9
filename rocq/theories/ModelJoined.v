(** Model of the joined texts of annotation/matching_utils.py L105-332 and of the
    sequence wrapper of core/annotation/matching_annotator.py L81-121.
    Index ranges are pairs of integers. *)
From Verif Require Import Base.
Open Scope Z_scope.

Definition zlen {A} (l : list A) : Z := Z.of_nat (length l).
Definition irange := (Z * Z)%type.

(** Python [sep.join(l)] *)
Fixpoint join_str (sep : str) (l : list str) : str :=
  match l with
  | [] => []
  | x :: l' => match l' with [] => x | _ => x ++ sep ++ join_str sep l' end
  end.

(** L124-127: missing white space replaced by the separator *)
Definition default_ws (sep : str) (w : ostr) : str := match w with Some s => s | None => sep end.
(** L128: [whitespace_list[-1] = ''] *)
Fixpoint clear_last (l : list str) : list str :=
  match l with
  | [] => []
  | x :: l' => match l' with [] => [[]] | _ => x :: clear_last l' end
  end.
(** L129: [''.join(iter_flatten(zip(a, b)))] *)
Fixpoint zip_concat (a b : list str) : str :=
  match a, b with x :: a', y :: b' => x ++ y ++ zip_concat a' b' | _, _ => [] end.

(** L135-141 without white space list; [sep_pad] is [item_sep_pad_len] *)
Fixpoint ranges_sep (sep_pad start : Z) (l : list str) : list irange :=
  match l with
  | [] => []
  | x :: l' => let e := start + zlen x in (start, e) :: ranges_sep sep_pad (e + sep_pad) l'
  end.
(** L135-141 with white space list; [whitespace_list[index]] may not exist *)
Fixpoint ranges_ws (pad_len start : Z) (l w : list str) : res (list irange) :=
  match l, w with
  | [], _ => Ok []
  | _ :: _, [] => Err IndexError
  | x :: l', y :: w' =>
      let e := start + zlen x in
      do r <- ranges_ws pad_len (e + zlen y + 2 * pad_len) l' w' ;; Ok ((start, e) :: r)
  end.

(** L116-142: [join_with_index_ranges]; [ws] is [] for [whitespace_list=None] *)
Definition join_with_index_ranges (items : list str) (sep pad : str) (ws : list ostr)
    : res (str * list irange) :=
  let item_strs := map (fun s => pad ++ s ++ pad) items in
  match ws with
  | _ :: _ =>
      let w := clear_last (map (default_ws sep) ws) in
      do r <- ranges_ws (zlen pad) (zlen pad) item_strs w ;; Ok (zip_concat item_strs w, r)
  | [] => Ok (join_str sep item_strs, ranges_sep (zlen sep + 2 * zlen pad) (zlen pad) item_strs)
  end.

(** L158-164: [JoinedText.end_index] *)
Definition end_index (rs : list irange) : Z := snd (last rs (0, 0)).

(** L166-172: [iter_item_indices_and_index_range_between] *)
Fixpoint between_from (i : nat) (rs : list irange) (q : irange) : list (nat * irange) :=
  match rs with
  | [] => []
  | (s, e) :: rs' =>
      if s >=? snd q then []
      else if e >? fst q then (i, (s, e)) :: between_from (S i) rs' q
      else between_from (S i) rs' q
  end.
Definition indices_between (rs : list irange) (q : irange) : list (nat * irange) := between_from 0 rs q.

(** L174-180: [iter_items_and_index_range_between] ([self._items[index]]) *)
Definition items_between {A} (items : list A) (rs : list irange) (q : irange) : list (A * irange) :=
  flat_map (fun ir => match nth_error items (fst ir) with Some a => [(a, snd ir)] | None => [] end)
    (indices_between rs q).

(** L189-208: a [SequenceWrapper]: its tokens with their (filtered) text and
    white space ([get_token_whitespace], L109-113, is never None) *)
Record wtoken (A : Type) := mkW { w_tok : A; w_str : str; w_ws : str }.
Arguments mkW {A} w_tok w_str w_ws.
Arguments w_tok {A} w. Arguments w_str {A} w. Arguments w_ws {A} w.
Definition seqw (A : Type) := list (wtoken A).

Section Seq.
Context {A : Type}.
(** L201-208: text and ranges.  (The IndexError cannot happen: both lists have
    one entry per token, see [seq_joined_ok].) *)
Definition seq_joined (q : seqw A) : res (str * list irange) :=
  join_with_index_ranges (map w_str q) (u " ") [] (map (fun t => Some (w_ws t)) q).
Definition seq_text (q : seqw A) : str := match seq_joined q with Ok (t, _) => t | Err _ => [] end.
Definition seq_ranges (q : seqw A) : list irange := match seq_joined q with Ok (_, r) => r | Err _ => [] end.
(** L210-212: [tokens_between] *)
Definition tokens_between (q : seqw A) (r : irange) : list A :=
  map (fun p => w_tok (fst p)) (items_between q (seq_ranges q) r).

(** L295-332: [SequencesText] *)
Definition seqs_joined (sep pad : str) (qs : list (seqw A)) : str * list irange :=
  match join_with_index_ranges (map seq_text qs) sep pad [] with Ok p => p | Err _ => ([], []) end.
Definition seqs_text (sep pad : str) (qs : list (seqw A)) : str := fst (seqs_joined sep pad qs).
Definition seqs_end_index (sep pad : str) (qs : list (seqw A)) : Z := end_index (snd (seqs_joined sep pad qs)).
(** L303-308 *)
Definition sequences_between (sep pad : str) (qs : list (seqw A)) (r : irange) : list (seqw A) :=
  map fst (items_between qs (snd (seqs_joined sep pad qs)) r).
(** L310-316 *)
Definition all_tokens_between (sep pad : str) (qs : list (seqw A)) (r : irange) : list A :=
  flat_map (fun p => tokens_between (fst p) (fst r - fst (snd p), snd r - fst (snd p)))
    (items_between qs (snd (seqs_joined sep pad qs)) r).

(** core/annotation/matching_annotator.py L82-89 and L91-100: the wrapper used by
    the complex matcher ([' '.join], no white space list) *)
Definition core_text (q : seqw A) : str := join_str (u " ") (map w_str q).
Fixpoint core_tokens_go (i : Z) (q : seqw A) (r : irange) : list A :=
  match q with
  | [] => []
  | t :: q' =>
      if i >=? snd r then []
      else
        let e := i + zlen (w_str t) in
        if e >? fst r then w_tok t :: core_tokens_go (e + 1) q' r else core_tokens_go (e + 1) q' r
  end.
Definition core_tokens_between (q : seqw A) (r : irange) : list A := core_tokens_go 0 q r.

(** L217-233 (and core/annotation/matching_annotator.py L105-121):
    [untagged_sub_sequences].  [tagged] is the truth value of [get_tag]; a sub
    sequence is represented by its tokens. *)
Fixpoint runs_go {B} (tagged : B -> bool) (cur : list B) (l : list B) : list (list B) :=
  match l with
  | [] => match cur with [] => [] | _ => [cur] end
  | t :: l' =>
      if negb (tagged t) then runs_go tagged (cur ++ [t]) l'
      else match cur with [] => runs_go tagged cur l' | _ => cur :: runs_go tagged [] l' end
  end.
Definition untagged_sub_sequences {B} (tagged : B -> bool) (l : list B) : list (list B) :=
  let n := length (filter tagged l) in
  if Nat.eqb n 0 then [l]
  else if Nat.eqb n (length l) then []
  else runs_go tagged [] l.

(** L264-273: [PendingSequences.iter_pending_sequences]; a falsy limit means no
    limit *)
Definition pending_sequences {B} (tagged : B -> bool) (limit : nat) (seqs : list (list B)) : list (list B) :=
  let all := flat_map (untagged_sub_sequences tagged) seqs in
  match limit with O => all | S _ => firstn limit all end.
End Seq.
