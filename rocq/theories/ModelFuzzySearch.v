(** Model of the search functions of utils/fuzzy.py L75-101 and L198-645.
    [lsm] is sciencebeam_alignment's [LocalSequenceMatcher] (its matching blocks),
    [words] difflib's [SequenceMatcher] on the words, [alpha] is [str.isalpha].
    Thresholds and ratios are exact rationals. *)
From Coq Require Import Qround.
From Verif Require Import Base ModelFuzzyMatch ModelWordMatch.
Open Scope Z_scope.

Definition chunks := list (list block).
Definition Qltb (a b : Q) : bool := negb (Qle_bool b a).

(** L227-240 *)
Definition blocks_ratio (h n : str) (l : list block) (isjunk : junk_fn) : res Q := b_gap_ratio_fixed (mkF h n l isjunk).
(** L249-259, with seq_index = 1 *)
Definition needle_end (l : list block) : Z :=
  match l with
  | [] => 0
  | _ => let x := last_block l in if b_n x =? 0 then 0 else b_b x + b_n x
  end.
(** L262-272, with seq_index = 1 *)
Definition needle_start (l : list block) : option Z :=
  match l with [] => None | x :: _ => if b_n x =? 0 then None else Some (b_b x) end.
(** L355-365 *)
Definition offset_blocks (l : list block) (ao bo : Z) : list block :=
  if ((ao =? 0) && (bo =? 0))%bool then l else map (fun x => (b_a x + ao, b_b x + bo, b_n x)) l.

Section Search.
Variables (lsm : str -> str -> list block) (words : list str -> list str -> list block) (alpha : N -> bool).

(** L284-310: [count] is [block_count] *)
Fixpoint first_chunk (h n : str) (l : list block) (th : Q) (isjunk : junk_fn) (count : nat) : res (list block) :=
  match count with
  | O => Ok []
  | S c =>
      let ch := firstn count l in
      let e := needle_end ch in
      if e =? 0 then Ok []
      else
        do r <- blocks_ratio h (py_slice n 0 e) ch isjunk ;;
        if Qle_bool th r then Ok ch else first_chunk h n l th isjunk c
  end.
(** L313-343: [l] are the blocks from [block_start] *)
Fixpoint last_chunk (h n : str) (l : list block) (th : Q) (isjunk : junk_fn) : res (list block) :=
  match l with
  | [] => Ok []
  | x :: l' =>
      match needle_start l with
      | None => Ok []
      | Some s =>
          do r <- blocks_ratio h (py_from n s) (offset_blocks l 0 (0 - s)) isjunk ;;
          if Qle_bool th r then Ok l else last_chunk h n l' th isjunk
      end
  end.

(** L382-465: one round of the loop of [get_str_left_strided_matching_blocks_chunks].
    [None]: continue with [start_index + stride].  [sub] is the recursive call with
    [max_chunks - 1], absent if [max_chunks <= 1]. *)
Definition stride_step (h n : str) (max_length stride : Z) (th : Q) (isjunk : junk_fn)
    (sub : option (str -> Z -> res chunks)) (start : Z) : res (option chunks) :=
  let mb := lsm (py_slice h start (start + max_length)) n in
  match mb with
  | [] => Ok None
  | x :: _ =>
      if ((stride <? b_a x) || (b_n x =? 0))%bool then Ok None
      else
        do r <- blocks_ratio h n mb isjunk ;;
        if Qltb r th then
          match sub with
          | None => Ok None
          | Some rec =>
              do fc <- first_chunk h n mb th isjunk (length mb - 1) ;;
              match fc with
              | _ :: _ =>
                  let e := needle_end fc in
                  do rest <- rec (py_from n e) (start + e) ;;
                  match rest with
                  | [] => Ok None
                  | _ => Ok (Some (fc :: map (fun l => offset_blocks l 0 e) rest))
                  end
              | [] =>
                  do lc <- last_chunk h n mb th isjunk ;;
                  match needle_start lc with
                  | None => Ok None   (* [last_chunk_matching_blocks] is empty *)
                  | Some s =>
                      do rest <- rec (py_slice n 0 s) 0 ;;
                      match rest with
                      | [] => Ok None
                      | _ => Ok (Some (rest ++ [lc]))
                      end
                  end
              end
          end
        else Ok (Some [if start =? 0 then mb else map (fun x => (b_a x + start, b_b x, b_n x)) mb])
  end.
(** The loop; it also returns the visited start indices. *)
Fixpoint stride_loop (fuel : nat) (h n : str) (max_length stride : Z) (th : Q) (isjunk : junk_fn)
    (sub : option (str -> Z -> res chunks)) (start : Z) : res (chunks * list Z) :=
  match fuel with
  | O => Err OutOfFuel
  | S f =>
      if start <? slen h then
        do r <- stride_step h n max_length stride th isjunk sub start ;;
        match r with
        | Some c => Ok (c, [start])
        | None =>
            do r' <- stride_loop f h n max_length stride th isjunk sub (start + stride) ;;
            Ok (fst r', start :: snd r')
        end
      else Ok ([], [])
  end.
(** L368-465: [get_str_left_strided_matching_blocks_chunks] *)
Fixpoint strided (max_chunks fuel : nat) (h n : str) (max_length stride : Z) (th : Q) (isjunk : junk_fn)
    (start : Z) : res (chunks * list Z) :=
  stride_loop fuel h n max_length stride th isjunk
    (match max_chunks with
     | S ((S _) as mc) =>
         Some (fun n' start' => do r <- strided mc fuel h n' max_length stride th isjunk start' ;; Ok (fst r))
     | _ => None
     end) start.

(** Python's [round]: to the nearest integer, halves to the even one *)
Definition round_half_even (q : Q) : Z :=
  let f := Qfloor q in
  let d := (q - inject_Z f)%Q in
  if Qltb d (1 # 2) then f
  else if Qltb (1 # 2) d then f + 1
  else if Z.even f then f else f + 1.
(** L475-487: [get_default_max_length_and_stride], [min_max_length] = 1000 *)
Definition max_length_and_stride (hl nl : Z) (th : Q) : Z * Z :=
  if hl <=? 1000 then (hl, hl)
  else
    let dist := round_half_even (inject_Z (Z.min hl nl) * (1 - th)) in
    let mm := nl + dist in
    let ml := Z.max 1000 (mm * 4) in
    (ml, ml - mm).

(** L490-503: [get_str_auto_left_strided_matching_blocks_chunks] *)
Definition auto_strided (max_chunks fuel : nat) (h n : str) (th : Q) (isjunk : junk_fn) : res (chunks * list Z) :=
  let (ml, st) := max_length_and_stride (slen h) (slen n) th in
  strided max_chunks fuel h n ml st th isjunk 0.

(** L577-591: positions of the views mapped back *)
Definition unview (hv nv : view) (l : list block) : res (list block) :=
  mapM (fun x =>
      do a0 <- py_at (v_idx hv) (b_a x) ;;
      do b0 <- py_at (v_idx nv) (b_b x) ;;
      do a1 <- py_at (v_idx hv) (b_a x + b_n x - 1) ;;
      Ok (a0, b0, a1 - a0 + 1))
    (filter (fun x => negb (b_n x =? 0)) l).

(** L520-596: [fuzzy_search_chunks]; [isjunk or default_is_junk] *)
Definition fuzzy_search_chunks (fuel : nat) (h0 n : str) (th : Q) (exact : Z) (max_chunks : nat) (start : Z)
    (isjunk : option junk_fn) : res (option (list fmr)) :=
  let h := if start =? 0 then h0 else py_from h0 start in
  let jf := match isjunk with Some f => f | None => default_is_junk alpha end in
  if Z.min (slen h) (slen n) <? exact then
    do mb <- word_blocks words default_separators h n ;;
    let fm := mkF h0 n (offset_blocks mb start 0) jf in
    do r <- b_gap_ratio_fixed fm ;;
    if Qltb r th then Ok None else Ok (Some [fm])
  else
    do hv <- no_junk_view h (Some space_is_junk) ;;
    do nv <- no_junk_view n (Some space_is_junk) ;;
    do raw <- auto_strided max_chunks fuel (v_str hv) (v_str nv) th jf ;;
    match fst raw with
    | [] => Ok None
    | _ =>
        do ls <- mapM (unview hv nv) (fst raw) ;;
        Ok (Some (map (fun l => mkF h0 n (offset_blocks l start 0) jf) ls))
    end.
(** L92-101, L599-603: [fuzzy_search] *)
Definition merge_results (l : list fmr) : res fmr :=
  match l with
  | [] => Err IndexError
  | m :: _ => Ok (mkF (f_a m) (f_b m) (concat (map f_blocks l)) (f_junk m))
  end.
Definition fuzzy_search (fuel : nat) (h n : str) (th : Q) (exact : Z) (max_chunks : nat) (start : Z)
    (isjunk : option junk_fn) : res (option fmr) :=
  do r <- fuzzy_search_chunks fuel h n th exact max_chunks start isjunk ;;
  match r with None => Ok None | Some l => do m <- merge_results l ;; Ok (Some m) end.

(** L606-620: [iter_fuzzy_search_all] for a search function of the start index *)
Fixpoint search_all (fuel : nat) (search : Z -> res (option fmr)) (hlen start : Z) : res (list fmr) :=
  match fuel with
  | O => Err OutOfFuel
  | S f =>
      if start <? hlen then
        do r <- search start ;;
        match r with
        | None => Ok []
        | Some m =>
            let new := snd (a_index_range m) in
            if new <=? start then Ok [m]
            else do l <- search_all f search hlen new ;; Ok (m :: l)
        end
      else Ok []
  end.
Definition iter_fuzzy_search_all (fuel : nat) (h n : str) (th : Q) (exact : Z) (max_chunks : nat) (start : Z)
    (isjunk : option junk_fn) : res (list fmr) :=
  search_all fuel (fun s => fuzzy_search fuel h n th exact max_chunks s isjunk) (slen h) start.
(** L623-645 *)
Definition fuzzy_search_index_range_chunks (fuel : nat) (h n : str) (th : Q) (exact : Z) (max_chunks : nat) (start : Z)
    (isjunk : option junk_fn) : res (option (list (Z * Z))) :=
  do r <- fuzzy_search_chunks fuel h n th exact max_chunks start isjunk ;;
  Ok (match r with None => None | Some l => Some (map a_index_range l) end).
End Search.
