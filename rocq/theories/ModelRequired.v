(** Model of the lookup of required elements: utils/xml.py L122-152, utils/tei_xml.py L24-35. *)
From Verif Require Import Base ModelMapping ModelJoined.
Open Scope list_scope.
Open Scope nat_scope.

(** what a lookup ends with: the matches, or a [ValueError], whose message has the expression and,
    if there is one, a shorter expression with its matches *)
Inductive lookup (A : Type) := Matches (l : list A) | NothingFound (hint : option (str * list A)).
Arguments Matches {A} l.
Arguments NothingFound {A} hint.

Section Required.
Context {A : Type}.
(** [parent.xpath(s, **kwargs)]; an error is that of lxml *)
Variable find : str -> res (list A).
(** L130-134: the first [count] fragments *)
Definition parent_xpath (fragments : list str) (count : nat) : str := join_str (u "/") (firstn count fragments).
(** L131-144 *)
Fixpoint find_hint (fragments : list str) (counts : list nat) : res (option (str * list A)) :=
  match counts with
  | [] => Ok None
  | count :: counts' =>
      let p := parent_xpath fragments count in
      if length p <=? 1 then Ok None
      else do r <- find p ;; match r with [] => find_hint fragments counts' | _ => Ok (Some (p, r)) end
  end.
(** L122-146: [get_xpath_matches]; [range(1, n)] has the [n - 1] numbers from one on *)
Definition get_xpath_matches (xpath : str) (required : bool) : res (lookup A) :=
  do result <- find xpath ;;
  match result with
  | [] =>
      if required then
        let fragments := split_on 47%N xpath in
        do h <- find_hint fragments (rev (seq 1 (length fragments - 1))) ;; Ok (NothingFound h)
      else Ok (Matches [])
  | _ => Ok (Matches result)
  end.
(** L148-152: [get_first_xpath_match]; [inl]: the element, [inr]: the [ValueError] *)
Definition get_first_xpath_match (xpath : str) : res (A + option (str * list A)) :=
  do r <- get_xpath_matches xpath true ;;
  match r with
  | Matches (x :: _) => Ok (inl x)
  | Matches [] => Err IndexError
  | NothingFound h => Ok (inr h)
  end.
End Required.
