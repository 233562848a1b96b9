(** Model of the checks of the segmentation command: auto_annotate_segmentation.py
    L107-163 ([is_segmentation_structured_document_passing_checks]). *)
From Coq Require Import QArith.
From Verif Require Import Base ModelTags ModelTei ModelTeiDoc ModelJoined ModelClusters ModelTarget ModelMapping ModelFuzzyMatch
  ModelWordMatch ModelFuzzySearch ModelChecks.
Open Scope list_scope.
Open Scope nat_scope.

(** L138-142: a dict comprehension: a later entry replaces the value of an earlier one *)
Definition expected_entities (m : list (str * list str)) : list (str * str) :=
  dict_update [] (flat_map (fun e => map (fun f => (f, fst e)) (snd e)) m).

Section SegChecks.
Variable sp alpha : N -> bool.
(** the libraries of [fuzzy_search] (ModelFuzzySearch) *)
Variable lsm : str -> str -> list block.
Variable words : list str -> list str -> list block.

(** L154-157: [fuzzy_search(joined, value, threshold=0.8)] with its other defaults
    (utils/fuzzy.py L521-530); the fuel is enough (theorem C83_passes).  A match result has
    neither [__bool__] nor [__len__]: it is true. *)
Definition value_found (joined value : str) : res bool :=
  do r <- fuzzy_search lsm words alpha (S (length joined)) joined value (8 # 10) 5 1 0 None ;;
  Ok (match r with Some _ => true | None => false end).
(** L143-162: the loop over [required_value_by_name.items()] *)
Fixpoint seg_values (by_name : list (str * list str)) (expected : list (str * str)) (l : list (str * str)) : res bool :=
  match l with
  | [] => Ok true
  | (f, v) :: l' =>
      match dict_get f expected with
      | None => Err KeyError
      | Some e =>
          match dict_get e by_name with
          | None | Some [] => Ok false
          | Some actual =>
              do b <- value_found (join_str (u " ") actual) v ;;
              if b then seg_values by_name expected l' else Ok false
          end
      end
  end.
(** L119-163; [fields]: the union of the two sets (L119) in the order the set is
    iterated over (checks.py L104), which depends on the hashes of the strings *)
Definition seg_passing (d : doc) (fields required : list str) (ts : list target) (m : list (str * list str)) : res bool :=
  match fields with
  | [] => Ok true
  | _ =>
      match ts with
      | [] => Err RuntimeError
      | _ =>
          do values <- required_values ts fields ;;
          if existsb (fun f => negb (mem f (map fst values))) required then Ok false
          else seg_values (grouped (entities sp d)) (expected_entities m) values
      end
  end.
End SegChecks.
