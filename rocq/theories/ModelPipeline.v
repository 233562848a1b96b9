(** Model of the annotation pipeline: auto_annotate_utils.py L516-529 (resume), L609-773
    (AbstractAnnotatePipelineFactory), annotation/annotator.py L150-212 (what is saved
    where), auto_annotate_figure.py L92-108 / L135-138 and auto_annotate_fulltext.py
    L216-219 (temporary copies of the source).
    Simplified: files are a function from paths to contents; what happens to the
    content of one document is the function [process]; remote file systems, Apache Beam
    ([--cloud] or no workers) and errors while writing are left out. *)
From Verif Require Import Base.
Open Scope nat_scope.

(* ------------------------------------------------------------------ *)
(** ** Paths (os.path, posix) *)
Definition SLASH : N := 47%N.
(** [os.path.basename]: after the last slash *)
Fixpoint after_last (cur : str) (p : str) : str :=
  match p with
  | [] => cur
  | x :: p' => if N.eqb x SLASH then after_last [] p' else after_last (cur ++ [x]) p'
  end.
Definition basename (p : str) : str := after_last [] p.
(** [os.path.join] of two parts *)
Definition ends_with_slash (p : str) : bool := match rev p with x :: _ => N.eqb x SLASH | [] => false end.
Definition join_path (a b : str) : str :=
  if match b with x :: _ => N.eqb x SLASH | [] => false end then b
  else match a with
       | [] => b
       | _ => if ends_with_slash a then a ++ b else a ++ SLASH :: b
       end.

(* ------------------------------------------------------------------ *)
(** ** One document *)
Definition files := str -> option str.
Definition upd (f : files) (p : str) (v : option str) : files := fun q => if streq q p then v else f q.

Record task := mkTask { tk_src : str; tk_out : str; tk_failed : option str }.
(** annotate_structured_document: the document as it is to be saved and whether the checks
    pass; [OFail]: an exception before saving *)
Inductive outcome := OSave (c : str) | OReject (c : str) | OFail.

(** L609-622: the paths for a source; [failed_dir]: [failed_output_path] *)
Definition output_path (output_dir src : str) : str := join_path output_dir (basename src).
Definition failed_path (failed_dir : ostr) (src : str) : option str :=
  match failed_dir with None | Some [] => None | Some d => Some (join_path d (basename src)) end.
Definition task_for (output_dir : str) (failed_dir : ostr) (src : str) : task :=
  mkTask src (output_path output_dir src) (failed_path failed_dir src).

Section Process.
(** the document for a source path and the content of its final source *)
Variable process : str -> str -> outcome.
(** L645-646 and get_fixed_source_url: [None]: the source itself is used; otherwise the
    content of the temporary copy ([None]: an exception) *)
Variable fixed : option (str -> option str).

Definition final_source (c : str) : option str := match fixed with None => Some c | Some f => f c end.
(** L648-650: [auto_annotate] as a whole: the files afterwards, and whether there was an
    exception (that is not skipped) *)
Definition save_target (t : task) (o : outcome) : option (str * str) :=
  match o with
  | OSave c => Some (tk_out t, c)
  | OReject c => option_map (fun p => (p, c)) (tk_failed t)
  | OFail => None
  end.
Definition outcome_of (t : task) (f : files) : outcome :=
  match f (tk_src t) with
  | None => OFail
  | Some c => match final_source c with None => OFail | Some c' => process (tk_src t) c' end
  end.
Definition auto_annotate (t : task) (f : files) : files * bool :=
  let o := outcome_of t f in
  (match save_target t o with Some (p, c) => upd f p (Some c) | None => f end,
   match o with OFail => true | _ => false end).
(** one after the other (one worker) *)
Definition auto_annotate_list (ts : list task) (f : files) : files * list bool :=
  fold_left (fun st t => let (f', e) := auto_annotate t (fst st) in (f', snd st ++ [e])) ts (f, []).

(* ------------------------------------------------------------------ *)
(** ** Workers *)
(** L740-757: [run_local_pipeline].  Threads share the exit stack of the factory (L602,
    L649); processes have a copy of the factory, and so of the stack, for each task.

    Where a task is: not started; about to get its final source; about to read it; about
    to create the output file; writing it ([done] is written); leaving the [with] block of
    the exit stack (with or without exception); finished. *)
Inductive place :=
| Idle | Start | Load | Save (p c : str) | Writing (p done rest : str) | Close (failed : bool) | Done (failed : bool).
Record world := mkWorld {
  w_files : files;
  w_tmp : nat -> option str;      (* temporary copies, by task *)
  w_stack : nat -> list nat;      (* exit stacks: the tasks whose copies are to be removed *)
  w_queue : list nat;
  w_place : nat -> place }.
Variable tasks : list task.
Variable workers : nat.
Variable shared : bool. (* one exit stack for all *)

Definition stack_of (i : nat) : nat := if shared then 0 else i.
Definition set_at {A} (f : nat -> A) (i : nat) (v : A) : nat -> A := fun j => if Nat.eqb j i then v else f j.
Definition move (w : world) (i : nat) (p : place) : world :=
  mkWorld (w_files w) (w_tmp w) (w_stack w) (w_queue w) (set_at (w_place w) i p).
Definition active (p : place) : bool := match p with Idle | Done _ => false | _ => true end.
Definition running (w : world) : nat := length (filter (fun i => active (w_place w i)) (seq 0 (length tasks))).

(** the next step of a task *)
Definition task_step (i : nat) (t : task) (w : world) : option world :=
  match w_place w i with
  | Idle | Done _ => None
  | Start =>
      match fixed with
      | None => Some (move w i Load)
      | Some fx =>
          (* the context is on the stack before it is entered *)
          let stack := set_at (w_stack w) (stack_of i) (i :: w_stack w (stack_of i)) in
          match match w_files w (tk_src t) with Some c => fx c | None => None end with
          | Some c => Some (mkWorld (w_files w) (set_at (w_tmp w) i (Some c)) stack (w_queue w) (set_at (w_place w) i Load))
          | None => Some (mkWorld (w_files w) (w_tmp w) stack (w_queue w) (set_at (w_place w) i (Close true)))
          end
      end
  | Load =>
      match (match fixed with None => w_files w (tk_src t) | Some _ => w_tmp w i end) with
      | None => Some (move w i (Close true))
      | Some c =>
          match process (tk_src t) c with
          | OFail => Some (move w i (Close true))
          | o => match save_target t o with
                 | Some (p, c') => Some (move w i (Save p c'))
                 | None => Some (move w i (Close false))
                 end
          end
      end
  | Save p c =>
      Some (mkWorld (upd (w_files w) p (Some [])) (w_tmp w) (w_stack w) (w_queue w) (set_at (w_place w) i (Writing p [] c)))
  | Writing p done rest =>
      match rest with
      | [] => Some (move w i (Close false))
      | x :: rest' =>
          Some (mkWorld (upd (w_files w) p (Some (done ++ [x]))) (w_tmp w) (w_stack w) (w_queue w)
                  (set_at (w_place w) i (Writing p (done ++ [x]) rest')))
      end
  | Close e =>
      (* [ExitStack.__exit__]: everything on the stack *)
      match w_stack w (stack_of i) with
      | [] => Some (move w i (Done e))
      | j :: s => Some (mkWorld (w_files w) (set_at (w_tmp w) j None) (set_at (w_stack w) (stack_of i) s) (w_queue w) (w_place w))
      end
  end.
Inductive step : world -> world -> Prop :=
| step_take i q w : w_queue w = i :: q -> running w < workers ->
    step w (mkWorld (w_files w) (w_tmp w) (w_stack w) q (set_at (w_place w) i Start))
| step_task i t w w' : nth_error tasks i = Some t -> task_step i t w = Some w' -> step w w'.
Inductive steps : nat -> world -> world -> Prop :=
| steps_nil w : steps 0 w w
| steps_snoc n w w1 w2 : steps n w w1 -> step w1 w2 -> steps (S n) w w2.
Definition initial (f : files) : world :=
  mkWorld f (fun _ => None) (fun _ => []) (seq 0 (length tasks)) (fun _ => Idle).
Definition finished (w : world) : Prop := forall i, i < length tasks -> exists e, w_place w i = Done e.
(** L755-760: the results of the futures are asked for: the run fails if a task has
    failed and errors are not skipped (L677-685).  All tasks are submitted before, and leaving the
    executor waits for them. *)
Definition run_fails (skip_errors : bool) (w : world) : bool :=
  negb skip_errors && existsb (fun i => match w_place w i with Done e => e | _ => false end) (seq 0 (length tasks)).
End Process.

(* ------------------------------------------------------------------ *)
(** ** Which files *)
(** L688-699: [get_source_file_list]; [found]: the files matching the pattern *)
Definition source_list (source_path : ostr) (found : list str) : list str :=
  match source_path with Some ((_ :: _) as p) => [p] | _ => found end.
(** L516-529 and L701-715; existence by [map_file_list_to_file_exists] of sciencebeam_utils *)
Definition exists_file (f : files) (p : str) : bool := match f p with Some _ => true | None => false end.
Definition without_output (output_of : str -> str) (f : files) (l : list str) : list str :=
  let existing := map (exists_file f) (map output_of l) in
  map fst (filter (fun x => negb (snd x)) (combine l existing)).
Definition remaining (resume : bool) (output_dir : str) (f : files) (l : list str) : list str :=
  match l with [] => [] | _ => if resume then without_output (output_path output_dir) f l else l end.
(** L740-742, L765: number of workers *)
Definition worker_count (num_workers : nat) (l : list str) : nat := Nat.min num_workers (length l).
