(** Specification vocabulary for the document operations. *)
From Verif Require Import Base ModelTags ModelXml ModelTei ModelTeiDoc SpecTeiWrite.

(** token at line [i], index [j] *)
Definition tok_at (d : doc) (ij : nat * nat) : option tok :=
  match nth_error d (fst ij) with Some l => nth_error l (snd ij) | None => None end.

(** the tag a token shows at a level *)
Definition shown (lv : level) (t : tok) : ostr :=
  match lv with LMain => shown_tag t | LSub => shown_sub_tag t end.
(** the tag an annotator has given, the tag remembered from loading *)
Definition given (lv : level) (t : tok) : ostr :=
  match lv with LMain => tag t | LSub => sub t end.
Definition remembered (lv : level) (t : tok) : ostr :=
  match lv with LMain => ptag t | LSub => psub t end.

(** Everything about a token that annotation must not change: text and following
    white space. *)
Definition same_text (t t' : tok) : Prop := tx t = tx t' /\ ws t = ws t'.
Definition same_layout (d d' : doc) : Prop := Forall2 (Forall2 same_text) d d'.

(** every token with the tokens before it *)
Fixpoint with_before (before l : list tok) : list (list tok * tok) :=
  match l with [] => [] | t :: l' => (before, t) :: with_before (before ++ [t]) l' end.

(** Removing untagged text: words stay if they have a tag; spaces stay if the
    word before them stays (or there is none). *)
Section Survive.
Variable sp : N -> bool.
Definition is_word (t : tok) : bool := negb (is_space sp t).
Definition tagged (t : tok) : bool := truthy (tag t).
Definition survives (before : list tok) (t : tok) : bool :=
  if is_word t then tagged t
  else match find is_word (rev before) with Some w => tagged w | None => true end.
Definition survivors (l : list tok) : list tok :=
  map snd (filter (fun bt => survives (fst bt) (snd bt)) (with_before [] l)).
End Survive.

(** Which shown tags are kept before annotation. [fields] are the fields that are
    going to be annotated, [always] those to be kept in any case. *)
Definition stays (preserve : bool) (fields always : list str) (v : ostr) : bool :=
  if preserve || nonempty always then
    match v with
    | Some f => mem f always || (negb (mem f fields) && negb (nonempty always))
    | None => true
    end
  else false.
Definition sub_stays (preserve_sub : bool) (dropped : list str) (v : ostr) : bool :=
  preserve_sub && match v with Some f => negb (mem f dropped) | None => true end.

(** An annotator as the sequence of its tag assignments. *)
Definition op := (level * (nat * nat) * ostr)%type.
Definition run (sp : N -> bool) (ops : list op) (d : doc) : doc :=
  fold_left (fun d o => set_tag sp (fst (fst o)) (snd (fst o)) (snd o) d) ops d.
Definition op_at (lv : level) (ij : nat * nat) (o : op) : bool :=
  match fst (fst o), lv with LMain, LMain | LSub, LSub => true | _, _ => false end
  && Nat.eqb (fst (snd (fst o))) (fst ij) && Nat.eqb (snd (snd (fst o))) (snd ij).
(** the last assignment to a token *)
Definition last_set (lv : level) (ij : nat * nat) (ops : list op) : option ostr :=
  option_map snd (find (op_at lv ij) (rev ops)).

(* ---------------------------------------------------------------- *)
(** A tree with a hole: the elements on the way down to the hole, outermost
    first, each with what is left and right of the way. *)
Record ctx_frame := mkCtx {
  x_name : str; x_attrib : list (str * str); x_text : str;
  x_left : list xml; x_right : list xml; x_tail : str }.
Fixpoint plug (c : list ctx_frame) (e : xml) : xml :=
  match c with
  | [] => e
  | f :: c' =>
      Elem (x_name f) (x_attrib f) (x_text f) (x_left f ++ plug c' e :: x_right f) (x_tail f)
  end.

(** text of an element and the text following it *)
Definition full_text (e : xml) : str := content e ++ xtail e.
