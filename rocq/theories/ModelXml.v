(** Element trees as used by lxml: an element has a name, attributes, the text
    before its first child, children, and a tail (the text after its end tag).
    [None] and [''] are identified for text and tail: the modelled code only
    tests them with [if not text] / [is_blank] / [x or ''].
    Comments and processing instructions are [Misc] nodes: they have no text
    content, only a tail. *)
From Verif Require Import Base.

Inductive xml :=
| Elem (name : str) (attrib : list (str * str)) (text : str) (children : list xml) (tail : str)
| Misc (tail : str).

Definition xtail (e : xml) : str :=
  match e with Elem _ _ _ _ tl => tl | Misc tl => tl end.

(** text content ([''.join(e.itertext())]; comments and processing instructions
    are left out) *)
Fixpoint content (e : xml) : str :=
  match e with
  | Elem _ _ text children _ => text ++ flat_map (fun c => content c ++ xtail c) children
  | Misc _ => []
  end.

(** number of descendant elements (not counting the element itself) with a given name *)
Fixpoint count_name (n : str) (e : xml) : nat :=
  match e with
  | Elem _ _ _ children _ =>
      list_sum (map (fun c =>
        (match c with Elem m _ _ _ _ => if streq m n then 1 else 0 | Misc _ => 0 end)
        + count_name n c) children)
  | Misc _ => 0
  end.
