From Verif Require Import Base ModelXml.

Section Ind.
Variable P : xml -> Prop.
Hypothesis HE : forall n a t cs tl, Forall P cs -> P (Elem n a t cs tl).
Hypothesis HM : forall tl, P (Misc tl).
Fixpoint xml_ind' (e : xml) : P e :=
  match e with
  | Elem n a t cs tl =>
      HE n a t cs tl
        ((fix go (l : list xml) : Forall P l :=
            match l with [] => Forall_nil P | c :: l' => Forall_cons c (xml_ind' c) (go l') end) cs)
  | Misc tl => HM tl
  end.
End Ind.
