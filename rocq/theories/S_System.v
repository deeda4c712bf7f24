(* Specification vocabulary for lists and systems, independent of the model. *)
From Verif Require Import Base.

(* [s] is the first element of [l] that satisfies [P]. *)
Definition First {A} (P : A -> Prop) (l : list A) (s : A) : Prop :=
  exists a b, l = a ++ s :: b /\ P s /\ forall y, In y a -> ~ P y.

(* [r] lists, in order, exactly the elements of [l] that satisfy [P]. *)
Inductive Selected {A} (P : A -> Prop) : list A -> list A -> Prop :=
| sel_nil : Selected P [] []
| sel_take x l r : P x -> Selected P l r -> Selected P (x :: l) (x :: r)
| sel_skip x l r : ~ P x -> Selected P l r -> Selected P (x :: l) r.

(* The word [w] followed by [k] exclamation marks. *)
Definition bangs (w : str) (k : nat) : str := w ++ repeat "!"%char k.

Fixpoint Qsum (l : list Q) : Q := match l with [] => 0 | x :: l' => x + Qsum l' end%Q.

Definition dotQ (a b : list Q) : Q := Qsum (map (fun p => fst p * snd p)%Q (combine a b)).
