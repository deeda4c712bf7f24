(* Model of Element (Core/Element.cpp) as an object that shares its data, on the heap of
   M_Shared.  The constructor from attributes is in M_DatabaseYaml. *)
From Verif Require Import Base M_Chem M_Algorithms M_System M_State M_Naming M_Shared.

(* Element.cpp:43-58. *)
Definition newElement : Element := mkElem [] [] 0 [].
Inductive EEdit := ESymbol (s : str) | EMass (q : Q) | EName (n : str) | ETags (l : list str).
(* Element.cpp:102. *)
Definition checkElement (e : EEdit) : outcome unit := match e with EMass q => if negb (Qle_bool 0 q) then Err else Ok tt | _ => Ok tt end.
(* Element.cpp:93-120. *)
Definition setElement (e : EEdit) (x : Element) : Element :=
  match e with
  | ESymbol s => mkElem s (el_name x) (el_mass x) (el_tags x)
  | EMass q => mkElem (el_symbol x) (el_name x) q (el_tags x)
  | EName n => mkElem (el_symbol x) n (el_mass x) (el_tags x)
  | ETags l => mkElem (el_symbol x) (el_name x) (el_mass x) l
  end.
Definition elements (prog : list (op EEdit)) : outcome (list Element) := omap (reads newElement) (run newElement checkElement setElement emptyStore prog).
(* Element.cpp:142-145. *)
Definition element_ltb (a b : Element) : bool := str_ltb (el_symbol a) (el_symbol b).
(* Element.cpp:147-154; the tags are compared as vectors of strings. *)
Fixpoint tags_eqb (a b : list str) : bool :=
  match a, b with [], [] => true | x :: a', y :: b' => str_eqb x y && tags_eqb a' b' | _, _ => false end.
Definition element_eqb (a b : Element) : bool :=
  str_eqb (el_symbol a) (el_symbol b) && Qeq_bool (el_mass a) (el_mass b) && str_eqb (el_name a) (el_name b) && tags_eqb (el_tags a) (el_tags b).
