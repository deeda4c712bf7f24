(* Construction of a species from its attributes (Core/Species.cpp). *)
From Verif Require Import Base M_Strings M_Formula M_Chem M_System.

(* Core/Species.hpp:36-77, Species::Attribs; for the models only whether they are
   initialized. *)
Record Attribs := mkAttribs {
  at_name : str; at_formula : str; at_substance : str; at_elements : list (Element * Q); at_charge : Q;
  at_state : AggregateState; at_reaction : bool; at_model : bool; at_tags : list str }.
Definition is_empty {A} (l : list A) : bool := match l with [] => true | _ => false end.
(* Core/Species.cpp:101-138.  The thermodynamic model made from the attributes is
   left out. *)
Definition speciesOf (a : Attribs) : outcome Species :=
  if is_empty (at_name a) then Err else
  if is_empty (at_formula a) then Err else
  if is_empty (at_elements a) then Err else
  if state_eqb (at_state a) Undefined then Err else
  if negb (at_model a) && negb (at_reaction a) then Err else
  if at_model a && at_reaction a then Err else
  bind (splitSpeciesNameSuffix (at_formula a)) (fun fs =>
  let f := fst fs in
  Ok (mkSpecies (at_name a) f (if is_empty (at_substance a) then f else at_substance a) (at_elements a) (at_charge a)
    (at_state a) (at_tags a))).

