(* Model of Reaktoro/Extensions/PorousMedia/PorousRockState.cpp: a chemical state with
   its system.  The private implementation has no members (PorousRockState.cpp:27-32)
   and is left out. *)
From Verif Require Import Base M_Strings M_Chem M_System M_State.

(* PorousRockState.hpp:35: a rock state is a chemical state, which holds its system
   (Core/ChemicalState.cpp:36-61). *)
Record Chemical := mkChemical { ch_system : ChemicalSystem; ch_state : State }.
Record Rock := mkRock { rk_chemical : Chemical }.
(* Core/ChemicalState.cpp:204-206, 208-210 and 215-219. *)
Definition chemicalState (system : ChemicalSystem) : Chemical := mkChemical system (newState system).
Definition copyChemical (other : Chemical) : Chemical := mkChemical (ch_system other) (ch_state other).
Definition assignChemical (this other : Chemical) : Chemical := copyChemical other.
(* PorousRockState.cpp:34-36. *)
Definition porousRockState (system : ChemicalSystem) : Rock := mkRock (chemicalState system).
(* PorousRockState.cpp:38-40: the base is constructed from the system of the other. *)
Definition copyRock (other : Rock) : Rock := mkRock (chemicalState (ch_system (rk_chemical other))).
(* PorousRockState.cpp:45-50: the argument is passed by value, that is copied when it
   is a variable; a temporary is not copied. *)
Definition assignValue (this other : Rock) : Rock := mkRock (assignChemical (rk_chemical this) (rk_chemical other)).
Definition assignRock (this other : Rock) : Rock := assignValue this (copyRock other).
(* A rock state given where a chemical state is expected by value. *)
Definition asChemical (r : Rock) : Chemical := copyChemical (rk_chemical r).
(* PorousRockState.cpp:52-80: every call throws. *)
Definition setPorosity (value : Q) (r : Rock) : outcome unit * Rock := (Err, r).
Definition setVolumeFractionAmongFluidsI (iphase : nat) (value : Q) (r : Rock) : outcome unit * Rock := (Err, r).
Definition setVolumeFractionAmongFluids (phasename : str) (value : Q) (r : Rock) : outcome unit * Rock := (Err, r).
Definition setVolumeFractionAmongSolidsI (iphase : nat) (value : Q) (r : Rock) : outcome unit * Rock := (Err, r).
Definition setVolumeFractionAmongSolids (phasename : str) (value : Q) (r : Rock) : outcome unit * Rock := (Err, r).
Definition equilibrateRock (r : Rock) : outcome unit * Rock := (Err, r).
(* The setters of temperature, pressure and amounts are those of chemical states. *)
Definition onRock (f : ChemicalSystem -> State -> call) (r : Rock) : outcome unit * Rock :=
  let c := rk_chemical r in let '(o, st) := f (ch_system c) (ch_state c) in (o, mkRock (mkChemical (ch_system c) st)).
