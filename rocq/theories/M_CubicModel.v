(* Model of the construction of the activity models with a cubic equation of state
   (Reaktoro/Thermodynamics/Fluids/ActivityModelCubicEOS.cpp:31-71): the critical
   properties looked up for the species of a phase and the kind of fluid.  The
   evaluation of the equation is in M_CubicEOS.v. *)
From Verif Require Import Base M_Strings M_Formula M_Chem M_Algorithms M_System M_Registry.

(* PhaseIdentification.hpp:30, CubicEOSFluidType; the names differ from those of
   M_CubicEOS.v because Liquid is also an aggregate state. *)
Inductive EOSFluid := EOSVapor | EOSLiquid.
(* ActivityModelCubicEOS.cpp:36-37 and 63-67: the arguments of CubicEOS and its fluid type.
   The model, the interaction parameters and the identification method are passed on
   unchanged (69-71). *)
Record CubicSetup := mkSetup { cs_Tcr : list Q; cs_Pcr : list Q; cs_omega : list Q; cs_fluid : EOSFluid }.

(* ActivityModelCubicEOS.cpp:40-44; the formula is converted to its text. *)
Definition lookup_names (s : Species) : outcome (list str) :=
  omap (fun b => [b; cf_str (formula s); name s]) (substance s).
(* ActivityModelCubicEOS.cpp:40-52. *)
Definition species_critical (registry : list Substance) (s : Species) : outcome Critical :=
  bind (lookup_names s) (fun names =>
  bind (crit_get_any registry names) (fun r =>
  match r with Some x => Ok (su_data x) | None => Err end)).
(* ActivityModelCubicEOS.cpp:55-67: species[0] of no species is out of range. *)
Definition phase_fluid (species : list Species) : outcome EOSFluid :=
  match species with
  | [] => UB
  | s :: _ => bind (aggregateState s) (fun a => match a with Gas => Ok EOSVapor | Liquid => Ok EOSLiquid | _ => Err end)
  end.
(* ActivityModelCubicEOS.cpp:31-71. *)
Definition cubic_setup (registry : list Substance) (species : list Species) : outcome CubicSetup :=
  bind (mapM (species_critical registry) species) (fun data =>
  omap (mkSetup (map cr_T data) (map cr_P data) (map cr_omega data)) (phase_fluid species)).
(* CubicEOS.cpp:230-234: the assertions of the constructor, checked in debug builds only. *)
Definition eos_asserts (n : nat) (c : CubicSetup) : bool :=
  Nat.eqb (length (cs_Tcr c)) n && Nat.eqb (length (cs_Pcr c)) n && Nat.eqb (length (cs_omega c)) n &&
  forallb (fun x => negb (Qle_bool x 0)) (cs_Tcr c) && forallb (fun x => negb (Qle_bool x 0)) (cs_Pcr c).
