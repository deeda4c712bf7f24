(* Model of the chemical properties of a phase over the real numbers
   (Reaktoro/Core/ChemicalPropsPhase.hpp), with the standard models and activity
   models of the other files: M_State has the same functions over the rationals.
   Divisions by zero and logarithms of numbers that are not positive have
   unspecified values. *)
From Coq Require Import Reals List Bool.
Import ListNotations.
From Verif Require Import Base M_CubicEOS M_Aqueous M_Gases M_Supcrt M_SupcrtModels.
From Verif Require Import M_Thermo.
Local Open Scope R_scope.

(* Core/ChemicalPropsPhase.hpp:36-88; the heat capacities and the derivatives of
   the excess volume are left out. *)
Record PhaseProps := mkPhase {
  f_T : R; f_P : R; f_n : list R; f_nsum : R; f_x : nat -> R; f_std : list StdProps; f_act : Props; f_u : nat -> R }.
(* The standard model of a species, Core/StandardThermoProps.hpp:49. *)
Definition StdFn : Type := R -> R -> outcome StdProps.
Definition std_at (l : list StdProps) (get : StdProps -> R) (i : nat) : R := nth i (map get l) 0.
Definition amount_at (n : list R) (i : nat) : R := nth i n 0.
(* Core/ChemicalPropsPhase.hpp:529-534: the mole fractions. *)
Definition fractions (n : list R) : nat -> R :=
  let nsum := Sum (length n) (amount_at n) in
  if Req_EM_T nsum 0 then fun _ => if Nat.eqb (length n) 1 then 1 else 0 else fun i => amount_at n i / nsum.
(* The smallest entry of an array that is not empty, or an error if it is zero,
   Core/ChemicalPropsPhase.hpp:536-538. *)
Fixpoint minCoeff (n : nat) (x : nat -> R) : R := match n with O => x O | S O => x O | S m => Rmin (minCoeff m x) (x m) end.
(* Core/ChemicalPropsPhase.hpp:477-551 without the template argument: the activity
   model of the phase is used.  [old] are the activity properties before. *)
Definition update (species : list StdFn) (f : ActivityFn) (old : Props) (T P : R) (n : list R) : outcome PhaseProps :=
  bind (mapM (fun s : StdFn => s T P) species) (fun std =>
  let nsum := Sum (length n) (amount_at n) in
  let x := fractions n in
  if Nat.eqb (length n) 0 then UB
  else if Req_EM_T (minCoeff (length n) x) 0 then Err
  else bind (if Req_EM_T nsum 0 then Ok (constProps 0, None) else f T P x (old, None)) (fun r =>
  Ok (mkPhase T P n nsum x std (fst r) (fun i => std_at std G0 i + universalGasConstant * T * ln_a (fst r) i)))).
(* Core/ChemicalPropsPhase.hpp:334-361. *)
Definition mixed (d : PhaseProps) (get : StdProps -> R) : R := Sum (length (f_n d)) (fun i => f_x d i * std_at (f_std d) get i).
Definition molarGibbsEnergy (d : PhaseProps) : R := mixed d G0 + Gex (f_act d).
Definition molarEnthalpy (d : PhaseProps) : R := mixed d H0 + Hex (f_act d).
Definition molarVolume (d : PhaseProps) : R := mixed d V0 + Vex (f_act d).
Definition molarEntropy (d : PhaseProps) : R := (molarEnthalpy d - molarGibbsEnergy d) / f_T d.

(* The standard models of the gases of the databases: the YAML ones have Vr zero
   (every gas of supcrt98.yaml, supcrt07.yaml, supcrt16.yaml with MaierKelley and
   of supcrtbl.yaml with HollandPowell), the SUPCRT ones are SupcrtModels.cpp:226-276. *)
Definition xml_gas (p : MaierKelly R) : StdFn := fun T P => supcrtMaierKelly p T P.
Definition yaml_gas (p : MaierKelley) : StdFn := fun T P => Ok (stdMaierKelley 0 p T P).
Definition yaml_gas_hp (p : HollandPowell) : StdFn := fun T P => Ok (stdHollandPowell p T P).
(* ActivityModelCubicEOS.cpp:73-99 as an activity function that is called with the
   results of the calls before kept in [res]; the results kept for the next call
   are the second component of [compute]. *)
Definition cubicFn (single : R -> R -> R -> R -> outcome FluidType) (e : EOS) (res : Residual) : ActivityFn := fun T P x p =>
  omap (fun r => (mkProps (Vres r) (VresT r) (VresP r) (Gres r) (Hres r) (Cpres r) (Cvres r) (ln_phi r) (ac_ln_a (activity r P x)), snd p)) (compute single e res T P x).
