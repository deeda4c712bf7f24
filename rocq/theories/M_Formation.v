(* Formation reactions (Core/FormationReaction.cpp) and the parts of a species
   that decide its standard thermodynamic properties (Core/Species.cpp). *)
From Coq Require Import Reals Lra List.
From Verif Require Import Base M_Thermo.
Local Open Scope R_scope.

(* A species as seen by a formation reaction: its name and its properties, which
   may fail to be computed. *)
Record Reactant := mkReactant { rt_name : str; rt_props : R -> R -> outcome StdProps }.
(* FormationReaction::Impl, FormationReaction.cpp:27-38. *)
Record FormationReaction := mkFR {
  fr_reactants : list (Reactant * R);
  fr_rxn : option Evaluator;
  fr_vol : option (R -> R -> R) }.
(* FormationReaction.cpp:109-111. *)
Definition newFormationReaction : FormationReaction := mkFR [] None None.
(* FormationReaction.cpp:120-152. Each returns a copy. *)
Definition withReactants (f : FormationReaction) (r : list (Reactant * R)) : FormationReaction := mkFR r (fr_rxn f) (fr_vol f).
Definition withReactionThermoModel (f : FormationReaction) (m : Evaluator) : FormationReaction := mkFR (fr_reactants f) (Some m) (fr_vol f).
Definition withProductStandardVolumeModel (f : FormationReaction) (v : R -> R -> R) : FormationReaction := mkFR (fr_reactants f) (fr_rxn f) (Some v).
(* StandardVolumeModelConstant.cpp:43-51. *)
Definition volumeConstant (V0 : R) : R -> R -> R := fun _ _ => V0.
(* FormationReaction.cpp:135-138: the argument is not used. *)
Definition withProductStandardVolume (f : FormationReaction) (V0p : R) : FormationReaction :=
  withProductStandardVolumeModel f (volumeConstant 0).
(* FormationReaction.cpp:127-133; ReactionThermoModelConstLgK.hpp:32 for Pr. *)
Definition withEquilibriumConstant (f : FormationReaction) (lgK0 : R) : FormationReaction :=
  withProductStandardVolume (withReactionThermoModel f (assigns (rxnConstLgK lgK0 100000))) 0.
(* FormationReaction.cpp:154-157. *)
Definition fr_initialized (f : FormationReaction) : bool :=
  match fr_reactants f, fr_rxn f with _ :: _, Some _ => true | _, _ => false end.
(* FormationReaction.cpp:164-170. *)
Fixpoint stoichiometryOf (l : list (Reactant * R)) (name : str) : R :=
  match l with [] => 0 | (r, c) :: l' => if str_eqb name (rt_name r) then c else stoichiometryOf l' name end.
Definition fr_stoichiometry (f : FormationReaction) (name : str) : R := stoichiometryOf (fr_reactants f) name.

(* FormationReaction.cpp:64-99. *)
Definition productProps (reactants : list (Reactant * R)) (rxn : Evaluator) (vol : option (R -> R -> R)) (T P : R) : outcome StdProps :=
  bind (mapM (fun rc => rt_props (fst rc) T P) reactants) (fun rps =>
  let V0p := match vol with Some v => v T P | None => 0 end in
  let cps := combine (map snd reactants) rps in
  let dV0 := fold_left (fun x cp => x - fst cp * V0 (snd cp)) cps V0p in
  let rxnprops := evaluated rxn (mkRxnArgs T P dV0) in
  Ok (mkStdProps (fold_left (fun x cp => x + fst cp * G0 (snd cp)) cps (dG0 rxnprops))
                 (fold_left (fun x cp => x + fst cp * H0 (snd cp)) cps (dH0 rxnprops)) V0p 0 0)).
(* FormationReaction.cpp:46-106; the two checks come first. *)
Definition createStandardThermoModel (f : FormationReaction) : outcome (R -> R -> outcome StdProps) :=
  match fr_reactants f with
  | [] => Err
  | _ => match fr_rxn f with
    | None => Err
    | Some rxn => Ok (productProps (fr_reactants f) rxn (fr_vol f))
    end
  end.
