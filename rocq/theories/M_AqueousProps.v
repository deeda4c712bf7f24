(* Model of Reaktoro/Thermodynamics/Aqueous/AqueousProps.cpp.  Numbers are exact
   rationals, as in M_State. *)
From Verif Require Import Base M_Strings M_Formula M_Chem M_Algorithms M_System M_Units M_State.

(* Core/Phase.cpp:127-130. *)
Definition phaseAggregateState (p : Phase) : outcome AggregateState :=
  match ph_species p with [] => Ok Undefined | s :: _ => aggregateState s end.
(* Core/PhaseList.hpp:114-117, with Common/Algorithms.hpp: indexfn. *)
Fixpoint findPhaseWithState (phases : list Phase) (a : AggregateState) : outcome nat :=
  match phases with
  | [] => Ok O
  | p :: ps => bind (phaseAggregateState p) (fun b => if state_eqb b a then Ok O else omap S (findPhaseWithState ps a))
  end.
(* AqueousProps.cpp:38-50.  Line 40 evaluates the aggregate state of every phase,
   which may throw; the warning it is for is only printed. *)
Definition indexAqueousPhase (phases : list Phase) : outcome nat :=
  bind (mapM phaseAggregateState phases) (fun _ =>
  bind (findPhaseWithState phases Aqueous) (fun i => if length phases <=? i then Err else Ok i)).

(* Core/SpeciesList.hpp:107-110 and 133-138, with the argument converted from text. *)
Definition findSpeciesWithFormula (l : list Species) (f : str) : outcome nat := omap (findWithFormula l) (mkChemicalFormula f).

(* AqueousProps.cpp:54-84.  The members system, phase and aqsolution do not change
   after construction; of aqstate only the two members that are read are kept. *)
Record AqueousProps := mkAP {
  ap_sys : ChemicalSystem; ap_iphase : nat; ap_first : nat; ap_species : list Species; ap_data : PhaseData;
  ap_Ie : Q; ap_Is : Q; ap_iH2O : nat; ap_iH : nat; ap_A : list (list Q); ap_ib : list nat; ap_R : list (list Q) }.
Definition with_data (a : AqueousProps) (d : PhaseData) : AqueousProps :=
  mkAP (ap_sys a) (ap_iphase a) (ap_first a) (ap_species a) d (ap_Ie a) (ap_Is a) (ap_iH2O a) (ap_iH a) (ap_A a) (ap_ib a) (ap_R a).

(* Core/ChemicalPropsPhase.hpp:164-179: the scalars are default-initialised. *)
Definition newPhaseData (k : nat) : PhaseData :=
  let z := repeat 0%Q k in mkPD 0 0 z 0 z z z z z z 0 0 0 0 0 0 0 z z z.

(* AqueousProps.cpp:87-115.  Optima::Echelonizer is not part of the repository: its
   indices of basic variables and its matrix R are those of [echelon].  aqsolution
   is built first and needs a species with formula H2O
   (AqueousMixture.cpp:127-131). *)
Definition newAqueousProps (echelon : list (list Q) -> list nat * list (list Q)) (sys : ChemicalSystem) : outcome AqueousProps :=
  bind (indexAqueousPhase (sys_phases sys)) (fun iphase =>
  match nth_error (sys_phases sys) iphase with
  | None => UB
  | Some phase =>
    let l := ph_species phase in let size := length l in
    bind (findSpeciesWithFormula l $"H2O") (fun iH2O =>
    bind (findSpeciesWithFormula l $"H+") (fun iH =>
    if size <=? iH2O then Err else if size <=? iH then Err else
    bind (numSpeciesUntilPhase (sys_phases sys) iphase) (fun ifirst =>
    let A := map (fun row => segment row ifirst size) (sys_matrix sys) in
    Ok (mkAP sys iphase ifirst l (newPhaseData size) 0 0 iH2O iH A (fst (echelon A)) (snd (echelon A))))))
  end).

(* AqueousProps.cpp:132-141; [stdprops] and [act] are the models of the species and
   of the phase. *)
Definition ap_update_state (stdprops : Species -> Q -> Q -> outcome Std) (act : Q -> Q -> list Q -> outcome Act)
    (st : State) (a : AqueousProps) : outcome unit * AqueousProps :=
  let size := length (ap_species a) in
  if length (st_n st) <? ap_first a + size then (UB, a) else
  let (r, d) := phase_update stdprops (ap_species a) act (st_T st) (st_P st) (segment (st_n st) (ap_first a) size) (ap_data a) in
  (r, with_data a d).
(* AqueousProps.cpp:144-147. *)
Definition ap_update_props (p : Props) (a : AqueousProps) : outcome unit * AqueousProps :=
  match phaseProps (sys_phases (ap_sys a)) p (ap_iphase a) with
  | Ok d => (Ok tt, with_data a d)
  | Err => (Err, a)
  | UB => (UB, a)
  end.

(* Water/WaterConstants.hpp:23. *)
Definition waterMolarMassQ : Q := 18015268 # 1000000000.
(* Common/Constants.hpp:29 and 50. *)
Definition faradayConstant : Q := 964853329 # 10000.
Definition ln10Q : Q := 230258509299404590109361379290930926799774169921875 # 100000000000000000000000000000000000000000000000000.

(* AqueousProps.cpp:150-160: dividing by zero gives a number that is not finite,
   modelled as UB. *)
Definition elementMolality (a : AqueousProps) (symbol : str) : outcome Q :=
  let idx := indexfn (sys_elements (ap_sys a)) (fun e => str_eqb (el_symbol e) symbol) in
  if length (sys_elements (ap_sys a)) <=? idx then Err else
  let naq := d_n (ap_data a) in
  let bi := sumQ (zip_with Qmult (nth idx (ap_A a) []) naq) in
  divide bi (waterMolarMassQ * nth (ap_iH2O a) naq 0%Q).
(* AqueousProps.cpp:163-171. *)
Definition speciesMolality (a : AqueousProps) (n : str) : outcome Q :=
  let idx := findWithName (ap_species a) n in
  if length (ap_species a) <=? idx then Err else
  let naq := d_n (ap_data a) in
  divide (nth idx naq 0%Q) (waterMolarMassQ * nth (ap_iH2O a) naq 0%Q).
(* AqueousProps.cpp:174-177 and 180-183. *)
Definition ionicStrength (a : AqueousProps) : Q := ap_Ie a.
Definition ionicStrengthStoichiometric (a : AqueousProps) : Q := ap_Is a.
(* AqueousProps.cpp:186-189. *)
Definition pH (a : AqueousProps) : Q := nth (ap_iH a) (d_ln_a (ap_data a)) 0%Q.
(* AqueousProps.cpp:192-205: u(ib) reads within range, the product needs as many
   rows of R as there are basic variables. *)
Definition lambdaZ (a : AqueousProps) : outcome Q :=
  bind (mapM (fun i => match nth_error (d_u (ap_data a)) i with Some u => Ok u | None => UB end) (ap_ib a)) (fun ub =>
  if length (ap_R a) =? length ub
  then Ok (- sumQ (zip_with Qmult (map (fun row => nth (length (sys_elements (ap_sys a))) row 0) (ap_R a)) ub))%Q else UB).
Definition pE (a : AqueousProps) : outcome Q :=
  bind (lambdaZ a) (fun z => divide z (gasConstant * d_T (ap_data a) * ln10Q)).
(* AqueousProps.cpp:208-215. *)
Definition Eh (a : AqueousProps) : outcome Q :=
  omap (Qmult (ln10Q * (gasConstant * d_T (ap_data a)) / faradayConstant)) (pE a).
(* AqueousProps.cpp:218-222. *)
Definition alkalinity (a : AqueousProps) : outcome Q := Err.
