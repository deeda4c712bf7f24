(* Model of chemical states and chemical properties: Reaktoro/Core/ChemicalState.cpp,
   ChemicalProps.cpp, ChemicalPropsPhase.hpp, Common/ArraySerialization.hpp,
   ArrayStream.hpp and MoleFractionUtils.hpp.  Numbers are exact rationals; the
   autodiff seeds carried by the C++ type real are left out. *)
From Verif Require Import Base M_Strings M_Formula M_Chem M_Algorithms M_System M_Units.

(* ---- Arrays (Eigen) ---- *)
Definition upd {A} (l : list A) (i : nat) (a : A) : list A :=
  match skipn i l with [] => l | _ :: r => firstn i l ++ a :: r end.
(* a.segment(pos, len), as a value and as the target of an assignment. *)
Definition segment {A} (l : list A) (pos len : nat) : list A := firstn len (skipn pos l).
Definition put_segment {A} (l : list A) (pos : nat) (v : list A) : list A :=
  firstn pos l ++ v ++ skipn (pos + length v) l.
Definition zip_with {A B C} (f : A -> B -> C) (a : list A) (b : list B) : list C :=
  map (fun p => f (fst p) (snd p)) (combine a b).
Definition sumQ (l : list Q) : Q := fold_left Qplus l 0%Q.

(* ---- ChemicalState ---- *)
(* ChemicalState.cpp:36-61; the members props and equilibrium are not touched by
   the setters and are left out. *)
Record State := mkState { st_T : Q; st_P : Q; st_n : list Q }.
Definition newState (sys : ChemicalSystem) : State :=
  mkState (29815 # 100) 100000 (repeat 0%Q (length (sys_species sys))).

(* A call of a setter: what it returns, and the state afterwards. *)
Definition call := (outcome unit * State)%type.
Definition fail {S} (st : S) : (outcome unit * S)%type := (Err, st).
(* Continue with the value of an expression that may throw, leaving the state. *)
Definition with_value {A S} (m : outcome A) (st : S) (k : A -> outcome unit * S) : outcome unit * S :=
  match m with Ok a => k a | Err => (Err, st) | UB => (UB, st) end.

Section Setters.
(* [ndebug] is true when NDEBUG is defined (CMakeLists.txt:45-48: Release is the
   default).  Otherwise a failed assert aborts the process, which has no later
   state; that is modelled by UB. *)
Variable ndebug : bool.
Variable sys : ChemicalSystem.
Definition asserted (c : bool) {S} (st : S) (k : outcome unit * S) : outcome unit * S :=
  if c || ndebug then k else (UB, st).

(* Core/SpeciesList.hpp:119-130. *)
Definition index (n : str) : outcome nat :=
  let i := findWithName (sys_species sys) n in if length (sys_species sys) <=? i then Err else Ok i.

(* ChemicalState.cpp:63-68 and 70-73. *)
Definition setTemperature (v : Q) (st : State) : call :=
  if Qle_bool v 0 then fail st else (Ok tt, mkState v (st_P st) (st_n st)).
Definition setTemperatureU (v : Q) (unit : str) (st : State) : call :=
  with_value (convert v unit $"K") st (fun v => setTemperature v st).
(* ChemicalState.cpp:75-80 and 82-87. *)
Definition setPressure (v : Q) (st : State) : call :=
  if Qle_bool v 0 then fail st else (Ok tt, mkState (st_T st) v (st_n st)).
Definition setPressureU (v : Q) (unit : str) (st : State) : call :=
  if Qle_bool v 0 then fail st else with_value (convert v unit $"Pa") st (fun v => setPressure v st).
(* ChemicalState.cpp:89-94. *)
Definition setSpeciesAmountsAll (v : Q) (st : State) : call :=
  if Qltb v 0 then fail st else (Ok tt, mkState (st_T st) (st_P st) (map (fun _ => v) (st_n st))).
(* ChemicalState.cpp:96-101 and 103-108; minCoeff of an empty array is UB only
   when the assert is evaluated. *)
Definition setSpeciesAmounts (values : list Q) (st : State) : call :=
  asserted (length (st_n st) =? length values) st
  (asserted (match values with [] => false | _ => forallb (Qle_bool 0) values end) st
  (Ok tt, mkState (st_T st) (st_P st) values)).
(* ChemicalState.cpp:110-115: writing out of range is UB. *)
Definition setSpeciesAmount (i : nat) (amount : Q) (st : State) : call :=
  asserted (i <? length (sys_species sys)) st
  (asserted (Qle_bool 0 amount) st
  (if i <? length (st_n st) then (Ok tt, mkState (st_T st) (st_P st) (upd (st_n st) i amount)) else (UB, st))).
(* ChemicalState.cpp:117-130. *)
Definition setSpeciesAmountN (n : str) (amount : Q) (st : State) : call :=
  with_value (index n) st (fun i => setSpeciesAmount i amount st).
Definition setSpeciesAmountU (i : nat) (amount : Q) (unit : str) (st : State) : call :=
  with_value (convert amount unit $"mol") st (fun v => setSpeciesAmount i v st).
Definition setSpeciesAmountNU (n : str) (amount : Q) (unit : str) (st : State) : call :=
  with_value (index n) st (fun i => setSpeciesAmountU i amount unit st).
(* ChemicalState.cpp:132-138: species(i) out of range is UB; dividing by a zero
   molar mass gives a number that is not finite, modelled as UB too. *)
Definition molarMassAt (i : nat) : outcome Q :=
  match nth_error (sys_species sys) i with Some s => Ok (molarMass s) | None => UB end.
Definition divide (a b : Q) : outcome Q := if Qeq_bool b 0 then UB else Ok (a / b)%Q.
Definition setSpeciesMass (i : nat) (mass : Q) (st : State) : call :=
  asserted (i <? length (sys_species sys)) st
  (asserted (Qltb 0 mass) st
  (with_value (molarMassAt i) st (fun m => with_value (divide mass m) st (fun amount => setSpeciesAmount i amount st)))).
(* ChemicalState.cpp:140-153. *)
Definition setSpeciesMassN (n : str) (mass : Q) (st : State) : call :=
  with_value (index n) st (fun i => setSpeciesMass i mass st).
Definition setSpeciesMassU (i : nat) (mass : Q) (unit : str) (st : State) : call :=
  with_value (convert mass unit $"kg") st (fun v => setSpeciesMass i v st).
Definition setSpeciesMassNU (n : str) (mass : Q) (unit : str) (st : State) : call :=
  with_value (index n) st (fun i => setSpeciesMassU i mass unit st).

(* ChemicalState.cpp:155-195. *)
Definition speciesAmount (st : State) (i : nat) : outcome Q :=
  match nth_error (st_n st) i with Some x => Ok x | None => UB end.
Definition speciesAmountN (st : State) (n : str) : outcome Q := bind (index n) (speciesAmount st).
Definition speciesAmountU (st : State) (i : nat) (unit : str) : outcome Q :=
  bind (speciesAmount st i) (fun x => convert x $"mol" unit).
Definition speciesAmountNU (st : State) (n unit : str) : outcome Q := bind (index n) (fun i => speciesAmountU st i unit).
Definition speciesMass (st : State) (i : nat) : outcome Q :=
  bind (speciesAmount st i) (fun x => bind (molarMassAt i) (fun m => Ok (x * m)%Q)).
Definition speciesMassN (st : State) (n : str) : outcome Q := bind (index n) (speciesMass st).
Definition speciesMassU (st : State) (i : nat) (unit : str) : outcome Q :=
  bind (speciesMass st i) (fun x => convert x $"kg" unit).
Definition speciesMassNU (st : State) (n unit : str) : outcome Q := bind (index n) (fun i => speciesMassU st i unit).

(* ChemicalState.cpp:197-201: a matrix-vector product of unequal sizes is UB. *)
Definition elementAmounts (st : State) : outcome (list Q) :=
  if length (st_n st) =? length (sys_species sys)
  then Ok (map (fun row => sumQ (zip_with Qmult row (st_n st))) (sys_matrix sys)) else UB.

(* The setters of the class. *)
Inductive setter :=
| SetT (v : Q) | SetTU (v : Q) (unit : str) | SetP (v : Q) | SetPU (v : Q) (unit : str)
| SetAll (v : Q) | SetArray (values : list Q)
| SetAmount (i : nat) (v : Q) | SetAmountN (n : str) (v : Q)
| SetAmountU (i : nat) (v : Q) (unit : str) | SetAmountNU (n : str) (v : Q) (unit : str)
| SetMass (i : nat) (v : Q) | SetMassN (n : str) (v : Q)
| SetMassU (i : nat) (v : Q) (unit : str) | SetMassNU (n : str) (v : Q) (unit : str).
Definition apply (c : setter) (st : State) : call :=
  match c with
  | SetT v => setTemperature v st | SetTU v u => setTemperatureU v u st
  | SetP v => setPressure v st | SetPU v u => setPressureU v u st
  | SetAll v => setSpeciesAmountsAll v st | SetArray l => setSpeciesAmounts l st
  | SetAmount i v => setSpeciesAmount i v st | SetAmountN n v => setSpeciesAmountN n v st
  | SetAmountU i v u => setSpeciesAmountU i v u st | SetAmountNU n v u => setSpeciesAmountNU n v u st
  | SetMass i v => setSpeciesMass i v st | SetMassN n v => setSpeciesMassN n v st
  | SetMassU i v u => setSpeciesMassU i v u st | SetMassNU n v u => setSpeciesMassNU n v u st
  end.
(* A history in which the caller catches exceptions; it has no final state once
   a call is UB. *)
Fixpoint run (st : State) (h : list setter) : option State :=
  match h with
  | [] => Some st
  | c :: h' => match apply c st with (UB, _) => None | (_, st') => run st' h' end
  end.
End Setters.

(* ---- Mole fractions ---- *)
(* Common/MoleFractionUtils.hpp:29-40 and 44-52. *)
Definition moleFractions (n : list Q) : list Q :=
  if length n =? 1 then map (fun _ => 1%Q) n
  else let nsum := sumQ n in
       if negb (Qeq_bool nsum 0) then map (fun x => x / nsum)%Q n else map (fun _ => 0%Q) n.
(* Common/MoleFractionUtils.hpp:58-79: the row is filled first, then its
   diagonal entry is overwritten. *)
Definition moleFractionsJacobian (n : list Q) : list (list Q) :=
  let nsum := sumQ n in
  if Qeq_bool nsum 0 then map (fun _ => map (fun _ => 0%Q) n) n
  else map (fun i => let xi := (nth i n 0 / nsum)%Q in
         upd (map (fun _ => - xi / nsum)%Q n) i ((1 - xi) / nsum)%Q) (seq 0 (length n)).
(* Common/MoleFractionUtils.hpp:98-120: dividing by a zero amount gives a number
   that is not finite, modelled as UB. *)
Definition lnMoleFractionsJacobian (n : list Q) : outcome (list (list Q)) :=
  let nsum := sumQ n in
  if Qeq_bool nsum 0 then Ok (map (fun _ => map (fun _ => 0%Q) n) n)
  else mapM (fun i => let ni := nth i n 0%Q in let xi := (ni / nsum)%Q in
         if Qeq_bool ni 0 then UB else Ok (upd (map (fun _ => - xi / ni)%Q n) i ((1 - xi) / ni)%Q)) (seq 0 (length n)).

(* ---- Properties of a phase ---- *)
(* Core/StandardThermoProps.hpp. *)
Record Std := mkStd { s_G0 : Q; s_H0 : Q; s_V0 : Q; s_Cp0 : Q; s_Cv0 : Q }.
(* Core/ActivityProps.hpp:31-59. *)
Record Act := mkAct {
  a_Vex : Q; a_VexT : Q; a_VexP : Q; a_Gex : Q; a_Hex : Q; a_Cpex : Q; a_Cvex : Q; a_ln_g : list Q; a_ln_a : list Q }.
(* Core/ChemicalPropsPhase.hpp:28-89. *)
Record PhaseData := mkPD {
  d_T : Q; d_P : Q; d_n : list Q; d_nsum : Q; d_x : list Q;
  d_G0 : list Q; d_H0 : list Q; d_V0 : list Q; d_Cp0 : list Q; d_Cv0 : list Q;
  d_Vex : Q; d_VexT : Q; d_VexP : Q; d_Gex : Q; d_Hex : Q; d_Cpex : Q; d_Cvex : Q;
  d_ln_g : list Q; d_ln_a : list Q; d_u : list Q }.

(* Common/Constants.hpp:26. *)
Definition gasConstant : Q := 83144621 # 10000000.

(* Core/ActivityProps.hpp:62-74, with the array length of the phase. *)
Definition zeroAct (k : nat) : Act := mkAct 0 0 0 0 0 0 0 (repeat 0%Q k) (repeat 0%Q k).

Definition minCoeff (l : list Q) : outcome Q :=
  match l with [] => UB | x :: l' => Ok (fold_left (fun m y => if Qltb y m then y else m) l' x) end.

Section Phases.
(* Species::props and the activity model of a phase may be any functions. *)
Variable stdprops : Species -> Q -> Q -> outcome Std.

(* Core/ChemicalPropsPhase.hpp:517-527; the data before a failing species is kept. *)
Fixpoint std_loop (sp : list Species) (i : nat) (T P : Q) (d : PhaseData) : outcome unit * PhaseData :=
  match sp with
  | [] => (Ok tt, d)
  | s :: sp' => with_value (stdprops s T P) d (fun a => std_loop sp' (S i) T P
      (mkPD (d_T d) (d_P d) (d_n d) (d_nsum d) (d_x d)
        (upd (d_G0 d) i (s_G0 a)) (upd (d_H0 d) i (s_H0 a)) (upd (d_V0 d) i (s_V0 a))
        (upd (d_Cp0 d) i (s_Cp0 a)) (upd (d_Cv0 d) i (s_Cv0 a))
        (d_Vex d) (d_VexT d) (d_VexP d) (d_Gex d) (d_Hex d) (d_Cpex d) (d_Cvex d) (d_ln_g d) (d_ln_a d) (d_u d)))
  end.

(* Core/ChemicalPropsPhase.hpp:477-551, _update with activity model [act].  An
   activity model that throws is taken to have written nothing; one that gives
   arrays of another length is UB.  Arrays of unequal length are UB. *)
Definition phase_update (sp : list Species) (act : Q -> Q -> list Q -> outcome Act) (T P : Q) (n : list Q) (d : PhaseData)
  : outcome unit * PhaseData :=
  if negb (length n =? length sp) then (UB, d) else
  let d1 := mkPD T P n (d_nsum d) (d_x d) (d_G0 d) (d_H0 d) (d_V0 d) (d_Cp0 d) (d_Cv0 d)
    (d_Vex d) (d_VexT d) (d_VexP d) (d_Gex d) (d_Hex d) (d_Cpex d) (d_Cvex d) (d_ln_g d) (d_ln_a d) (d_u d) in
  match std_loop sp 0 T P d1 with
  | (Ok _, d2) =>
    let nsum := sumQ n in
    let x := if Qeq_bool nsum 0 then map (fun _ => if length sp =? 1 then 1%Q else 0%Q) n else map (fun y => y / nsum)%Q n in
    let d3 := mkPD T P n nsum x (d_G0 d2) (d_H0 d2) (d_V0 d2) (d_Cp0 d2) (d_Cv0 d2)
      (d_Vex d2) (d_VexT d2) (d_VexP d2) (d_Gex d2) (d_Hex d2) (d_Cpex d2) (d_Cvex d2) (d_ln_g d2) (d_ln_a d2) (d_u d2) in
    with_value (minCoeff x) d3 (fun m =>
    if Qeq_bool m 0 then fail d3 else
    with_value (if Qeq_bool nsum 0 then Ok (zeroAct (length sp)) else act T P x) d3 (fun a =>
    if negb ((length (a_ln_g a) =? length sp) && (length (a_ln_a a) =? length sp)) then (UB, d3) else
    (Ok tt, mkPD T P n nsum x (d_G0 d3) (d_H0 d3) (d_V0 d3) (d_Cp0 d3) (d_Cv0 d3)
      (a_Vex a) (a_VexT a) (a_VexP a) (a_Gex a) (a_Hex a) (a_Cpex a) (a_Cvex a) (a_ln_g a) (a_ln_a a)
      (zip_with (fun g la => g + gasConstant * T * la)%Q (d_G0 d3) (a_ln_a a)))))
  | r => r
  end.

(* Core/ChemicalPropsPhase.hpp:334-446. *)
Definition mixed (x y : list Q) : Q := sumQ (zip_with Qmult x y).
Definition molarGibbsEnergy (d : PhaseData) : Q := mixed (d_x d) (d_G0 d) + d_Gex d.
Definition molarEnthalpy (d : PhaseData) : Q := mixed (d_x d) (d_H0 d) + d_Hex d.
Definition molarVolume (d : PhaseData) : Q := mixed (d_x d) (d_V0 d) + d_Vex d.
Definition molarEntropy (d : PhaseData) : Q := (molarEnthalpy d - molarGibbsEnergy d) / d_T d.
Definition molarInternalEnergy (d : PhaseData) : Q := molarEnthalpy d - d_P d * molarVolume d.
Definition molarHelmholtzEnergy (d : PhaseData) : Q := molarInternalEnergy d - d_T d * molarEntropy d.
Definition molarHeatCapacityConstP (d : PhaseData) : Q := mixed (d_x d) (d_Cp0 d) + d_Cpex d.
Definition molarHeatCapacityConstV (d : PhaseData) : Q := mixed (d_x d) (d_Cv0 d) + d_Cvex d.
Definition molarDensity (d : PhaseData) : Q := if Qeq_bool (molarVolume d) 0 then 0 else 1 / molarVolume d.
Definition phase_amount (d : PhaseData) : Q := d_nsum d.
Definition phase_mass (sp : list Species) (d : PhaseData) : Q :=
  fold_left (fun sum p => sum + fst p * molarMass (snd p))%Q (combine (d_n d) sp) 0%Q.
Definition phase_gibbsEnergy (d : PhaseData) : Q := molarGibbsEnergy d * phase_amount d.
Definition phase_enthalpy (d : PhaseData) : Q := molarEnthalpy d * phase_amount d.
Definition phase_volume (d : PhaseData) : Q := molarVolume d * phase_amount d.
Definition phase_entropy (d : PhaseData) : Q := molarEntropy d * phase_amount d.
Definition phase_internalEnergy (d : PhaseData) : Q := molarInternalEnergy d * phase_amount d.
Definition phase_helmholtzEnergy (d : PhaseData) : Q := molarHelmholtzEnergy d * phase_amount d.

(* ---- Properties of a system ---- *)
(* Core/ChemicalProps.cpp:27-96. *)
Record Props := mkProps {
  p_T : Q; p_P : Q; p_Ts : list Q; p_Ps : list Q; p_n : list Q; p_nsum : list Q; p_x : list Q;
  p_G0 : list Q; p_H0 : list Q; p_V0 : list Q; p_Cp0 : list Q; p_Cv0 : list Q;
  p_Vex : list Q; p_VexT : list Q; p_VexP : list Q; p_Gex : list Q; p_Hex : list Q; p_Cpex : list Q; p_Cvex : list Q;
  p_ln_g : list Q; p_ln_a : list Q; p_u : list Q }.
(* Core/ChemicalProps.cpp:99-125. *)
Definition newProps (phases : list Phase) : Props :=
  let zs := repeat 0%Q (length (collectSpecies phases)) in
  let zp := repeat 0%Q (length phases) in
  mkProps 0 0 zp zp zs zp zs zs zs zs zs zs zp zp zp zp zp zp zp zs zs zs.

(* Core/ChemicalProps.cpp:206-234, phaseProps: the view of phase [idx] whose
   species begin at [b] and are [k] in number, and writing through it. *)
Definition view (p : Props) (idx b k : nat) : PhaseData :=
  mkPD (nth idx (p_Ts p) 0%Q) (nth idx (p_Ps p) 0%Q) (segment (p_n p) b k) (nth idx (p_nsum p) 0%Q) (segment (p_x p) b k)
    (segment (p_G0 p) b k) (segment (p_H0 p) b k) (segment (p_V0 p) b k) (segment (p_Cp0 p) b k) (segment (p_Cv0 p) b k)
    (nth idx (p_Vex p) 0%Q) (nth idx (p_VexT p) 0%Q) (nth idx (p_VexP p) 0%Q) (nth idx (p_Gex p) 0%Q) (nth idx (p_Hex p) 0%Q)
    (nth idx (p_Cpex p) 0%Q) (nth idx (p_Cvex p) 0%Q)
    (segment (p_ln_g p) b k) (segment (p_ln_a p) b k) (segment (p_u p) b k).
Definition put_view (p : Props) (idx b : nat) (d : PhaseData) : Props :=
  mkProps (p_T p) (p_P p) (upd (p_Ts p) idx (d_T d)) (upd (p_Ps p) idx (d_P d)) (put_segment (p_n p) b (d_n d))
    (upd (p_nsum p) idx (d_nsum d)) (put_segment (p_x p) b (d_x d))
    (put_segment (p_G0 p) b (d_G0 d)) (put_segment (p_H0 p) b (d_H0 d)) (put_segment (p_V0 p) b (d_V0 d))
    (put_segment (p_Cp0 p) b (d_Cp0 d)) (put_segment (p_Cv0 p) b (d_Cv0 d))
    (upd (p_Vex p) idx (d_Vex d)) (upd (p_VexT p) idx (d_VexT d)) (upd (p_VexP p) idx (d_VexP d))
    (upd (p_Gex p) idx (d_Gex d)) (upd (p_Hex p) idx (d_Hex d)) (upd (p_Cpex p) idx (d_Cpex d)) (upd (p_Cvex p) idx (d_Cvex d))
    (put_segment (p_ln_g p) b (d_ln_g d)) (put_segment (p_ln_a p) b (d_ln_a d)) (put_segment (p_u p) b (d_u d)).
Definition phaseProps (phases : list Phase) (p : Props) (idx : nat) : outcome PhaseData :=
  match nth_error phases idx with
  | Some ph => omap (fun b => view p idx b (length (ph_species ph))) (numSpeciesUntilPhase phases idx)
  | None => UB
  end.

(* Core/ChemicalProps.cpp:144-157 and 176-189: [acts] are the activity models or
   the ideal activity models of the phases. *)
Fixpoint update_loop (phases rest : list Phase) (acts : nat -> Q -> Q -> list Q -> outcome Act) (i offset : nat)
    (T P : Q) (n : list Q) (p : Props) : outcome unit * Props :=
  match rest with
  | [] => (Ok tt, p)
  | ph :: rest' =>
    let size := length (ph_species ph) in
    if length n <? offset + size then (UB, p) else
    with_value (numSpeciesUntilPhase phases i) p (fun b =>
    match phase_update (ph_species ph) (acts i) T P (segment n offset size) (view p i b size) with
    | (Ok _, d) => update_loop phases rest' acts (S i) (offset + size) T P n (put_view p i b d)
    | (r, d) => (r, put_view p i b d)
    end)
  end.
Definition props_update (phases : list Phase) (acts : nat -> Q -> Q -> list Q -> outcome Act) (T P : Q) (n : list Q) (p : Props)
  : outcome unit * Props :=
  update_loop phases phases acts 0 0 T P n
    (mkProps T P (p_Ts p) (p_Ps p) (p_n p) (p_nsum p) (p_x p) (p_G0 p) (p_H0 p) (p_V0 p) (p_Cp0 p) (p_Cv0 p)
      (p_Vex p) (p_VexT p) (p_VexP p) (p_Gex p) (p_Hex p) (p_Cpex p) (p_Cvex p) (p_ln_g p) (p_ln_a p) (p_u p)).

(* Core/ChemicalProps.cpp:358-371. *)
Definition standardEntropies (p : Props) : list Q := zip_with (fun h g => (h - g) / p_T p)%Q (p_H0 p) (p_G0 p).
Definition standardInternalEnergies (p : Props) : list Q := zip_with (fun h v => h - p_P p * v)%Q (p_H0 p) (p_V0 p).
Definition standardHelmholtzEnergies (p : Props) : list Q := zip_with (fun g v => g - p_P p * v)%Q (p_G0 p) (p_V0 p).

(* Core/ChemicalProps.cpp:383-417. *)
Definition over_phases (f : PhaseData -> Q) (phases : list Phase) (p : Props) : outcome Q :=
  sum (Ok 0%Q) (fun a b => bind a (fun a => bind b (fun b => Ok (a + b)%Q))) 0 (length phases)
    (fun i => omap f (phaseProps phases p i)).
Definition gibbsEnergy := over_phases phase_gibbsEnergy.
Definition enthalpy := over_phases phase_enthalpy.
Definition volume := over_phases phase_volume.
Definition entropy := over_phases phase_entropy.
Definition internalEnergy := over_phases phase_internalEnergy.
Definition helmholtzEnergy := over_phases phase_helmholtzEnergy.
End Phases.

(* ---- Serialization ---- *)
(* Common/ArraySerialization.hpp: an argument is a scalar or an array. *)
Inductive sarg := Sc (x : Q) | Ar (l : list Q).
(* ArraySerialization.hpp:54-69. *)
Definition arg_length (a : sarg) : nat := match a with Sc _ => 1 | Ar l => length l end.
Fixpoint args_length (l : list sarg) : nat := match l with [] => 0 | a :: l' => arg_length a + args_length l' end.
(* ArraySerialization.hpp:71-94: writing past the end is UB (an abort with asserts). *)
Definition serialize1 (array : list Q) (pos : nat) (a : sarg) : outcome (list Q) :=
  if length array <? pos + arg_length a then UB
  else Ok (match a with Sc x => upd array pos x | Ar l => put_segment array pos l end).
Fixpoint serialize (array : list Q) (pos : nat) (args : list sarg) : outcome (list Q) :=
  match args with
  | [] => Ok array
  | a :: args' => bind (serialize1 array pos a) (fun array => serialize array (pos + arg_length a) args')
  end.
(* ArraySerialization.hpp:96-117: arrays keep the size they have. *)
Definition deserialize1 (array : list Q) (pos : nat) (a : sarg) : outcome sarg :=
  if length array <? pos + arg_length a then UB
  else Ok (match a with Sc _ => Sc (nth pos array 0%Q) | Ar l => Ar (segment array pos (length l)) end).
Fixpoint deserialize (array : list Q) (pos : nat) (args : list sarg) : outcome (list sarg) :=
  match args with
  | [] => Ok []
  | a :: args' => bind (deserialize1 array pos a) (fun b =>
                  omap (cons b) (deserialize array (pos + arg_length b) args'))
  end.
(* ArrayStream.hpp:46-50 and 53-57.  [array0] is what resize leaves in the array
   before it is written; only its length is known (ArraySerialization.hpp:126-130). *)
Definition stream_from (junk : nat -> Q) (args : list sarg) : outcome (list Q) :=
  serialize (map junk (seq 0 (args_length args))) 0 args.
Definition stream_to (array : list Q) (args : list sarg) : outcome (list sarg) := deserialize array 0 args.

(* Core/ChemicalProps.cpp:193-196. *)
Definition props_args (p : Props) : list sarg :=
  [Sc (p_T p); Sc (p_P p); Ar (p_Ts p); Ar (p_Ps p); Ar (p_n p); Ar (p_nsum p); Ar (p_x p);
   Ar (p_G0 p); Ar (p_H0 p); Ar (p_V0 p); Ar (p_Cp0 p); Ar (p_Cv0 p); Ar (p_Vex p); Ar (p_VexT p); Ar (p_VexP p);
   Ar (p_Gex p); Ar (p_Hex p); Ar (p_Cpex p); Ar (p_Cvex p); Ar (p_ln_g p); Ar (p_ln_a p); Ar (p_u p)].
Definition props_serialize (junk : nat -> Q) (p : Props) : outcome (list Q) := stream_from junk (props_args p).
(* Core/ChemicalProps.cpp:200-203 (and 161-164): the targets, in the order they
   are listed there. *)
Definition props_deserialize (array : list Q) (p : Props) : outcome Props :=
  bind (stream_to array [Sc (p_T p); Sc (p_P p); Ar (p_Ts p); Ar (p_Ps p); Ar (p_n p); Ar (p_nsum p); Ar (p_x p);
      Ar (p_G0 p); Ar (p_H0 p); Ar (p_V0 p); Ar (p_Cp0 p); Ar (p_Cv0 p); Ar (p_Vex p); Ar (p_VexT p); Ar (p_VexP p);
      Ar (p_Gex p); Ar (p_Hex p); Ar (p_Cpex p); Ar (p_Cvex p); Ar (p_ln_g p); Ar (p_ln_a p); Ar (p_u p)]) (fun l =>
  match l with
  | [Sc T; Sc P; Ar Ts; Ar Ps; Ar n; Ar nsum; Ar x; Ar G0; Ar H0; Ar V0; Ar Cp0; Ar Cv0; Ar Vex; Ar VexT; Ar VexP;
     Ar Gex; Ar Hex; Ar Cpex; Ar Cvex; Ar ln_g; Ar ln_a; Ar u] =>
    Ok (mkProps T P Ts Ps n nsum x G0 H0 V0 Cp0 Cv0 Vex VexT VexP Gex Hex Cpex Cvex ln_g ln_a u)
  | _ => UB
  end).
(* Core/ChemicalPropsPhase.hpp:133-143. *)
Definition phase_serialize (junk : nat -> Q) (d : PhaseData) : outcome (list Q) :=
  stream_from junk [Sc (d_T d); Sc (d_P d); Ar (d_n d); Sc (d_nsum d); Ar (d_x d); Ar (d_G0 d); Ar (d_H0 d); Ar (d_V0 d);
    Ar (d_Cp0 d); Ar (d_Cv0 d); Sc (d_Vex d); Sc (d_VexT d); Sc (d_VexP d); Sc (d_Gex d); Sc (d_Hex d); Sc (d_Cpex d);
    Sc (d_Cvex d); Ar (d_ln_g d); Ar (d_ln_a d); Ar (d_u d)].
Definition phase_deserialize (array : list Q) (d : PhaseData) : outcome PhaseData :=
  bind (stream_to array [Sc (d_T d); Sc (d_P d); Ar (d_n d); Sc (d_nsum d); Ar (d_x d); Ar (d_G0 d); Ar (d_H0 d); Ar (d_V0 d);
    Ar (d_Cp0 d); Ar (d_Cv0 d); Sc (d_Vex d); Sc (d_VexT d); Sc (d_VexP d); Sc (d_Gex d); Sc (d_Hex d); Sc (d_Cpex d);
    Sc (d_Cvex d); Ar (d_ln_g d); Ar (d_ln_a d); Ar (d_u d)]) (fun l =>
  match l with
  | [Sc T; Sc P; Ar n; Sc nsum; Ar x; Ar G0; Ar H0; Ar V0; Ar Cp0; Ar Cv0; Sc Vex; Sc VexT; Sc VexP; Sc Gex; Sc Hex;
     Sc Cpex; Sc Cvex; Ar ln_g; Ar ln_a; Ar u] =>
    Ok (mkPD T P n nsum x G0 H0 V0 Cp0 Cv0 Vex VexT VexP Gex Hex Cpex Cvex ln_g ln_a u)
  | _ => UB
  end).
