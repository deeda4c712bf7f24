(* Model of equilibrium specifications, conditions and restrictions:
   Reaktoro/Equilibrium/EquilibriumSpecs.cpp, EquilibriumDims.cpp,
   EquilibriumConditions.cpp, EquilibriumRestrictions.cpp and Core/Utils.cpp.
   Numbers are exact rationals. *)
From Verif Require Import Base M_Strings M_Formula M_Chem M_Algorithms M_System M_Units M_State.

(* Common/Constants.hpp:29 and 50. *)
Definition faradayConstant : Q := 964853329 # 10000.
Definition ln10 : Q := 230258509299404590109361379290930926799774169921875 # 100000000000000000000000000000000000000000000000000.

(* EquilibriumSpecs.hpp:33-57: a constraint has a name, the substance it opens
   the system to (for chemical potentials) and a function, which may be empty;
   w[idx] out of range is UB. *)
Definition ConstraintFn := Props -> list Q -> outcome Q.
Record EConstraint := mkE { e_name : str; e_fn : option ConstraintFn }.
Record UConstraint := mkU { u_name : str; u_substance : ChemicalFormula; u_fn : option ConstraintFn }.
(* A Param is a handle to shared data; here its identifier and the cell with its
   value.  The identifier is taken not to be changed after it is registered. *)
Record Param := mkParam { pa_id : str; pa_cell : nat }.
(* EquilibriumSpecs.hpp:514-542. *)
Record Specs := mkSpecs {
  q_unknownT : bool; q_unknownP : bool; q_inputs : list str; q_params : list Param; q_idxs : list nat;
  q_econs : list EConstraint; q_ucons : list UConstraint;
  q_explicit : list ChemicalFormula; q_implicit : list ChemicalFormula }.
Definition newSpecs : Specs := mkSpecs true true [] [] [] [] [] [] [].

Definition at_w (w : list Q) (idx : nat) : outcome Q :=
  match nth_error w idx with Some v => Ok v | None => UB end.

Section Specs.
(* The natural logarithm and the standard properties of species are arbitrary. *)
Variable log : Q -> Q.
Variable stdprops : Species -> Q -> Q -> outcome Std.
Variable sys : ChemicalSystem.
Variable db : Database.

(* EquilibriumSpecs.cpp:454-461. *)
Definition addInput (var : str) (s : Specs) : outcome nat * Specs :=
  if contains str_eqb (q_inputs s) var then (Err, s)
  else (Ok (length (q_inputs s)),
        mkSpecs (q_unknownT s) (q_unknownP s) (q_inputs s ++ [var]) (q_params s) (q_idxs s) (q_econs s) (q_ucons s)
          (q_explicit s) (q_implicit s)).
(* EquilibriumSpecs.cpp:463-469. *)
Definition addParam (p : Param) (s : Specs) : outcome nat * Specs :=
  match addInput (pa_id p) s with
  | (Ok idx, s) => (Ok idx, mkSpecs (q_unknownT s) (q_unknownP s) (q_inputs s) (q_params s ++ [p]) (q_idxs s ++ [idx])
                      (q_econs s) (q_ucons s) (q_explicit s) (q_implicit s))
  | r => r
  end.
(* EquilibriumSpecs.cpp:538-549: true when the substance has been registered. *)
Definition titrantRegistered (f : ChemicalFormula) (s : Specs) : bool :=
  containsfn (q_explicit s) (fun x => equivalent x f) ||
  (indexfn (q_implicit s) (fun x => equivalent x f) <? length (q_implicit s)).
(* EquilibriumSpecs.cpp:434-441. *)
Definition addEConstraint (c : EConstraint) (s : Specs) : outcome unit * Specs :=
  if containsfn (q_econs s) (fun x => str_eqb (e_name x) (e_name c)) then fail s
  else if length (e_name c) =? 0 then fail s
  else match e_fn c with
  | None => fail s
  | Some _ => (Ok tt, mkSpecs (q_unknownT s) (q_unknownP s) (q_inputs s) (q_params s) (q_idxs s) (q_econs s ++ [c]) (q_ucons s)
                        (q_explicit s) (q_implicit s))
  end.
(* EquilibriumSpecs.cpp:443-452. *)
Definition addUConstraint (c : UConstraint) (s : Specs) : outcome unit * Specs :=
  if containsfn (q_ucons s) (fun x => str_eqb (u_name x) (u_name c)) then fail s
  else if length (u_name c) =? 0 then fail s
  else match u_fn c with
  | None => fail s
  | Some _ =>
    if titrantRegistered (u_substance c) s then fail s
    else (Ok tt, mkSpecs (q_unknownT s) (q_unknownP s) (q_inputs s) (q_params s) (q_idxs s) (q_econs s) (q_ucons s ++ [c])
                   (q_explicit s) (q_implicit s ++ [u_substance c]))
  end.
(* Continue with the index returned by addInput. *)
Definition with_input (var : str) (s : Specs) (k : nat -> Specs -> outcome unit * Specs) : outcome unit * Specs :=
  match addInput var s with (Ok idx, s) => k idx s | (Err, s) => (Err, s) | (UB, s) => (UB, s) end.

(* EquilibriumSpecs.cpp:66-76. *)
Definition temperature (s : Specs) : outcome unit * Specs :=
  with_input $"T" (mkSpecs false (q_unknownP s) (q_inputs s) (q_params s) (q_idxs s) (q_econs s) (q_ucons s) (q_explicit s) (q_implicit s))
    (fun _ s => (Ok tt, s)).
Definition pressure (s : Specs) : outcome unit * Specs :=
  with_input $"P" (mkSpecs (q_unknownT s) false (q_inputs s) (q_params s) (q_idxs s) (q_econs s) (q_ucons s) (q_explicit s) (q_implicit s))
    (fun _ s => (Ok tt, s)).
(* EquilibriumSpecs.cpp:78-148: six constraints of the same form. *)
Definition property_minus (f : list Phase -> Props -> outcome Q) (idx : nat) : ConstraintFn :=
  fun props w => bind (f (sys_phases sys) props) (fun v => bind (at_w w idx) (fun x => Ok (v - x)%Q)).
Definition constrainProperty (cname var : str) (f : list Phase -> Props -> outcome Q) (s : Specs) : outcome unit * Specs :=
  with_input var s (fun idx s => addEConstraint (mkE cname (Some (property_minus f idx))) s).
Definition volume_ := constrainProperty $"volume" $"V" volume.
Definition internalEnergy_ := constrainProperty $"internalEnergy" $"U" internalEnergy.
Definition enthalpy_ := constrainProperty $"enthalpy" $"H" enthalpy.
Definition gibbsEnergy_ := constrainProperty $"gibbsEnergy" $"G" gibbsEnergy.
Definition helmholtzEnergy_ := constrainProperty $"helmholtzEnergy" $"A" helmholtzEnergy.
Definition entropy_ := constrainProperty $"entropy" $"S" entropy.

(* EquilibriumSpecs.cpp:156-169: the substance is parsed before the input is added. *)
Definition chemicalPotential (substance : str) (s : Specs) : outcome unit * Specs :=
  let pid := $"u[" ++ substance ++ $"]" in
  with_value (mkChemicalFormula substance) s (fun f =>
  with_input pid s (fun idx s => addUConstraint (mkU pid f (Some (fun _ w => at_w w idx))) s)).
(* EquilibriumSpecs.cpp:176-191. *)
Definition createActivityConstraint (species : Species) (n : str) (idx : nat) (convert_to_lna : Q -> Q) : UConstraint :=
  mkU n (formula species) (Some (fun props w =>
    bind (stdprops species (p_T props) (p_P props)) (fun std =>
    bind (at_w w idx) (fun x => Ok (s_G0 std + gasConstant * p_T props * convert_to_lna x)%Q)))).
(* EquilibriumSpecs.cpp:193-200. *)
Definition lnActivitySpecies (species : Species) (s : Specs) : outcome unit * Specs :=
  let pid := $"lnActivity[" ++ name species ++ $"]" in
  with_input pid s (fun idx s => addUConstraint (createActivityConstraint species pid idx (fun x => x)) s).
(* EquilibriumSpecs.cpp:202-221: lgActivity and activity do the same. *)
Definition lnActivity (n : str) (s : Specs) : outcome unit * Specs :=
  match nth_error (db_species db) (findWithName (db_species db) n) with
  | None => fail s
  | Some species => lnActivitySpecies species s
  end.
(* EquilibriumSpecs.cpp:33-51; a species that is not found is Species(), whose
   name is empty. *)
Definition getSpecies (f : str) (a : AggregateState) : outcome (option Species) :=
  let selected := speciesWithAggregateState db a in
  omap (fun f => nth_error selected (findWithFormula selected f)) (mkChemicalFormula f).
Definition named_species (o : option Species) : option Species :=
  match o with Some sp => if length (name sp) =? 0 then None else Some sp | None => None end.
(* EquilibriumSpecs.cpp:223-234, 236-246 and 248-258. *)
Definition activity_of (f : str) (a : AggregateState) (pid : str) (convert_to_lna : Q -> Q) (s : Specs) : outcome unit * Specs :=
  with_value (getSpecies f a) s (fun o =>
  match named_species o with
  | None => fail s
  | Some species => with_input pid s (fun idx s => addUConstraint (createActivityConstraint species pid idx convert_to_lna) s)
  end).
Definition fugacity (gas : str) := activity_of gas Gas ($"f[" ++ gas ++ $"]") log.
Definition pH := activity_of $"H+" Aqueous $"pH" (fun x => - x * ln10)%Q.
Definition pMg := activity_of $"Mg+2" Aqueous $"pMg" (fun x => - x * ln10)%Q.
(* EquilibriumSpecs.cpp:260-275 and 277-289. *)
Definition pE (s : Specs) : outcome unit * Specs :=
  with_value (mkChemicalFormula $"e-") s (fun f =>
  with_input $"pE" s (fun idx s => addUConstraint (mkU $"pE" f (Some (fun props w =>
    bind (at_w w idx) (fun x => Ok (0 + gasConstant * p_T props * (- x * ln10))%Q)))) s)).
Definition Eh (s : Specs) : outcome unit * Specs :=
  with_value (mkChemicalFormula $"e-") s (fun f =>
  with_input $"Eh" s (fun idx s => addUConstraint (mkU $"Eh" f (Some (fun props w =>
    bind (at_w w idx) (fun x => Ok (- faradayConstant * x)%Q)))) s)).
(* EquilibriumSpecs.cpp:297-301. *)
Definition openTo (f : ChemicalFormula) (s : Specs) : outcome unit * Specs :=
  if titrantRegistered f s then fail s
  else (Ok tt, mkSpecs (q_unknownT s) (q_unknownP s) (q_inputs s) (q_params s) (q_idxs s) (q_econs s) (q_ucons s)
                 (q_explicit s ++ [f]) (q_implicit s)).

(* The public calls that change a specification. *)
Inductive scall :=
| STemperature | SPressure | SVolume | SInternalEnergy | SEnthalpy | SGibbsEnergy | SHelmholtzEnergy | SEntropy
| SChemicalPotential (substance : str) | SLnActivitySpecies (sp : Species) | SLnActivity (n : str) | SLgActivity (n : str)
| SActivity (n : str) | SFugacity (gas : str) | SpH | SpMg | SpE | SEh
| SOpenTo (f : ChemicalFormula) | SAddE (c : EConstraint) | SAddU (c : UConstraint)
| SAddInput (var : str) | SAddParam (p : Param).
Definition forget {A S} (r : outcome A * S) : outcome unit * S :=
  (match fst r with Ok _ => Ok tt | Err => Err | UB => UB end, snd r).
Definition scall_apply (c : scall) (s : Specs) : outcome unit * Specs :=
  match c with
  | STemperature => temperature s | SPressure => pressure s | SVolume => volume_ s | SInternalEnergy => internalEnergy_ s
  | SEnthalpy => enthalpy_ s | SGibbsEnergy => gibbsEnergy_ s | SHelmholtzEnergy => helmholtzEnergy_ s | SEntropy => entropy_ s
  | SChemicalPotential x => chemicalPotential x s | SLnActivitySpecies sp => lnActivitySpecies sp s
  | SLnActivity n | SLgActivity n | SActivity n => lnActivity n s
  | SFugacity g => fugacity g s | SpH => pH s | SpMg => pMg s | SpE => pE s | SEh => Eh s
  | SOpenTo f => openTo f s | SAddE c => addEConstraint c s | SAddU c => addUConstraint c s
  | SAddInput v => forget (addInput v s) | SAddParam p => forget (addParam p s)
  end.
(* A history in which the caller catches exceptions; it ends at undefined
   behaviour. *)
Fixpoint srun (s : Specs) (h : list scall) : option Specs :=
  match h with
  | [] => Some s
  | c :: h' => match scall_apply c s with (UB, _) => None | (_, s') => srun s' h' end
  end.
End Specs.

(* EquilibriumSpecs.cpp:309-367. *)
Definition b2n (b : bool) : nat := if b then 1 else 0.
Definition numInputs (s : Specs) : nat := length (q_inputs s).
Definition numTitrantsExplicit (s : Specs) : nat := length (q_explicit s).
Definition numTitrantsImplicit (s : Specs) : nat := length (q_implicit s).
Definition numTitrants (s : Specs) : nat := length (q_explicit s) + length (q_implicit s).
Definition numControlVariables (s : Specs) : nat := b2n (q_unknownT s) + b2n (q_unknownP s) + numTitrants s.
Definition numControlVariablesP (s : Specs) : nat := b2n (q_unknownT s) + b2n (q_unknownP s) + numTitrantsExplicit s.
Definition numControlVariablesQ (s : Specs) : nat := numTitrantsImplicit s.
Definition numConstraints (s : Specs) : nat := length (q_econs s) + length (q_ucons s).
(* EquilibriumSpecs.cpp:370-426. *)
Definition bracketed (f : ChemicalFormula) : str := $"[" ++ cf_str f ++ $"]".
Definition namesParams (s : Specs) : list str := vectorize (q_params s) pa_id.
Definition namesTitrantsExplicit (s : Specs) : list str := vectorize (q_explicit s) bracketed.
Definition namesTitrantsImplicit (s : Specs) : list str := vectorize (q_implicit s) bracketed.
Definition namesControlVariablesP (s : Specs) : list str :=
  concatenate ((if q_unknownT s then [$"T"] else []) ++ (if q_unknownP s then [$"P"] else [])) (namesTitrantsExplicit s).
Definition namesControlVariablesQ (s : Specs) : list str := namesTitrantsImplicit s.
Definition namesControlVariables (s : Specs) : list str := concatenate (namesControlVariablesP s) (namesControlVariablesQ s).
Definition namesConstraints (s : Specs) : list str :=
  concatenate (vectorize (q_econs s) e_name) (vectorize (q_ucons s) u_name).

(* EquilibriumDims.cpp:27-48. *)
Record Dims := mkDims { Ne : nat; Nb : nat; Nn : nat; Np : nat; Nq : nat; Nt : nat; Nx : nat; Nu : nat; Nw : nat }.
Definition mkEquilibriumDims (sys : ChemicalSystem) (s : Specs) : outcome Dims :=
  let ne := length (sys_elements sys) + 1 in
  let nn := length (sys_species sys) in
  let np := numControlVariablesP s in
  let nq := numControlVariablesQ s in
  if np + nq =? numConstraints s
  then Ok (mkDims ne ne nn np nq (numTitrants s) (nn + nq) (nn + np + nq) (numInputs s)) else Err.

(* ---- Core/Utils.cpp:27-40 ---- *)
Definition computeSpeciesAmount (sys : ChemicalSystem) (i : nat) (value : Q) (un : str) : outcome Q :=
  if str_eqb un $"mol" then Ok value
  else bind (convertible un $"kg") (fun c =>
    if c then bind (molarMassAt sys i) (fun m => bind (convert value un $"kg") (fun v => divide v m))
    else convert value un $"mol").

(* ---- Conditions ---- *)
(* EquilibriumConditions.hpp:217-230. *)
Record Conditions := mkC { c_inputs : list str; c_values : list Q; c_species : list Q; c_components : list Q }.

Section Conditions.
Variable log : Q -> Q.
(* What a freshly allocated array holds. *)
Variable fresh : nat -> Q.
Variable sys : ChemicalSystem.

(* EquilibriumConditions.cpp:45-53; [values] are the current values of the
   parameters' cells.  Writing out of range is UB. *)
Fixpoint scatter (l : list Q) (idxs : list nat) (vs : list Q) : outcome (list Q) :=
  match idxs, vs with
  | [], [] => Ok l
  | i :: idxs', v :: vs' => if i <? length l then scatter (upd l i v) idxs' vs' else UB
  | _, _ => UB
  end.
Definition newConditions (cells : nat -> Q) (s : Specs) : outcome Conditions :=
  omap (fun values => mkC (q_inputs s) values [] [])
    (scatter (repeat 0%Q (numInputs s)) (q_idxs s) (map (fun p => cells (pa_cell p)) (q_params s))).

Definition set_value (c : Conditions) (idx : nat) (v : Q) : Conditions :=
  mkC (c_inputs c) (upd (c_values c) idx v) (c_species c) (c_components c).
(* EquilibriumConditions.cpp:36-41, then the common pattern of the setters. *)
Definition set_registered (wid : str) (m : outcome Q) (c : Conditions) : outcome unit * Conditions :=
  if negb (contains str_eqb (c_inputs c) wid) then fail c
  else with_value m c (fun v => (Ok tt, set_value c (M_Algorithms.index str_eqb (c_inputs c) wid) v)).

Inductive ccall :=
| CTemperature (v : Q) (un : str) | CPressure (v : Q) (un : str) | CVolume (v : Q) (un : str)
| CInternalEnergy (v : Q) (un : str) | CEnthalpy (v : Q) (un : str) | CGibbsEnergy (v : Q) (un : str)
| CHelmholtzEnergy (v : Q) (un : str) | CEntropy (v : Q) (un : str)
| CChemicalPotential (substance : str) (v : Q) (un : str)
| CLnActivity (species : str) (v : Q) | CLgActivity (species : str) (v : Q) | CActivity (species : str) (v : Q)
| CFugacity (gas : str) (v : Q) (un : str) | CpH (v : Q) | CpMg (v : Q) | CpE (v : Q) | CEh (v : Q) (un : str)
| CSet (input : str) (v : Q)
| CStartN (species : str) (v : Q) (un : str) | CStart (i : nat) (v : Q) (un : str) | CStartState (n : list Q)
| CStartComponents (b : list Q).

(* EquilibriumConditions.cpp:125-133: resize keeps the array when it already has
   the size. *)
Definition startWith (i : nat) (v : Q) (un : str) (c : Conditions) : outcome unit * Conditions :=
  let size := length (sys_species sys) in
  if size <=? i then fail c
  else with_value (computeSpeciesAmount sys i v un) c (fun amount =>
    let n := if length (c_species c) =? size then c_species c else map fresh (seq 0 size) in
    (Ok tt, mkC (c_inputs c) (c_values c) (upd n i amount) [])).

Definition ccall_apply (x : ccall) (c : Conditions) : outcome unit * Conditions :=
  match x with
  (* EquilibriumConditions.cpp:55-117. *)
  | CTemperature v u => set_registered $"T" (convert v u $"K") c
  | CPressure v u => set_registered $"P" (convert v u $"Pa") c
  | CVolume v u => set_registered $"V" (convert v u $"m3") c
  | CInternalEnergy v u => set_registered $"U" (convert v u $"J") c
  | CEnthalpy v u => set_registered $"H" (convert v u $"J") c
  | CGibbsEnergy v u => set_registered $"G" (convert v u $"J") c
  | CHelmholtzEnergy v u => set_registered $"A" (convert v u $"J") c
  | CEntropy v u => set_registered $"S" (convert v u $"J/K") c
  (* EquilibriumConditions.cpp:152-192. *)
  | CChemicalPotential x v u => set_registered ($"u[" ++ x ++ $"]") (convert v u $"J/mol") c
  | CLnActivity x v => set_registered ($"lnActivity[" ++ x ++ $"]") (Ok v) c
  | CLgActivity x v => set_registered ($"lnActivity[" ++ x ++ $"]") (Ok (v * ln10)%Q) c
  | CActivity x v => set_registered ($"lnActivity[" ++ x ++ $"]") (Ok (log v)) c
  | CFugacity x v u => set_registered ($"f[" ++ x ++ $"]") (convert v u $"bar") c
  (* EquilibriumConditions.cpp:194-220. *)
  | CpH v => set_registered $"pH" (Ok v) c
  | CpMg v => set_registered $"pMg" (Ok v) c
  | CpE v => set_registered $"pE" (Ok v) c
  | CEh v u => set_registered $"Eh" (Ok v) c
  (* EquilibriumConditions.cpp:222-228. *)
  | CSet x v => let idx := M_Algorithms.index str_eqb (c_inputs c) x in
                if length (c_inputs c) <=? idx then fail c else (Ok tt, set_value c idx v)
  (* EquilibriumConditions.cpp:119-150. *)
  | CStartN x v u => with_value (M_State.index sys x) c (fun i => startWith i v u c)
  | CStart i v u => startWith i v u c
  | CStartState n => if length n =? length (sys_species sys) then (Ok tt, mkC (c_inputs c) (c_values c) n []) else fail c
  | CStartComponents b => if length b =? length (sys_elements sys) + 1
                          then (Ok tt, mkC (c_inputs c) (c_values c) [] b) else fail c
  end.
Fixpoint crun (c : Conditions) (h : list ccall) : option Conditions :=
  match h with
  | [] => Some c
  | x :: h' => match ccall_apply x c with (UB, _) => None | (_, c') => crun c' h' end
  end.
(* EquilibriumConditions.cpp:235-246. *)
Definition initialComponentAmounts (c : Conditions) : outcome (list Q) :=
  if negb (length (c_components c) =? 0) then Ok (c_components c)
  else if length (c_species c) =? 0 then Err
  else if length (c_species c) =? length (sys_species sys)
  then Ok (map (fun row => sumQ (zip_with Qmult row (c_species c))) (sys_matrix sys)) else UB.
End Conditions.

(* ---- Restrictions ---- *)
(* EquilibriumRestrictions.hpp:124-134: unordered sets and maps, here lists
   without repeated keys. *)
Record Restrictions := mkR { r_inc : list nat; r_dec : list nat; r_above : list (nat * Q); r_below : list (nat * Q) }.
Definition newRestrictions : Restrictions := mkR [] [] [] [].
Definition set_erase (i : nat) (l : list nat) : list nat := List.filter (fun j => negb (j =? i)) l.
Definition set_insert (i : nat) (l : list nat) : list nat := if existsb (Nat.eqb i) l then l else l ++ [i].
Definition map_erase (i : nat) (l : list (nat * Q)) : list (nat * Q) := List.filter (fun p => negb (fst p =? i)) l.
Definition map_assign (i : nat) (v : Q) (l : list (nat * Q)) : list (nat * Q) := map_erase i l ++ [(i, v)].

Section Restrictions.
Variable sys : ChemicalSystem.
Definition guarded (i : nat) (r : Restrictions) (k : outcome unit * Restrictions) : outcome unit * Restrictions :=
  if length (sys_species sys) <=? i then fail r else k.
(* EquilibriumRestrictions.cpp:41-47, 55-62, 70-76 and 84-91. *)
Definition cannotIncrease (i : nat) (r : Restrictions) : outcome unit * Restrictions :=
  guarded i r (Ok tt, mkR (set_insert i (r_inc r)) (r_dec r) (map_erase i (r_above r)) (r_below r)).
Definition cannotIncreaseAbove (i : nat) (v : Q) (un : str) (r : Restrictions) : outcome unit * Restrictions :=
  guarded i r (with_value (computeSpeciesAmount sys i v un) r (fun v =>
    (Ok tt, mkR (set_erase i (r_inc r)) (r_dec r) (map_assign i v (r_above r)) (r_below r)))).
Definition cannotDecrease (i : nat) (r : Restrictions) : outcome unit * Restrictions :=
  guarded i r (Ok tt, mkR (r_inc r) (set_insert i (r_dec r)) (r_above r) (map_erase i (r_below r))).
Definition cannotDecreaseBelow (i : nat) (v : Q) (un : str) (r : Restrictions) : outcome unit * Restrictions :=
  guarded i r (with_value (computeSpeciesAmount sys i v un) r (fun v =>
    (Ok tt, mkR (r_inc r) (set_erase i (r_dec r)) (r_above r) (map_assign i v (r_below r))))).
(* EquilibriumRestrictions.cpp:111-117 and 125-131. *)
Definition canIncreaseFreely (i : nat) (r : Restrictions) : outcome unit * Restrictions :=
  guarded i r (Ok tt, mkR (set_erase i (r_inc r)) (r_dec r) (map_erase i (r_above r)) (r_below r)).
Definition canDecreaseFreely (i : nat) (r : Restrictions) : outcome unit * Restrictions :=
  guarded i r (Ok tt, mkR (r_inc r) (set_erase i (r_dec r)) (r_above r) (map_erase i (r_below r))).
Definition then_ (a b : Restrictions -> outcome unit * Restrictions) (r : Restrictions) : outcome unit * Restrictions :=
  match a r with (Ok _, r) => b r | x => x end.
(* EquilibriumRestrictions.cpp:29-33 and 99-103. *)
Definition cannotReact (i : nat) := then_ (cannotIncrease i) (cannotDecrease i).
Definition canReactFreely (i : nat) := then_ (canIncreaseFreely i) (canDecreaseFreely i).

(* The overloads take the index or the name of the species
   (EquilibriumRestrictions.cpp:35-39, 49-53, 64-68, 78-82, 93-97, 105-109, 119-123 and 133-137). *)
Inductive target := At (i : nat) | Named (n : str).
Definition resolved (t : target) : outcome nat := match t with At i => Ok i | Named n => M_State.index sys n end.
Inductive rcall :=
| RCannotReact (t : target) | RCannotIncrease (t : target) | RCannotIncreaseAbove (t : target) (v : Q) (un : str)
| RCannotDecrease (t : target) | RCannotDecreaseBelow (t : target) (v : Q) (un : str)
| RCanReactFreely (t : target) | RCanIncreaseFreely (t : target) | RCanDecreaseFreely (t : target).
Definition rcall_apply (c : rcall) (r : Restrictions) : outcome unit * Restrictions :=
  match c with
  | RCannotReact t => with_value (resolved t) r (fun i => cannotReact i r)
  | RCannotIncrease t => with_value (resolved t) r (fun i => cannotIncrease i r)
  | RCannotIncreaseAbove t v u => with_value (resolved t) r (fun i => cannotIncreaseAbove i v u r)
  | RCannotDecrease t => with_value (resolved t) r (fun i => cannotDecrease i r)
  | RCannotDecreaseBelow t v u => with_value (resolved t) r (fun i => cannotDecreaseBelow i v u r)
  | RCanReactFreely t => with_value (resolved t) r (fun i => canReactFreely i r)
  | RCanIncreaseFreely t => with_value (resolved t) r (fun i => canIncreaseFreely i r)
  | RCanDecreaseFreely t => with_value (resolved t) r (fun i => canDecreaseFreely i r)
  end.
Fixpoint rrun (r : Restrictions) (h : list rcall) : option Restrictions :=
  match h with
  | [] => Some r
  | c :: h' => match rcall_apply c r with (UB, _) => None | (_, r') => rrun r' h' end
  end.
End Restrictions.
