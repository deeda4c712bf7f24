(* Model of the aqueous mixture and of the ideal, Redlich-Kister, Debye-Hueckel,
   HKF, Setschenow, Drummond, Rumpf and Duan-Sun activity models
   (Reaktoro/Thermodynamics) over the real numbers.  An array is a function of the
   index.  A division by zero, the root of a negative number and the logarithm of
   a number that is not positive have unspecified values; theorems are about
   arguments where none occurs. *)
From Coq Require Import Reals Qreals List Bool.
Import ListNotations.
From Verif Require Import Base M_Strings M_Formula M_Chem M_Algorithms M_System M_Registry M_CubicEOS.
Local Open Scope R_scope.

(* Common/Constants.hpp:50. *)
Definition ln10 : R := 2.30258509299404590109361379290930926799774169921875.
(* Water/WaterConstants.hpp:23. *)
Definition waterMolarMass : R := 0.018015268.
(* a[i] = v *)
Definition set_at (a : nat -> R) (i : nat) (v : R) : nat -> R := fun j => if Nat.eqb j i then v else a j.

(* Core/SpeciesList.hpp:133-138; the argument is converted from text. *)
Definition indexWithFormula (l : list Species) (f : str) : outcome nat :=
  bind (mkChemicalFormula f) (fun cf =>
  let idx := findWithFormula l cf in if Nat.leb (length l) idx then Err else Ok idx).
(* Core/SpeciesList.hpp:107-110 with an argument converted from text. *)
Definition findFormula (l : list Species) (f : str) : outcome nat := omap (findWithFormula l) (mkChemicalFormula f).

(* Core/ActivityProps.hpp:32-60. *)
Record Props := mkProps { Vex : R; VexT : R; VexP : R; Gex : R; Hex : R; Cpex : R; Cvex : R; ln_g : nat -> R; ln_a : nat -> R }.
(* Core/ActivityProps.hpp:62-74. *)
Definition constProps (v : R) : Props := mkProps v v v v v v v (fun _ => v) (fun _ => v).
Definition with_g (p : Props) (g : nat -> R) : Props :=
  mkProps (Vex p) (VexT p) (VexP p) (Gex p) (Hex p) (Cpex p) (Cvex p) g (ln_a p).
Definition with_a (p : Props) (a : nat -> R) : Props :=
  mkProps (Vex p) (VexT p) (VexP p) (Gex p) (Hex p) (Cpex p) (Cvex p) (ln_g p) a.

(* ---- AqueousMixture ---- *)
(* Aqueous/AqueousMixture.cpp:58-100.  The lists of neutral and charged species
   are those of the indices; the charges are those of the species. *)
Record Mixture := mkMixture {
  mx_species : list Species; mx_water : nat;
  mx_neutral : list nat; mx_charged : list nat; mx_cations : list nat; mx_anions : list nat;
  mx_D : nat -> nat -> Q; mx_rho : R -> R -> R; mx_epsilon : R -> R -> R }.
(* Aqueous/AqueousMixture.cpp:133-157: the loop over the species, from index i. *)
Record Groups := mkGroups { gr_neutral : list nat; gr_charged : list nat; gr_cations : list nat; gr_anions : list nat }.
Definition classify (water i : nat) (s : Species) (g : Groups) : Groups :=
  if Nat.eqb i water then g
  else if Qeq_bool (sp_charge s) 0 then mkGroups (gr_neutral g ++ [i]) (gr_charged g) (gr_cations g) (gr_anions g)
  else if Qltb 0 (sp_charge s) then mkGroups (gr_neutral g) (gr_charged g ++ [i]) (gr_cations g ++ [i]) (gr_anions g)
  else mkGroups (gr_neutral g) (gr_charged g ++ [i]) (gr_cations g) (gr_anions g ++ [i]).
Fixpoint initIndices (water i : nat) (l : list Species) (g : Groups) : Groups :=
  match l with [] => g | s :: l' => initIndices water (S i) l' (classify water i s g) end.
(* std::vector operator[] of species, with a species for indices out of range. *)
Definition noSpecies : Species := mkSpecies [] [] [] [] 0%Q Undefined [].
Definition species_at (l : list Species) (i : nat) : Species := nth i l noSpecies.
(* Aqueous/AqueousMixture.cpp:168-187; [reactions] is what is in the registry of
   dissociation reactions. *)
Definition dissociation (reactions : list Dissociation) (l : list Species) (neutral charged : list nat) (i j : nat) : Q :=
  dis_coefficient reactions (formula (species_at l (nth i neutral O))) (formula (species_at l (nth j charged O))).
(* Aqueous/AqueousMixture.cpp:107-124 and 127-158.  The density and the dielectric
   constant of water, which come from the water models evaluated at 298.15 K and
   1 bar, are arguments. *)
Definition mkAqueousMixture (reactions : list Dissociation) (rho epsilon : R -> R -> R) (l : list Species) : outcome Mixture :=
  bind (indexWithFormula l $"H2O") (fun w =>
  let g := initIndices w 0 l (mkGroups [] [] [] []) in
  Ok (mkMixture l w (gr_neutral g) (gr_charged g) (gr_cations g) (gr_anions g)
        (dissociation reactions l (gr_neutral g) (gr_charged g)) rho epsilon)).
(* Aqueous/AqueousMixture.cpp:161-165. *)
Definition charge_at (l : list Species) (i : nat) : R := Q2R (sp_charge (species_at l i)).
(* Aqueous/AqueousMixture.cpp:190-196. *)
Definition molalities (water : nat) (x : nat -> R) : nat -> R :=
  if Req_EM_T (x water) 0 then fun _ => 0 else fun i => x i / (waterMolarMass * x water).
(* Aqueous/AqueousMixture.cpp:199-211: position j among the charged species. *)
Definition stoichiometricMolalities (mx : Mixture) (m : nat -> R) : nat -> R := fun j =>
  m (nth j (mx_charged mx) O) + Sum (length (mx_neutral mx)) (fun i => Q2R (mx_D mx i j) * m (nth i (mx_neutral mx) O)).
(* Aqueous/AqueousMixture.cpp:214-217 and 220-224. *)
Definition effectiveIonicStrength (mx : Mixture) (m : nat -> R) : R :=
  0.5 * Sum (length (mx_species mx)) (fun i => charge_at (mx_species mx) i * charge_at (mx_species mx) i * m i).
Definition stoichiometricIonicStrength (mx : Mixture) (ms : nat -> R) : R :=
  0.5 * Sum (length (mx_charged mx)) (fun j => charge_at (mx_species mx) (nth j (mx_charged mx) O) * charge_at (mx_species mx) (nth j (mx_charged mx) O) * ms j).
(* Aqueous/AqueousMixture.cpp:227-239. *)
Record MixtureState := mkState { st_T : R; st_P : R; st_rho : R; st_epsilon : R; st_m : nat -> R; st_ms : nat -> R; st_Ie : R; st_Is : R }.
Definition mixtureState (mx : Mixture) (T P : R) (x : nat -> R) : MixtureState :=
  let m := molalities (mx_water mx) x in
  let ms := stoichiometricMolalities mx m in
  mkState T P (mx_rho mx T P) (mx_epsilon mx T P) m ms (effectiveIonicStrength mx m) (stoichiometricIonicStrength mx ms).

(* What a base model exports for the models chained after it,
   Core/ActivityProps.hpp:120-133. *)
Definition Extra : Type := option (Mixture * MixtureState).
(* An activity function writes into the properties it is given and may export
   the mixture; Core/ActivityProps.hpp:136. *)
Definition ActivityFn : Type := R -> R -> (nat -> R) -> Props * Extra -> outcome (Props * Extra).

(* ---- Ideal models ---- *)
(* Ideal/ActivityModelIdealSolution.cpp:22-36. *)
Definition idealSolution : ActivityFn := fun T P x p => Ok (with_a (constProps 0) (fun i => ln (x i)), snd p).
(* Ideal/ActivityModelIdealGas.cpp:24-39. *)
Definition idealGas : ActivityFn := fun T P x p => Ok (with_a (constProps 0) (fun i => ln (x i) + ln (P * 1.0e-5)), snd p).
(* Ideal/ActivityModelIdealAqueous.cpp:27-47. *)
Definition idealAqueous (l : list Species) : outcome ActivityFn :=
  omap (fun w T P x (p : Props * Extra) =>
    Ok (with_a (constProps 0) (set_at (fun i => ln (x i / (waterMolarMass * x w))) w (ln (x w))), snd p))
  (indexWithFormula l $"H2O").

(* ---- Redlich-Kister ---- *)
(* Solids/ActivityModelRedlichKister.cpp:29-60. *)
Definition redlichKister (a0 a1 a2 : R) (l : list Species) : outcome ActivityFn :=
  if negb (Nat.eqb (length l) 2) then Err else
  Ok (fun T P x p =>
    let RT := gasR * T in
    let x1 := x O in let x2 := x 1%nat in
    let g := set_at (set_at (ln_g (fst p)) 0 (x2 * x2 * (a0 + a1 * (3 * x1 - x2) + a2 * (x1 - x2) * (5 * x1 - x2))))
                    1 (x1 * x1 * (a0 - a1 * (3 * x2 - x1) + a2 * (x2 - x1) * (5 * x2 - x1))) in
    let G := x1 * x2 * (a0 + a1 * (x1 - x2) + a2 * (x1 - x2) ^ 2) * RT in
    Ok (mkProps (Vex (fst p)) (VexT (fst p)) (VexP (fst p)) G G (Cpex (fst p)) (Cvex (fst p)) g (fun i => g i + ln (x i)), snd p)).

(* ---- Debye-Hueckel ---- *)
(* Aqueous/ActivityModelDebyeHuckel.cpp:275-281: the map is a list in the order
   in which it is iterated, which the standard leaves open; each key is converted
   to a formula when it is compared. *)
Fixpoint dh_get (f : ChemicalFormula) (params : list (str * R)) (default : R) : outcome R :=
  match params with
  | [] => Ok default
  | (key, value) :: rest => bind (mkChemicalFormula key) (fun k => if equivalent f k then Ok value else dh_get f rest default)
  end.
(* Aqueous/ActivityModelDebyeHuckel.hpp:27-46. *)
Record DHParams := mkDH { dh_adefault : R; dh_bdefault : R; dh_bndefault : R; dh_aions : list (str * R); dh_bions : list (str * R); dh_bneutrals : list (str * R) }.
(* Aqueous/ActivityModelDebyeHuckel.cpp:319-331. *)
Definition dh_parameters (params : list (str * R)) (default : R) (l : list Species) (idx : list nat) : outcome (list R) :=
  mapM (fun i => dh_get (formula (species_at l i)) params default) idx.
(* Aqueous/ActivityModelDebyeHuckel.cpp:389-392. *)
Definition dh_Lambda (a B sqrtI : R) : R := 1 + a * B * sqrtI.
Definition dh_sigma (a Lambda : R) : R :=
  if Req_EM_T a 0 then 2 else 3 * / (Lambda - 1) ^ 3 * ((Lambda - 1) * (Lambda - 3) + 2 * ln Lambda).
(* Aqueous/ActivityModelDebyeHuckel.cpp:369-370. *)
Definition dh_A (rho T epsilon : R) : R := 1.824829238e+6 * sqrt rho / (T * epsilon * sqrt (T * epsilon)).
Definition dh_B (rho T epsilon : R) : R := 50.29158649 * sqrt rho / sqrt (T * epsilon).
(* Aqueous/ActivityModelDebyeHuckel.cpp:377-402: one charged species, whose
   position among the charged species is i. *)
Definition dh_ion (mx : Mixture) (st : MixtureState) (A B : R) (aions bions : list R) (acc : (nat -> R) * (nat -> R)) (i : nat) : (nat -> R) * (nat -> R) :=
  let (g, a) := acc in
  let I := st_Is st in let sqrtI := sqrt I in
  let k := nth i (mx_charged mx) O in
  let z := charge_at (mx_species mx) k in
  let ai := nth i aions 0 in let bi := nth i bions 0 in
  let Lambda := dh_Lambda ai B sqrtI in
  let sigma := dh_sigma ai Lambda in
  let g := set_at g k (ln10 * (- A * z * z * sqrtI / Lambda + bi * I)) in
  let a := set_at a k (g k + ln (st_m st k)) in
  (g, set_at a (mx_water mx) (a (mx_water mx) + (st_ms st i * g k + 2 / 3 * A * I * sqrtI * sigma * ln10 - I * I * bi / (z * z) * ln10))).
(* Aqueous/ActivityModelDebyeHuckel.cpp:411-421. *)
Definition dh_neutral (mx : Mixture) (st : MixtureState) (bneutral : list R) (acc : (nat -> R) * (nat -> R)) (i : nat) : (nat -> R) * (nat -> R) :=
  let (g, a) := acc in
  let k := nth i (mx_neutral mx) O in
  let g := set_at g k (ln10 * nth i bneutral 0 * st_Is st) in
  (g, set_at a k (g k + ln (st_m st k))).
(* Aqueous/ActivityModelDebyeHuckel.cpp:337-422. *)
Definition dh_fn (mx : Mixture) (aions bions bneutral : list R) : ActivityFn := fun T P x p =>
  let st := mixtureState mx T P x in
  let w := mx_water mx in
  let nwo := 1 / waterMolarMass in
  let rho := st_rho st / 1000 in
  let A := dh_A rho T (st_epsilon st) in let B := dh_B rho T (st_epsilon st) in
  let mSigma := nwo * (1 - x w) / x w in
  let (g, a) := fold_left (dh_ion mx st A B aions bions) (seq 0 (length (mx_charged mx))) (ln_g (fst p), set_at (ln_a (fst p)) w mSigma) in
  let a := set_at a w (a w * (- 1 / nwo)) in
  let g := set_at g w (a w - ln (x w)) in
  let (g, a) := fold_left (dh_neutral mx st bneutral) (seq 0 (length (mx_neutral mx))) (g, a) in
  Ok (with_a (with_g (fst p) g) a, Some (mx, st)).
(* Aqueous/ActivityModelDebyeHuckel.cpp:284-331. *)
Definition debyeHuckel (params : DHParams) (mixture : list Species -> outcome Mixture) (l : list Species) : outcome ActivityFn :=
  bind (mixture l) (fun mx =>
  bind (dh_parameters (dh_aions params) (dh_adefault params) l (mx_charged mx)) (fun aions =>
  bind (dh_parameters (dh_bions params) (dh_bdefault params) l (mx_charged mx)) (fun bions =>
  bind (dh_parameters (dh_bneutrals params) (dh_bndefault params) l (mx_neutral mx)) (fun bneutral =>
  Ok (dh_fn mx aions bions bneutral))))).
(* Aqueous/ActivityModelDebyeHuckel.cpp:444-450 applied to default parameters. *)
Definition limitingLaw : DHParams := mkDH 0 0 0.1 [] [] [].

(* Aqueous/ActivityModelDebyeHuckel.cpp:35-123, 126-136, 139-164, 167-179 and
   182-272: the built-in tables. *)
Definition aions_phreeqc : list (str * Q) := [
  ($"Al(OH)2+", (54 # 10)%Q); ($"Al(OH)4-", (45 # 10)%Q); ($"Al(SO4)2-", (45 # 10)%Q); ($"Al+++", (9)%Q); ($"AlF++", (54 # 10)%Q);
  ($"AlF2+", (54 # 10)%Q); ($"AlF4-", (45 # 10)%Q); ($"AlOH++", (54 # 10)%Q); ($"AlSO4+", (45 # 10)%Q); ($"Ba++", (4)%Q);
  ($"BaOH+", (5)%Q); ($"Br-", (3)%Q); ($"CO3--", (54 # 10)%Q); ($"Ca++", (5)%Q); ($"CaH2PO4+", (54 # 10)%Q);
  ($"CaHCO3+", (6)%Q); ($"CaPO4-", (54 # 10)%Q); ($"Cl-", (363 # 100)%Q); ($"Cu+", (25 # 10)%Q); ($"Cu++", (6)%Q);
  ($"CuCl+", (4)%Q); ($"CuCl2-", (4)%Q); ($"CuCl3-", (4)%Q); ($"CuCl3--", (5)%Q); ($"CuCl4--", (5)%Q);
  ($"CuOH+", (4)%Q); ($"F-", (35 # 10)%Q); ($"Fe(OH)2+", (54 # 10)%Q); ($"Fe(OH)3-", (5)%Q); ($"Fe(OH)4-", (54 # 10)%Q);
  ($"Fe++", (6)%Q); ($"Fe+++", (9)%Q); ($"FeCl++", (5)%Q); ($"FeCl2+", (5)%Q); ($"FeF++", (5)%Q);
  ($"FeF2+", (5)%Q); ($"FeH2PO4+", (54 # 10)%Q); ($"FeH2PO4++", (54 # 10)%Q); ($"FeHPO4+", (5)%Q); ($"FeOH+", (5)%Q);
  ($"FeOH++", (5)%Q); ($"FeSO4+", (5)%Q); ($"H+", (9)%Q); ($"H2PO4-", (54 # 10)%Q); ($"H2SiO4--", (54 # 10)%Q);
  ($"H3SiO4-", (4)%Q); ($"HCO3-", (54 # 10)%Q); ($"HPO4--", (5)%Q); ($"HS-", (35 # 10)%Q); ($"K+", (35 # 10)%Q);
  ($"KHPO4-", (54 # 10)%Q); ($"KSO4-", (54 # 10)%Q); ($"Li+", (6)%Q); ($"LiSO4-", (5)%Q); ($"Mg++", (55 # 10)%Q);
  ($"MgF+", (45 # 10)%Q); ($"MgH2PO4+", (54 # 10)%Q); ($"MgHCO3+", (4)%Q); ($"MgOH+", (65 # 10)%Q); ($"MgPO4-", (54 # 10)%Q);
  ($"Mn(OH)3-", (5)%Q); ($"Mn++", (6)%Q); ($"Mn+++", (9)%Q); ($"MnCl+", (5)%Q); ($"MnCl3-", (5)%Q);
  ($"MnF+", (5)%Q); ($"MnHCO3+", (5)%Q); ($"MnOH+", (5)%Q); ($"NH4+", (25 # 10)%Q); ($"NO2-", (3)%Q);
  ($"NO3-", (3)%Q); ($"Na+", (408 # 100)%Q); ($"NaHPO4-", (54 # 10)%Q); ($"NaSO4-", (54 # 10)%Q); ($"OH-", (35 # 10)%Q);
  ($"PO4---", (4)%Q); ($"S--", (5)%Q); ($"SO4--", (5)%Q); ($"SiF6--", (5)%Q); ($"Sr++", (526 # 100)%Q);
  ($"SrHCO3+", (54 # 10)%Q); ($"SrOH+", (5)%Q); ($"Zn++", (5)%Q); ($"ZnCl+", (4)%Q); ($"ZnCl3-", (4)%Q);
  ($"ZnCl4--", (5)%Q)].
Definition bions_phreeqc : list (str * Q) := [
  ($"Ba++", (153 # 1000)%Q); ($"Ca++", (165 # 1000)%Q); ($"Cl-", (17 # 1000)%Q); ($"K+", (15 # 1000)%Q); ($"Mg++", (2 # 10)%Q);
  ($"Na+", (82 # 1000)%Q); ($"SO4--", (-4 # 100)%Q); ($"Sr++", (121 # 1000)%Q)].
Definition aions_wateq4f : list (str * Q) := [
  ($"Ca++", (5)%Q); ($"Mg++", (55 # 10)%Q); ($"Na+", (4)%Q); ($"K+", (35 # 10)%Q); ($"Cl-", (35 # 10)%Q);
  ($"SO4--", (5)%Q); ($"HCO3-", (54 # 10)%Q); ($"CO3--", (54 # 10)%Q); ($"Sr++", (526 # 100)%Q); ($"H+", (9)%Q);
  ($"OH-", (35 # 10)%Q); ($"SrHCO3+", (54 # 10)%Q); ($"SrOH+", (5)%Q); ($"Cu(S4)2---", (23)%Q); ($"CuS4S5---", (25)%Q);
  ($"S2--", (65 # 10)%Q); ($"S3--", (8)%Q); ($"S4--", (10)%Q); ($"S5--", (12)%Q); ($"S6--", (14)%Q);
  ($"Ag(S4)2---", (22)%Q); ($"AgS4S5---", (24)%Q); ($"Ag(HS)S4--", (15)%Q)].
Definition bions_wateq4f : list (str * Q) := [
  ($"Ca++", (165 # 1000)%Q); ($"Mg++", (2 # 10)%Q); ($"Na+", (75 # 1000)%Q); ($"K+", (15 # 1000)%Q); ($"Cl-", (15 # 1000)%Q);
  ($"SO4--", (-4 # 100)%Q); ($"HCO3-", (0)%Q); ($"CO3--", (0)%Q); ($"H2CO3(aq)", (0)%Q); ($"Sr++", (121 # 1000)%Q)].
Definition aions_kielland : list (str * Q) := [
  ($"H+", (9)%Q); ($"Li+", (6)%Q); ($"Rb+", (25 # 10)%Q); ($"Cs+", (25 # 10)%Q); ($"NH4+", (25 # 10)%Q);
  ($"Tl+", (25 # 10)%Q); ($"Ag+", (25 # 10)%Q); ($"K+", (3)%Q); ($"Cl-", (3)%Q); ($"Br-", (3)%Q);
  ($"I-", (3)%Q); ($"CN-", (3)%Q); ($"NO2-", (3)%Q); ($"NO3-", (3)%Q); ($"OH-", (35 # 10)%Q);
  ($"F-", (35 # 10)%Q); ($"NCS-", (35 # 10)%Q); ($"NCO-", (35 # 10)%Q); ($"HS-", (35 # 10)%Q); ($"ClO3-", (35 # 10)%Q);
  ($"ClO4-", (35 # 10)%Q); ($"BrO3-", (35 # 10)%Q); ($"IO4-", (35 # 10)%Q); ($"MnO4-", (35 # 10)%Q); ($"Na+", (4)%Q);
  ($"CdCl+", (4)%Q); ($"ClO2-", (4)%Q); ($"IO3-", (4)%Q); ($"HCO3-", (4)%Q); ($"H2PO4-", (4)%Q);
  ($"HSO3-", (4)%Q); ($"H2AsO4-", (4)%Q); ($"Co(NH3)4(NO2)2+", (4)%Q); ($"Hg2++", (4)%Q); ($"SO4--", (4)%Q);
  ($"S2O3--", (4)%Q); ($"S2O6--", (4)%Q); ($"S2O8--", (4)%Q); ($"SeO4--", (4)%Q); ($"CrO4--", (4)%Q);
  ($"HPO4--", (4)%Q); ($"Pb++", (45 # 10)%Q); ($"CO3--", (45 # 10)%Q); ($"SO3--", (45 # 10)%Q); ($"MoO4--", (45 # 10)%Q);
  ($"Co(NH3)5Cl++", (45 # 10)%Q); ($"Fe(CN)5NO--", (45 # 10)%Q); ($"Sr++", (5)%Q); ($"Ba++", (5)%Q); ($"Ra++", (5)%Q);
  ($"Cd++", (5)%Q); ($"Hg++", (5)%Q); ($"S--", (5)%Q); ($"S2O4--", (5)%Q); ($"WO4--", (5)%Q);
  ($"Ca++", (6)%Q); ($"Cu++", (6)%Q); ($"Zn++", (6)%Q); ($"Sn++", (6)%Q); ($"Mn++", (6)%Q);
  ($"Fe++", (6)%Q); ($"Ni++", (6)%Q); ($"Co++", (6)%Q); ($"Mg++", (8)%Q); ($"Be++", (8)%Q);
  ($"PO4---", (4)%Q); ($"Fe(CN)6---", (4)%Q); ($"Cr(NH3)6+++", (4)%Q); ($"Co(NH3)6+++", (4)%Q); ($"Co(NH3)5H2O+++", (4)%Q);
  ($"Al+++", (9)%Q); ($"Fe+++", (9)%Q); ($"Cr+++", (9)%Q); ($"Sc+++", (9)%Q); ($"Y+++", (9)%Q);
  ($"La+++", (9)%Q); ($"In+++", (9)%Q); ($"Ce+++", (9)%Q); ($"Pr+++", (9)%Q); ($"Nd+++", (9)%Q);
  ($"Sm+++", (9)%Q); ($"Fe(CN)6----", (5)%Q); ($"Co(S2O3)(CN)5----", (6)%Q); ($"Th++++", (11)%Q); ($"Zn++++", (11)%Q);
  ($"Ce++++", (11)%Q); ($"Sn++++", (11)%Q); ($"Co(SO3)2(CN)4-----", (9)%Q)].
Definition reals (l : list (str * Q)) : list (str * R) := map (fun p => (fst p, Q2R (snd p))) l.
(* Aqueous/ActivityModelDebyeHuckel.cpp:452-471, the setters applied to default
   parameters. *)
Definition kielland : DHParams := mkDH 0 0 0.1 (reals aions_kielland) [] [].
Definition wateq4f : DHParams := mkDH 0 0 0.1 (reals aions_wateq4f) (reals bions_wateq4f) [].
Definition phreeqc : DHParams := mkDH 0 0 0.1 (reals aions_phreeqc) (reals bions_phreeqc) [].

(* ---- HKF ---- *)
(* Aqueous/ActivityModelHKF.cpp:44 and 321. *)
Definition hkf_eta : R := 1.66027e+05.
Definition hkf_omegaH : R := 0.5387e+05.
(* The interpolated parameters A, B, bNaCl and bNapClm of a temperature and
   pressure, Aqueous/ActivityModelHKF.cpp:371-374; the tables and the
   interpolation (240-266) are not modelled here. *)
Record HKFParams := mkHKF { hk_A : R; hk_B : R; hk_bNaCl : R; hk_bNapClm : R }.
(* Aqueous/ActivityModelHKF.cpp:278-290: the radius of an ion that is not in the
   table of effective radii. *)
Definition estimatedRadius (z : R) : R :=
  if Req_EM_T z (-1) then 1.81 else if Req_EM_T z (-2) then 3 else if Req_EM_T z (-3) then 4.2
  else if Req_EM_T z 1 then 2.31 else if Req_EM_T z 2 then 2.8 else if Req_EM_T z 3 then 3.6
  else if Req_EM_T z 4 then 4.5 else if Rlt_dec z (-3) then - z * 4.2 / 3 else z * 4.5 / 4.
(* Aqueous/ActivityModelHKF.cpp:268-291; [known] is the search by name in the
   table of effective radii. *)
Definition effectiveIonicRadius (known : str -> option R) (s : Species) : R :=
  match known (name s) with Some r => r | None => estimatedRadius (Q2R (sp_charge s)) end.
Definition log10 (x : R) : R := ln x / ln 10.
(* Aqueous/ActivityModelHKF.cpp:420-422. *)
Definition hkf_size (z r : R) : R :=
  if Rlt_dec z 0 then 2 * (r + 1.91 * Rabs z) / (Rabs z + 1) else 2 * (r + 1.81 * Rabs z) / (Rabs z + 1).
(* Aqueous/ActivityModelHKF.cpp:429. *)
Definition hkf_log10_g (h : HKFParams) (z r I xw : R) : R :=
  let lambda := 1 + hkf_size z r * hk_B h * sqrt I in
  - (hk_A h * (z * z) * sqrt I) / lambda + log10 xw
  + (hkf_eta * (z * z) / r * hk_bNaCl h + hk_bNapClm h - 0.19 * (Rabs z - 1)) * I.
(* Aqueous/ActivityModelHKF.cpp:368 and 438-441. *)
Definition hkf_psi (h : HKFParams) (z r I xw : R) : R :=
  let c := hkf_size z r * hk_B h * sqrt I in
  let lambda := 1 + c in
  let alpha := xw / (1 - xw) * log10 xw in
  let sigma := 3 / c ^ 3 * (lambda - 1 / lambda - 2 * ln lambda) in
  hk_A h * (z * z) * sqrt I * sigma / 3 + alpha
  - 0.5 * ((hkf_eta * (z * z) / r - z * hkf_omegaH) * hk_bNaCl h + hk_bNapClm h - 0.19 * (Rabs z - 1)) * I.
(* Aqueous/ActivityModelHKF.cpp:394-446: the charged species at position i; the
   pair is (ln_g, phi). *)
Definition hkf_ion (mx : Mixture) (st : MixtureState) (h : HKFParams) (radius : list R) (xw : R) (acc : (nat -> R) * R) (i : nat) : (nat -> R) * R :=
  if Req_EM_T (st_ms st i) 0 then acc else
  let k := nth i (mx_charged mx) O in
  let z := charge_at (mx_species mx) k in
  let g := set_at (fst acc) k (hkf_log10_g h z (nth i radius 0) (st_Is st) xw * ln 10) in
  (g, if Req_EM_T xw 1 then snd acc else snd acc + st_ms st i * hkf_psi h z (nth i radius 0) (st_Is st) xw).
(* Aqueous/ActivityModelHKF.cpp:341-457. *)
Definition hkf_fn (params : R -> R -> HKFParams) (mx : Mixture) (radius : list R) : ActivityFn := fun T P x p =>
  let st := mixtureState mx T P x in
  let w := mx_water mx in let xw := x w in
  let g := fold_left (fun g i => set_at g (nth i (mx_neutral mx) O) (ln 10 * 0.1 * st_Is st)) (seq 0 (length (mx_neutral mx))) (ln_g (fst p)) in
  let (g, phi) := fold_left (hkf_ion mx st (params T P) radius xw) (seq 0 (length (mx_charged mx))) (g, 0) in
  let a := fun i => g i + ln (st_m st i) in
  let a := set_at a w (if Req_EM_T xw 1 then ln xw else ln 10 * waterMolarMass * phi) in
  Ok (with_a (with_g (fst p) (set_at g w (a w - ln xw))) a, Some (mx, st)).
(* Aqueous/ActivityModelHKF.cpp:295-338. *)
Definition activityHKF (params : R -> R -> HKFParams) (known : str -> option R) (mixture : list Species -> outcome Mixture) (l : list Species) : outcome ActivityFn :=
  omap (fun mx => hkf_fn params mx (map (fun i => effectiveIonicRadius known (species_at l i)) (mx_charged mx))) (mixture l).

(* ---- Models for one dissolved species ---- *)
(* The last two lines of each of these models: ln_g and ln_a of one species. *)
Definition set_species (p : Props) (st : MixtureState) (i : nat) (v : R) : Props :=
  with_a (with_g p (set_at (ln_g p) i v)) (set_at (ln_a p) i (v + ln (st_m st i))).
(* args.extra.at(0) throws when no base model has been evaluated. *)
Definition solute (i : nat) (f : Mixture -> MixtureState -> outcome R) : ActivityFn := fun T P x p =>
  match snd p with
  | None => Err
  | Some (mx, st) => bind (f mx st) (fun v => Ok (set_species (fst p) st i v, snd p))
  end.
(* Aqueous/ActivityModelSetschenow.cpp:28-50. *)
Definition setschenow (neutral : str) (b : R) (l : list Species) : outcome ActivityFn :=
  omap (fun i => solute i (fun mx st => Ok (ln10 * b * st_Is st))) (indexWithFormula l neutral).
(* Aqueous/ActivityModelDrummond.cpp:32-58. *)
Definition drummond (gas : str) (a1 a2 a3 a4 a5 : R) (l : list Species) : outcome ActivityFn :=
  omap (fun i => solute i (fun mx st =>
    let T := st_T st in let I := st_Is st in
    Ok ((a1 + a2 * T + a3 / T) * I - (a4 + a5 * T) * I / (I + 1)))) (indexWithFormula l gas).
(* The charged species of a mixture, Aqueous/AqueousMixture.cpp:286-289. *)
Definition chargedSpecies (mx : Mixture) : list Species := map (species_at (mx_species mx)) (mx_charged mx).
(* Aqueous/ActivityModelRumpf.cpp:44-48 and ActivityModelDuanSun.cpp:98-103: the
   positions of some ions. *)
Definition positions (ions : list str) (mx : Mixture) : outcome (list nat) := mapM (findFormula (chargedSpecies mx)) ions.
(* Aqueous/ActivityModelRumpf.cpp:57-61 and ActivityModelDuanSun.cpp:114-119. *)
Definition ionMolality (mx : Mixture) (st : MixtureState) (idx : list nat) (k : nat) : R :=
  let i := nth k idx (length (mx_charged mx)) in if Nat.ltb i (length (mx_charged mx)) then st_ms st i else 0.
(* Aqueous/ActivityModelRumpf.cpp:50-67. *)
Definition rumpf_value (mx : Mixture) (st : MixtureState) (idx : list nat) : R :=
  let T := st_T st in
  let mNa := ionMolality mx st idx 0 in let mK := ionMolality mx st idx 1 in let mCa := ionMolality mx st idx 2 in
  let mMg := ionMolality mx st idx 3 in let mCl := ionMolality mx st idx 4 in
  let B := 0.254 - 76.82 / T - 10656 / (T * T) + 6312e3 / (T * T * T) in
  let Gamma := -0.0028 in
  2 * B * (mNa + mK + 2 * mCa + 2 * mMg) + 3 * Gamma * (mNa + mK + mCa + mMg) * mCl.
Definition rumpf_ions : list str := [$"Na+"; $"K+"; $"Ca++"; $"Mg++"; $"Cl-"].
(* Aqueous/ActivityModelDuanSun.cpp:60-80, with the coefficients of 29-58. *)
Definition paramDuanSun (c1 c2 c3 c8 c9 c11 T P : R) : R :=
  let Pbar := 1e-5 * P in
  c1 + c2 * T + c3 / T + 0 * T * T + 0 / (630 - T) + 0 * Pbar + 0 * Pbar * ln T + c8 * Pbar / T + c9 * Pbar / (630 - T)
  + 0 * Pbar * Pbar / (630 - T) / (630 - T) + c11 * T * ln Pbar.
Definition duansun_lambda : R -> R -> R := paramDuanSun (-0.411370585) 6.07632013e-4 97.5347708 (-0.0237622469) 0.0170656236 1.41335834e-5.
Definition duansun_zeta : R -> R -> R := paramDuanSun 3.36389723e-4 (-1.98298980e-5) 0 2.12220830e-3 (-5.24873303e-3) 0.
(* Aqueous/ActivityModelDuanSun.cpp:105-121. *)
Definition duansun_value (mx : Mixture) (st : MixtureState) (idx : list nat) : R :=
  let T := st_T st in let P := st_P st in
  let mNa := ionMolality mx st idx 0 in let mK := ionMolality mx st idx 1 in let mCa := ionMolality mx st idx 2 in
  let mMg := ionMolality mx st idx 3 in let mCl := ionMolality mx st idx 4 in let mSO4 := ionMolality mx st idx 5 in
  2 * duansun_lambda T P * (mNa + mK + 2 * mCa + 2 * mMg) + duansun_zeta T P * (mNa + mK + mCa + mMg) * mCl - 0.07 * mSO4.
Definition duansun_ions : list str := [$"Na+"; $"K+"; $"Ca++"; $"Mg++"; $"Cl-"; $"SO4--"].

(* Static variables of a function are initialised in its first call and kept for
   the whole process, whichever object the function belongs to.  [None] is before
   the first call. *)
Definition Statics : Type := option (list nat).
(* A model with static positions: the result and the statics after the call. *)
Definition solute_static (ions : list str) (value : Mixture -> MixtureState -> list nat -> R) (i : nat)
  (s : Statics) (p : Props * Extra) : outcome (Props * Extra) * Statics :=
  match snd p with
  | None => (Err, s)
  | Some (mx, st) =>
    match (match s with Some idx => Ok idx | None => positions ions mx end) with
    | Ok idx => (Ok (set_species (fst p) st i (value mx st idx), snd p), Some idx)
    | Err => (Err, s)
    | UB => (UB, s)
    end
  end.
(* Aqueous/ActivityModelRumpf.cpp:27-75 and ActivityModelDuanSun.cpp:84-129: the
   activity function for a list of species. *)
Definition rumpf (gas : str) (l : list Species) : outcome (Statics -> Props * Extra -> outcome (Props * Extra) * Statics) :=
  omap (solute_static rumpf_ions rumpf_value) (indexWithFormula l gas).
Definition duanSun (gas : str) (l : list Species) : outcome (Statics -> Props * Extra -> outcome (Props * Extra) * Statics) :=
  omap (solute_static duansun_ions duansun_value) (indexWithFormula l gas).

(* Core/ActivityModel.cpp:25-41. *)
Fixpoint run_chain (fns : list ActivityFn) : ActivityFn := fun T P x p =>
  match fns with [] => Ok p | f :: rest => bind (f T P x p) (run_chain rest T P x) end.
Definition chain (models : list (list Species -> outcome ActivityFn)) (l : list Species) : outcome ActivityFn :=
  omap run_chain (mapM (fun model => model l) models).
