(* Model of Reaktoro/Extensions/Supcrt/SupcrtModels.cpp, SpeciesElectroStateHKF.cpp
   and SupcrtEngine.cpp over the real numbers: the standard properties of the species
   of a SUPCRT database.  Only the five properties that SupcrtEngine.cpp:44-54 keeps
   are modelled (the entropy, internal and Helmholtz energies are dropped there).
   Memoization is a plain evaluation. *)
From Coq Require Import Reals List ZArith.
From Verif Require Import Base M_Algorithms M_Helmholtz M_Water M_HKF M_Naming M_Supcrt.
From Verif Require M_Thermo.
Import M_Thermo.
Local Open Scope R_scope.

(* Common/Constants.hpp:26-44. *)
Definition calorieToJoule : R := 4.184.
Definition barToPascal : R := 1.0e+05.
Definition cubicCentimeterToCubicMeter : R := 1.0e-06.
(* SupcrtModels.cpp:81-94. *)
Definition checkTemperatureValidityHKF {A} (T Tmax : R) (k : R -> outcome A) : outcome A :=
  if Rle_dec T 0 then Err else if Rlt_dec Tmax T then Err else k (Rmin T Tmax).

(* SupcrtModels.cpp:98-135. *)
Definition supcrtSolvent (wt : WaterThermoState) (T P : R) : StdProps :=
  let Ttr := 273.16 in
  let Str := 15.1320 * calorieToJoule in
  let Gtr := -56290.0 * calorieToJoule in
  let Htr := -68767.0 * calorieToJoule in
  let Sw := M_Water.waterMolarMass * M_Water.w_entropy wt in
  let Hw := M_Water.waterMolarMass * M_Water.w_enthalpy wt in
  let H := Hw + Htr in
  let G := Hw - T * (Sw + Str) + Ttr * Str + Gtr in
  let V := M_Water.w_volume wt * M_Water.waterMolarMass in
  let Cp := M_Water.w_cp wt * M_Water.waterMolarMass in
  let Cv := M_Water.w_cv wt * M_Water.waterMolarMass in
  mkStdProps G H V Cp Cv.

(* SpeciesElectroStateHKF.cpp:41-129: functionG has the same text as gHKF::compute
   of Models/Support/SpeciesElectroPropsHKF.cpp. *)
Definition functionG (T P : R) (wts : WaterThermoState) : gState := gHKF T P wts.
(* SpeciesElectroStateHKF.cpp:37. *)
Definition eta_cal : R := 1.66027e+05.
(* isAlternativeChargedSpeciesName(name, "H+"), NamingUtils.cpp:116-119: the names of
   H+ do not depend on the calls before. *)
Definition named_H (n : str) : bool := contains str_eqb (chargedNames $"H" 1 1) n.
(* SpeciesElectroStateHKF.cpp:131-168; the radii are not used. *)
Definition speciesElectroStateHKF (s : gState) (p : Solute R) : Electro :=
  if (if Req_EM_T (so_charge p) 0 then true else named_H (so_name p)) then mkEl (so_wref p) 0 0 0 0 0
  else
    let z := so_charge p in
    let wref := so_wref p in
    let reref := z * z / (wref / eta_cal + z / 3.082) in
    let re := reref + Rabs z * g_ s in
    let X1 := - eta_cal * (Rabs (z * z * z) / (re * re) - z / (3.082 + g_ s) ^ 2) in
    let X2 := 2 * eta_cal * (z * z * z * z / (re * re * re) - z / (3.082 + g_ s) ^ 3) in
    mkEl (eta_cal * (z * z / re - z / (3.082 + g_ s))) (X1 * gT_ s) (X1 * gP_ s)
         (X1 * gTT_ s + X2 * gT_ s * gT_ s) (X1 * gTP_ s + X2 * gT_ s * gP_ s) (X1 * gPP_ s + X2 * gP_ s * gP_ s).
(* SupcrtModels.cpp:137-211. *)
Definition supcrtSolute (p : Solute R) (wes : WaterElectroState) (aes : Electro) (T P : R) : StdProps :=
  let Pbar := P * 1.0e-05 in
  let Tr := 298.15 in let Pr := 1.0 in let Zr := -1.278055636e-02 in let Yr := -5.795424563e-05 in
  let theta := 228.0 in let psi := 2600.0 in
  let a1 := so_a1 p in let a2 := so_a2 p in let a3 := so_a3 p in let a4 := so_a4 p in
  let c1 := so_c1 p in let c2 := so_c2 p in let wr := so_wref p in
  let w := s_w aes in let wT := s_wT aes in let wP := s_wP aes in let wTT := s_wTT aes in
  let Z := e_bornZ wes in let Y := e_bornY wes in let Q := e_bornQ wes in let X := e_bornX wes in
  let V := a1 + a2 / (psi + Pbar) + (a3 + a4 / (psi + Pbar)) / (T - theta) - w * Q - (Z + 1) * wP in
  let G := so_Gf p - so_Sr p * (T - Tr) - c1 * (T * ln (T / Tr) - T + Tr)
           + a1 * (Pbar - Pr) + a2 * ln ((psi + Pbar) / (psi + Pr))
           - c2 * ((1 / (T - theta) - 1 / (Tr - theta)) * (theta - T) / theta
                   - T / (theta * theta) * ln (Tr / T * (T - theta) / (Tr - theta)))
           + 1 / (T - theta) * (a3 * (Pbar - Pr) + a4 * ln ((psi + Pbar) / (psi + Pr)))
           - w * (Z + 1) + wr * (Zr + 1) + wr * Yr * (T - Tr) in
  let H := so_Hf p + c1 * (T - Tr) - c2 * (1 / (T - theta) - 1 / (Tr - theta))
           + a1 * (Pbar - Pr) + a2 * ln ((psi + Pbar) / (psi + Pr))
           + (2 * T - theta) / (T - theta) ^ 2 * (a3 * (Pbar - Pr) + a4 * ln ((psi + Pbar) / (psi + Pr)))
           - w * (Z + 1) + w * T * Y + T * (Z + 1) * wT + wr * (Zr + 1) - wr * Tr * Yr in
  let Cp := c1 + c2 / (T - theta) ^ 2 - (2 * T / (T - theta) ^ 3) * (a3 * (Pbar - Pr) + a4 * ln ((psi + Pbar) / (psi + Pr)))
            + w * T * X + 2 * T * Y * wT + T * (Z + 1) * wTT in
  mkStdProps (G * calorieToJoule) (H * calorieToJoule) (V * (calorieToJoule / barToPascal)) (Cp * calorieToJoule) (Cp * calorieToJoule).
(* SupcrtEngine.cpp:109-118. *)
Definition supcrtSoluteProps (p : Solute R) (wts : WaterThermoState) (T P : R) : StdProps :=
  supcrtSolute p (waterElectroStateJohnsonNorton T P wts) (speciesElectroStateHKF (functionG T P wts) p) T P.

(* SupcrtModels.cpp:226-276. *)
Definition supcrtMaierKelly (p : MaierKelly R) (T P : R) : outcome StdProps :=
  checkTemperatureValidityHKF T (ga_Tmax p) (fun T =>
  let R := 8.3144621 in
  let Tr := 298.15 in
  let a := ga_a p in let b := ga_b p in let c := ga_c p in
  let CpdT := a * (T - Tr) + 0.5 * b * (T * T - Tr * Tr) - c * (1 / T - 1 / Tr) in
  let CpdlnT := a * ln (T / Tr) + b * (T - Tr) - 0.5 * c * (1 / (T * T) - 1 / (Tr * Tr)) in
  let V := R * T / P in
  let G := ga_Gf p - ga_Sr p * (T - Tr) + CpdT - T * CpdlnT in
  let H := ga_Hf p + CpdT in
  let Cp := a + b * T + c / (T * T) in
  Ok (mkStdProps (G * calorieToJoule) (H * calorieToJoule) V (Cp * calorieToJoule) (Cp * calorieToJoule - R))).

(* SupcrtModels.cpp:278-386.  Lines 303-312, 322-326, 328-339 and 341-354 have the
   text of StandardThermoModelMineralHKF.cpp:67-72, 82-86, 88-98 and 100-112: the
   functions of M_Thermo on the parameters as they are, in calories and cm3. *)
Definition sc_parameters (p : Mineral R) : MineralHKF :=
  mkMin (mn_Gf p) (mn_Hf p) (mn_Sr p) (mn_Vr p) (mn_nptrans p) (mn_a p) (mn_b p) (mn_c p) (mn_Ttr p) (mn_Htr p) (mn_Vtr p) (mn_dPdTtr p).
(* SupcrtModels.cpp:314-320; the pressures are in bar. *)
Definition sc_pressures (p : Mineral R) (T : R) : outcome (list R) :=
  omap (@concat R) (mapM (fun i => bind (at_ (mn_dPdTtr p) i) (fun s =>
    if Req_EM_T s 0 then Ok [] else bind (at_ (mn_Ttr p) i) (fun t => Ok [1.0 + s * (T - t)]))) (seq 0 (mn_nptrans p))).
(* SupcrtModels.cpp:356-365. *)
Definition sc_factor : R := 0.023901488.
Fixpoint sc_VdP (p : Mineral R) (i : nat) (Pt : list R) (Pb V VdP : R) : outcome (R * R) :=
  match Pt with
  | [] => Ok (V, VdP)
  | pt :: Pt' =>
    if Rlt_dec 0 pt then
      if Rlt_dec pt Pb then
        bind (at_ (mn_Vtr p) i) (fun v => sc_VdP p (S i) Pt' Pb (V - v) (VdP - sc_factor * v * (Pb - pt)))
      else sc_VdP p (S i) Pt' Pb V VdP
    else sc_VdP p (S i) Pt' Pb V VdP
  end.
Definition supcrtMaierKellyHKF (p : Mineral R) (T P : R) : outcome StdProps :=
  checkTemperatureValidityHKF T (mn_Tmax p) (fun T =>
  let Pb := P * 1.0e-5 in
  let Tr := M_Thermo.Tr in let Pr := 1.0 in
  let q := sc_parameters p in
  bind (mi_points q T) (fun Ti =>
  bind (sc_pressures p T) (fun Pt =>
  bind (mi_Cp q 0 Ti T 0) (fun Cp =>
  bind (mi_integrals q 0 Ti 0 0) (fun '(CpdT, CpdlnT) =>
  bind (mi_transitions q 0 (removelast (tl Ti)) T (mn_Vr p) 0 0) (fun '(V, GdH, HdH) =>
  bind (sc_VdP p 0 Pt Pb V (sc_factor * V * (Pb - Pr))) (fun '(V, VdP) =>
  let G := mn_Gf p - mn_Sr p * (T - Tr) + CpdT - T * CpdlnT + VdP - GdH in
  let H := mn_Hf p + CpdT + VdP + HdH in
  Ok (mkStdProps (G * calorieToJoule) (H * calorieToJoule) (V * cubicCentimeterToCubicMeter) (Cp * calorieToJoule) (Cp * calorieToJoule))))))))).
