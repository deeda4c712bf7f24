(* Model of the HKF equations of state of aqueous solutes over the real numbers
   (Reaktoro/Models/Support/SpeciesElectroPropsHKF.cpp and
   Reaktoro/Models/StandardThermoModelHKF.cpp).  The memoized evaluation of the
   properties of water is a plain evaluation here (C84 is about memoization);
   those properties are arguments.  Divisions by zero and logarithms outside
   their domain have unspecified values. *)
From Coq Require Import Reals List ZArith.
From Verif Require Import Base M_Helmholtz M_Water.
From Verif Require M_Thermo.
Local Open Scope R_scope.

(* SpeciesElectroPropsHKF.hpp: struct gHKF. *)
Record gState := mkG { g_ : R; gT_ : R; gP_ : R; gTT_ : R; gTP_ : R; gPP_ : R }.

(* SpeciesElectroPropsHKF.cpp:57-73: the coefficients ag and bg, and their
   derivatives, as functions of the temperature in Celsius. *)
Definition ag (c : R) : R := -2.037662 + 5.747000e-03 * c + -6.557892e-06 * c * c.
Definition bg (c : R) : R := 6.107361 + -1.074377e-02 * c + 1.268348e-05 * c * c.
Definition agT (c : R) : R := 5.747000e-03 + 2 * -6.557892e-06 * c.
Definition bgT (c : R) : R := -1.074377e-02 + 2 * 1.268348e-05 * c.
Definition agTT : R := 2 * -6.557892e-06.
Definition bgTT : R := 2 * 1.268348e-05.
(* SpeciesElectroPropsHKF.cpp:56-88. *)
Definition g_region1 (T : R) (wts : WaterThermoState) : gState :=
  let c := T - 273.15 in
  let r := w_density wts / 1000 in
  let alpha := - w_densityT wts / w_density wts in
  let beta := w_densityP wts / w_density wts in
  let alphaT := - w_densityTT wts / w_density wts + alpha * alpha in
  let alphaP := - w_densityTP wts / w_density wts - alpha * beta in
  let betaP := w_densityPP wts / w_density wts - beta * beta in
  let a := ag c in let b := bg c in
  let g := a * Rpower (1 - r) b in
  let gT := g * (agT c / a + bgT c * ln (1 - r) + r * alpha * b / (1 - r)) in
  let gP := - g * r * beta * b / (1 - r) in
  let gTT := g * (agTT / a - (agT c / a) ^ 2 + bgTT * ln (1 - r)
                  + r * alpha * b / (1 - r) * (2 * bgT c / b + alphaT / alpha - alpha - r * alpha / (1 - r)))
             + gT * gT / g in
  let gTP := gP * (bgT c / b - alpha - alphaP / beta - r * alpha / (1 - r)) + gP * gT / g in
  let gPP := gP * (gP / g + beta + betaP / beta + r * beta / (1 - r)) in
  mkG g gT gP gTT gTP gPP.
(* SpeciesElectroPropsHKF.cpp:94-112. *)
Definition f_region2 (T P : R) : gState :=
  let c := T - 273.15 in
  let Pbar := P * 1.0e-5 in
  let af1 := 3.666660e+01 in let af2 := -1.504956e-10 in let af3 := 5.017990e-14 in
  let auxT := (c - 155) / 300 in
  let auxT1 := Rpower auxT 4.8 in
  let auxT2 := auxT ^ 16 in
  let auxP := 1000 - Pbar in
  let auxP1 := auxP ^ 3 in
  let auxP2 := auxP ^ 4 in
  let ft := auxT1 + af1 * auxT2 in
  let ftT := (4.80 * auxT1 + 16.0 * af1 * auxT2) / (300 * auxT) in
  let ftTT := (18.24 * auxT1 + 240.0 * af1 * auxT2) / (300 * auxT) ^ 2 in
  let fp := af2 * auxP1 + af3 * auxP2 in
  let fpP := - (3.0 * af2 * auxP1 + 4.0 * af3 * auxP2) / (auxP * 1e+5) in
  let fpPP := (6.0 * af2 * auxP1 + 12.0 * af3 * auxP2) / (auxP * 1e+5) ^ 2 in
  mkG (ft * fp) (fp * ftT) (ft * fpP) (fp * ftTT) (ftT * fpP) (ft * fpPP).
Definition subG (x y : gState) : gState :=
  mkG (g_ x - g_ y) (gT_ x - gT_ y) (gP_ x - gP_ y) (gTT_ x - gTT_ y) (gTP_ x - gTP_ y) (gPP_ x - gPP_ y).
Definition above (x y : R) : bool := if Rlt_dec y x then true else false.
(* SpeciesElectroPropsHKF.cpp:42-123. *)
Definition gHKF (T P : R) (wts : WaterThermoState) : gState :=
  let c := T - 273.15 in
  let Pbar := P * 1.0e-5 in
  if above (w_density wts) 1000 || above 350 (w_density wts) then mkG 0 0 0 0 0 0
  else if above c 155 && above 355 c && above 1000 Pbar
       then subG (g_region1 T wts) (f_region2 T P)
       else g_region1 T wts.

(* StandardThermoModelHKF.hpp:26-63; the parameters that the model uses. *)
Record HKF := mkHKF {
  k_Gf : R; k_Hf : R; k_Sr : R; k_a1 : R; k_a2 : R; k_a3 : R; k_a4 : R; k_c1 : R; k_c2 : R; k_wref : R; k_charge : R; k_Tmax : R }.
(* SpeciesElectroProps.hpp:26-50; the two radii are not used by the model. *)
Record Electro := mkEl { s_w : R; s_wT : R; s_wP : R; s_wTT : R; s_wTP : R; s_wPP : R }.
(* SpeciesElectroPropsHKF.cpp:38. *)
Definition eta : R := 6.94656968e+05.
(* SpeciesElectroPropsHKF.cpp:125-169. *)
Definition speciesElectroPropsHKF (s : gState) (p : HKF) : Electro :=
  if Req_EM_T (k_charge p) 0 then mkEl (k_wref p) 0 0 0 0 0
  else
    let z := k_charge p in
    let wref := k_wref p in
    let reref := z * z / (wref / eta + z / 3.082) in
    let re := reref + Rabs z * g_ s in
    let X1 := - eta * (Rabs (z * z * z) / (re * re) - z / (3.082 + g_ s) ^ 2) in
    let X2 := 2 * eta * (z * z * z * z / (re * re * re) - z / (3.082 + g_ s) ^ 3) in
    mkEl (eta * (z * z / re - z / (3.082 + g_ s))) (X1 * gT_ s) (X1 * gP_ s)
         (X1 * gTT_ s + X2 * gT_ s * gT_ s) (X1 * gTP_ s + X2 * gT_ s * gP_ s) (X1 * gPP_ s + X2 * gP_ s * gP_ s).

(* StandardThermoModelHKF.cpp:38-54. *)
Definition k_Tr : R := 298.15.
Definition k_Pr : R := 1.0e+05.
Definition k_Zr : R := -1.278055636e-02.
Definition k_Yr : R := -5.795424563e-05.
Definition k_theta : R := 228.0.
Definition k_psi : R := 2600.0e+05.
(* StandardThermoModelHKF.cpp:94-151: with the electrostatic properties wes of
   water and aes of the solute. *)
Definition stdHKF (p : HKF) (wes : WaterElectroState) (aes : Electro) (T P : R) : M_Thermo.StdProps :=
  let Tr := k_Tr in let Pr := k_Pr in let Zr := k_Zr in let Yr := k_Yr in let theta := k_theta in let psi := k_psi in
  let a1 := k_a1 p in let a2 := k_a2 p in let a3 := k_a3 p in let a4 := k_a4 p in
  let c1 := k_c1 p in let c2 := k_c2 p in let wr := k_wref p in
  let w := s_w aes in let wT := s_wT aes in let wP := s_wP aes in let wTT := s_wTT aes in
  let Z := e_bornZ wes in let Y := e_bornY wes in let Q := e_bornQ wes in let X := e_bornX wes in
  let Tth := T - theta in
  let Tth2 := Tth * Tth in
  let Tth3 := Tth * Tth2 in
  let V0 := a1 + a2 / (psi + P) + (a3 + a4 / (psi + P)) / (T - theta) - w * Q - (Z + 1) * wP in
  let G0 := k_Gf p - k_Sr p * (T - Tr) - c1 * (T * ln (T / Tr) - T + Tr)
            + a1 * (P - Pr) + a2 * ln ((psi + P) / (psi + Pr))
            - c2 * ((1 / (T - theta) - 1 / (Tr - theta)) * (theta - T) / theta
                    - T / (theta * theta) * ln (Tr / T * (T - theta) / (Tr - theta)))
            + 1 / (T - theta) * (a3 * (P - Pr) + a4 * ln ((psi + P) / (psi + Pr)))
            - w * (Z + 1) + wr * (Zr + 1) + wr * Yr * (T - Tr) in
  let H0 := k_Hf p + c1 * (T - Tr) - c2 * (1 / (T - theta) - 1 / (Tr - theta))
            + a1 * (P - Pr) + a2 * ln ((psi + P) / (psi + Pr))
            + (2 * T - theta) / Tth2 * (a3 * (P - Pr) + a4 * ln ((psi + P) / (psi + Pr)))
            - w * (Z + 1) + w * T * Y + T * (Z + 1) * wT + wr * (Zr + 1) - wr * Tr * Yr in
  let Cp0 := c1 + c2 / Tth2 - 2 * T / Tth3 * (a3 * (P - Pr) + a4 * ln ((psi + P) / (psi + Pr)))
             + w * T * X + 2 * T * Y * wT + T * (Z + 1) * wTT in
  M_Thermo.mkStdProps G0 H0 V0 Cp0 Cp0.
(* StandardThermoModelHKF.cpp:100-105: the whole evaluation, from the
   thermodynamic state wts of water. *)
Definition StandardThermoModelHKF (p : HKF) (wts : WaterThermoState) (T P : R) : M_Thermo.StdProps :=
  stdHKF p (waterElectroStateJohnsonNorton T P wts) (speciesElectroPropsHKF (gHKF T P wts) p) T P.
