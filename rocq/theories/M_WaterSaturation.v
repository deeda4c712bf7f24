(* Saturation properties of water (Thermodynamics/Water/WaterUtils.cpp), over the
   real numbers.  [None] stands for values that are not numbers, which is what
   std::pow returns for a negative base and a fractional exponent.  The division
   by a temperature of zero has an unspecified value. *)
From Coq Require Import Reals.
From Verif Require Import Base M_Helmholtz M_Water.
Local Open Scope R_scope.

(* std::pow for a positive exponent that is not an integer. *)
Definition std_pow (x y : R) : option R := if Rlt_dec x 0 then None else if Req_EM_T x 0 then Some 0 else Some (Rpower x y).

(* WaterUtils.cpp:136-156. *)
Definition waterSaturatedPressureWagnerPruss (T : R) : option R :=
  let a1 := -7.85951783 in
  let a2 := 1.84408259 in
  let a3 := -11.7866497 in
  let a4 := 22.6807411 in
  let a5 := -15.9618719 in
  let a6 := 1.80122502 in
  let Tcr := waterCriticalTemperature in
  let Pcr := waterCriticalPressure in
  let t := 1 - T / Tcr in
  match std_pow t 1.5 with
  | None => None
  | Some t15 =>
    let t30 := t15 * t15 in
    let t35 := t15 * t * t in
    let t40 := t30 * t in
    let t75 := t35 * t40 in
    Some (Pcr * exp (Tcr / T * (a1 * t + a2 * t15 + a3 * t30 + a4 * t35 + a5 * t40 + a6 * t75)))
  end.
(* WaterUtils.cpp:158-179. *)
Definition waterSaturatedLiquidDensityWagnerPruss (T : R) : option R :=
  let b1 := 1.99274064 in
  let b2 := 1.09965342 in
  let b3 := -0.510839303 in
  let b4 := -1.75493479 in
  let b5 := -45.5170352 in
  let b6 := -674694.450 in
  let Tcr := waterCriticalTemperature in
  let Dcr := waterCriticalDensity in
  let t := 1 - T / Tcr in
  match std_pow t (1 / 3) with
  | None => None
  | Some t13 =>
    let t23 := t13 * t13 in
    let t53 := t13 * t23 * t23 in
    let t163 := t13 * t53 * t53 * t53 in
    let t433 := t163 * t163 * t53 * t * t in
    let t1103 := t433 * t433 * t163 * t53 * t in
    Some (Dcr * (1 + b1 * t13 + b2 * t23 + b3 * t53 + b4 * t163 + b5 * t433 + b6 * t1103))
  end.
(* WaterUtils.cpp:181-203. *)
Definition waterSaturatedVapourDensityWagnerPruss (T : R) : option R :=
  let c1 := -2.03150240 in
  let c2 := -2.68302940 in
  let c3 := -5.38626492 in
  let c4 := -17.2991605 in
  let c5 := -44.7586581 in
  let c6 := -63.9201063 in
  let Tcr := waterCriticalTemperature in
  let Dcr := waterCriticalDensity in
  let t := 1 - T / Tcr in
  match std_pow t (1 / 6) with
  | None => None
  | Some t16 =>
    let t26 := t16 * t16 in
    let t46 := t26 * t26 in
    let t86 := t46 * t46 in
    let t186 := t86 * t86 * t26 in
    let t376 := t186 * t186 * t16 in
    let t716 := t376 * t186 * t86 * t86 in
    Some (Dcr * exp (Tcr / T * (c1 * t26 + c2 * t46 + c3 * t86 + c4 * t186 + c5 * t376 + c6 * t716)))
  end.
