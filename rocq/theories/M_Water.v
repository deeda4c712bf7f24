(* Model of the thermodynamic and electrostatic properties of water
   (Reaktoro/Thermodynamics/Water/WaterUtils.cpp, WaterThermoStateUtils.cpp and
   WaterElectroStateJohnsonNorton.cpp) over the real numbers.  As in M_Helmholtz,
   a division by zero or the root of a negative number has an unspecified value
   here, and the theorems are about arguments where none occurs. *)
From Coq Require Import Reals List ZArith.
Import ListNotations.
From Verif Require Import Base M_Helmholtz.
Local Open Scope R_scope.

(* Common/Constants.hpp:26. *)
Definition universalGasConstant : R := 8.3144621.
(* WaterConstants.hpp:23. *)
Definition waterMolarMass : R := 0.018015268.
(* WaterConstants.hpp:26. *)
Definition waterCriticalPressure : R := 22.064e6.
(* Core/StateOfMatter.hpp:26; the enumerators other than Liquid are treated alike by the code below. *)
Inductive StateOfMatter := Liquid | NotLiquid.

(* WaterUtils.cpp:67-78: at most [fuel] iterations left.  The comparison D > f/df
   and the test of convergence are those of the reals; a NaN is not modelled. *)
Fixpoint density_loop (model : R -> R -> HelmholtzState) (T P D : R) (fuel : nat) : outcome R :=
  match fuel with
  | O => Err
  | S fuel =>
    let h := model T D in
    let f := (D * D * helmholtzD h - P) / waterCriticalPressure in
    let df := (2 * D * helmholtzD h + D * D * helmholtzDD h) / waterCriticalPressure in
    let D' := if Rlt_dec (f / df) D then D - f / df else P / (D * helmholtzD h) in
    if Rlt_dec (Rabs f) 1e-8 then Ok D' else density_loop model T P D' fuel
  end.
(* WaterUtils.cpp:36-87. *)
Definition waterDensity (T P : R) (model : R -> R -> HelmholtzState) (som : StateOfMatter) : outcome R :=
  let D := match som with
           | Liquid => 10 * waterCriticalDensity
           | NotLiquid => waterMolarMass / (universalGasConstant * T / P)
           end in
  density_loop model T P D 100.
(* WaterUtils.cpp:89-92. *)
Definition waterDensityHGK (T P : R) (som : StateOfMatter) : outcome R := waterDensity T P waterHelmholtzStateHGK som.
(* WaterUtils.cpp:104-107. *)
Definition waterDensityWagnerPruss (T P : R) (som : StateOfMatter) : outcome R := waterDensity T P waterHelmholtzStateWagnerPruss som.
(* WaterUtils.cpp:119-124. *)
Definition waterPressure (T D : R) (model : R -> R -> HelmholtzState) : R :=
  let h := model T D in D * D * helmholtzD h.
(* WaterUtils.cpp:126-129. *)
Definition waterPressureHGK (T D : R) : R := waterPressure T D waterHelmholtzStateHGK.
(* WaterUtils.cpp:131-134. *)
Definition waterPressureWagnerPruss (T D : R) : R := waterPressure T D waterHelmholtzStateHGK.

(* WaterThermoState.hpp:25-88. *)
Record WaterThermoState := mkW {
  w_temperature : R; w_volume : R; w_entropy : R; w_helmholtz : R; w_internal_energy : R;
  w_enthalpy : R; w_gibbs : R; w_cv : R; w_cp : R;
  w_density : R; w_densityT : R; w_densityP : R; w_densityTT : R; w_densityTP : R; w_densityPP : R;
  w_pressure : R; w_pressureT : R; w_pressureD : R; w_pressureTT : R; w_pressureTD : R; w_pressureDD : R }.
(* WaterThermoStateUtils.cpp:85-137. *)
Definition waterThermoState (T P : R) (whs : HelmholtzState) : WaterThermoState :=
  let D := sqrt (P / helmholtzD whs) in
  let pressure := D * D * helmholtzD whs in
  let pressureD := 2 * D * helmholtzD whs + D * D * helmholtzDD whs in
  let pressureT := D * D * helmholtzTD whs in
  let pressureDD := 2 * helmholtzD whs + 4 * D * helmholtzDD whs + D * D * helmholtzDDD whs in
  let pressureTD := 2 * D * helmholtzTD whs + D * D * helmholtzTDD whs in
  let pressureTT := D * D * helmholtzTTD whs in
  let densityT := - pressureT / pressureD in
  let densityP := 1 / pressureD in
  let densityTT := - densityT * densityP * (densityT * pressureDD + 2 * pressureTD + pressureTT / densityT) in
  let densityTP := - densityP * densityP * (densityT * pressureDD + pressureTD) in
  let densityPP := - densityP * densityP * densityP * pressureDD in
  let volume := 1 / D in
  let entropy := - helmholtzT whs in
  let internal_energy := helmholtz whs + T * entropy in
  let enthalpy := internal_energy + P / D in
  let gibbs := enthalpy - T * entropy in
  let cv := - T * helmholtzTT whs in
  let cp := cv + T / (D * D) * pressureT * pressureT / pressureD in
  mkW T volume entropy (helmholtz whs) internal_energy enthalpy gibbs cv cp
      D densityT densityP densityTT densityTP densityPP
      pressure pressureT pressureD pressureTT pressureTD pressureDD.
(* WaterThermoStateUtils.cpp:59-64. *)
Definition waterThermoStateHGK (T P : R) (som : StateOfMatter) : outcome WaterThermoState :=
  bind (waterDensityHGK T P som) (fun D => Ok (waterThermoState T P (waterHelmholtzStateHGK T D))).
(* WaterThermoStateUtils.cpp:72-77. *)
Definition waterThermoStateWagnerPruss (T P : R) (som : StateOfMatter) : outcome WaterThermoState :=
  bind (waterDensityWagnerPruss T P som) (fun D => Ok (waterThermoState T P (waterHelmholtzStateWagnerPruss T D))).

(* ---- Dielectric constant, Johnson and Norton ---- *)
(* WaterElectroStateJohnsonNorton.cpp:44-57. *)
Definition jn_a : list R :=
  [0; 14.70333593; 212.8462733; -115.4445173; 19.55210915; -83.30347980; 32.13240048; -6.694098645;
   -37.86202045; 68.87359646; -27.29401652].
(* WaterElectroStateJohnsonNorton.cpp:59-63, 77: the functions k[i]. *)
Definition jn_k (i : nat) (t : R) : R :=
  match i with
  | 0%nat => 1
  | 1%nat => at_ jn_a 1 / t
  | 2%nat => at_ jn_a 2 / t + at_ jn_a 3 + at_ jn_a 4 * t
  | 3%nat => at_ jn_a 5 / t + at_ jn_a 6 * t + at_ jn_a 7 * t * t
  | _ => at_ jn_a 8 / t / t + at_ jn_a 9 / t + at_ jn_a 10
  end.
(* WaterElectroStateJohnsonNorton.cpp:65-69, 78: the functions k_t[i]. *)
Definition jn_k_t (i : nat) (t : R) : R :=
  match i with
  | 0%nat => 0
  | 1%nat => - at_ jn_a 1 / (t * t)
  | 2%nat => - at_ jn_a 2 / (t * t) + at_ jn_a 4
  | 3%nat => - at_ jn_a 5 / (t * t) + at_ jn_a 6 + 2 * at_ jn_a 7 * t
  | _ => - 2 * at_ jn_a 8 / (t * t * t) - at_ jn_a 9 / (t * t)
  end.
(* WaterElectroStateJohnsonNorton.cpp:71-75, 79: the functions k_tt[i]. *)
Definition jn_k_tt (i : nat) (t : R) : R :=
  match i with
  | 0%nat => 0
  | 1%nat => 2 * at_ jn_a 1 / (t * t * t)
  | 2%nat => 2 * at_ jn_a 2 / (t * t * t)
  | 3%nat => 2 * at_ jn_a 5 / (t * t * t) + 2 * at_ jn_a 7
  | _ => 6 * at_ jn_a 8 / (t * t * t * t) + 2 * at_ jn_a 9 / (t * t * t)
  end.

(* WaterElectroState.hpp:25-62. *)
Record WaterElectroState := mkE {
  e_epsilon : R; e_epsilonT : R; e_epsilonP : R; e_epsilonTT : R; e_epsilonTP : R; e_epsilonPP : R;
  e_bornZ : R; e_bornY : R; e_bornQ : R; e_bornN : R; e_bornU : R; e_bornX : R }.
(* The six running sums of the loop. *)
Record Epsilons := mkEps { eps : R; epsT : R; epsP : R; epsTT : R; epsTP : R; epsPP : R }.
(* WaterElectroStateJohnsonNorton.cpp:101-111: one iteration. *)
Definition jn_step (T : R) (wt : WaterThermoState) (e : Epsilons) (i : nat) : Epsilons :=
  let alpha := - w_densityT wt / w_density wt in
  let beta := w_densityP wt / w_density wt in
  let alphaT := - w_densityTT wt / w_density wt + alpha * alpha in
  let betaT := w_densityTP wt / w_density wt + alpha * beta in
  let betaP := w_densityPP wt / w_density wt - beta * beta in
  let Tr := 298.15 in
  let t := T / Tr in
  let r := w_density wt / 1000 in
  let n := INR i in
  let ri := r ^ i in
  let ki := jn_k i t in
  let ki_t := jn_k_t i t / Tr in
  let ki_tt := jn_k_tt i t / Tr / Tr in
  mkEps (eps e + ki * ri)
        (epsT e + ri * (ki_t - n * alpha * ki))
        (epsP e + ri * ki * n * beta)
        (epsTT e + ri * (ki_tt - n * (alpha * ki_t + ki * alphaT) - n * alpha * (ki_t - n * alpha * ki)))
        (epsTP e + ri * ki * n * beta * (ki_t / ki - n * alpha + betaT / beta))
        (epsPP e + ri * ki * n * beta * (n * beta + betaP / beta)).
(* WaterElectroStateJohnsonNorton.cpp:83-124. *)
Definition waterElectroStateJohnsonNorton (T P : R) (wt : WaterThermoState) : WaterElectroState :=
  let e := fold_left (jn_step T wt) [0; 1; 2; 3; 4]%nat (mkEps 0 0 0 0 0 0) in
  let epsilon2 := eps e * eps e in
  let bornY := epsT e / epsilon2 in
  let bornQ := epsP e / epsilon2 in
  mkE (eps e) (epsT e) (epsP e) (epsTT e) (epsTP e) (epsPP e)
      (- 1 / eps e) bornY bornQ
      (epsPP e / epsilon2 - 2 * bornQ * bornQ * eps e)
      (epsTP e / epsilon2 - 2 * bornY * bornQ * eps e)
      (epsTT e / epsilon2 - 2 * bornY * bornY * eps e).
