(* Model of Reaktoro/Extensions/Supcrtbl/SupcrtblModels.cpp: the standard
   properties of fluids, minerals and solutes with the parameters of SUPCRTBL. *)
From Coq Require Import Reals List.
From Verif Require Import Base M_Water M_HKF M_Supcrt M_SupcrtModels.
From Verif Require M_Thermo.
Local Open Scope R_scope.

(* Reaktoro/Extensions/Supcrt/SpeciesThermoState.hpp:25-50. *)
Record State := mkState {
  gibbs_energy : R; helmholtz_energy : R; internal_energy : R; enthalpy : R; entropy : R; volume : R; heat_capacity_cp : R; heat_capacity_cv : R }.

(* SupcrtblModels.cpp:48-57. *)
Definition cal_to_kJ : R := 4.184e-3.
Definition kJ_to_cal : R := 1 / cal_to_kJ.
Definition kJ_to_J : R := 1000.
Definition J_to_kJ : R := 1e-3.
Definition Pa_to_bar : R := 1e-5.
Definition Tr : R := M_Thermo.Tr.
Definition Tr2 : R := Tr * Tr.
Definition Tr05 : R := sqrt Tr.

(* SupcrtblParams.hpp:88-117. *)
Record Fluid := mkFluid { fl_Gf : R; fl_Hf : R; fl_Sr : R; fl_Vr : R; fl_a : R; fl_b : R; fl_c : R; fl_d : R; fl_Tmax : R }.
(* SupcrtblModels.cpp:92-130. *)
Definition supcrtblFluid (T P : R) (p : Fluid) : State :=
  let '(mkFluid Gf Hf Sr Vr a b c d Tmax) := p in
  let STrPr := Sr * J_to_kJ in
  let T2 := T * T in
  let T05 := sqrt T in
  let Cp := a + b * T + c / T2 + d / T05 in
  let CpdT := a * (T - Tr) + b / 2 * (T2 - Tr2) - c * (1 / T - 1 / Tr) + d / 0.5 * (T05 - Tr05) in
  let CpdlnT := a * ln (T / Tr) + b * (T - Tr) - c / 2 * (1 / T2 - 1 / Tr2) - d / 0.5 * (1 / T05 - 1 / Tr05) in
  let S := STrPr + CpdlnT in
  let H := Hf + CpdT in
  let G := Gf - STrPr * (T - Tr) + CpdT - T * CpdlnT in
  let U := H in
  let A := U - T * S in
  mkState (G * kJ_to_J) (A * kJ_to_J) (U * kJ_to_J) (H * kJ_to_J) (S * kJ_to_J) 0 Cp (Cp - M_Thermo.universalGasConstant).

(* SupcrtblParams.hpp:119-163. *)
Record MineralHP := mkMineralHP { mh_Gf : R; mh_Hf : R; mh_Sr : R; mh_Vr : R; mh_a : R; mh_b : R; mh_c : R; mh_d : R;
  mh_alpha : R; mh_kappa : R; mh_kappap : R; mh_kappapp : R; mh_numatoms : R; mh_Tmax : R }.
(* SupcrtblModels.cpp:132-192; the thermal expansion and the compressibility at T and
   P (alpha, kappa), which are not used, are left out. *)
Definition supcrtblMineral (T P : R) (p : MineralHP) : State :=
  let '(mkMineralHP Gf Hf Sr Vr MKa MKb MKc MKd alpha0 kappa0 kappap0 kappapp0 numatoms Tmax) := p in
  let STrPr := Sr * J_to_kJ in
  let T2 := T * T in
  let T05 := sqrt T in
  let Pbar := P * Pa_to_bar in
  let ka := (1 + kappap0) / (1 + kappap0 + kappa0 * kappapp0) in
  let kb := kappap0 / kappa0 - kappapp0 / (1 + kappap0) in
  let kc := (1 + kappap0 + kappa0 * kappapp0) / (kappap0 * (1 + kappap0) - kappa0 * kappapp0) in
  let theta := 10636 / (Sr / numatoms + 6.44) in
  let u := theta / T in
  let u0 := theta / Tr in
  let exp_u := exp u in
  let exp_u0 := exp u0 in
  let w0 := u0 / (exp_u0 - 1) in
  let E0 := w0 * w0 * exp_u0 in
  let Pth := alpha0 * kappa0 * (theta / E0) * (1 / (exp_u - 1) - 1 / (exp_u0 - 1)) in
  let aux1 := 1 - kb * Pth in
  let aux2 := Rpower aux1 (1 - kc) in
  let aux3 := 1 + kb * (Pbar - Pth) in
  let aux4 := Rpower aux3 (1 - kc) in
  let aux5 := kb * (kc - 1) * Pbar in
  let aux7 := Rpower aux3 kc in
  let VdP := Pbar * Vr * (1 - ka + ka * (aux2 - aux4) / aux5) in
  let V := Vr * (1 - ka * (1 - 1 / aux7)) in
  let Cp := MKa + MKb * T + MKc / T2 + MKd / T05 in
  let CpdT := MKa * (T - Tr) + MKb / 2 * (T2 - Tr2) - MKc * (1 / T - 1 / Tr) + MKd / 0.5 * (T05 - Tr05) in
  let CpdlnT := MKa * ln (T / Tr) + MKb * (T - Tr) - MKc / 2 * (1 / T2 - 1 / Tr2) - MKd / 0.5 * (1 / T05 - 1 / Tr05) in
  let S := STrPr + CpdlnT in
  let H := Hf + CpdT + VdP in
  let G := Gf - STrPr * (T - Tr) + CpdT - T * CpdlnT + VdP in
  let U := H - Pbar * V in
  let A := U - T * S in
  mkState (G * kJ_to_J) (A * kJ_to_J) (U * kJ_to_J) (H * kJ_to_J) (S * kJ_to_J) (V * 1e-5) (Cp * kJ_to_J) (Cp * kJ_to_J).

(* SupcrtblModels.cpp:74-90 with SupcrtblParams.hpp:48-86: the parameters of a
   solute, which have the same names, passed on to the model of SUPCRT98. *)
Definition supcrtblSolute (p : Solute R) : Solute R :=
  mkSolute (so_name p) (so_charge p) (so_Gf p * kJ_to_cal) (so_Hf p * kJ_to_cal) (so_Sr p)
    (so_a1 p * kJ_to_cal * 1e-1) (so_a2 p * kJ_to_cal * 1e+2) (so_a3 p * kJ_to_cal) (so_a4 p * kJ_to_cal * 1e+4)
    (so_c1 p * kJ_to_cal) (so_c2 p * kJ_to_cal * 1e+4) (so_wref p * 1e+5).
Definition supcrtblSoluteProps (T P : R) (p : Solute R) (aes : Electro) (wes : WaterElectroState) : M_Thermo.StdProps :=
  supcrtSolute (supcrtblSolute p) wes aes T P.
(* SupcrtblModels.cpp:62-72: the parameters of the solvent are not used. *)
Definition supcrtblSolvent (T P : R) (params : R * R * R * R * R * R) (wt : WaterThermoState) : M_Thermo.StdProps := supcrtSolvent wt T P.
