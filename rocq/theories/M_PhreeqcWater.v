(* Properties of water as PHREEQC computes them (Extensions/Phreeqc/PhreeqcWater.cpp),
   over the real numbers.  [None] stands for values that are not numbers, which is
   what std::pow returns for a negative base and a fractional exponent.  Divisions
   by zero have unspecified values. *)
From Coq Require Import Reals Lra.
From Verif Require Import Base M_Thermo.
Local Open Scope R_scope.

(* PhreeqcWater.hpp:26-34 and 36-56. *)
Record WaterThermo := mkWT { rho_0 : R; kappa_0 : R }.
Record WaterElectro := mkWE { eps_r : R; DH_A : R; DH_B : R; DH_Av : R; ZBrn : R; QBrn : R }.
(* std::pow for a base that is not negative and a positive exponent. *)
Definition pow0 (x y : R) : R := if Req_EM_T x 0 then 0 else Rpower x y.
(* PhreeqcWater.cpp:41 and 115. *)
Definition pascal_to_atm : R := 986923 / 10 ^ 11.
(* PhreeqcWater.cpp:50-51: the temperature in Celsius, at most 350. *)
Definition tc_of (T : R) : R := if Rlt_dec 350 (T - 27315 / 100) then 350 else T - 27315 / 100.
(* PhreeqcWater.cpp:54-55: the temperature is not the limited one. *)
Definition th_of (T : R) : R := 1 - T / (647096 / 1000).
(* PhreeqcWater.cpp:56-65. *)
Definition rho_0_sat (th : R) : R :=
  322 * (1 + 199274064 / 10 ^ 8 * pow0 th (1 / 3) + 109965342 / 10 ^ 8 * pow0 th (2 / 3) + - (510839303 / 10 ^ 9) * pow0 th (5 / 3)
    + - (175493479 / 10 ^ 8) * pow0 th (16 / 3) + - (455170352 / 10 ^ 7) * pow0 th (43 / 3) + - (67469445 / 10 ^ 2) * pow0 th (110 / 3)).
(* PhreeqcWater.cpp:68-71. *)
Definition wp0 (tc : R) : R := 51880000 / 10 ^ 9 + tc * (- (41885519 / 10 ^ 11) + tc * (66780748 / 10 ^ 13 + tc * (- (36648699 / 10 ^ 15) + tc * (83501912 / 10 ^ 18)))).
Definition wp1 (tc : R) : R := - (60251348 / 10 ^ 13) + tc * (36696407 / 10 ^ 14 + tc * (- (92056269 / 10 ^ 16) + tc * (67024182 / 10 ^ 18 + tc * - (15947241 / 10 ^ 20)))).
Definition wp2 (tc : R) : R := - (22983596 / 10 ^ 16) + tc * (- (40133819 / 10 ^ 17) + tc * (12619821 / 10 ^ 18 + tc * (- (98952363 / 10 ^ 21) + tc * (23363281 / 10 ^ 23)))).
Definition wp3 (tc : R) : R := 70517647 / 10 ^ 18 + tc * (68566831 / 10 ^ 19 + tc * (- (22829750 / 10 ^ 20) + tc * (18113313 / 10 ^ 22 + tc * - (42475324 / 10 ^ 25)))).
(* PhreeqcWater.cpp:75, in atm. *)
Definition p_sat (T : R) : R := exp (116702 / 10 ^ 4 - (381644 / 100) / (T - 4613 / 100)).
(* PhreeqcWater.cpp:80-83: the pressure above saturation. *)
Definition pa_of (T P : R) : R :=
  let pa := P * pascal_to_atm in
  let pa := if Rlt_dec pa (p_sat T) then p_sat T else pa in
  pa - (p_sat T - 1 / 10 ^ 6).
(* PhreeqcWater.cpp:86, in kg/m3. *)
Definition rho_of (T P : R) : R :=
  let tc := tc_of T in let pa := pa_of T P in
  rho_0_sat (th_of T) + pa * (wp0 tc + pa * (wp1 tc + pa * (wp2 tc + sqrt pa * wp3 tc))).
(* PhreeqcWater.cpp:27-98. *)
Definition waterThermoProps (T P : R) : option WaterThermo :=
  if Rlt_dec (th_of T) 0 then None else
  let tc := tc_of T in let pa := pa_of T P in
  let rho := if Rlt_dec (rho_of T P) (1 / 100) then 1 / 100 else rho_of T P in
  let kappa := (wp0 tc + pa * (2 * wp1 tc + pa * (3 * wp2 tc + sqrt pa * (35 / 10) * wp3 tc))) / rho in
  Some (mkWT (rho / 1000) kappa).

(* PhreeqcWater.cpp:123-137. *)
Definition d1000_of (T : R) : R := 34279 / 100 * exp (T * (- (50866 / 10 ^ 7) + T * (9469 / 10 ^ 10))).
Definition c_of (T : R) : R := - (20525 / 10 ^ 4) + (31159 / 10) / (- (18289 / 100) + T).
Definition b_of (T : R) : R := - (80325 / 10) + 4214200 / T + 21417 / 10 ^ 4 * T.
Definition pb_of (P : R) : R := P * pascal_to_atm * (101325 / 10 ^ 5).
(* PhreeqcWater.cpp:139. *)
Definition eps_of (T P : R) : R := d1000_of T + c_of T * ln ((b_of T + pb_of P) / (b_of T + 1000)).
(* PhreeqcWater.cpp:152-155: the constants of PHREEQC; LOG_10 is taken as ln 10. *)
Definition pi_ph : R := 314159265358979 / 10 ^ 14.
Definition AVOGADRO : R := 602252 * 10 ^ 18.
Definition R_LITER_ATM : R := 820597 / 10 ^ 7.
(* PhreeqcWater.cpp:100-171.  The limited temperature of lines 120-121 is not used. *)
Definition waterElectroProps (T P : R) (wtp : WaterThermo) : WaterElectro :=
  let c := c_of T in let b := b_of T in let pb := pb_of P in
  let eps := if Rle_dec (eps_of T P) 0 then 10 else eps_of T P in
  let e2_DkT := 1671008 / 10 ^ 9 / (eps * T) in
  let B := sqrt (8 * pi_ph * AVOGADRO * e2_DkT * rho_0 wtp / 1000) in
  let A := B * e2_DkT / (2 * ln10) in
  let Av := B * e2_DkT * R_LITER_ATM * 1000 * T * (c / (b + pb) * (101325 / 10 ^ 5) / eps - kappa_0 wtp / 3) in
  mkWE eps A (B / 10 ^ 8) Av ((- (1) / eps + 1) * (4184004 / 10 ^ 5)) (c / (b + pb) / eps / eps * (4184004 / 10 ^ 5)).
(* PhreeqcWater.cpp:173-178. *)
Definition waterProps (T P : R) : option (WaterThermo * WaterElectro) :=
  match waterThermoProps T P with
  | None => None
  | Some wtp => Some (wtp, waterElectroProps T P wtp)
  end.
