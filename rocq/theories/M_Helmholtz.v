(* Model of the Helmholtz equations of state of water in
   Reaktoro/Thermodynamics/Water (WaterHelmholtzStateHGK.cpp and
   WaterHelmholtzStateWagnerPruss.cpp) over the real numbers.  Powers with
   integer exponents are those of the standard library; powers with exponents
   of type double are [Rpower], which agrees with std::pow for positive bases.
   A division by zero, or the logarithm of a number that is not positive, has an
   unspecified value here; the theorems are about arguments where none occurs. *)
From Coq Require Import Reals List ZArith.
Import ListNotations.
From Verif Require Import Base.
Local Open Scope R_scope.

(* WaterHelmholtzState.hpp:25-56; every field starts as zero. *)
Record HelmholtzState := mkH {
  helmholtz : R; helmholtzT : R; helmholtzD : R;
  helmholtzTT : R; helmholtzTD : R; helmholtzDD : R;
  helmholtzTTT : R; helmholtzTTD : R; helmholtzTDD : R; helmholtzDDD : R }.
Definition zeroH : HelmholtzState := mkH 0 0 0 0 0 0 0 0 0 0.
(* The += statements on all ten fields. *)
Definition addH (a b : HelmholtzState) : HelmholtzState :=
  mkH (helmholtz a + helmholtz b) (helmholtzT a + helmholtzT b) (helmholtzD a + helmholtzD b)
      (helmholtzTT a + helmholtzTT b) (helmholtzTD a + helmholtzTD b) (helmholtzDD a + helmholtzDD b)
      (helmholtzTTT a + helmholtzTTT b) (helmholtzTTD a + helmholtzTTD b)
      (helmholtzTDD a + helmholtzTDD b) (helmholtzDDD a + helmholtzDDD b).
(* for(int i = first; i < first + count; ++i) s += term(i). *)
Definition accumulate (term : nat -> HelmholtzState) (first count : nat) (s : HelmholtzState) : HelmholtzState :=
  fold_left (fun acc i => addH acc (term i)) (seq first count) s.
Definition at_ (l : list R) (i : nat) : R := nth i l 0.
Definition int_at (l : list nat) (i : nat) : nat := nth i l 0%nat.
Definition intR (z : Z) : R := IZR z.

(* ---- Haar, Gallagher and Kell ---- *)
(* WaterHelmholtzStateHGK.cpp:33-36. *)
Definition referenceTemperature : R := 647.27.
Definition referenceDensity : R := 317.763.
(* WaterHelmholtzStateHGK.cpp:54. *)
Definition referenceHelmholtz : R := 69595.89.
(* WaterHelmholtzStateHGK.cpp:62-82 (A0). *)
Definition hgk_A0 : list R :=
  [-13.0840393653; -85.702042094; 0.00765192919131; -0.620600116069; -10.6924329402; -2.80671377296;
   119.843634845; -82.3907389256; 55.5864146443; -31.069812298; 13.6200239305; -4.57116129409; 1.15382128188;
   -0.214242224683; 0.0282800597384; -0.00250384152737; 0.000132952679669; -0.00000319277411208].
(* WaterHelmholtzStateHGK.cpp:84-91 (A1). *)
Definition hgk_A1 : list R :=
  [1.5383053; -0.81048367; -6.8305748; 0; 0.86756271].
(* WaterHelmholtzStateHGK.cpp:95-101 (yc). *)
Definition hgk_yc : list R :=
  [0.059402227; -0.028128238; 0.00056826674; -0.00027987451].
(* WaterHelmholtzStateHGK.cpp:105-112 (ki). *)
Definition hgk_ki : list nat :=
  [1; 1; 1; 1; 2; 2; 2; 2; 3; 3; 3; 3; 4; 4; 4; 4; 5; 5; 5; 5; 6; 6; 6; 6; 7; 7; 7; 7; 9; 9; 9; 9; 3; 3; 1; 5]%nat.
(* WaterHelmholtzStateHGK.cpp:114-121 (li). *)
Definition hgk_li : list nat :=
  [1; 2; 4; 6; 1; 2; 4; 6; 1; 2; 4; 6; 1; 2; 4; 6; 1; 2; 4; 6; 1; 2; 4; 6; 1; 2; 4; 6; 1; 2; 4; 6; 0; 3; 3; 3]%nat.
(* WaterHelmholtzStateHGK.cpp:123-161 (A3). *)
Definition hgk_A3 : list R :=
  [-7.6221190138079; 32.661493707555; 11.305763156821; -1.0015404767712; 128.30064355028; -283.71416789846;
   242.56279839182; -99.357645626725; -1227.5453013171; 2307.7622506234; -1635.2219929859; 584.36648297764;
   4236.5441415641; -7802.7526961828; 3885.5645739589; -912.25112529381; -9014.3895703666; 15196.214817734;
   -3961.6651358508; -720.27511617558; 11147.12670599; -17412.06525221; 999.18281207782; 3350.4807153854;
   -6475.2644922631; 9832.3730907847; 838.77854108422; -2791.9349903103; 1111.2410081192; -1728.7587261807;
   -362.33262795423; 611.39429010144; 32.968064728562; 104.11239605066; -38.22587471259; -203.07478607599].
(* WaterHelmholtzStateHGK.cpp:163-163 (mi). *)
Definition hgk_mi : list nat :=
  [2; 2; 2; 4]%nat.
(* WaterHelmholtzStateHGK.cpp:165-165 (ni). *)
Definition hgk_ni : list nat :=
  [0; 2; 0; 0]%nat.
(* WaterHelmholtzStateHGK.cpp:167-167 (alpha). *)
Definition hgk_alpha : list R :=
  [34; 40; 30; 1050].
(* WaterHelmholtzStateHGK.cpp:169-169 (beta). *)
Definition hgk_beta : list R :=
  [20000; 20000; 40000; 25].
(* WaterHelmholtzStateHGK.cpp:171-177 (ri). *)
Definition hgk_ri : list R :=
  [1.0038928; 1.0038928; 1.0038928; 4.8778492].
(* WaterHelmholtzStateHGK.cpp:179-185 (ti). *)
Definition hgk_ti : list R :=
  [0.98876821; 0.98876821; 0.99124013; 0.41713659].
(* WaterHelmholtzStateHGK.cpp:187-193 (A4). *)
Definition hgk_A4 : list R :=
  [-0.0032329494; -0.024139355; 0.00079027651; -1.3362857].
(* WaterHelmholtzStateHGK.cpp:93. *)
Definition hgk_A20 : R := 4.2923415.
(* WaterHelmholtzStateHGK.cpp:103. *)
Definition hgk_z0 : R := 0.317763.

(* WaterHelmholtzStateHGK.cpp:208-213: one iteration of the loop. *)
Definition hgk0_term (t : R) (i : nat) : HelmholtzState :=
  let k := Z.of_nat i in
  let aux := at_ hgk_A0 i * powerRZ t (k - 4) in
  mkH aux (aux * intR (k - 4) / t) 0
      (aux * intR (k - 4) * intR (k - 5) / (t * t)) 0 0
      (aux * intR (k - 4) * intR (k - 5) * intR (k - 6) / (t * t * t)) 0 0 0.
(* WaterHelmholtzStateHGK.cpp:195-217. *)
Definition hgk0 (t d : R) : HelmholtzState :=
  let ln_t := ln t in
  let a0 := at_ hgk_A0 0 in let a1 := at_ hgk_A0 1 in
  accumulate (hgk0_term t) 2 16
    (mkH ((a0 + a1 * t) * ln_t) (a0 / t + a1 * (ln_t + 1)) 0
         (- a0 / (t * t) + a1 / t) 0 0
         (2 * a0 / (t * t * t) - a1 / (t * t)) 0 0 0).

(* WaterHelmholtzStateHGK.cpp:225-230: one iteration of the loop (the statements
   with -= add the opposite). *)
Definition hgk1_term (t d : R) (i : nat) : HelmholtzState :=
  let k := Z.of_nat i in
  let aux := d * at_ hgk_A1 i * powerRZ t (1 - k) in
  mkH aux (- (aux * intR (k - 1) / t)) 0
      (aux * intR (k - 1) * intR k / (t * t)) 0 0
      (- (aux * intR (k - 1) * intR k * intR (k + 1) / (t * t * t))) 0 0 0.
(* WaterHelmholtzStateHGK.cpp:219-238. *)
Definition hgk1 (t d : R) : HelmholtzState :=
  let s := accumulate (hgk1_term t d) 0 5 zeroH in
  mkH (helmholtz s) (helmholtzT s) (helmholtz s / d) (helmholtzTT s) (helmholtzT s / d) (helmholtzDD s)
      (helmholtzTTT s) (helmholtzTT s / d) (helmholtzTDD s) (helmholtzDDD s).

(* WaterHelmholtzStateHGK.cpp:240-298. *)
Definition hgk2 (t d : R) : HelmholtzState :=
  let yc0 := at_ hgk_yc 0 in let yc1 := at_ hgk_yc 1 in
  let yc2 := at_ hgk_yc 2 in let yc3 := at_ hgk_yc 3 in
  let t3 := powerRZ t (-3) in
  let t5 := powerRZ t (-5) in
  let ln_t := ln t in
  let y := d * (yc0 + yc1 * ln_t + yc2 * t3 + yc3 * t5) in
  let y_r := y / d in
  let y_t := d * (yc1 - 3 * yc2 * t3 - 5 * yc3 * t5) / t in
  let y_rr := 0 in
  let y_tt := d * (- yc1 + 12 * yc2 * t3 + 30 * yc3 * t5) / (t * t) in
  let y_rt := y_t / d in
  let y_rrr := 0 in
  let y_rrt := y_rt / d - y_t / (d * d) in
  let y_rtt := y_tt / d in
  let y_ttt := d * (2 * yc1 - 60 * yc2 * t3 - 210 * yc3 * t5) / (t * t * t) in
  let x := 1 / (1 - y) in
  let x2 := x * x in
  let x_r := y_r * x2 in
  let x_t := y_t * x2 in
  let x_rr := y_rr * x2 + 2 * y_r * x_r * x in
  let x_tt := y_tt * x2 + 2 * y_t * x_t * x in
  let x_rt := y_rt * x2 + 2 * y_r * x_t * x in
  let x_rrr := y_rrr * x2 + 4 * y_rr * x_r * x + 2 * y_r * (x_rr * x + x_r * x_r) in
  let x_rrt := y_rrt * x2 + 2 * (y_rt * x_r + y_rr * x_t) + 2 * y_r * (x_rt * x + x_r * x_t) in
  let x_rtt := y_rtt * x2 + 4 * y_rt * x_t * x + 2 * y_r * (x_tt * x + x_t * x_t) in
  let x_ttt := y_ttt * x2 + 4 * y_tt * x_t * x + 2 * y_t * (x_tt * x + x_t * x_t) in
  let u := ln (d * x) in
  let u_r := x_r / x + 1 / d in
  let u_t := x_t / x in
  let u_rr := x_rr / x - x_r * x_r / (x * x) - 1 / (d * d) in
  let u_rt := x_rt / x - x_r * x_t / (x * x) in
  let u_tt := x_tt / x - x_t * x_t / (x * x) in
  let u_rrr := x_rrr / x - 3 * x_rr * x_r / (x * x) + 2 * x_r * x_r * x_r / (x * x * x) + 2 / (d * d * d) in
  let u_rrt := x_rrt / x - (2 * x_rt * x_r + x_rr * x_t) / (x * x) + 2 * x_r * x_r * x_t / (x * x * x) in
  let u_rtt := x_rtt / x - (2 * x_rt * x_t + x_tt * x_r) / (x * x) + 2 * x_t * x_t * x_r / (x * x * x) in
  let u_ttt := x_ttt / x - 3 * x_tt * x_t / (x * x) + 2 * x_t * x_t * x_t / (x * x * x) in
  let c1 := - 130 / 3 in
  let c2 := 169 / 6 in
  let c3 := - 14 in
  let h := hgk_A20 * t * (u + c1 * x + c2 * x * x + c3 * y) in
  let hD := hgk_A20 * t * (u_r + c1 * x_r + 2 * c2 * x * x_r + c3 * y_r) in
  let hT := hgk_A20 * t * (u_t + c1 * x_t + 2 * c2 * x * x_t + c3 * y_t) + h / t in
  let hDD := hgk_A20 * t * (u_rr + c1 * x_rr + 2 * c2 * (x * x_rr + x_r * x_r) + c3 * y_rr) in
  let hTD := hgk_A20 * t * (u_rt + c1 * x_rt + 2 * c2 * (x * x_rt + x_r * x_t) + c3 * y_rt) + hD / t in
  let hTT := hgk_A20 * t * (u_tt + c1 * x_tt + 2 * c2 * (x * x_tt + x_t * x_t) + c3 * y_tt)
             + 2 * (hT / t - h / (t * t)) in
  let hDDD := hgk_A20 * t * (u_rrr + c1 * x_rrr + 2 * c2 * (3 * x_r * x_rr + x * x_rrr) + c3 * y_rrr) in
  let hTDD := hgk_A20 * t * (u_rrt + c1 * x_rrt + 2 * c2 * (x_t * x_rr + 2 * x_r * x_rt + x * x_rrt) + c3 * y_rrt)
              + hDD / t in
  let hTTD := hgk_A20 * t * (u_rtt + c1 * x_rtt + 2 * c2 * (x_r * x_tt + 2 * x_t * x_rt + x * x_rtt) + c3 * y_rtt)
              + 2 * (hTD - hD / t) / t in
  let hTTT := hgk_A20 * t * (u_ttt + c1 * x_ttt + 2 * c2 * (3 * x_t * x_tt + x * x_ttt) + c3 * y_ttt)
              + 3 * (hTT - 2 * hT / t + h / (t * t)) / t in
  mkH h hT hD hTT hTD hDD hTTT hTTD hTDD hDDD.

(* WaterHelmholtzStateHGK.cpp:311-332: one iteration of the loop. *)
Definition hgk3_term (t d : R) (i : nat) : HelmholtzState :=
  let z := 1 - exp (- hgk_z0 * d) in
  let z_r := hgk_z0 * (1 - z) in
  let z_rr := - hgk_z0 * z_r in
  let z_rrr := - hgk_z0 * z_rr in
  let k := INR (int_at hgk_ki i) in
  let l := INR (int_at hgk_li i) in
  let lambda := at_ hgk_A3 i * powerRZ t (- Z.of_nat (int_at hgk_li i)) * z ^ int_at hgk_ki i in
  let lambda_r := k * z_r * lambda / z in
  let lambda_t := - l * lambda / t in
  let lambda_rr := lambda_r * (z_rr / z_r + lambda_r / lambda - z_r / z) in
  let lambda_rt := lambda_r * lambda_t / lambda in
  let lambda_tt := lambda_t * (lambda_t / lambda - 1 / t) in
  let lambda_rrr := lambda_rr * (z_rr / z_r + lambda_r / lambda - z_r / z)
                    + lambda_r * (z_rrr / z_r - (z_rr / z_r) ^ 2 + lambda_rr / lambda - (lambda_r / lambda) ^ 2
                                  - z_rr / z + (z_r / z) ^ 2) in
  let lambda_rrt := - (lambda_r / lambda) ^ 2 * lambda_t + (lambda_rr * lambda_t + lambda_rt * lambda_r) / lambda in
  let lambda_rtt := - (lambda_t / lambda) ^ 2 * lambda_r + (lambda_tt * lambda_r + lambda_rt * lambda_t) / lambda in
  let lambda_ttt := lambda_tt * (lambda_t / lambda - 1 / t)
                    + lambda_t * (lambda_tt / lambda - (lambda_t / lambda) ^ 2 + 1 / (t * t)) in
  mkH lambda lambda_t lambda_r lambda_tt lambda_rt lambda_rr lambda_ttt lambda_rtt lambda_rrt lambda_rrr.
(* WaterHelmholtzStateHGK.cpp:300-335; z and its derivatives (304-307) are
   computed in every iteration here. *)
Definition hgk3 (t d : R) : HelmholtzState := accumulate (hgk3_term t d) 0 36 zeroH.

(* WaterHelmholtzStateHGK.cpp:343-376: one iteration of the loop. *)
Definition hgk4_term (t d : R) (i : nat) : HelmholtzState :=
  let r := at_ hgk_ri i in
  let ti := at_ hgk_ti i in
  let m := INR (int_at hgk_mi i) in
  let n := INR (int_at hgk_ni i) in
  let alpha := at_ hgk_alpha i in
  let beta := at_ hgk_beta i in
  let delta := (d - r) / r in
  let tau := (t - ti) / ti in
  let delta_r := 1 / r in
  let tau_t := 1 / ti in
  let delta_m := delta ^ int_at hgk_mi i in
  let delta_n := delta ^ int_at hgk_ni i in
  let psi := (n - alpha * m * delta_m) * delta_r / delta in
  let psi_r := - (n + alpha * m * (m - 1) * delta_m) * (delta_r / delta) ^ 2 in
  let psi_rr := (2 * n - alpha * m * (m - 1) * (m - 2) * delta_m) * (delta_r / delta) ^ 3 in
  let theta := at_ hgk_A4 i * delta_n * exp (- alpha * delta_m - beta * tau * tau) in
  let theta_r := psi * theta in
  let theta_t := - 2 * beta * tau * tau_t * theta in
  let theta_rr := psi_r * theta + psi * theta_r in
  let theta_tt := 2 * beta * (2 * beta * tau * tau - 1) * tau_t * tau_t * theta in
  let theta_rt := - 2 * beta * tau * tau_t * theta_r in
  let theta_rrr := psi_rr * theta + 2 * psi_r * theta_r + psi * theta_rr in
  let theta_rrt := psi_r * theta_r + psi * theta_rt in
  let theta_rtt := psi * theta_tt in
  let theta_ttt := - 2 * beta * (2 * tau_t * tau_t * theta_t + tau * tau_t * theta_tt) in
  mkH theta theta_t theta_r theta_tt theta_rt theta_rr theta_ttt theta_rtt theta_rrt theta_rrr.
(* WaterHelmholtzStateHGK.cpp:337-379. *)
Definition hgk4 (t d : R) : HelmholtzState := accumulate (hgk4_term t d) 0 4 zeroH.

(* WaterHelmholtzStateHGK.cpp:383-424. *)
Definition waterHelmholtzStateHGK (T D : R) : HelmholtzState :=
  let t := T / referenceTemperature in
  let r := D / referenceDensity in
  let res := addH (addH (addH (addH (hgk0 t r) (hgk1 t r)) (hgk2 t r)) (hgk3 t r)) (hgk4 t r) in
  mkH (helmholtz res * referenceHelmholtz)
      (helmholtzT res * (referenceHelmholtz / referenceTemperature))
      (helmholtzD res * (referenceHelmholtz / referenceDensity))
      (helmholtzTT res * (referenceHelmholtz / referenceTemperature / referenceTemperature))
      (helmholtzTD res * (referenceHelmholtz / referenceDensity / referenceTemperature))
      (helmholtzDD res * (referenceHelmholtz / referenceDensity / referenceDensity))
      (helmholtzTTT res * (referenceHelmholtz / referenceTemperature / referenceTemperature / referenceTemperature))
      (helmholtzTTD res * (referenceHelmholtz / referenceDensity / referenceTemperature / referenceTemperature))
      (helmholtzTDD res * (referenceHelmholtz / referenceDensity / referenceDensity / referenceTemperature))
      (helmholtzDDD res * (referenceHelmholtz / referenceDensity / referenceDensity / referenceDensity)).

(* ---- Wagner and Pruss ---- *)
(* WaterConstants.hpp:26 and 32. *)
Definition waterCriticalTemperature : R := 647.096.
Definition waterCriticalDensity : R := 322.
(* WaterHelmholtzStateWagnerPruss.cpp:32-35 (no). *)
Definition wp_no : list R :=
  [0; -8.32044648201; 6.6832105268; 3.00632; 0.012436; 0.97315; 1.2795; 0.96956; 0.24873].
(* WaterHelmholtzStateWagnerPruss.cpp:37-40 (gammao). *)
Definition wp_gammao : list R :=
  [1.28728967; 3.53734222; 7.74073708; 9.24437796; 27.5075105].
(* WaterHelmholtzStateWagnerPruss.cpp:42-47 (c). *)
Definition wp_c : list R :=
  [0; 0; 0; 0; 0; 0; 0; 0; 1; 1; 1; 1; 1; 1; 1; 1; 1; 1; 1; 1; 1; 1; 1; 2; 2; 2; 2; 2; 2; 2; 2; 2; 2; 2; 2; 2;
   2; 2; 2; 2; 2; 2; 2; 3; 3; 3; 3; 4; 6; 6; 6; 6; 0; 0; 0].
(* WaterHelmholtzStateWagnerPruss.cpp:49-54 (d). *)
Definition wp_d : list R :=
  [0; 1; 1; 1; 2; 2; 3; 4; 1; 1; 1; 2; 2; 3; 4; 4; 5; 7; 9; 10; 11; 13; 15; 1; 2; 2; 2; 3; 4; 4; 4; 5; 6; 6;
   7; 9; 9; 9; 9; 9; 10; 10; 12; 3; 4; 4; 5; 14; 3; 6; 6; 6; 3; 3; 3].
(* WaterHelmholtzStateWagnerPruss.cpp:57-62 (t). *)
Definition wp_t : list R :=
  [0; -0.5; 0.875; 1; 0.5; 0.75; 0.375; 1; 4; 6; 12; 1; 5; 4; 2; 13; 9; 3; 4; 11; 4; 13; 1; 7; 1; 9; 10; 10;
   3; 7; 10; 10; 6; 10; 10; 1; 2; 3; 4; 8; 6; 9; 8; 16; 22; 23; 23; 10; 50; 44; 46; 50; 0; 1; 4].
(* WaterHelmholtzStateWagnerPruss.cpp:64-123 (n). *)
Definition wp_n : list R :=
  [0; 0.012533547935523; 7.8957634722828; -8.7803203303561; 0.31802509345418; -0.26145533859358;
   -0.0078199751687981; 0.0088089493102134; -0.66856572307965; 0.20433810950965; -0.000066212605039687;
   -0.19232721156002; -0.25709043003438; 0.16074868486251; -0.040092828925807; 0.00000039343422603254;
   -0.0000075941377088144; 0.00056250979351888; -0.000015608652257135; 0.0000000011537996422951;
   0.00000036582165144204; -0.0000000000013251180074668; -0.00000000062639586912454; -0.10793600908932;
   0.017611491008752; 0.22132295167546; -0.40247669763528; 0.58083399985759; 0.0049969146990806;
   -0.031358700712549; -0.74315929710341; 0.4780732991548; 0.020527940895948; -0.13636435110343;
   0.014180634400617; 0.0083326504880713; -0.029052336009585; 0.038615085574206; -0.020393486513704;
   -0.0016554050063734; 0.0019955571979541; 0.00015870308324157; -0.00001638856834253; 0.043613615723811;
   0.034994005463765; -0.076788197844621; 0.022446277332006; -0.000062689710414685;
   -0.00000000055711118565645; -0.19905718354408; 0.31777497330738; -0.11841182425981; -31.306260323435;
   31.546140237781; -2521.3154341695; -0.14874640856724; 0.31806110878444].
(* WaterHelmholtzStateWagnerPruss.cpp:125-125 (alpha). *)
Definition wp_alpha : list R :=
  [20; 20; 20].
(* WaterHelmholtzStateWagnerPruss.cpp:127-127 (beta). *)
Definition wp_beta : list R :=
  [150; 150; 250].
(* WaterHelmholtzStateWagnerPruss.cpp:129-129 (gamma). *)
Definition wp_gamma : list R :=
  [1.21; 1.21; 1.25].
(* WaterHelmholtzStateWagnerPruss.cpp:131-131 (epsilon). *)
Definition wp_epsilon : list R :=
  [1; 1; 1].
(* WaterHelmholtzStateWagnerPruss.cpp:133-133 (a). *)
Definition wp_a : list R :=
  [3.5; 3.5].
(* WaterHelmholtzStateWagnerPruss.cpp:135-135 (b). *)
Definition wp_b : list R :=
  [0.85; 0.95].
(* WaterHelmholtzStateWagnerPruss.cpp:137-137 (A). *)
Definition wp_A : list R :=
  [0.32; 0.32].
(* WaterHelmholtzStateWagnerPruss.cpp:139-139 (B). *)
Definition wp_B : list R :=
  [0.2; 0.2].
(* WaterHelmholtzStateWagnerPruss.cpp:141-141 (C). *)
Definition wp_C : list R :=
  [28; 32].
(* WaterHelmholtzStateWagnerPruss.cpp:143-143 (F). *)
Definition wp_F : list R :=
  [700; 800].
(* WaterHelmholtzStateWagnerPruss.cpp:145-145 (E). *)
Definition wp_E : list R :=
  [0.3; 0.3].
(* In the functions below the record holds a function of tau (field T) and delta
   (field D): helmholtz is phi, helmholtzT is phi_t, helmholtzTDD is phi_ddt. *)

(* WaterHelmholtzStateWagnerPruss.cpp:167-174: one iteration of the loop. *)
Definition phio_term (tau : R) (i : nat) : HelmholtzState :=
  let no := at_ wp_no i in
  let g := at_ wp_gammao (i - 4) in
  let ee := exp (g * tau) in
  mkH (no * ln (1 - 1 / ee)) (no * (g / (ee - 1))) 0
      (- (no * ee * (g / (ee - 1)) ^ 2)) 0 0
      (no * ee * (1 + ee) * (g / (ee - 1)) ^ 3) 0 0 0.
(* WaterHelmholtzStateWagnerPruss.cpp:154-175. *)
Definition phio (tau delta : R) : HelmholtzState :=
  let no1 := at_ wp_no 1 in let no2 := at_ wp_no 2 in let no3 := at_ wp_no 3 in
  accumulate (phio_term tau) 4 5
    (mkH (ln delta + no1 + no2 * tau + no3 * ln tau) (no2 + no3 / tau) (1 / delta)
         (- no3 / tau ^ 2) 0 (- 1 / delta ^ 2)
         (2 * no3 / tau ^ 3) 0 0 (2 / delta ^ 3)).

(* WaterHelmholtzStateWagnerPruss.cpp:190-210: one iteration of the loop. *)
Definition phirA (tau delta : R) (i : nat) : HelmholtzState :=
  let d := at_ wp_d i in
  let t := at_ wp_t i in
  let A := at_ wp_n i * Rpower delta d * Rpower tau t in
  let A_d := d / delta * A in
  let A_t := t / tau * A in
  let A_dd := (d - 1) / delta * A_d in
  let A_tt := (t - 1) / tau * A_t in
  let A_dt := t * d / (tau * delta) * A in
  let A_ddd := (d - 2) / delta * A_dd in
  let A_ttt := (t - 2) / tau * A_tt in
  let A_dtt := d / delta * A_tt in
  let A_ddt := t / tau * A_dd in
  mkH A A_t A_d A_tt A_dt A_dd A_ttt A_dtt A_ddt A_ddd.

(* WaterHelmholtzStateWagnerPruss.cpp:215-237: one iteration of the loop. *)
Definition phirB (tau delta : R) (i : nat) : HelmholtzState :=
  let c := at_ wp_c i in
  let d := at_ wp_d i in
  let t := at_ wp_t i in
  let dci := Rpower delta c in
  let B := at_ wp_n i * Rpower delta d * Rpower tau t * exp (- dci) in
  let B_d := (d - c * dci) / delta * B in
  let B_t := t / tau * B in
  let B_dd := (d - c * dci - 1) / delta * B_d - dci * (c / delta) ^ 2 * B in
  let B_tt := (t - 1) / tau * B_t in
  let B_dt := t / tau * B_d in
  let B_ddd := (d - c * dci - 1) / delta * B_dd - ((d - c * dci - 1) + 2 * c * c * dci) / delta ^ 2 * B_d
               - c * c * dci * (c - 2) / delta ^ 3 * B in
  let B_ttt := (t - 2) / tau * B_tt in
  let B_dtt := (t - 1) / tau * B_dt in
  let B_ddt := (d - c * dci - 1) / delta * B_dt - c * c * dci / delta ^ 2 * B_t in
  mkH B B_t B_d B_tt B_dt B_dd B_ttt B_dtt B_ddt B_ddd.

(* WaterHelmholtzStateWagnerPruss.cpp:242-270: one iteration of the loop. *)
Definition phirC (tau delta : R) (i : nat) : HelmholtzState :=
  let j := (i - 52)%nat in
  let d := at_ wp_d i in
  let t := at_ wp_t i in
  let alpha := at_ wp_alpha j in
  let beta := at_ wp_beta j in
  let gamma := at_ wp_gamma j in
  let epsilon := at_ wp_epsilon j in
  let aux1d := d / delta - 2 * alpha * (delta - epsilon) in
  let aux1t := t / tau - 2 * beta * (tau - gamma) in
  let aux2d := d / delta ^ 2 + 2 * alpha in
  let aux2t := t / tau ^ 2 + 2 * beta in
  let C := at_ wp_n i * Rpower delta d * Rpower tau t
           * exp (- alpha * (delta - epsilon) ^ 2 - beta * (tau - gamma) ^ 2) in
  let C_d := aux1d * C in
  let C_t := aux1t * C in
  let C_dd := aux1d * C_d - aux2d * C in
  let C_tt := aux1t * C_t - aux2t * C in
  let C_dt := aux1d * aux1t * C in
  let C_ddd := aux1d * C_dd - 2 * aux2d * C_d + 2 * d / delta ^ 3 * C in
  let C_ttt := aux1t * C_tt - 2 * aux2t * C_t + 2 * t / tau ^ 3 * C in
  let C_dtt := aux1t * C_dt - aux2t * C_d in
  let C_ddt := aux1d * C_dt - aux2d * C_t in
  mkH C C_t C_d C_tt C_dt C_dd C_ttt C_dtt C_ddt C_ddd.

(* WaterHelmholtzStateWagnerPruss.cpp:275-338: one iteration of the loop. *)
Definition phirD (tau delta : R) (i : nat) : HelmholtzState :=
  let j := (i - 55)%nat in
  let A := at_ wp_A j in let B := at_ wp_B j in let C := at_ wp_C j in
  let F := at_ wp_F j in let E := at_ wp_E j in
  let a := at_ wp_a j in let b := at_ wp_b j in
  let n := at_ wp_n i in
  let dd := (delta - 1) ^ 2 in
  let tt := (tau - 1) ^ 2 in
  let theta := (1 - tau) + A * Rpower dd (0.5 / E) in
  let theta_d := (theta + tau - 1) / (delta - 1) / E in
  let theta_dd := (1 / E - 1) * theta_d / (delta - 1) in
  let theta_ddd := (1 / E - 1) * (theta_dd / (delta - 1) - theta_d / dd) in
  let psi := exp (- C * dd - F * tt) in
  let psi_d := - 2 * C * (delta - 1) * psi in
  let psi_t := - 2 * F * (tau - 1) * psi in
  let psi_dd := - 2 * C * (psi + (delta - 1) * psi_d) in
  let psi_tt := - 2 * F * (psi + (tau - 1) * psi_t) in
  let psi_dt := 4 * C * F * (delta - 1) * (tau - 1) * psi in
  let psi_ddd := - 2 * C * (2 * psi_d + (delta - 1) * psi_dd) in
  let psi_ttt := - 2 * F * (2 * psi_t + (tau - 1) * psi_tt) in
  let psi_dtt := - 2 * F * (psi_d + (tau - 1) * psi_dt) in
  let psi_ddt := - 2 * C * (psi_t + (delta - 1) * psi_dt) in
  let Delta := theta * theta + B * Rpower dd a in
  let Delta_d := 2 * (theta * theta_d + a * (Delta - theta * theta) / (delta - 1)) in
  let Delta_t := - 2 * theta in
  let Delta_dd := 2 * (theta_d * theta_d + theta * theta_dd
                       + a * ((Delta_d - 2 * theta * theta_d) / (delta - 1)
                              - (Delta - theta * theta) / (delta - 1) ^ 2)) in
  let Delta_tt := 2 in
  let Delta_dt := - 2 * theta_d in
  let Delta_ddd := 2 * (3 * theta_d * theta_dd + theta * theta_ddd
                        + a * ((Delta_dd - 2 * theta_d * theta_d - 2 * theta * theta_dd) / (delta - 1)
                               - 2 * (Delta_d - 2 * theta * theta_d) / (delta - 1) ^ 2
                               + 2 * (Delta - theta * theta) / (delta - 1) ^ 3)) in
  let Delta_ttt := 0 in
  let Delta_dtt := 0 in
  let Delta_ddt := - 2 * theta_dd in
  let DeltaPow := Rpower Delta b in
  let DeltaPow_d := b * Delta_d / Delta * DeltaPow in
  let DeltaPow_t := b * Delta_t / Delta * DeltaPow in
  let DeltaPow_dd := (b * Delta_dd / Delta + b * (b - 1) * (Delta_d / Delta) ^ 2) * DeltaPow in
  let DeltaPow_tt := (b * Delta_tt / Delta + b * (b - 1) * (Delta_t / Delta) ^ 2) * DeltaPow in
  let DeltaPow_dt := (b * Delta_dt / Delta + b * (b - 1) * Delta_d * Delta_t / Delta / Delta) * DeltaPow in
  let DeltaPow_ddd := (b * Delta_ddd / Delta + 3 * b * (b - 1) * Delta_d * Delta_dd / Delta / Delta
                       + b * (b - 1) * (b - 2) * (Delta_d / Delta) ^ 3) * DeltaPow in
  let DeltaPow_ttt := (b * Delta_ttt / Delta + 3 * b * (b - 1) * Delta_t * Delta_tt / Delta / Delta
                       + b * (b - 1) * (b - 2) * (Delta_t / Delta) ^ 3) * DeltaPow in
  let DeltaPow_dtt := (b * Delta_dtt / Delta
                       + b * (b - 1) * (Delta_d * Delta_tt + 2 * Delta_t * Delta_dt) / Delta / Delta
                       + b * (b - 1) * (b - 2) * Delta_t * Delta_t * Delta_d / Delta ^ 3) * DeltaPow in
  let DeltaPow_ddt := (b * Delta_ddt / Delta
                       + b * (b - 1) * (Delta_t * Delta_dd + 2 * Delta_d * Delta_dt) / Delta / Delta
                       + b * (b - 1) * (b - 2) * Delta_d * Delta_d * Delta_t / Delta ^ 3) * DeltaPow in
  let D := n * DeltaPow * delta * psi in
  let D_d := n * (DeltaPow * (psi + delta * psi_d) + DeltaPow_d * delta * psi) in
  let D_t := n * delta * (DeltaPow_t * psi + DeltaPow * psi_t) in
  let D_dd := n * (DeltaPow * (2 * psi_d + delta * psi_dd) + 2 * DeltaPow_d * (psi + delta * psi_d)
                   + DeltaPow_dd * delta * psi) in
  let D_tt := n * delta * (DeltaPow_tt * psi + 2 * DeltaPow_t * psi_t + DeltaPow * psi_tt) in
  let D_dt := n * (DeltaPow * (psi_t + delta * psi_dt) + delta * DeltaPow_d * psi_t
                   + DeltaPow_t * (psi + delta * psi_d) + DeltaPow_dt * delta * psi) in
  let D_ddd := n * (DeltaPow_ddd * delta * psi + 3 * DeltaPow_dd * (psi + delta * psi_d)
                    + 3 * DeltaPow_d * (2 * psi_d + delta * psi_dd) + DeltaPow * (3 * psi_dd + delta * psi_ddd)) in
  let D_ttt := n * delta * (DeltaPow_ttt * psi + 3 * DeltaPow_tt * psi_t + 3 * DeltaPow_t * psi_tt
                            + DeltaPow * psi_ttt) in
  let D_dtt := n * (DeltaPow_tt * psi + 2 * DeltaPow_t * psi_t + DeltaPow * psi_tt)
               + n * delta * (DeltaPow_dtt * psi + DeltaPow_tt * psi_d + 2 * DeltaPow_dt * psi_t
                              + 2 * DeltaPow_t * psi_dt + DeltaPow_d * psi_tt + DeltaPow * psi_dtt) in
  let D_ddt := n * (DeltaPow_ddt * delta * psi + 2 * DeltaPow_dt * (psi + delta * psi_d) + DeltaPow_dd * delta * psi_t
                    + DeltaPow_t * (2 * psi_d + delta * psi_dd) + 2 * DeltaPow_d * (psi_t + delta * psi_dt)
                    + DeltaPow * (2 * psi_dt + delta * psi_ddt)) in
  mkH D D_t D_d D_tt D_dt D_dd D_ttt D_dtt D_ddt D_ddd.

(* WaterHelmholtzStateWagnerPruss.cpp:177-339. *)
Definition phir (tau delta : R) : HelmholtzState :=
  accumulate (phirD tau delta) 55 2
    (accumulate (phirC tau delta) 52 3
      (accumulate (phirB tau delta) 8 44
        (accumulate (phirA tau delta) 1 7 zeroH))).

(* WaterHelmholtzStateWagnerPruss.cpp:371 (R). *)
Definition wp_R : R := 461.51805.
(* WaterHelmholtzStateWagnerPruss.cpp:149-387. *)
Definition waterHelmholtzStateWagnerPruss (T D : R) : HelmholtzState :=
  let tau := waterCriticalTemperature / T in
  let delta := D / waterCriticalDensity in
  let phi := addH (phio tau delta) (phir tau delta) in
  let Tcr := waterCriticalTemperature in
  let Dcr := waterCriticalDensity in
  let tT := - Tcr / (T * T) in
  let tTT := 2 * Tcr / (T * T * T) in
  let tTTT := - 6 * Tcr / (T * T * T * T) in
  let dD := 1 / Dcr in
  let phiT := helmholtzT phi * tT in
  let phiD := helmholtzD phi * dD in
  let phiTT := helmholtzTT phi * tT * tT + helmholtzT phi * tTT in
  let phiTD := helmholtzTD phi * tT * dD in
  let phiDD := helmholtzDD phi * dD * dD in
  let phiTTT := helmholtzTTT phi * tT * tT * tT + 3 * helmholtzTT phi * tT * tTT + helmholtzT phi * tTTT in
  let phiTTD := helmholtzTTD phi * tT * tT * dD + helmholtzTD phi * tTT * dD in
  let phiTDD := helmholtzTDD phi * tT * dD * dD in
  let phiDDD := helmholtzDDD phi * dD * dD * dD in
  mkH (wp_R * T * helmholtz phi) (wp_R * T * phiT + wp_R * helmholtz phi) (wp_R * T * phiD)
      (wp_R * T * phiTT + 2 * wp_R * phiT) (wp_R * T * phiTD + wp_R * phiD) (wp_R * T * phiDD)
      (wp_R * T * phiTTT + 3 * wp_R * phiTT) (wp_R * T * phiTTD + 2 * wp_R * phiTD)
      (wp_R * T * phiTDD + wp_R * phiDD) (wp_R * T * phiDDD).
