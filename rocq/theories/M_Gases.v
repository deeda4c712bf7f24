(* Model of the gaseous activity models of Spycher and Reed (1988) and of Spycher,
   Pruess and Ennis-King (2003) over the real numbers
   (Reaktoro/Thermodynamics/Fluids).  As in M_Aqueous, arrays are functions of the
   index, and divisions by zero and logarithms of numbers that are not positive
   have unspecified values. *)
From Coq Require Import Reals List Bool.
Import ListNotations.
From Verif Require Import Base M_Strings M_Formula M_Chem M_Algorithms M_System M_Roots M_CubicEOS M_Aqueous.
Local Open Scope R_scope.

(* Common/Constants.hpp:26. *)
Definition universalGasConstant : R := 8.3144621.

(* ---- Spycher and Reed ---- *)
(* ActivityModelSpycherReed.cpp:39-102 and 104-168: the tables; 0 is H2O, 1 is CO2,
   2 is CH4. *)
Definition at2 (t : list (list R)) (i j : nat) : R := nth j (nth i t []) 0.
Definition at3 (t : list (list (list R))) (i j k : nat) : R := nth k (nth j (nth i t []) []) 0.
Definition table2 (a11 a22 a33 a12 a13 a23 : R) : list (list R) := [[a11; a12; a13]; [a12; a22; a23]; [a13; a23; a33]].
Definition table3 (d111 d222 d333 d112 d122 d113 d133 d223 d233 d123 : R) : list (list (list R)) :=
  [[[d111; d112; d113]; [d112; d122; d123]; [d113; d123; d133]];
   [[d112; d122; d123]; [d122; d222; d223]; [d123; d223; d233]];
   [[d113; d123; d133]; [d123; d223; d233]; [d133; d233; d333]]].
Definition sr_a : list (list R) := table2 (-6191.41) (-1430.87) (-537.779) (-1954.70) (-1103.20) (-800.592).
Definition sr_b : list (list R) := table2 14.8528 3.598 1.54946 7.74805 4.52871 2.28990.
Definition sr_c : list (list R) := table2 (-914.267e-05) (-227.376e-05) (-92.7827e-05) (-1.02901e-02) (-0.507784e-02) (-0.153917e-02).
Definition sr_d : list (list (list R)) := table3 (-6633.26e-02) 347.644e-02 120.861e-02 104.453 (-8.28426) 0 0 2.99160 1.58384 0.
Definition sr_e : list (list (list R)) := table3 18277.0e-05 (-1042.47e-05) (-370.814e-05) (-38.4283e-02) 1.19097e-02 0 0 (-1.04893e-02) (-0.492077e-02) 0.
Definition sr_f : list (list (list R)) := table3 (-13274.0e-08) 846.271e-08 333.804e-08 36.5858e-05 0.808886e-05 0 0 1.02627e-05 0.430104e-05 0.
(* ActivityModelSpycherReed.cpp:170-198. *)
Definition computeB (T : R) (i j : nat) : R := at2 sr_a i j / (T * T) + at2 sr_b i j / T + at2 sr_c i j.
Definition computeBT (T : R) (i j : nat) : R := - (2 * at2 sr_a i j / T + at2 sr_b i j) / (T * T).
Definition computeBTT (T : R) (i j : nat) : R := (6 * at2 sr_a i j / T + 2 * at2 sr_b i j) / (T * T * T).
Definition computeC (T : R) (i j k : nat) : R := at3 sr_d i j k / (T * T) + at3 sr_e i j k / T + at3 sr_f i j k.
Definition computeCT (T : R) (i j k : nat) : R := - (2 * at3 sr_d i j k / T + at3 sr_e i j k) / (T * T).
Definition computeCTT (T : R) (i j k : nat) : R := (6 * at3 sr_d i j k / T + 2 * at3 sr_e i j k) / (T * T * T).
(* ActivityModelSpycherReed.cpp:269-288: the sums over the gases. *)
Definition mix2 (y : nat -> R) (B : nat -> nat -> R) : R := Sum 3 (fun i => Sum 3 (fun k => y i * y k * B i k)).
Definition mix3 (y : nat -> R) (C : nat -> nat -> nat -> R) : R := Sum 3 (fun i => Sum 3 (fun k => Sum 3 (fun l => y i * y k * y l * C i k l))).
(* ActivityModelSpycherReed.cpp:291-293. *)
Definition sr_Z (T P : R) (y : nat -> R) : R := let Pbar := 1e-5 * P in 1 + mix2 y (computeB T) * Pbar + mix3 y (computeC T) * Pbar * Pbar.
Definition sr_ZT (T P : R) (y : nat -> R) : R := let Pbar := 1e-5 * P in mix2 y (computeBT T) * Pbar + mix3 y (computeCT T) * Pbar * Pbar.
Definition sr_ZP (T P : R) (y : nat -> R) : R := let Pbar := 1e-5 * P in (mix2 y (computeB T) + 2 * mix3 y (computeC T) * Pbar) * 1e-5.
(* ActivityModelSpycherReed.cpp:296-306. *)
Definition sr_lnphi (T P : R) (y : nat -> R) (i : nat) : R :=
  let Pbar := 1e-5 * P in
  1 - sr_Z T P y + Sum 3 (fun k => 2 * y k * computeB T i k * Pbar + Sum 3 (fun l => 1.5 * y k * y l * computeC T i k l * Pbar * Pbar)).
(* ActivityModelSpycherReed.cpp:241-244: mole fractions of the three gases. *)
Definition sr_fractions (idx : list nat) (n : nat) (x : nat -> R) : nat -> R :=
  fun g => let i := nth g idx n in if Nat.ltb i n then x i else 0.
(* ActivityModelSpycherReed.cpp:347-349. *)
Definition sr_set (idx : list nat) (n : nat) (phi : nat -> R) (g : nat -> R) : nat -> R :=
  fold_left (fun g k => let i := nth k idx n in if Nat.ltb i n then set_at g i (phi k) else g) (seq 0 3) g.
(* ActivityModelSpycherReed.cpp:226-353. *)
Definition sr_fn (idx : list nat) (n : nat) : ActivityFn := fun T P x p =>
  let Pbar := 1e-5 * P in let Rg := universalGasConstant in
  let y := sr_fractions idx n x in
  let Bmix := mix2 y (computeB T) in let BmixT := mix2 y (computeBT T) in let BmixTT := mix2 y (computeBTT T) in
  let Cmix := mix3 y (computeC T) in let CmixT := mix3 y (computeCT T) in let CmixTT := mix3 y (computeCTT T) in
  let Z := sr_Z T P y in let ZT := sr_ZT T P y in let ZP := sr_ZP T P y in
  let V0 := Rg * T / P in let V0T := V0 / T in let V0P := - V0 / P in
  let V := Z * V0 in let VT := ZT * V0 + Z * V0T in let VP := ZP * V0 + Z * V0P in
  let Hres := - Rg * T * T * (BmixT + 0.5 * CmixT * Pbar) * Pbar in
  let Cpres := 2 * Hres / T - Rg * T * T * (BmixTT + 0.5 * CmixTT * Pbar) * Pbar in
  let g := sr_set idx n (sr_lnphi T P y) (ln_g (fst p)) in
  Ok (mkProps (V - V0) (VT - V0T) (VP - V0P) (Rg * T * (Bmix + 0.5 * Cmix * Pbar) * Pbar) Hres Cpres (Cpres + Rg + T * VT * VT / VP)
        g (fun i => g i + ln (x i) + ln Pbar), snd p).
(* ActivityModelSpycherReed.cpp:202-224 and 358-364. *)
Definition sr_supported : list str := [$"H2O"; $"CO2"; $"CH4"].
Definition spycherReed (l : list Species) : outcome ActivityFn :=
  if negb (M_Chem.contained str_eqb (map (fun s => cf_str (formula s)) l) sr_supported) then Err
  else bind (mapM (findFormula l) sr_supported) (fun idx => Ok (sr_fn idx (length l))).

(* ---- Spycher, Pruess and Ennis-King ---- *)
(* ActivityModelSpycherPruessEnnis.cpp:34-45. *)
Definition pe_R : R := 83.1447.
Definition pe_aCO2 (T : R) : R := 7.54e+07 - 4.13e+04 * T.
Definition pe_bCO2 : R := 27.80.
Definition pe_bH2O : R := 18.18.
Definition pe_aH2OCO2 : R := 7.89e+07.
(* ActivityModelSpycherPruessEnnis.cpp:55-57. *)
Definition pe_b (T Pb : R) : R := - pe_R * T / Pb.
Definition pe_c (T Pb : R) : R := - (pe_R * T * pe_bCO2 / Pb - pe_aCO2 T / (Pb * sqrt T) + pe_bCO2 * pe_bCO2).
Definition pe_d (T Pb : R) : R := - pe_aCO2 T * pe_bCO2 / (Pb * sqrt T).
(* ActivityModelSpycherPruessEnnis.cpp:72-76. *)
Definition pe_select (T Pb Vliq Vgas : R) : R :=
  let w1 := Pb * (Vgas - Vliq) in
  let w2 := pe_R * T * ln ((Vgas - pe_bCO2) / (Vliq - pe_bCO2)) +
    pe_aCO2 T / (sqrt T * pe_bCO2) * ln ((Vgas + pe_bCO2) / (Vliq + pe_bCO2) * Vliq / Vgas) in
  if Rlt_dec w2 w1 then Vliq else Vgas.
(* ActivityModelSpycherPruessEnnis.cpp:48-80. *)
Definition volumeCO2 (T Pb : R) : outcome R :=
  bind (cardano (pe_b T Pb) (pe_c T Pb) (pe_d T Pb)) (fun r =>
  let '(x1, x2, x3) := r in
  if Req_EM_T (snd x2) 0 then
    Ok (pe_select T Pb (Rmin (fst x1) (Rmin (fst x2) (fst x3))) (Rmax (fst x1) (Rmax (fst x2) (fst x3))))
  else Ok (fst x1)).
(* ActivityModelSpycherPruessEnnis.cpp:123-133; ak and bk are the parameters of the
   species. *)
Definition pe_lnphi (ak bk T Pb v : R) : R :=
  let T15 := T * sqrt T in let amix := pe_aCO2 T in let bmix := pe_bCO2 in
  let aux1 := ln (v / (v - bmix)) in
  let aux2 := ln ((v + bmix) / v) * 2 / (pe_R * T15 * bmix) in
  let aux3 := amix / (pe_R * T15 * bmix * bmix) in
  let aux4 := ln (Pb * v / (pe_R * T)) in
  aux1 + bk / (v - bmix) - ak * aux2 + bk * aux3 * (ln ((v + bk) / v) - bmix / (v + bmix)) - aux4.
(* ActivityModelSpycherPruessEnnis.cpp:94-154; the warnings about the range of
   validity are not modelled. *)
Definition pe_fn (iH2O iCO2 n : nat) : ActivityFn := fun T P x p =>
  let Pb := P * 1.0e-5 in
  bind (volumeCO2 T Pb) (fun v =>
  let phiH2O := pe_lnphi pe_aH2OCO2 pe_bH2O T Pb v in
  let phiCO2 := pe_lnphi (pe_aCO2 T) pe_bCO2 T Pb v in
  let q := fst p in
  let V := v * 1.0e-6 in
  let a := fun i => ln (x i) + ln Pb in
  let put f i v := if Nat.ltb i n then set_at f i v else f in
  let g := put (put (ln_g q) iH2O phiH2O) iCO2 phiCO2 in
  let a := put a iH2O (a iH2O + phiH2O) in
  let a := put a iCO2 (a iCO2 + phiCO2) in
  Ok (mkProps (V - pe_R * T / P) (VexT q) (VexP q) (Gex q) (Hex q) (Cpex q) (Cvex q) g a, snd p)).
(* ActivityModelSpycherPruessEnnis.cpp:84-92 and 159-165. *)
Definition spycherPruessEnnis (l : list Species) : outcome ActivityFn :=
  bind (findFormula l $"H2O") (fun iH2O => bind (findFormula l $"CO2") (fun iCO2 => Ok (pe_fn iH2O iCO2 (length l)))).
