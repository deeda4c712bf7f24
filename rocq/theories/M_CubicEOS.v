(* Model of the cubic equations of state (Reaktoro/Thermodynamics/Fluids/CubicEOS.cpp,
   PhaseIdentification.cpp, ActivityModelCubicEOS.cpp) over the real numbers.  An
   array of n species is a function of the index, of which the first n values
   count.  A division by zero, the root of a negative number and the logarithm of
   a number that is not positive have unspecified values; theorems are about
   arguments where none occurs. *)
From Coq Require Import Reals List Bool.
Import ListNotations.
From Verif Require Import Base M_Roots.
Local Open Scope R_scope.

(* Common/Constants.hpp:26. *)
Definition gasR : R := 8.3144621.
(* Loops of the form for(i = 0; i < n; ++i) total += f(i). *)
Fixpoint Sum (n : nat) (f : nat -> R) : R := match n with O => 0 | S m => Sum m f + f m end.

(* CubicEOS.hpp:56-62. *)
Inductive CubicModel := VanDerWaals | RedlichKwong | SoaveRedlichKwong | PengRobinson.
(* PhaseIdentification.hpp:30. *)
Inductive FluidType := Vapor | Liquid.
Definition fluid_eqb (x y : FluidType) : bool := match x, y with Vapor, Vapor | Liquid, Liquid => true | _, _ => false end.

(* alpha and its first and second derivative in temperature, from the reduced
   temperature Tr and its derivative TrT. *)
Record Alpha := mkAlpha { al : R; alT : R; alTT : R }.
(* CubicEOS.cpp:61-67. *)
Definition alphaVDW (Tr TrT omega : R) : Alpha := mkAlpha 1 0 0.
(* CubicEOS.cpp:70-76. *)
Definition alphaRK (Tr TrT omega : R) : Alpha :=
  let a := 1 / sqrt Tr in
  let aT := - (0.5) / Tr * a * TrT in
  mkAlpha a aT (0.5 / Tr * (a / Tr * TrT - aT) * TrT).
(* CubicEOS.cpp:83-91, and the same in 107-115. *)
Definition alpha_m (m Tr TrT : R) : Alpha :=
  let sqrtTr := sqrt Tr in
  let sqrtTrT := 0.5 / sqrtTr * TrT in
  let sqrtTrTT := - (0.5) / Tr * sqrtTrT * TrT in
  let aux := 1 + m * (1 - sqrtTr) in
  let auxT := - m * sqrtTrT in
  let auxTT := - m * sqrtTrTT in
  mkAlpha (aux * aux) (2 * aux * auxT) (2 * (auxT * auxT + aux * auxTT)).
(* CubicEOS.cpp:79-92. *)
Definition alphaSRK (Tr TrT omega : R) : Alpha := alpha_m (0.480 + 1.574 * omega - 0.176 * omega * omega) Tr TrT.
(* CubicEOS.cpp:95-116. *)
Definition alphaPR (Tr TrT omega : R) : Alpha :=
  alpha_m (if Rle_dec omega 0.491 then 0.374640 + 1.54226 * omega - 0.269920 * omega * omega
           else 0.379642 + 1.48503 * omega - 0.164423 * omega * omega + 0.016666 * omega * omega * omega) Tr TrT.
(* CubicEOS.cpp:118-125. *)
Definition alphafn (type : CubicModel) : R -> R -> R -> Alpha :=
  match type with VanDerWaals => alphaVDW | RedlichKwong => alphaRK | SoaveRedlichKwong => alphaSRK | PengRobinson => alphaPR end.
(* CubicEOS.cpp:127-137. *)
Definition sigma_ (type : CubicModel) : R :=
  match type with VanDerWaals => 0 | RedlichKwong => 1 | SoaveRedlichKwong => 1 | PengRobinson => 1 + 1.4142135623730951 end.
(* CubicEOS.cpp:139-149. *)
Definition epsilon_ (type : CubicModel) : R :=
  match type with VanDerWaals => 0 | RedlichKwong => 0 | SoaveRedlichKwong => 0 | PengRobinson => 1 - 1.4142135623730951 end.
(* CubicEOS.cpp:151-161. *)
Definition Omega_ (type : CubicModel) : R :=
  match type with VanDerWaals => 1 / 8 | RedlichKwong => 0.08664 | SoaveRedlichKwong => 0.08664 | PengRobinson => 0.0777960739 end.
(* CubicEOS.cpp:163-173. *)
Definition Psi_ (type : CubicModel) : R :=
  match type with VanDerWaals => 27 / 64 | RedlichKwong => 0.42748 | SoaveRedlichKwong => 0.42748 | PengRobinson => 0.457235529 end.

(* CubicEOS.hpp:65-72: a matrix of size zero is None. *)
Definition Mat : Type := option (nat -> nat -> R).
Record Interaction := mkIP { ip_k : Mat; ip_kT : Mat; ip_kTT : Mat }.
(* CubicEOS.hpp:75-89: arguments T, a, aT, aTT, b. *)
Definition InteractionFn : Type := R -> (nat -> R) -> (nat -> R) -> (nat -> R) -> (nat -> R) -> Interaction.
Inductive PhaseMethod := NoMethod | VolumeMethod | CompressibilityMethod | GibbsMethod.
(* CubicEOS.cpp:178-213; the auxiliary arrays are assigned in every evaluation
   before they are read and are local here. *)
Record EOS := mkEOS {
  nspecies : nat; Tcr : nat -> R; Pcr : nat -> R; omega : nat -> R;
  model : CubicModel; fluidtype : FluidType; interaction : option InteractionFn; method : PhaseMethod }.

Section Mixture.
Variable e : EOS.
Let n := nspecies e.
(* CubicEOS.cpp:252-262. *)
Definition alpha_of (T : R) (k : nat) : Alpha := alphafn (model e) (T * (1 / Tcr e k)) (1 / Tcr e k) (omega e k).
Definition factor (k : nat) : R := Psi_ (model e) * gasR * gasR * (Tcr e k * Tcr e k) / Pcr e k.
Definition a_ (T : R) (k : nat) : R := factor k * al (alpha_of T k).
Definition aT_ (T : R) (k : nat) : R := factor k * alT (alpha_of T k).
Definition aTT_ (T : R) (k : nat) : R := factor k * alTT (alpha_of T k).
Definition b_ (k : nat) : R := Omega_ (model e) * gasR * Tcr e k / Pcr e k.
(* CubicEOS.cpp:264-267. *)
Definition ip (T : R) : Interaction :=
  match interaction e with Some f => f T (a_ T) (aT_ T) (aTT_ T) b_ | None => mkIP None None None end.
(* CubicEOS.cpp:279-289: the pair (i, j). *)
Definition r_ (T : R) (i j : nat) : R := match ip_k (ip T) with Some k => 1 - k i j | None => 1 end.
Definition rT_ (T : R) (i j : nat) : R := match ip_kT (ip T) with Some k => - k i j | None => 0 end.
Definition rTT_ (T : R) (i j : nat) : R := match ip_kTT (ip T) with Some k => - k i j | None => 0 end.
Definition s_ (T : R) (i j : nat) : R := sqrt (a_ T i * a_ T j).
Definition sT_ (T : R) (i j : nat) : R := 0.5 * s_ T i j / (a_ T i * a_ T j) * (aT_ T i * a_ T j + a_ T i * aT_ T j).
Definition sTT_ (T : R) (i j : nat) : R :=
  0.5 * s_ T i j / (a_ T i * a_ T j) * (aTT_ T i * a_ T j + 2 * aT_ T i * aT_ T j + a_ T i * aTT_ T j) - sT_ T i j * sT_ T i j / s_ T i j.
Definition aij (T : R) (i j : nat) : R := r_ T i j * s_ T i j.
Definition aijT (T : R) (i j : nat) : R := rT_ T i j * s_ T i j + r_ T i j * sT_ T i j.
Definition aijTT (T : R) (i j : nat) : R := rTT_ T i j * s_ T i j + 2 * rT_ T i j * sT_ T i j + r_ T i j * sTT_ T i j.
(* CubicEOS.cpp:270-305. *)
Definition amix (T : R) (x : nat -> R) : R := Sum n (fun i => Sum n (fun j => x i * x j * aij T i j)).
Definition amixT (T : R) (x : nat -> R) : R := Sum n (fun i => Sum n (fun j => x i * x j * aijT T i j)).
Definition amixTT (T : R) (x : nat -> R) : R := Sum n (fun i => Sum n (fun j => x i * x j * aijTT T i j)).
Definition abar (T : R) (x : nat -> R) (i : nat) : R := Sum n (fun j => 2 * x j * aij T i j) - amix T x.
(* CubicEOS.cpp:310-315; bbar is b. *)
Definition bbar (k : nat) : R := Omega_ (model e) * gasR * Tcr e k / Pcr e k.
Definition bmix (x : nat -> R) : R := Sum n (fun i => x i * bbar i).
(* CubicEOS.cpp:321-330. *)
Definition beta_ (T P : R) (x : nat -> R) : R := P * bmix x / (gasR * T).
Definition q_ (T : R) (x : nat -> R) : R := amix T x / (bmix x * gasR * T).
Definition qT_ (T : R) (x : nat -> R) : R := q_ T x * (amixT T x / amix T x - 1 / T).
Definition qTT_ (T : R) (x : nat -> R) : R :=
  qT_ T x * qT_ T x / q_ T x + q_ T x * (amixTT T x / amix T x - amixT T x * amixT T x / (amix T x * amix T x) + 1 / (T * T)).
End Mixture.

(* CubicEOS.cpp:333-335: the coefficients of the cubic. *)
Definition cA (eps sig beta q : R) : R := (eps + sig - 1) * beta - 1.
Definition cB (eps sig beta q : R) : R := (eps * sig - eps - sig) * beta * beta - (eps + sig - q) * beta.
Definition cC (eps sig beta q : R) : R := - eps * sig * beta * beta * beta - (eps * sig + q) * beta * beta.
(* CubicEOS.cpp:338-345: their derivatives, from those of beta and q. *)
Definition dA (eps sig beta q beta' q' : R) : R := (eps + sig - 1) * beta'.
Definition dB (eps sig beta q beta' q' : R) : R :=
  (eps * sig - eps - sig) * (2 * beta * beta') + q' * beta - (eps + sig - q) * beta'.
Definition dC (eps sig beta q beta' q' : R) : R :=
  - eps * sig * (3 * beta * beta * beta') - q' * beta * beta - (eps * sig + q) * (2 * beta * beta').
(* std::max_element and std::min_element of a range that is not empty. *)
Fixpoint maxOf (m : R) (l : list R) : R := match l with [] => m | x :: l' => maxOf (if Rlt_dec m x then x else m) l' end.
Fixpoint minOf (m : R) (l : list R) : R := match l with [] => m | x :: l' => minOf (if Rlt_dec x m then x else m) l' end.
(* CubicEOS.cpp:348-374: an iterator to the end of an empty range is dereferenced
   only if there are neither one nor three roots, which is an error before. *)
Definition selectRoot (type : FluidType) (roots : list R) : outcome R :=
  match roots with
  | [z] => Ok z
  | [z0; z1; z2] => Ok (match type with Vapor => maxOf z0 [z1; z2] | Liquid => minOf z0 [z1; z2] end)
  | _ => Err
  end.
(* CubicEOS.cpp:409-410: ZT and ZP, from the derivatives of the coefficients. *)
Definition dZ (Z A B A' B' C' : R) : R := - (A' * Z * Z + B' * Z + C') / (3 * Z * Z + 2 * A * Z + B).
(* CubicEOS.cpp:419-430. *)
Definition intI (eps sig beta Z : R) : R :=
  if Req_EM_T eps sig then beta / (Z + eps * beta) else ln ((Z + sig * beta) / (Z + eps * beta)) / (sig - eps).
Definition dI (eps sig beta Z beta' Z' : R) : R :=
  if Req_EM_T eps sig then intI eps sig beta Z * (beta' / beta - (Z' + eps * beta') / (Z + eps * beta))
  else ((Z' + sig * beta') / (Z + sig * beta) - (Z' + eps * beta') / (Z + eps * beta)) / (sig - eps).

(* PhaseIdentification.cpp:34-42. *)
Definition identifyByVolume (T P Z b : R) : FluidType :=
  if Rlt_dec 1.75 (Z * gasR * T / P / b) then Vapor else Liquid.
(* PhaseIdentification.cpp:132-166. *)
Definition residualG (T eps sig beta q Z : R) : R := gasR * T * (Z - 1 - ln (Z - beta) - q * intI eps sig beta Z).
(* Whether the logarithms have values: otherwise the energy is not a number, and its
   comparison is false. *)
Definition hasG (eps sig beta Z : R) : bool :=
  (if Rlt_dec beta Z then true else false) && (if Req_EM_T eps sig then true else if Rlt_dec 0 ((Z + sig * beta) / (Z + eps * beta)) then true else false).
Definition identifyByGibbs (T P eps sig amix bmix Zmin Zmax : R) : FluidType :=
  let beta := P * bmix / (gasR * T) in
  let q := amix / (bmix * gasR * T) in
  if hasG eps sig beta Zmax && hasG eps sig beta Zmin && (if Rlt_dec (residualG T eps sig beta q Zmax) (residualG T eps sig beta q Zmin) then true else false)
  then Vapor else Liquid.
(* CubicEOS.cpp:375-398 and PhaseIdentification.cpp:44-53, 169-198.  With a single
   root the Gibbs method compares pressures at the roots of a quartic found by
   Eigen's polynomial solver; [single] stands for that comparison (M_PhaseId.byPressure). *)
Definition identify (single : R -> R -> R -> R -> outcome FluidType) (e : EOS) (T P am bm : R) (roots : list R) (Z : R) : outcome FluidType :=
  match method e with
  | NoMethod => Ok (fluidtype e)
  | VolumeMethod => Ok (identifyByVolume T P Z bm)
  | CompressibilityMethod => Err
  | GibbsMethod =>
    match roots with
    | [_] => single P T am bm
    | [z0; _; z2] =>
      let lo := if Rlt_dec z0 z2 then z0 else z2 in
      let hi := if Rlt_dec z0 z2 then z2 else z0 in
      Ok (identifyByGibbs T P (epsilon_ (model e)) (sigma_ (model e)) am bm lo hi)
    | _ => Err
    end
  end.

(* CubicEOS.hpp:28-53. *)
Record Residual := mkRes { Vres : R; VresT : R; VresP : R; Gres : R; Hres : R; Cpres : R; Cvres : R; ln_phi : nat -> R }.
Definition fresh : Residual := mkRes 0 0 0 0 0 0 0 (fun _ => 0).

(* CubicEOS.cpp:471-486: one fugacity coefficient. *)
Definition lnPhi (e : EOS) (T P : R) (x : nat -> R) (Z : R) (k : nat) : R :=
  let eps := epsilon_ (model e) in let sig := sigma_ (model e) in
  let beta := beta_ e T P x in let q := q_ e T x in
  let A := cA eps sig beta q in let B := cB eps sig beta q in let C := cC eps sig beta q in
  let I := intI eps sig beta Z in
  let betak := bbar e k / b_ e k * beta in
  let qk := (1 + abar e T x k / amix e T x - bbar e k / bmix e x) * q in
  let Ak := (eps + sig - 1) * betak - 1 in
  let Bk := ((eps * sig - eps - sig) * (2 * betak - beta) + qk - q) * beta - (eps + sig - q) * betak in
  let Ck := (eps * sig * (2 * beta + 1) + 2 * q - qk) * beta * beta - (2 * (eps * sig + q) + 3 * eps * sig * beta) * beta * betak in
  let Zk := - (Ak * Z * Z + (B + Bk) * Z + 2 * C + Ck) / (3 * Z * Z + 2 * A * Z + B) in
  let Ik := if Req_EM_T eps sig then I * (1 + betak / beta - (Zk + eps * betak) / (Z + eps * beta))
            else I + ((Zk + sig * betak) / (Z + sig * beta) - (Zk + eps * betak) / (Z + eps * beta)) / (sig - eps) in
  Zk - (Zk - betak) / (Z - beta) - ln (Z - beta) + q * I - qk * I - q * Ik.
(* CubicEOS.cpp:408-466: the residual properties for the root Z; [old] is what
   the result held before. *)
Definition residuals (e : EOS) (old : Residual) (T P : R) (x : nat -> R) (Z : R) : Residual :=
  let eps := epsilon_ (model e) in let sig := sigma_ (model e) in
  let beta := beta_ e T P x in let betaT := - beta / T in let betaP := beta / P in
  let q := q_ e T x in let qT := qT_ e T x in let qTT := qTT_ e T x in let qP := 0 in
  let A := cA eps sig beta q in let B := cB eps sig beta q in
  let ZT := dZ Z A B (dA eps sig beta q betaT qT) (dB eps sig beta q betaT qT) (dC eps sig beta q betaT qT) in
  let ZP := dZ Z A B (dA eps sig beta q betaP qP) (dB eps sig beta q betaP qP) (dC eps sig beta q betaP qP) in
  let I := intI eps sig beta Z in
  let IT := dI eps sig beta Z betaT ZT in
  let V0 := gasR * T / P in
  let V0T := V0 / T in
  let V0P := - V0 / P in
  let V := Z * V0 in
  let VT := ZT * V0 + Z * V0T in
  let VP := ZP * V0 + Z * V0P in
  let Hres := gasR * T * (Z - 1 + T * qT * I) in
  let Cpres := Hres / T + gasR * T * (ZT + qT * I + T * qTT * I + T * qT * IT) in
  mkRes (V - Vres old) (VT - VresT old) (VP - VresP old)
        (gasR * T * (Z - 1 - ln (Z - beta) - q * I)) Hres Cpres (Cpres + gasR + T * VT * VT / VP)
        (lnPhi e T P x Z).
(* CubicEOS.cpp:240: every mole fraction is at most zero, or there is none. *)
Fixpoint all_nonpositive (n : nat) (x : nat -> R) : bool :=
  match n with O => true | S m => (if Rle_dec (x m) 0 then true else false) && all_nonpositive m x end.
(* CubicEOS.cpp:237-487. *)
Definition compute (single : R -> R -> R -> R -> outcome FluidType) (e : EOS) (old : Residual) (T P : R) (x : nat -> R) : outcome Residual :=
  if all_nonpositive (nspecies e) x then Ok old else
  let eps := epsilon_ (model e) in let sig := sigma_ (model e) in
  let beta := beta_ e T P x in let q := q_ e T x in
  bind (cardano (cA eps sig beta q) (cB eps sig beta q) (cC eps sig beta q)) (fun r =>
  let roots := realRoots r in
  bind (selectRoot (fluidtype e) roots) (fun Z =>
  bind (identify single e T P (amix e T x) (bmix e x) roots Z) (fun type =>
  if fluid_eqb type (fluidtype e) then Ok (residuals e old T P x Z)
  else Ok (mkRes (Vres old) (VresT old) (VresP old) (Gres old) (Hres old) (Cpres old) (Cvres old) (fun _ => 100))))).

(* ActivityModelCubicEOS.cpp:73-99: the activity model keeps [res] between
   calls; its results are those of res, and ln_a. *)
Record Activity := mkAct { ac_res : Residual; ac_ln_a : nat -> R }.
Definition activity (res : Residual) (P : R) (x : nat -> R) : Activity :=
  mkAct res (fun i => ln_phi res i + ln (x i) + ln (P * 1.0e-5)).
(* The results of a sequence of calls; a call that fails leaves res as it was
   (nothing is assigned before the last error). *)
Fixpoint calls (single : R -> R -> R -> R -> outcome FluidType) (e : EOS) (res : Residual) (l : list (R * R * (nat -> R))) : list (outcome Activity) :=
  match l with
  | [] => []
  | (T, P, x) :: l' =>
    match compute single e res T P x with
    | Ok res' => Ok (activity res' P x) :: calls single e res' l'
    | Err => Err :: calls single e res l'
    | UB => UB :: calls single e res l'
    end
  end.
