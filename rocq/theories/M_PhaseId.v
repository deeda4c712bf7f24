(* Model of the identification of a fluid phase with one volume
   (Reaktoro/Thermodynamics/Fluids/PhaseIdentification.cpp:55-129) over the reals.
   The real roots of the quartic are found by Eigen's polynomial solver, which is
   an argument: from the coefficients of V^4, V^3, V^2, V and 1 to a list. *)
From Coq Require Import Reals List.
Import ListNotations.
From Verif Require Import Base M_CubicEOS.
Local Open Scope R_scope.

Definition Solver : Type := R -> R -> R -> R -> R -> list R.
(* PhaseIdentification.cpp:76-79. *)
Definition pAt (T am bm ep sg V : R) : R := gasR * T / (V - bm) - am / ((V + ep * bm) * (V + sg * bm)).
(* PhaseIdentification.cpp:81-100. *)
Definition spinodals (solver : Solver) (T am bm ep sg : R) : list R :=
  let k1 := ep * bm in
  let k2 := sg * bm in
  let AP := gasR * T in
  let BP := 2 * gasR * T * (k2 + k1) - 2 * am in
  let CP := gasR * T * (k2 * k2 + 4 * k1 * k2 + k1 * k1) - am * (k1 + k2 - 4 * bm) in
  let DP := 2 * gasR * T * (k1 * k2 * k2 + k1 * k1 * k2) - 2 * am * (bm * bm - k2 * bm - k1 * bm) in
  let EP := gasR * T * k1 * k1 * k2 * k2 - am * (k1 + k2) * bm * bm in
  solver AP BP CP DP EP.
(* PhaseIdentification.cpp:102-129; the roots below the co-volume are removed. *)
Definition pressureComparison (solver : Solver) (ep sg P T am bm : R) : outcome FluidType :=
  match List.filter (fun r => if Rlt_dec r bm then false else true) (spinodals solver T am bm ep sg) with
  | [] => Ok Vapor
  | V :: l =>
    let ps := List.map (pAt T am bm ep sg) l in
    let p0 := pAt T am bm ep sg V in
    if Rlt_dec P (minOf p0 ps) then Ok Vapor
    else if Rlt_dec (maxOf p0 ps) P then Ok Liquid
    else Err
  end.
(* PhaseIdentification.cpp:181-184 within CubicEOS.cpp:391-394: the comparison with the
   parameters of the model. *)
Definition byPressure (solver : Solver) (e : EOS) : R -> R -> R -> R -> outcome FluidType :=
  pressureComparison solver (epsilon_ (model e)) (sigma_ (model e)).
