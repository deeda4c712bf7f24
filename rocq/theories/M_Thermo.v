(* Model of the reaction and standard thermodynamic models of Reaktoro/Models
   over the real numbers, for temperatures at which they are defined.  A division
   by zero has an unspecified value here. *)
From Coq Require Import Reals Lra.
From Verif Require Import Base.
Local Open Scope R_scope.

(* Core/StandardThermoProps.hpp:26-42 and Core/ReactionThermoProps.hpp:34-41. *)
Record StdProps := mkStdProps { G0 : R; H0 : R; V0 : R; Cp0 : R; Cv0 : R }.
Record RxnProps := mkRxnProps { dG0 : R; dH0 : R }.
(* Core/ReactionThermoProps.hpp:44-54. *)
Record RxnArgs := mkRxnArgs { arg_T : R; arg_P : R; arg_dV0 : R }.

(* Common/Constants.hpp:26; the literal for ln 10 (line 50) is taken as ln 10. *)
Definition universalGasConstant : R := 83144621 / 10000000.
Definition ln10 : R := ln 10.
Definition log10 (x : R) : R := ln x / ln 10.

(* ---- Reaction thermodynamic models ---- *)
(* Each sets both properties, whatever they held before. *)
(* ReactionThermoModelConstLgK.cpp:46-61. *)
Definition rxnConstLgK (lgKr Pr : R) (a : RxnArgs) : RxnProps :=
  let '(mkRxnArgs T P dV0) := a in
  let RT := universalGasConstant * T in
  let lnKr := lgKr * ln10 in
  let dE := dV0 * (P - Pr) in
  mkRxnProps (- RT * lnKr + dE) dE.
(* ReactionThermoModelVantHoff.cpp:46-61. *)
Definition rxnVantHoff (lgKr dHr Tr Pr : R) (a : RxnArgs) : RxnProps :=
  let '(mkRxnArgs T P dV0) := a in
  let RT := universalGasConstant * T in
  let lnKr := lgKr * ln10 in
  let lnK := lnKr - dHr * (Tr - T) / (RT * Tr) in
  let dE := dV0 * (P - Pr) in
  mkRxnProps (- RT * lnK + dE) (dHr + dE).
(* ReactionThermoModelGemsLgK.cpp:46-62. *)
Definition rxnGemsLgK (A0 A1 A2 A3 A4 A5 A6 Pr : R) (a : RxnArgs) : RxnProps :=
  let '(mkRxnArgs T P dV0) := a in
  let R := universalGasConstant in
  let T2 := T * T in
  let T3 := T * T2 in
  let T05 := sqrt T in
  let dE := dV0 * (P - Pr) in
  mkRxnProps (- R * T * (A0 + A1 * T + A2 / T + A3 * ln T + A4 / T2 + A5 * T2 + A6 / T05) * ln10 + dE)
             (R * (A1 * T2 - A2 + A3 * T - 2 * A4 / T + 2 * A5 * T3 - / 2 * A6 * T05) * ln10 + dE).
(* ReactionThermoModelPhreeqcLgK.cpp:46-60. *)
Definition rxnPhreeqcLgK (A1 A2 A3 A4 A5 A6 Pr : R) (a : RxnArgs) : RxnProps :=
  let '(mkRxnArgs T P dV0) := a in
  let R := universalGasConstant in
  let T2 := T * T in
  let T3 := T * T2 in
  let dE := dV0 * (P - Pr) in
  mkRxnProps (- R * T * (A1 + A2 * T + A3 / T + A4 * log10 T + A5 / T2 + A6 * T2) * ln10 + dE)
             (R * (A2 * T2 - A3 + A4 * T / ln10 - 2 * A5 / T + 2 * A6 * T3) * ln10 + dE).
(* ReactionThermoModelPressureCorrection.cpp:27-35: adds to what is there. *)
Definition rxnPressureCorrection (Pr : R) (p : RxnProps) (a : RxnArgs) : RxnProps :=
  let '(mkRxnArgs T P dV0) := a in
  let dE := (P - Pr) * dV0 in
  mkRxnProps (dG0 p + dE) (dH0 p + dE).
(* Model.hpp:218-246, chain: evaluators one after the other on the same result,
   which starts with zeros (ReactionThermoProps.hpp:34-41). *)
Definition Evaluator : Type := RxnProps -> RxnArgs -> RxnProps.
Definition assigns (f : RxnArgs -> RxnProps) : Evaluator := fun _ a => f a.
Definition chain (l : list Evaluator) : Evaluator := fun p a => fold_left (fun p f => f p a) l p.
Definition evaluated (f : Evaluator) (a : RxnArgs) : RxnProps := f (mkRxnProps 0 0) a.

(* ---- Standard thermodynamic models ---- *)
Definition Tr : R := 29815 / 100.
Definition Pr : R := 100000.
(* StandardThermoModelConstant.cpp:45-54. *)
Definition stdConstant (p : StdProps) (T P : R) : StdProps := mkStdProps (G0 p) (H0 p) (V0 p) (Cp0 p) (Cv0 p).
(* StandardThermoModelMaierKelley.cpp:48-71; [Vr0] is the value Vr had when the
   model was made. *)
Record MaierKelley := mkMK { mk_Gf : R; mk_Hf : R; mk_Sr : R; mk_Vr : R; mk_a : R; mk_b : R; mk_c : R }.
Definition stdMaierKelley (Vr0 : R) (p : MaierKelley) (T P : R) : StdProps :=
  let '(mkMK Gf Hf Sr Vr a b c) := p in
  let R := universalGasConstant in
  let CpdT := a * (T - Tr) + / 2 * b * (T * T - Tr * Tr) - c * (1 / T - 1 / Tr) in
  let CpdlnT := a * ln (T / Tr) + b * (T - Tr) - / 2 * c * (1 / (T * T) - 1 / (Tr * Tr)) in
  let VdP := Vr * (P - Pr) in
  let Cp := a + b * T + c / (T * T) in
  mkStdProps (Gf - Sr * (T - Tr) + CpdT - T * CpdlnT + VdP) (Hf + CpdT + VdP) Vr Cp
    (if Req_EM_T Vr0 0 then Cp - R else Cp).

(* StandardThermoModelHollandPowell.cpp:51-149. *)
Record HollandPowell := mkHP {
  hp_Gf : R; hp_Hf : R; hp_Sr : R; hp_Vr : R; hp_a : R; hp_b : R; hp_c : R; hp_d : R;
  hp_alpha0 : R; hp_kappa0 : R; hp_kappa0p : R; hp_kappa0pp : R; hp_numatoms : R }.
Definition hp_ka (p : HollandPowell) : R := (1 + hp_kappa0p p) / (1 + hp_kappa0p p + hp_kappa0 p * hp_kappa0pp p).
Definition hp_kb (p : HollandPowell) : R := hp_kappa0p p / hp_kappa0 p - hp_kappa0pp p / (1 + hp_kappa0p p).
Definition hp_kc (p : HollandPowell) : R :=
  (1 + hp_kappa0p p + hp_kappa0 p * hp_kappa0pp p) / (hp_kappa0p p * (1 + hp_kappa0p p) - hp_kappa0 p * hp_kappa0pp p).
(* Lines 98-118. *)
Definition hp_Pth (p : HollandPowell) (T : R) : R :=
  let theta := 10636 / (hp_Sr p / hp_numatoms p + 644 / 100) in
  let u := theta / T in
  let u0 := theta / Tr in
  let w0 := u0 / (exp u0 - 1) in
  let E0 := w0 * w0 * exp u0 in
  hp_alpha0 p * hp_kappa0 p * (theta / E0) * (1 / (exp u - 1) - 1 / (exp u0 - 1)).
(* Lines 120-139: pow of a positive number. *)
Definition hp_volume (p : HollandPowell) (T P : R) : R * R :=
  let ka := hp_ka p in
  let kb := hp_kb p in
  let kc := hp_kc p in
  let Pth := hp_Pth p T in
  let aux1 := 1 - kb * Pth in
  let aux2 := Rpower aux1 (1 - kc) in
  let aux3 := 1 + kb * (P - Pth) in
  let aux4 := Rpower aux3 (1 - kc) in
  let aux5 := kb * (kc - 1) * P in
  let aux7 := Rpower aux3 kc in
  (hp_Vr p * (1 - ka * (1 - 1 / aux7)), P * hp_Vr p * (1 - ka + ka * (aux2 - aux4) / aux5)).
Definition stdHollandPowell (p : HollandPowell) (T P : R) : StdProps :=
  let '(mkHP Gf Hf Sr Vr a b c d alpha0 kappa0 kappa0p kappa0pp numatoms) := p in
  let T2 := T * T in
  let T05 := sqrt T in
  let Tr2 := Tr * Tr in
  let Tr05 := sqrt Tr in
  let Cp := a + b * T + c / T2 + d / T05 in
  let CpdT := a * (T - Tr) + / 2 * b * (T2 - Tr2) - c * (1 / T - 1 / Tr) + 2 * d * (T05 - Tr05) in
  let CpdlnT := a * ln (T / Tr) + b * (T - Tr) - / 2 * c * (1 / T2 - 1 / Tr2) - 2 * d * (1 / T05 - 1 / Tr05) in
  let (V, VdP) := if Req_EM_T kappa0 0 then (Vr, Vr * (P - Pr)) else hp_volume p T P in
  mkStdProps (Gf - Sr * (T - Tr) + CpdT - T * CpdlnT + VdP) (Hf + CpdT + VdP) V Cp Cp.

(* StandardThermoModelMineralHKF.cpp:56-132.  Reading an array out of range is
   UB.  [ntr] is a number the arrays need not agree with. *)
Record MineralHKF := mkMin {
  mi_Gf : R; mi_Hf : R; mi_Sr : R; mi_Vr : R; mi_ntr : nat; mi_a : list R; mi_b : list R; mi_c : list R;
  mi_Ttr : list R; mi_Htr : list R; mi_Vtr : list R; mi_dPdTtr : list R }.
Definition at_ {A} (l : list A) (i : nat) : outcome A := match nth_error l i with Some x => Ok x | None => UB end.
Definition sumR (l : list R) : R := fold_left Rplus l 0.
(* Lines 67-72. *)
Definition mi_points (p : MineralHKF) (T : R) : outcome (list R) :=
  bind (mapM (at_ (mi_Ttr p)) (seq 0 (mi_ntr p))) (fun ts =>
  Ok (Tr :: filter (fun t => if Rlt_dec t T then true else false) ts ++ [T])).
(* Lines 74-80. *)
Definition mi_pressures (p : MineralHKF) (T : R) : outcome (list R) :=
  omap (@concat R) (mapM (fun i => bind (at_ (mi_dPdTtr p) i) (fun s =>
    if Req_EM_T s 0 then Ok [] else bind (at_ (mi_Ttr p) i) (fun t => Ok [Pr + s * (T - t)]))) (seq 0 (mi_ntr p))).
(* The arrays a, b, c at one index. *)
Definition mi_abc (p : MineralHKF) (i : nat) : outcome (R * R * R) :=
  bind (at_ (mi_a p) i) (fun a => bind (at_ (mi_b p) i) (fun b => bind (at_ (mi_c p) i) (fun c => Ok (a, b, c)))).
(* Lines 82-86: the last interval containing T wins. *)
Fixpoint mi_Cp (p : MineralHKF) (i : nat) (Ti : list R) (T Cp : R) : outcome R :=
  match Ti with
  | T0 :: (T1 :: _) as rest =>
    if Rle_dec T0 T then
      if Rle_dec T T1 then
        bind (mi_abc p i) (fun '(a, b, c) => mi_Cp p (S i) rest T (a + b * T + c / (T * T)))
      else mi_Cp p (S i) rest T Cp
    else mi_Cp p (S i) rest T Cp
  | _ => Ok Cp
  end.
(* Lines 88-98. *)
Fixpoint mi_integrals (p : MineralHKF) (i : nat) (Ti : list R) (CpdT CpdlnT : R) : outcome (R * R) :=
  match Ti with
  | T0 :: (T1 :: _) as rest =>
    bind (mi_abc p i) (fun '(a, b, c) => mi_integrals p (S i) rest
      (CpdT + (a * (T1 - T0) + / 2 * b * (T1 * T1 - T0 * T0) - c * (1 / T1 - 1 / T0)))
      (CpdlnT + (a * ln (T1 / T0) + b * (T1 - T0) - / 2 * c * (1 / (T1 * T1) - 1 / (T0 * T0)))))
  | _ => Ok (CpdT, CpdlnT)
  end.
(* Lines 100-112: over the points between the first and the last; [i] is i - 1
   of the code. *)
Fixpoint mi_transitions (p : MineralHKF) (i : nat) (passed : list R) (T V GdH HdH : R) : outcome (R * R * R) :=
  match passed with
  | [] => Ok (V, GdH, HdH)
  | t :: passed' =>
    bind (at_ (mi_Htr p) i) (fun h => bind (at_ (mi_Vtr p) i) (fun v =>
    mi_transitions p (S i) passed' T (V + v) (GdH + h * (T - t) / t) (HdH + h)))
  end.
(* Lines 114-123. *)
Fixpoint mi_VdP (p : MineralHKF) (i : nat) (Ptr : list R) (P V VdP : R) : outcome (R * R) :=
  match Ptr with
  | [] => Ok (V, VdP)
  | pt :: Ptr' =>
    if Rlt_dec 0 pt then
      if Rlt_dec pt P then
        bind (at_ (mi_Vtr p) i) (fun v => mi_VdP p (S i) Ptr' P (V - v) (VdP - v * (P - pt)))
      else mi_VdP p (S i) Ptr' P V VdP
    else mi_VdP p (S i) Ptr' P V VdP
  end.
Definition stdMineralHKF (p : MineralHKF) (T P : R) : outcome StdProps :=
  bind (mi_points p T) (fun Ti =>
  bind (mi_pressures p T) (fun Ptr =>
  bind (mi_Cp p 0 Ti T 0) (fun Cp =>
  bind (mi_integrals p 0 Ti 0 0) (fun '(CpdT, CpdlnT) =>
  bind (mi_transitions p 0 (removelast (tl Ti)) T (mi_Vr p) 0 0) (fun '(V, GdH, HdH) =>
  bind (mi_VdP p 0 Ptr P V (V * (P - Pr))) (fun '(V, VdP) =>
  Ok (mkStdProps (mi_Gf p - mi_Sr p * (T - Tr) + CpdT - T * CpdlnT + VdP - GdH) (mi_Hf p + CpdT + VdP + HdH) V Cp Cp))))))).

(* StandardThermoModelWaterHKF.cpp:45-68, from the specific properties of water. *)
Record WaterSpecific := mkWS { w_entropy : R; w_enthalpy : R; w_volume : R; w_cp : R; w_cv : R }.
(* Thermodynamics/Water/WaterConstants.hpp:23. *)
Definition waterMolarMass : R := 18015268 / 1000000000.
Definition stdWaterHKF (water : R -> R -> WaterSpecific) (Ttr Str Gtr Htr : R) (T P : R) : StdProps :=
  let wtp := water T P in
  let Sw := waterMolarMass * w_entropy wtp in
  let Hw := waterMolarMass * w_enthalpy wtp in
  mkStdProps (Hw - T * (Sw + Str) + Ttr * Str + Gtr) (Hw + Htr) (w_volume wtp * waterMolarMass)
    (w_cp wtp * waterMolarMass) (w_cv wtp * waterMolarMass).
