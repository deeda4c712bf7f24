(* Model of Reaktoro/Common/InterpolationUtils.cpp: interpolation of data, of a function
   and of several functions of temperature and pressure. *)
From Verif Require Import Base M_State M_Math.

(* InterpolationUtils.cpp:25-31; the constructor is BilinearInterpolator.cpp:57-64. *)
Definition interpolateData (temperatures pressures scalars : list Q) (T P : Q) : outcome Q := bilinear (mkGrid temperatures pressures scalars) T P.
(* InterpolationUtils.cpp:33-39. *)
Definition interpolateFn (temperatures pressures : list Q) (func : Q -> Q -> Q) (T P : Q) : outcome Q := bilinear (gridOf temperatures pressures func) T P.
(* InterpolationUtils.cpp:41-62.  The array res is kept by the returned function from
   one call to the next; it is not initialised (line 52). *)
Definition interpolators (temperatures pressures : list Q) (fs : list (Q -> Q -> Q)) : list Grid := map (gridOf temperatures pressures) fs.
(* InterpolationUtils.cpp:56-57. *)
Fixpoint fill (i : nat) (interps : list Grid) (T P : Q) (res : list Q) : outcome unit * list Q :=
  match interps with
  | [] => (Ok tt, res)
  | g :: interps' => match bilinear g T P with Ok v => fill (S i) interps' T P (upd res i v) | Err => (Err, res) | UB => (UB, res) end
  end.
(* InterpolationUtils.cpp:54-59. *)
Definition callFns (interps : list Grid) (res : list Q) (T P : Q) : outcome (list Q) * list Q :=
  let '(o, res') := fill 0 interps T P res in (omap (fun _ => res') o, res').
(* Several calls one after the other, then one more. *)
Definition afterCalls (interps : list Grid) (res : list Q) (calls : list (Q * Q)) : list Q :=
  fold_left (fun res c => snd (callFns interps res (fst c) (snd c))) calls res.
Definition interpolateFns (temperatures pressures : list Q) (fs : list (Q -> Q -> Q)) (res : list Q) (calls : list (Q * Q)) (T P : Q) : outcome (list Q) :=
  let interps := interpolators temperatures pressures fs in fst (callFns interps (afterCalls interps res calls) T P).
