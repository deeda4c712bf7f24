(* What it means for functions of two variables to be the partial derivatives of
   one another: each is differentiable, with the two named as the coefficients of
   its differential. *)
From Coq Require Import Reals.
From Coquelicot Require Import Coquelicot.
Local Open Scope R_scope.

(* The named functions are the partial derivatives of f up to the third order,
   at the point (t, d); mixed ones in either order. *)
Record Differentials (f fT fD fTT fTD fDD fTTT fTTD fTDD fDDD : R -> R -> R) (t d : R) : Prop := {
  df : differentiable_pt_lim f t d (fT t d) (fD t d);
  dfT : differentiable_pt_lim fT t d (fTT t d) (fTD t d);
  dfD : differentiable_pt_lim fD t d (fTD t d) (fDD t d);
  dfTT : differentiable_pt_lim fTT t d (fTTT t d) (fTTD t d);
  dfTD : differentiable_pt_lim fTD t d (fTTD t d) (fTDD t d);
  dfDD : differentiable_pt_lim fDD t d (fTDD t d) (fDDD t d) }.

(* The identities between the properties of a pure fluid as functions of
   temperature and pressure: density r, volume v, entropy s, Helmholtz energy a,
   internal energy u, enthalpy h, Gibbs energy g and isobaric heat capacity cp. *)
Record FluidIdentities (r v s a u h g cp : R -> R -> R) (T P : R) : Prop := {
  fi_volume : v T P * r T P = 1;
  fi_helmholtz : a T P = u T P - T * s T P;
  fi_enthalpy : h T P = u T P + P * v T P;
  fi_gibbs : g T P = h T P - T * s T P;
  fi_dgibbs : differentiable_pt_lim g T P (- s T P) (v T P);
  fi_denthalpy : exists hP : R, differentiable_pt_lim h T P (cp T P) hP;
  fi_maxwell : exists vT vP : R, differentiable_pt_lim v T P vT vP /\ differentiable_pt_lim s T P (cp T P / T) (- vT) }.

(* The named functions are the partial derivatives of r up to the second order. *)
Record Differentials2 (r rT rP rTT rTP rPP : R -> R -> R) (T P : R) : Prop := {
  d2_r : differentiable_pt_lim r T P (rT T P) (rP T P);
  d2_rT : differentiable_pt_lim rT T P (rTT T P) (rTP T P);
  d2_rP : differentiable_pt_lim rP T P (rTP T P) (rPP T P) }.

(* The identities between the standard properties of a species as functions of
   temperature and pressure, when its enthalpy and Gibbs energy are counted from
   levels that differ by k: entropy s = (h - g - k)/T. *)
Record StandardIdentities (g h v cp : R -> R -> R) (k T P : R) : Prop := {
  si_gibbs : differentiable_pt_lim g T P (- ((h T P - g T P - k) / T)) (v T P);
  si_enthalpy : exists hP : R, differentiable_pt_lim h T P (cp T P) hP;
  si_entropy : exists sP : R, differentiable_pt_lim (fun T P => (h T P - g T P - k) / T) T P (cp T P / T) sP }.
