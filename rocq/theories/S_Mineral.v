(* Phase transitions of a mineral, independently of how its properties are computed. *)
From Coq Require Import Reals Lra List.
From Verif Require Import Base.
Local Open Scope R_scope.

(* Transition temperature at the reference pressure, volume change, and slope
   dP/dT of the boundary (zero: the boundary does not depend on pressure). *)
Record Transition := mkTransition { tr_T : R; tr_V : R; tr_slope : R }.
(* The temperature of the boundary at the pressure P. *)
Definition boundary (Pref P : R) (t : Transition) : R :=
  if Req_EM_T (tr_slope t) 0 then tr_T t else tr_T t + (P - Pref) / tr_slope t.
(* The volume changes of the transitions whose boundary lies below T. *)
Fixpoint passedVolume (Pref T P : R) (l : list Transition) : R :=
  match l with
  | [] => 0
  | t :: l' => (if Rlt_dec (boundary Pref P t) T then tr_V t else 0) + passedVolume Pref T P l'
  end.
