(* Standard thermodynamic properties of the species of a system
   (Core/ThermoProps.cpp, Core/ThermoPropsPhase.hpp).  Numbers carry a derivative, as
   those of autodiff do, and are equal if both parts are (autodiff's operator==; it is
   not part of the repository). *)
From Coq Require Import Reals Lra.
From Verif Require Import Base.
Local Open Scope R_scope.
Set Implicit Arguments.

Definition num : Type := (R * R)%type.
Definition zero : num := (0, 0).
Definition num_eqb (x y : num) : bool :=
  (if Req_EM_T (fst x) (fst y) then true else false) && (if Req_EM_T (snd x) (snd y) then true else false).
Definition nsub (x y : num) : num := (fst x - fst y, snd x - snd y).
Definition nmul (x y : num) : num := (fst x * fst y, snd x * fst y + fst x * snd y).
Definition ndiv (x y : num) : num := (fst x / fst y, snd x / fst y - fst x * snd y / (fst y * fst y)).
(* StandardThermoProps.hpp:27-43; a new object has zeros. *)
Record SProps := mkSP { s_G0 : num; s_H0 : num; s_V0 : num; s_Cp0 : num; s_Cv0 : num }.
Definition noProps : SProps := mkSP zero zero zero zero zero.

Section System.
Variable Env : Type.  (* what the models read besides T and P: their parameters *)
(* The model of a species, if it has one; Err is an exception. *)
Definition SModel := Env -> num -> num -> outcome SProps.
Definition System := list (list (option SModel)).  (* species by phase *)
(* ThermoProps.cpp:26-56. *)
Record Thermo := mkThermo { t_T : num; t_P : num; t_Ts : list num; t_Ps : list num; t_props : list SProps }.
Inductive Result := Returned (t : Thermo) | Thrown (t : Thermo) | Undefined.
Definition numSpeciesUntilPhase (sys : System) (i : nat) : nat := length (concat (firstn i sys)).
(* ThermoProps.cpp:58-72. *)
Definition newThermo (sys : System) : Thermo :=
  mkThermo zero zero (repeat zero (length sys)) (repeat zero (length sys)) (repeat noProps (length (concat sys))).
Fixpoint assign {A} (l : list A) (i : nat) (x : A) : list A :=
  match l, i with [], _ => [] | _ :: l', O => x :: l' | y :: l', S i' => y :: assign l' i' x end.
(* ThermoPropsPhase.hpp:168-179: the species of a phase, one after the other. *)
Fixpoint evaluate (env : Env) (species : list (option SModel)) (begin : nat) (T P : num) (t : Thermo) : Result :=
  match species with
  | [] => Returned t
  | m :: species' =>
    match (match m with Some f => f env T P | None => Ok noProps end) with
    | Ok p => evaluate env species' (S begin) T P (mkThermo (t_T t) (t_P t) (t_Ts t) (t_Ps t) (assign (t_props t) begin p))
    | Err => Thrown t
    | UB => Undefined
    end
  end.
(* ThermoPropsPhase.hpp:141-180 on the references of ThermoProps.cpp:92-108. *)
Definition updatePhase (env : Env) (sys : System) (i : nat) (T P : num) (t : Thermo) : Result :=
  if num_eqb T (nth i (t_Ts t) zero) && num_eqb P (nth i (t_Ps t) zero) then Returned t
  else evaluate env (nth i sys []) (numSpeciesUntilPhase sys i) T P
    (mkThermo (t_T t) (t_P t) (assign (t_Ts t) i T) (assign (t_Ps t) i P) (t_props t)).
Fixpoint updatePhases (env : Env) (sys : System) (is : list nat) (T P : num) (t : Thermo) : Result :=
  match is with
  | [] => Returned t
  | i :: is' =>
    match updatePhase env sys i T P t with
    | Returned t' => updatePhases env sys is' T P t'
    | r => r
    end
  end.
(* ThermoProps.cpp:74-90.  With a variable to differentiate by, T and P are given with
   their derivatives, and what the models read has its own. *)
Definition update (env : Env) (sys : System) (T P : num) (t : Thermo) : Result :=
  updatePhases env sys (seq 0 (length sys)) T P (mkThermo T P (t_Ts t) (t_Ps t) (t_props t)).
End System.

(* ThermoProps.cpp:173-186. *)
Definition standardEntropies (t : Thermo) : list num := map (fun p => ndiv (nsub (s_H0 p) (s_G0 p)) (t_T t)) (t_props t).
Definition standardInternalEnergies (t : Thermo) : list num := map (fun p => nsub (s_H0 p) (nmul (t_P t) (s_V0 p))) (t_props t).
Definition standardHelmholtzEnergies (t : Thermo) : list num := map (fun p => nsub (s_G0 p) (nmul (t_P t) (s_V0 p))) (t_props t).
