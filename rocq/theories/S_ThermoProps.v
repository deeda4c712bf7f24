(* What standard thermodynamic properties should be after an update. *)
From Coq Require Import Reals Lra.
From Verif Require Import Base M_ThermoProps.
Local Open Scope R_scope.

(* The properties are those that the models give at T and P, in the order of the
   species of the system, and zero where there is no model. *)
Definition Value {Env} (env : Env) (T P : num) (m : option (SModel Env)) (p : SProps) : Prop :=
  match m with Some f => f env T P = Ok p | None => p = mkSP (0, 0) (0, 0) (0, 0) (0, 0) (0, 0) end.
Definition Current {Env} (sys : System Env) (env : Env) (T P : num) (t : Thermo) : Prop :=
  t_T t = T /\ t_P t = P /\ Forall2 (Value env T P) (concat sys) (t_props t).
(* What was done with an object: updates, whether they failed or not, and changes of
   what models read. *)
Inductive Event (Env : Type) := Updated (T P : num) | Changed (env : Env).
Arguments Updated {Env}. Arguments Changed {Env}.
Inductive History {Env} (sys : System Env) : Env -> list (Event Env) -> Env -> Thermo -> Prop :=
| history_new : forall env, History sys env [] env (newThermo sys)
| history_returned : forall env0 es env t T P t', History sys env0 es env t -> update env sys T P t = Returned t' ->
    History sys env0 (es ++ [Updated T P]) env t'
| history_thrown : forall env0 es env t T P t', History sys env0 es env t -> update env sys T P t = Thrown t' ->
    History sys env0 (es ++ [Updated T P]) env t'
| history_changed : forall env0 es env t env', History sys env0 es env t -> History sys env0 (es ++ [Changed env']) env' t.
(* Entropies, internal energies and Helmholtz energies belong together. *)
Definition nadd (x y : num) : num := (fst x + fst y, snd x + snd y).
Definition times (x y : num) : num := (fst x * fst y, fst x * snd y + fst y * snd x).
Record Derived (T P : num) (p : SProps) (s u a : num) : Prop := {
  de_G : nadd (s_G0 p) (times T s) = s_H0 p;
  de_H : nadd u (times P (s_V0 p)) = s_H0 p;
  de_A : nadd a (times T s) = u }.
