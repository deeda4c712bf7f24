(* What is asked of activity models, independently of how they are computed. *)
From Coq Require Import Reals List.
From Coquelicot Require Import Coquelicot.
Import ListNotations.
From Verif Require Import Base M_CubicEOS M_Aqueous.
Local Open Scope R_scope.

(* Evaluating f with the mole fractions x gives the logarithms of activities a. *)
Definition gives (f : ActivityFn) (T P : R) (p : Props * Extra) (x a : nat -> R) : Prop :=
  exists q e, f T P x p = Ok (q, e) /\ forall i, ln_a q i = a i.
(* Along a path of compositions at constant temperature and pressure the sum of
   mole fractions times changes of the logarithm of activity is r at t. *)
Definition duhem_residual (f : ActivityFn) (n : nat) (T P : R) (p : Props * Extra) (path : R -> nat -> R) (t r : R) : Prop :=
  exists (a : R -> nat -> R) (d : nat -> R),
    locally t (fun s => gives f T P p (path s) (a s)) /\
    (forall i, (i < n)%nat -> is_derive (fun s => a s i) t (d i)) /\
    Sum n (fun i => path t i * d i) = r.
(* The Gibbs-Duhem equation. *)
Definition GibbsDuhem (f : ActivityFn) (n : nat) (T P : R) (p : Props * Extra) (path : R -> nat -> R) (t : R) : Prop :=
  duhem_residual f n T P p path t 0.
(* A path of compositions of n species, all present. *)
Definition composition_path (n : nat) (path : R -> nat -> R) (path' : nat -> R) (t : R) : Prop :=
  (forall i, (i < n)%nat -> 0 < path t i) /\
  (forall i, (i < n)%nat -> is_derive (fun s => path s i) t (path' i)) /\
  locally t (fun s => Sum n (path s) = 1).
(* The mole fractions of a solution in water, of index w, with solutes of
   molalities m. *)
Definition solutes (w : nat) (m : nat -> R) : nat -> R := fun i => if Nat.eqb i w then 0 else m i.
Definition solution (n w : nat) (m : nat -> R) : nat -> R := fun i =>
  let xw := 1 / (1 + 0.018015268 * Sum n (solutes w m)) in
  if Nat.eqb i w then xw else 0.018015268 * m i * xw.
(* Solutions with solutes in the proportions of m; t grows as water is removed. *)
Definition dilution (n w : nat) (m : nat -> R) : R -> nat -> R := fun t => solution n w (fun i => t * m i).
