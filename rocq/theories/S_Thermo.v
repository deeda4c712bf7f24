(* Thermodynamic relations between functions of temperature and pressure, stated
   without reference to how the functions are computed. *)
From Coq Require Import Reals Lra.
From Coquelicot Require Import Coquelicot.
From Verif Require Import Base.
Local Open Scope R_scope.

(* Enthalpy from the Gibbs energy: H = G - T dG/dT. *)
Definition GibbsHelmholtz (G H : R -> R) (T : R) : Prop :=
  exists G' : R, is_derive G T G' /\ H T = G T - T * G'.

(* [S] is the entropy, [Cp] the heat capacity belonging to [G] and [H] at T. *)
Definition EntropyOf (G S : R -> R) (T : R) : Prop := is_derive G T (- S T).
Definition HeatCapacityOf (H Cp : R -> R) (T : R) : Prop := is_derive H T (Cp T).
Definition HeatCapacityOfEntropy (S Cp : R -> R) (T : R) : Prop := is_derive S T (Cp T / T).
Definition VolumeOf (G V : R -> R) (P : R) : Prop := is_derive G P (V P).

(* The same for functions that may fail: near the point the function returns. *)
Definition DerivesTo (f : R -> outcome R) (x l : R) : Prop :=
  exists g, locally x (fun t => f t = Ok (g t)) /\ is_derive g x l.
