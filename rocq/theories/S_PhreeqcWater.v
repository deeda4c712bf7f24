(* What properties of water are to each other. *)
From Coq Require Import Reals Lra.
From Coquelicot Require Import Coquelicot.
From Verif Require Import Base M_PhreeqcWater.
Local Open Scope R_scope.

(* What is computed: a number for every temperature and pressure, or not. *)
Definition Props := R -> R -> option (WaterThermo * WaterElectro).
(* The property is given by [f] for pressures around P, and its derivative with respect
   to pressure, in units of [u] pascals, is v. *)
Definition Slope (water : Props) (sel : WaterThermo * WaterElectro -> R) (u T P v : R) : Prop :=
  exists f, locally P (fun p => exists w, water T p = Some w /\ f p = sel w) /\ is_derive f P (v / u).
(* The pressure of one bar, and of the atmosphere as it is converted. *)
Definition bar : R := 100000.
Definition atm : R := 10 ^ 11 / 986923.

(* The compressibility is the slope of the logarithm of density. *)
Definition Compressibility (water : Props) (T P : R) : Prop :=
  forall w, water T P = Some w -> Slope water (fun w => ln (rho_0 (fst w))) atm T P (kappa_0 (fst w)).
(* The Debye-Hueckel limiting slope for volumes comes from the pressure dependence of
   the coefficient A, with the gas constant of PHREEQC in cm3 atm/(mol K). *)
Definition LimitingSlope (water : Props) (T P : R) : Prop :=
  forall w, water T P = Some w ->
  Slope water (fun w => - (4 / 3) * ln 10 * (820597 / 10000) * T * DH_A (snd w)) atm T P (DH_Av (snd w)).
(* The second Born function is the slope of the first. *)
Definition Born (water : Props) (T P : R) : Prop :=
  forall w, water T P = Some w ->
  ZBrn (snd w) = 4184004 / 100000 * (1 - / eps_r (snd w)) /\
  exists u, Rabs (u - bar) <= bar / 1000000 /\ Slope water (fun w => ZBrn (snd w)) u T P (QBrn (snd w)).
