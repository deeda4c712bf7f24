(* What a successful evaluation of properties must establish.  The model is used
   only for the record types that hold the observable values. *)
From Verif Require Import Base S_System S_State M_System M_State.

(* Item [j] of list [l] is [v]. *)
Notation "l @ j == v" := (nth_error l j = Some v) (at level 70, j at next level, v at next level).

(* Mole fractions [x] of amounts [n]. *)
Definition Fractions (n x : list Q) : Prop :=
  length x = length n /\
  (~ (Qsum n == 0)%Q -> forall i a b, n @ i == b -> x @ i == a -> (a * Qsum n == b)%Q) /\
  ((Qsum n == 0)%Q -> x = if length n =? 1 then [1%Q] else repeat 0%Q (length n)).

(* The data [d] of a phase with species [sp] and activity model [act] at (T, P)
   with amounts [n]. *)
Record PhaseOk (stdprops : Species -> Q -> Q -> outcome Std) (sp : list Species) (act : Q -> Q -> list Q -> outcome Act)
    (T P : Q) (n : list Q) (d : PhaseData) : Prop := {
  ok_T : d_T d = T;
  ok_P : d_P d = P;
  ok_n : d_n d = n;
  ok_size : length n = length sp;
  ok_nsum : (d_nsum d == Qsum n)%Q;
  ok_x : Fractions n (d_x d);
  ok_nonempty : (Qsum n == 0)%Q -> length sp = 1;
  ok_positive : Forall (fun y => 0 <= y)%Q n -> (0 < Qsum n)%Q -> Forall (fun y => 0 < y)%Q n;
  ok_std : forall j s, sp @ j == s -> exists a, stdprops s T P = Ok a /\
    d_G0 d @ j == s_G0 a /\ d_H0 d @ j == s_H0 a /\ d_V0 d @ j == s_V0 a /\ d_Cp0 d @ j == s_Cp0 a /\ d_Cv0 d @ j == s_Cv0 a;
  ok_act : exists a, (~ (Qsum n == 0)%Q -> act T P (d_x d) = Ok a) /\
    ((Qsum n == 0)%Q -> a = mkAct 0 0 0 0 0 0 0 (repeat 0%Q (length sp)) (repeat 0%Q (length sp))) /\
    d_Vex d = a_Vex a /\ d_VexT d = a_VexT a /\ d_VexP d = a_VexP a /\ d_Gex d = a_Gex a /\ d_Hex d = a_Hex a /\
    d_Cpex d = a_Cpex a /\ d_Cvex d = a_Cvex a /\ d_ln_g d = a_ln_g a /\ d_ln_a d = a_ln_a a;
  ok_u : forall j g la, d_G0 d @ j == g -> d_ln_a d @ j == la -> exists u, d_u d @ j == u /\ (u == g + (83144621 # 10000000) * T * la)%Q;
  ok_lengths : length (d_G0 d) = length sp /\ length (d_H0 d) = length sp /\ length (d_V0 d) = length sp /\
    length (d_Cp0 d) = length sp /\ length (d_Cv0 d) = length sp /\ length (d_ln_g d) = length sp /\
    length (d_ln_a d) = length sp /\ length (d_u d) = length sp }.
