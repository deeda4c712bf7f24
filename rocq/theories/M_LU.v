(* Model of Reaktoro/Math/LU.cpp: which decomposition an LU object holds.  The
   factors themselves are in M_Matrix.v. *)
From Verif Require Import Base.
Set Implicit Arguments.

(* A matrix with its dimensions, or a vector with one column. *)
Record Mat := mkMat { m_rows : nat; m_cols : nat; m_data : list Q }.
Definition noMat : Mat := mkMat 0 0 [].
Fixpoint same_data (a b : list Q) : bool :=
  match a, b with [], [] => true | x :: a', y :: b' => Qeq_bool x y && same_data a' b' | _, _ => false end.
(* LU.cpp:27-31. *)
Definition equal (l r : Mat) : bool := (m_rows l =? m_rows r) && (m_cols l =? m_cols r) && same_data (m_data l) (m_data r).

Section Object.
(* The result of decomposing, without or with weights. *)
Variable Factors : Type.
Variable decompose : Mat -> Factors.
Variable decomposeWeighted : Mat -> list Q -> Factors.
(* LU.hpp:53-72; [None] while the factors are not set. *)
Record LU := mkLU { A_last : Mat; W_last : list Q; factors : option Factors }.
(* LU.cpp:35-36. *)
Definition newLU : LU := mkLU noMat [] None.
(* LU.cpp:48-51: the number of entries of L converted to a truth value; [size]
   gives that number for factors that are set. *)
Definition empty (size : Factors -> nat) (s : LU) : bool := match factors s with None => false | Some f => negb (size f =? 0) end.
(* LU.cpp:53-79. *)
Definition compute (A : Mat) (s : LU) : LU :=
  if equal A (A_last s) && (length (W_last s) =? 0) then s else mkLU A [] (Some (decompose A)).
(* LU.cpp:81-113. *)
Definition computeWeighted (A : Mat) (W : list Q) (s : LU) : LU :=
  if equal A (A_last s) && ((length W =? length (W_last s)) && same_data W (W_last s)) then s else mkLU A W (Some (decomposeWeighted A W)).

Inductive Call := Compute (A : Mat) | ComputeWeighted (A : Mat) (W : list Q).
Definition step (s : LU) (c : Call) : LU := match c with Compute A => compute A s | ComputeWeighted A W => computeWeighted A W s end.
Definition run (calls : list Call) : LU := fold_left step calls newLU.
End Object.
