(* Model of Reaktoro/Common/Exception.cpp: the message of errors raised with Assert,
   RuntimeError and RaiseError. *)
From Verif Require Import Base M_Strings M_Chem M_Naming.

(* std::find_end for a text that is not empty: where it occurs last, or the length. *)
Fixpoint find_last (sub s : str) : option nat :=
  match s with
  | [] => None
  | _ :: s' => match find_last sub s' with Some k => Some (S k) | None => if is_prefix sub s then Some 0 else None end
  end.
Definition find_end (s sub : str) : nat := match find_last sub s with Some k => k | None => length s end.
(* Exception.cpp:32-39; the line is not negative. *)
Definition location (file : str) (line : N) : str :=
  let pos := find_end file $"Reaktoro/" in
  firstn (length file - pos) (skipn pos file) ++ $":" ++ N_to_string line.
Definition endl : str := [ascii_of_N 10].
(* Exception.cpp:41-57; the length, unsigned, does not overflow. *)
Definition message (error reason file : str) (line : N) : str :=
  let loc := location file line in
  let bar := repeat "*"%char (Nat.max (length error) (Nat.max (length reason) (length loc)) + 25) in
  endl ++ bar ++ endl ++ $"*** Error: " ++ error ++ endl ++ $"*** Reason: " ++ reason ++ endl ++
  $"*** Location:  This error was encountered in " ++ loc ++ $"." ++ endl ++ bar ++ endl ++ endl.
