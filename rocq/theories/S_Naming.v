(* How names of species are written. *)
From Verif Require Import Base.
Local Open Scope Z_scope.

(* The decimal digits of a number, without leading zeros. *)
Inductive Decimal : N -> str -> Prop :=
| decimal_digit : forall d, (d < 10)%N -> Decimal d [ascii_of_N (48 + d)]
| decimal_more : forall n d s, (0 < n)%N -> (d < 10)%N -> Decimal n s -> Decimal (10 * n + d) (s ++ [ascii_of_N (48 + d)]).
(* The charge is z: its sign and its absolute value. *)
Definition sign_of (z : Z) : ascii := if Z.ltb z 0 then "-"%char else "+"%char.
(* Ca++, Ca+2 and Ca[2+], or H+ and H[+]. *)
Inductive Written (base : str) (z : Z) : str -> Prop :=
| written_repeated : Written base z (base ++ repeat (sign_of z) (Z.abs_nat z))
| written_number : forall d, Z.abs z <> 1 -> Decimal (Z.abs_N z) d -> Written base z (base ++ sign_of z :: d)
| written_bracket_one : Z.abs z = 1 -> Written base z (base ++ $"[" ++ sign_of z :: $"]")
| written_bracket : forall d, Z.abs z <> 1 -> Decimal (Z.abs_N z) d -> Written base z (base ++ $"[" ++ d ++ sign_of z :: $"]").
(* Mg[+2] *)
Inductive WrittenToo (base : str) (z : Z) : str -> Prop :=
| written_signed : forall d, Decimal (Z.abs_N z) d -> WrittenToo base z (base ++ $"[" ++ sign_of z :: d ++ $"]").
(* A name without the characters that start a charge. *)
Definition Plain (base : str) : Prop := forall c, In c base -> c <> "-"%char /\ c <> "+"%char /\ c <> "["%char.
(* A charge, as an int that has an absolute value. *)
Definition Charge (z : Z) : Prop := z <> 0 /\ Z.abs z <= 2147483647.
(* CO2(aq), CO2, CO2@ and CO2,aq. *)
Definition neutral_suffixes : list str := [$"(aq)"; []; $"@"; $",aq"].
Definition Unsuffixed (base : str) : Prop := forall s a b, In s [$"(aq)"; $"@"; $",aq"] -> base <> a ++ s ++ b.
From Verif Require Import M_Naming.
(* The maps of alternative names that can be there. *)
Inductive Reachable : Charged -> Prop :=
| reachable_empty : Reachable []
| reachable_call : forall m name m' l, Reachable m -> alternativeChargedSpeciesNames m name = Ok (m', l) -> Reachable m'.
Inductive ReachableNeutral : Neutral -> Prop :=
| reachable_none : ReachableNeutral []
| reachable_neutral : forall m name, ReachableNeutral m -> ReachableNeutral (fst (alternativeNeutralSpeciesNames m name)).
(* The ion of a table that a name stands for, in one of the notations. *)
Definition Ion (table : list (str * Z)) (name : str) (r : Z) : Prop :=
  exists key b z, In (key, r) table /\ Plain b /\ Charge z /\ Written b z key /\ Written b z name.
