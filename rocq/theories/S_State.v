(* Specification vocabulary for chemical states and properties, independent of
   the model's helpers. *)
From Verif Require Import Base S_System.

(* [l'] is [l] with item [i] replaced by [v]. *)
Definition Replaced {A} (l : list A) (i : nat) (v : A) (l' : list A) : Prop :=
  length l' = length l /\ nth_error l' i = Some v /\ forall j, j <> i -> nth_error l' j = nth_error l j.

(* [v] stands in [l] from position [b] on. *)
Definition Stands {A} (l : list A) (b : nat) (v : list A) : Prop :=
  forall j x, nth_error v j = Some x -> nth_error l (b + j) = Some x.

(* Equality of lists of rational numbers as numbers. *)
Definition Qsame (a b : list Q) : Prop := Forall2 Qeq a b.

(* The text-book Jacobian entries of mole fractions and of their logarithms, for
   amounts [n] with total [t]: d x_i / d n_j = (delta_ij - x_i) / t and
   d ln x_i / d n_j = delta_ij / n_i - 1 / t. *)
Definition delta (i j : nat) : Q := if Nat.eqb i j then 1%Q else 0%Q.

(* Item [i] is the first one of [l] that satisfies [P]. *)
Definition FirstAt {A} (P : A -> Prop) (l : list A) (i : nat) : Prop :=
  (exists s, nth_error l i = Some s /\ P s) /\ forall j s, j < i -> nth_error l j = Some s -> ~ P s.

(* [a x + b y], item by item. *)
Definition combined (a b : Q) (x y : list Q) : list Q := map (fun p => a * fst p + b * snd p)%Q (combine x y).

(* The sum over consecutive groups of [sizes] of the amounts of [n] weighted by
   the numbers given for the members of each group. *)
Fixpoint grouped (weights : list (list Q)) (n : list Q) : Q :=
  match weights with
  | [] => 0
  | w :: ws => dotQ w (firstn (length w) n) + grouped ws (skipn (length w) n)
  end%Q.
