(* Specifications for compositions, masses and reaction equations. *)
From Coq Require Import Qabs.
From Verif Require Import Base S_Formula S_Strings.

(* The list assigns the amount [q] to [e]. *)
Definition assigns (l : list (str * Q)) (e : str) (q : Q) : Prop :=
  exists q', In (e, q') l /\ (q' == q)%Q.

(* Each element is listed once. *)
Definition listed_once (l : list (str * Q)) : Prop := NoDup (map fst l).

(* Mass of a formula, given the mass of each element symbol. *)
Fixpoint formula_mass (m : str -> Q) (f : formula) : Q :=
  match f with
  | FEnd => 0
  | FElem sym n rest => m sym * onum_value n + formula_mass m rest
  | FGroup body n rest => onum_value n * formula_mass m body + formula_mass m rest
  | FSkip _ rest => formula_mass m rest
  | FDot n rest => onum_value n * formula_mass m rest
  end.

(* Electron molar mass in kg/mol. *)
Definition electron_mass : Q := 54857990888 # 100000000000000000.

(* ------------------------------------------------------ reaction equations *)
(* A term: optional coefficient and name, written "2*H2O" or "H2O". *)
Definition term := (option num * str)%type.
Definition print_term (t : term) : str :=
  match fst t with Some n => print_num n ++ "*"%char :: snd t | None => snd t end.
Definition term_wf (t : term) : Prop :=
  onum_wf (fst t) /\ snd t <> [] /\ snd t <> $"+" /\
  forall c, In c (snd t) -> c <> " "%char /\ c <> "="%char /\ c <> "*"%char.
Definition print_side (ts : list term) : str := intersperse $" + " (map print_term ts).
Definition print_equation (reactants products : list term) : str :=
  print_side reactants ++ $" = " ++ print_side products.

Definition same_pair (a b : str * Q) : Prop := fst a = fst b /\ (snd a == snd b)%Q.
Definition signed (s : Q) (t : term) : str * Q := (snd t, (s * onum_value (fst t))%Q).

(* A list of "number:symbol" words. *)
Definition print_pair (p : num * str) : str := print_num (fst p) ++ ":"%char :: snd p.
Definition pair_wf (p : num * str) : Prop :=
  num_wf (fst p) /\ forall c, In c (snd p) -> c <> " "%char.
Definition total (e : str) (ps : list (num * str)) : Q :=
  fold_right (fun p acc => (if str_eq_dec (snd p) e then num_value (fst p) else 0) + acc)%Q 0%Q ps.
