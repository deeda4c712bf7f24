(* Model of Reaktoro/Core/ChemicalFormula.cpp, ElementalComposition.cpp,
   ReactionEquation.cpp, the mass of Species.cpp, and the remaining list parsers
   of Reaktoro/Common/ParseUtils.cpp. *)
From Coq Require Import Qabs.
From Verif Require Import Base M_Strings M_Formula.

(* std::pair<String,double> equality: both components equal. *)
Definition pair_eqb (a b : str * Q) : bool := str_eqb (fst a) (fst b) && Qeq_bool (snd a) (snd b).

(* Reaktoro/Common/Algorithms.hpp:118-124, contained (contains: std::find). *)
Definition contained {A} (eqb : A -> A -> bool) (a b : list A) : bool :=
  forallb (fun x => existsb (fun y => eqb y x) b) a.

(* Reaktoro/Common/Algorithms.hpp:172-175, identical. *)
Definition identical {A} (eqb : A -> A -> bool) (a b : list A) : bool :=
  contained eqb a b && contained eqb b a.

(* ------------------------------------------------------- ChemicalFormula *)
(* Reaktoro/Core/ChemicalFormula.cpp:27-40, Impl (the text of the formula is
   kept as well). *)
Record ChemicalFormula := { cf_str : str; cf_elements : list (str * Q); cf_charge : Q }.

(* Reaktoro/Core/ChemicalFormula.cpp:43-45, constructor from a string. *)
Definition mkChemicalFormula (formula : str) : outcome ChemicalFormula :=
  bind (parseChemicalFormula formula) (fun elements =>
  bind (parseElectricCharge formula) (fun charge =>
  Ok {| cf_str := formula; cf_elements := elements; cf_charge := charge |})).

(* Reaktoro/Core/ChemicalFormula.cpp:65-71 and ElementalComposition.cpp:74-80,
   coefficient: first match, else zero. *)
Fixpoint coefficient (elements : list (str * Q)) (symbol : str) : Q :=
  match elements with
  | [] => 0%Q
  | (e, q) :: elements' => if str_eqb e symbol then q else coefficient elements' symbol
  end.

(* Reaktoro/Core/ChemicalFormula.cpp:120-125, equivalent. *)
Definition equivalent (f g : ChemicalFormula) : bool :=
  Nat.eqb (length (cf_elements f)) (length (cf_elements g)) &&
  contained pair_eqb (cf_elements f) (cf_elements g) &&
  Qeq_bool (cf_charge f) (cf_charge g).

(* ------------------------------------------------- ElementalComposition *)
(* Table of known elements: Reaktoro/Singletons/Elements.cpp, withSymbol
   returns the first element with the given symbol.  Only symbol and molar mass
   are kept; the table is an argument. *)
Definition element_table := list (str * Q).
Fixpoint find_element (table : element_table) (symbol : str) : option Q :=
  match table with
  | [] => None
  | (s, m) :: table' => if str_eqb s symbol then Some m else find_element table' symbol
  end.

(* Reaktoro/Core/Element.cpp:29-38 and 78-80, Element(symbol). *)
Definition mkElement (table : element_table) (symbol : str) : outcome (str * Q) :=
  match find_element table symbol with Some m => Ok (symbol, m) | None => Err end.

(* Reaktoro/Core/ElementalComposition.cpp:29-35, computeMolarMass, over
   (element, coefficient) pairs. *)
Definition computeMolarMass (elements : list ((str * Q) * Q)) : Q :=
  fold_left (fun m p => m + snd (fst p) * snd p)%Q elements 0%Q.

(* Reaktoro/Core/ElementalComposition.cpp:52-57, from (symbol, coeff) pairs. *)
Definition mkComposition (table : element_table) (pairs : list (str * Q))
  : outcome (list ((str * Q) * Q)) :=
  mapM (fun p => omap (fun e => (e, snd p)) (mkElement table (fst p))) pairs.

(* Reaktoro/Common/Constants.hpp:32, molarMassElectron, in kg/mol. *)
Definition molarMassElectron : Q := 54857990888 # 100000000000000000.

(* Reaktoro/Core/Species.cpp:92-99 and 292-295: mass of a species constructed
   from a formula. *)
Definition speciesMolarMass (table : element_table) (formula : str) : outcome Q :=
  bind (mkChemicalFormula formula) (fun f =>
  bind (mkComposition table (cf_elements f)) (fun elements =>
  Ok (computeMolarMass elements - cf_charge f * molarMassElectron)%Q)).

(* ----------------------------------------------------- ReactionEquation *)
Definition star : ascii := "*"%char.

(* Reaktoro/Core/ReactionEquation.cpp:131-138 and 141-148: one word.  pair[0]
   of an empty vector is UB. *)
Definition parseTerm (sign : Q) (word : str) : outcome (str * Q) :=
  match split word [star] with
  | [n; name] => Ok (name, (sign * atof n)%Q)
  | name :: _ => Ok (name, (sign * 1)%Q)
  | [] => UB
  end.

Definition parseSide (sign : Q) (side : str) : outcome (list (str * Q)) :=
  mapM (parseTerm sign) (filter (fun w => negb (str_eqb w $"+")) (split side $" ")).

(* Reaktoro/Core/ReactionEquation.cpp:108-151, parseReactionEquation. *)
Definition parseReactionEquation (equation : str) : outcome (list (str * Q)) :=
  match split equation $"=" with
  | [reactants; products] =>
    bind (parseSide (-(1)) reactants) (fun rs =>
    bind (parseSide 1 products) (fun ps => Ok (rs ++ ps)))
  | _ => Err
  end.

(* Decimal digits of a natural number; [fuel] bounds the number of digits. *)
Definition digit_char (d : N) : ascii := ascii_of_N (48 + d).
Fixpoint print_N (fuel : nat) (n : N) (acc : str) : str :=
  match fuel with
  | O => acc
  | S fuel' => let acc' := digit_char (n mod 10) :: acc in
               if N.eqb (n / 10) 0 then acc' else print_N fuel' (n / 10) acc'
  end.
Definition N_to_string (n : N) : str := print_N (S (N.to_nat (N.log2 n))) n [].

(* exactly k decimal digits of n *)
Fixpoint print_fixed (k : nat) (n : N) (acc : str) : str :=
  match k with O => acc | S k' => print_fixed k' (n / 10) (digit_char (n mod 10) :: acc) end.

(* std::to_string(double): printf format "%f", six decimals, rounding half to
   even of the exact value. *)
Definition to_string (x : Q) : str :=
  let neg := Z.ltb (Qnum x) 0 in
  let num := (Z.abs_N (Qnum x) * 1000000)%N in
  let den := N.pos (Qden x) in
  let q := (num / den)%N in
  let r := (2 * (num mod den))%N in
  let n := if (r <? den)%N then q else if (den <? r)%N then N.succ q
           else if N.even q then q else N.succ q in
  (if neg then ["-"%char] else []) ++ N_to_string (n / 1000000) ++ "."%char :: print_fixed 6 (n mod 1000000) [].

(* Reaktoro/Core/ReactionEquation.cpp:72, coeffstr. *)
Definition coeffstr (x : Q) : str := if Qeq_bool x 1 then [] else to_string x ++ [star].

(* str.substr(0, str.size() - 3): for fewer than three characters the unsigned
   subtraction wraps and the whole string is kept. *)
Definition drop3 (s : str) : str := if Nat.ltb (length s) 3 then s else firstn (length s - 3) s.

Definition Qltb (a b : Q) : bool := negb (Qle_bool b a).

(* Reaktoro/Core/ReactionEquation.cpp:70-80, operator String. *)
Definition equation_to_string (species : list (str * Q)) : str :=
  let lhs := concat (map (fun p => if Qltb (snd p) 0 then coeffstr (- snd p) ++ fst p ++ $" + " else []) species) in
  let rhs := concat (map (fun p => if Qltb 0 (snd p) then coeffstr (snd p) ++ fst p ++ $" " else []) species) in
  drop3 (drop3 lhs ++ $"= " ++ rhs).

(* std::numeric_limits<double>::epsilon(): 2^-52. *)
Definition epsilon : Q := 1 # (2 ^ 52).

(* Reaktoro/Core/ReactionEquation.cpp:93-106, operator==.  Species are equal
   when their names are equal (Species.cpp:307-310). *)
Definition equation_eqb (lhs rhs : list (str * Q)) : bool :=
  identical str_eqb (map fst lhs) (map fst rhs) &&
  forallb (fun s => Qle_bool (Qabs (coefficient lhs s - coefficient rhs s)) epsilon) (map fst lhs).

(* ----------------------------------------------------- other list parsers *)

(* Reaktoro/Common/ParseUtils.cpp:209-219, parseReaction: pair[1] out of range
   when the word has no second part. *)
Definition parseReactionWord (word : str) : outcome (str * Q) :=
  match split word $":" with
  | n :: name :: _ => Ok (name, atof n)
  | _ => UB
  end.
Definition parseReaction (reaction : str) : outcome (list (str * Q)) :=
  mapM parseReactionWord (split reaction $" ").

(* word.find(":") as the text before and after the first colon; npos + 1 wraps
   to 0 so both texts are the whole word when there is no colon. *)
Fixpoint cut_colon (w : str) : option (str * str) :=
  match w with
  | [] => None
  | c :: w' => if Ascii.eqb c ":"%char then Some ([], w')
               else option_map (fun p => (c :: fst p, snd p)) (cut_colon w')
  end.
Definition colon_pair (w : str) : str * str :=
  match cut_colon w with Some p => p | None => (w, w) end.

(* Reaktoro/Common/ParseUtils.cpp:221-237, parseNumberStringPairs. *)
Definition parseNumberStringPairs (s : str) : list (str * Q) :=
  fold_left (fun pairs w => let (n, symbol) := colon_pair w in add_coeff pairs symbol (atof n))
    (split s $" ") [].
