(* Names of aqueous species in different notations (Common/NamingUtils.cpp), and the
   table of ionic radii that is searched with them (ActivityModelHKF.cpp). *)
From Verif Require Import Base M_Strings M_Formula M_Chem M_Algorithms.
Local Open Scope Z_scope.

(* std::stoi: white space, an optional sign and digits; it throws without digits and if
   the number is no int. *)
Definition stoi (s : str) : outcome Z :=
  let s := trimleft s in
  let '(neg, s) := match s with
                   | "-"%char :: s' => (true, s')
                   | "+"%char :: s' => (false, s')
                   | _ => (false, s)
                   end in
  match fst (span isdigit s) with
  | [] => Err
  | ds => let v := if neg : bool then - digits_Z ds else digits_Z ds in
          if (v <? -2147483648) || (2147483647 <? v) then Err else Ok v
  end.
Definition sign_char (c : ascii) : bool := Ascii.eqb c "-"%char || Ascii.eqb c "+"%char.
Definition marks (c : ascii) : bool := sign_char c || Ascii.eqb c "["%char.

(* The unary minus of an int. *)
Definition neg_int (z : Z) : outcome Z := if Z.eqb z (-2147483648) then UB else Ok (- z).
(* NamingUtils.cpp:126-161.  Reading at npos is out of range. *)
Definition splitChargedSpeciesName (name : str) : outcome (str * Z) :=
  let '(base, rest) := span (fun c => negb (marks c)) name in
  match rest with
  | [] => UB
  | c :: tail =>
    if Ascii.eqb c "["%char then
      match find_sub $"]" tail with
      | None => Err
      | Some n =>
        let inside := firstn n tail in
        let sign := last inside c in
        let numb := if Nat.ltb 1 (length inside) then firstn (length inside - 1) inside else $"1" in
        bind (stoi numb) (fun v => if Ascii.eqb sign "-"%char then omap (pair base) (neg_int v) else Ok (base, v))
      end
    else if Ascii.eqb (last name c) c then
      let abscharge := Z.of_nat (length rest) in
      Ok (base, if Ascii.eqb c "-"%char then - abscharge else abscharge)
    else if isdigit (last name c) then bind (stoi rest) (fun v => Ok (base, v))
    else Err
  end.
(* std::abs of an int. *)
Definition abs_int (z : Z) : outcome Z := if Z.eqb z (-2147483648) then UB else Ok (Z.abs z).
(* Order of std::string. *)
Fixpoint str_ltb (a b : str) : bool :=
  match a, b with
  | [], [] => false
  | [], _ => true
  | _, [] => false
  | x :: a', y :: b' => if N.eqb (code x) (code y) then str_ltb a' b' else N.ltb (code x) (code y)
  end.
(* The maps from names to alternatives, NamingUtils.cpp:35-39. *)
Definition Charged := list ((str * Z) * list str).
Definition Neutral := list (str * list str).
Definition chargedNames (base : str) (charge abs_charge : Z) : list str :=
  let sign := if charge <? 0 then "-"%char else "+"%char in
  let number := if Z.eqb abs_charge 1 then [] else N_to_string (Z.to_N abs_charge) in
  unique str_eqb str_ltb
    [base ++ repeat sign (Z.to_nat abs_charge); base ++ sign :: number; base ++ $"[" ++ number ++ sign :: $"]"].
Fixpoint lookup_charged (m : Charged) (base : str) (charge : Z) : option (list str) :=
  match m with [] => None | ((b, z), l) :: m' => if str_eqb b base && Z.eqb z charge then Some l else lookup_charged m' base charge end.
(* NamingUtils.cpp:48-73.  The map is changed; insert keeps what is there. *)
Definition alternativeChargedSpeciesNames (m : Charged) (name : str) : outcome (Charged * list str) :=
  bind (splitChargedSpeciesName name) (fun '(base, charge) =>
  bind (abs_int charge) (fun abs_charge =>
  if Z.eqb charge 0 then Err else
  match lookup_charged m base charge with
  | Some l => Ok (m, l)
  | None => let l := chargedNames base charge abs_charge in Ok (m ++ [((base, charge), l)], l)
  end)).
(* NamingUtils.cpp:168-184. *)
Definition baseNameNeutralSpecies (name : str) : str :=
  match find_sub $"(aq)" name with
  | Some n => firstn n name
  | None =>
    match find_sub $"@" name with
    | Some n => firstn n name
    | None => match find_sub $",aq" name with Some n => firstn n name | None => name end
    end
  end.
Definition neutralNames (base : str) : list str := unique str_eqb str_ltb [base ++ $"(aq)"; base; base ++ $"@"; base ++ $",aq"].
(* NamingUtils.cpp:75-89. *)
Definition alternativeNeutralSpeciesNames (m : Neutral) (name : str) : Neutral * list str :=
  let base := baseNameNeutralSpecies name in
  match List.find (fun x => str_eqb (fst x) base) m with
  | Some (_, l) => (m, l)
  | None => let l := neutralNames base in (m ++ [(base, l)], l)
  end.
(* NamingUtils.cpp:96-109. *)
Definition conventionalChargedSpeciesName (name : str) : outcome str :=
  bind (splitChargedSpeciesName name) (fun '(base, charge) =>
  bind (abs_int charge) (fun n => Ok (base ++ repeat (if charge <? 0 then "-"%char else "+"%char) (Z.to_nat n)))).
Definition conventionalNeutralSpeciesName (name : str) : str := baseNameNeutralSpecies name ++ $"(aq)".
(* NamingUtils.cpp:116-124. *)
Definition isAlternativeChargedSpeciesName (m : Charged) (trial name : str) : outcome (Charged * bool) :=
  bind (alternativeChargedSpeciesNames m name) (fun '(m', l) => Ok (m', contains str_eqb l trial)).
Definition isAlternativeNeutralSpeciesName (m : Neutral) (trial name : str) : Neutral * bool :=
  let '(m', l) := alternativeNeutralSpeciesNames m name in (m', contains str_eqb l trial).
(* NamingUtils.cpp:163-166, 186-189. *)
Definition chargeInSpeciesName (name : str) : outcome Z := omap snd (splitChargedSpeciesName name).

(* ActivityModelHKF.cpp:201-226, in the order of std::map; in units of 0.01 angstrom. *)
Definition effective_radii : list (str * Z) :=
  [($"Ag+", 220); ($"Al+++", 333); ($"Au+", 231); ($"Au+++", 372); ($"Ba++", 322); ($"Br-", 196); ($"CO3--", 281); ($"Ca++", 287); ($"Ca+++", 344);
   ($"Cd++", 285); ($"Cl-", 181); ($"ClO4-", 359); ($"Cs+", 261); ($"Cu+", 190); ($"Cu++", 260); ($"F-", 133); ($"Fe++", 262); ($"Fe+++", 346);
   ($"Gd+++", 379); ($"H+", 308); ($"HCO3-", 210); ($"HS-", 184); ($"HSO4-", 237); ($"Hg++", 298); ($"I-", 220); ($"In+++", 363); ($"K+", 227);
   ($"La+++", 396); ($"Li+", 164); ($"Mg++", 254); ($"Mn++", 268); ($"NH4+", 231); ($"NO3-", 281); ($"Na+", 191); ($"OH-", 140); ($"Pb++", 308);
   ($"Rb+", 241); ($"ReO4-", 423); ($"SO4--", 315); ($"Sr++", 300); ($"Zn++", 262)].
Fixpoint radius_of (m : Charged) (table : list (str * Z)) (name : str) : outcome (Charged * option Z) :=
  match table with
  | [] => Ok (m, None)
  | (key, r) :: table' => bind (isAlternativeChargedSpeciesName m name key) (fun '(m', b) => if b : bool then Ok (m', Some r) else radius_of m' table' name)
  end.
(* ActivityModelHKF.cpp:268-291, for the integer charge of the species. *)
Definition effectiveIonicRadius (m : Charged) (name : str) (Zi : Z) : outcome (Charged * Q) :=
  omap (fun '(m', r) => (m', match r with
    | Some v => (inject_Z v / 100)%Q
    | None =>
      if Z.eqb Zi (-1) then (181 # 100)%Q else if Z.eqb Zi (-2) then 3%Q else if Z.eqb Zi (-3) then (42 # 10)%Q else
      if Z.eqb Zi 1 then (231 # 100)%Q else if Z.eqb Zi 2 then (28 # 10)%Q else if Z.eqb Zi 3 then (36 # 10)%Q else if Z.eqb Zi 4 then (45 # 10)%Q else
      if Z.ltb Zi (-3) then (- inject_Z Zi * (42 # 10) / 3)%Q else (inject_Z Zi * (45 # 10) / 4)%Q
    end)) (radius_of m effective_radii name).
