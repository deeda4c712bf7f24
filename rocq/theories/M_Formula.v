(* Model of Reaktoro/Common/ParseUtils.cpp (formulas and charges) and of
   splitSpeciesNameSuffix in Reaktoro/Common/NamingUtils.cpp. *)
From Verif Require Import Base M_Strings.

(* ---------------------------------------------------- numbers (C library) *)

Definition dot : ascii := "."%char.

Definition digits_Z (s : str) : Z := fold_left (fun acc c => 10 * acc + digit_val c)%Z s 0%Z.

(* strtod of the C library on decimal text: white space, optional sign, digits
   with an optional point, optional exponent.  Returns None when no conversion
   can be performed.  Simplification: the spellings inf, nan and hexadecimal
   floats are not recognised, and values are exact rationals. *)
Definition strtod (s : str) : option Q :=
  let s := trimleft s in
  let '(neg, s) := match s with
                   | "-"%char :: s' => (true, s')
                   | "+"%char :: s' => (false, s')
                   | _ => (false, s)
                   end in
  let '(ip, r1) := span isdigit s in
  let '(fp, r2) := match r1 with
                   | "."%char :: r => span isdigit r
                   | _ => ([], r1)
                   end in
  match ip ++ fp with
  | [] => None
  | ds =>
    let e := match r2 with
             | c :: r =>
               if Ascii.eqb c "e"%char || Ascii.eqb c "E"%char then
                 let '(eneg, r) := match r with
                                   | "-"%char :: r' => (true, r')
                                   | "+"%char :: r' => (false, r')
                                   | _ => (false, r)
                                   end in
                 let ed := digits_Z (fst (span isdigit r)) in
                 (if eneg : bool then - ed else ed)%Z
               else 0%Z
             | [] => 0%Z
             end in
    let m := (inject_Z (digits_Z ds) * Qpower (10#1) (e - Z.of_nat (length fp)))%Q in
    Some (if neg then (- m)%Q else m)
  end.

(* atof: 0.0 when no conversion can be performed. *)
Definition atof (s : str) : Q := match strtod s with Some q => q | None => 0%Q end.

(* std::stod throws std::invalid_argument when no conversion can be performed
   (std::out_of_range is not modelled: values are exact). *)
Definition stod (s : str) : outcome Q := match strtod s with Some q => Ok q | None => Err end.

(* ---------------------------------------------------------------- formula *)

(* Reaktoro/Common/ParseUtils.cpp:31-38, parseElementAtom. *)
Definition parseElementAtom (s : str) : str * str :=
  match s with
  | [] => ([], [])
  | c :: s' =>
    let (low, rest) := span (fun c => negb (isupper c || negb (isalpha c))) s' in
    if islower c then ([], rest) else (c :: low, rest)
  end.

Definition isnumchar (c : ascii) : bool := isdigit c || Ascii.eqb c dot.

(* Reaktoro/Common/ParseUtils.cpp:40-47, parseNumAtoms. *)
Definition parseNumAtoms (s : str) : Q * str :=
  match s with
  | [] => (1%Q, [])
  | c :: _ =>
    if negb (isnumchar c) then (1%Q, s)
    else let (num, rest) := span isnumchar s in (atof num, rest)
  end.

(* Reaktoro/Common/ParseUtils.cpp:119-123: accumulate into the result list. *)
Fixpoint add_coeff (result : list (str * Q)) (element : str) (q : Q) : list (str * Q) :=
  match result with
  | [] => [(element, q)]
  | (e, p) :: result' =>
    if str_eqb e element then (e, (p + q)%Q) :: result'
    else (e, p) :: add_coeff result' element q
  end.

(* Reaktoro/Common/ParseUtils.cpp:77-130, parseChemicalFormulaAux.  The range
   [begin, end) is the string argument.  Lines 49-61 (findMatchedParenthesis)
   are the same loop as in StringList.cpp, see match_bracket; when it returns
   [end], line 90 dereferences end + 1: UB. *)
Fixpoint parseFormulaAux (fuel : nat) (s : str) (result : list (str * Q)) (scalar : Q)
  : outcome (list (str * Q)) :=
  match fuel with
  | O => UB
  | S fuel' =>
    match s with
    | [] => Ok result
    | c :: s' =>
      if negb (Ascii.eqb c lpar) && negb (Ascii.eqb c dot) && negb (isupper c) then
        parseFormulaAux fuel' s' result scalar
      else if Ascii.eqb c lpar then
        match match_bracket 0 s' with
        | (_, []) => UB
        | (inside, _ :: after) =>
          let (number, rest) := parseNumAtoms after in
          bind (parseFormulaAux fuel' inside result (scalar * number)%Q)
               (fun result1 => parseFormulaAux fuel' rest result1 scalar)
        end
      else if Ascii.eqb c dot then
        let (number, rest) := parseNumAtoms s' in
        parseFormulaAux fuel' rest result (scalar * number)%Q
      else
        let (element, rest1) := parseElementAtom s in
        let (natoms, rest2) := parseNumAtoms rest1 in
        parseFormulaAux fuel' rest2 (add_coeff result element (scalar * natoms)%Q) scalar
    end
  end.

(* Reaktoro/Common/ParseUtils.cpp:132-138, parseChemicalFormula. *)
Definition parseChemicalFormula (formula : str) : outcome (list (str * Q)) :=
  parseFormulaAux (S (length formula)) formula [] 1%Q.

(* ----------------------------------------------------------------- charge *)

(* std::string::find_last_of(c) / rfind(c): index of the last occurrence. *)
Fixpoint rfind (c : ascii) (s : str) : option nat :=
  match s with
  | [] => None
  | x :: s' => match rfind c s' with
               | Some k => Some (S k)
               | None => if Ascii.eqb x c then Some 0 else None
               end
  end.

(* Reaktoro/Common/NamingUtils.cpp:191-204, splitSpeciesNameSuffix.  back() of
   an empty string is UB.  With no '(' in the name pos is npos, so pos + 1 wraps
   to 0 and name.size() - pos - 2 to name.size() - 1, and substr(0, npos) is the
   whole name. *)
Definition splitSpeciesNameSuffix (name : str) : outcome (str * str) :=
  match last_opt name with
  | None => UB
  | Some c =>
    if negb (Ascii.eqb c rpar) then Ok (name, [])
    else
      let '(base, suffix) :=
        match rfind lpar name with
        | Some pos => (firstn pos name, firstn (length name - pos - 2) (skipn (pos + 1) name))
        | None => (name, firstn (length name - 1) name)
        end in
      if existsb isupper suffix then Ok (name, []) else Ok (base, suffix)
  end.

(* Reaktoro/Common/ParseUtils.cpp:166-168: the while loop, over the characters
   from the last to the first.  Reaching the front of the string reads
   formula[ilast - i] with i = ilast + 1, i.e. out of range: UB. *)
Fixpoint count_run (sign : ascii) (rev_formula : str) : outcome Z :=
  match rev_formula with
  | [] => UB
  | c :: r => if Ascii.eqb c sign then omap (Z.add 1) (count_run sign r) else Ok 0%Z
  end.

(* Reaktoro/Common/ParseUtils.cpp:159-173, parseElectricChargeModeMultipleSigns.
   (line 164 tests sign != 0, true for every character of a name; a NUL
   character as last character is not modelled). *)
Definition chargeMultipleSigns (formula : str) : outcome Z :=
  match last_opt formula with
  | None => UB
  | Some sign =>
    let signval := if Ascii.eqb sign "+" then 1%Z else if Ascii.eqb sign "-" then (-1)%Z else 0%Z in
    omap (fun i => (i * signval)%Z) (count_run sign (rev formula))
  end.

(* Reaktoro/Common/ParseUtils.cpp:175-193, parseElectricChargeModeNumberSignBetweenBrackets.
   back() on an empty string is UB. *)
Definition chargeBrackets (formula : str) : outcome Q :=
  match last_opt formula with
  | None => UB
  | Some c =>
    if negb (Ascii.eqb c "]") then Ok 0%Q
    else match rfind "[" formula with
         | None => Ok 0%Q
         | Some iparbegin =>
           match nth_error formula (length formula - 2) with
           | None => UB
           | Some s =>
             let sign := if Ascii.eqb s "+" then 1%Q else if Ascii.eqb s "-" then (-1)%Q else 0%Q in
             if Qeq_bool sign 0 then Ok 0%Q
             else match firstn (length formula - 2 - (iparbegin + 1)) (skipn (iparbegin + 1) formula) with
                  | [] => Ok sign
                  | digits => omap (Qmult sign) (stod digits)
                  end
           end
         end
  end.

(* Reaktoro/Common/ParseUtils.cpp:140-157, parseElectricChargeModeSignNumber.
   npos is the largest size_t, hence std::min picks the smaller defined index. *)
Definition chargeSignNumber (formula : str) : outcome Q :=
  let pick (imin : nat) (sign : Q) :=
    if Nat.eqb (imin + 1) (length formula) then Ok sign
    else omap (Qmult sign) (stod (skipn (imin + 1) formula)) in
  match rfind "+" formula, rfind "-" formula with
  | None, None => Ok 0%Q
  | Some ipos, None => pick ipos 1%Q
  | None, Some ineg => pick ineg (-1)%Q
  | Some ipos, Some ineg => if Nat.leb ipos ineg then pick ipos 1%Q else pick ineg (-1)%Q
  end.

(* Reaktoro/Common/ParseUtils.cpp:195-205, parseElectricCharge. *)
Definition parseElectricCharge (formula : str) : outcome Q :=
  bind (splitSpeciesNameSuffix formula) (fun '(formula0, _) =>
  bind (chargeMultipleSigns formula0) (fun c1 =>
  if negb (Z.eqb c1 0) then Ok (inject_Z c1) else
  bind (chargeBrackets formula0) (fun c2 =>
  if negb (Qeq_bool c2 0) then Ok c2 else
  bind (chargeSignNumber formula0) (fun c3 =>
  if negb (Qeq_bool c3 0) then Ok c3 else Ok 0%Q)))).
