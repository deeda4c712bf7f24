(* Writing of databases as documents (Serialization/Core.YAML.cpp). *)
From Verif Require Import Base M_Strings M_Algorithms M_Formula M_Chem M_System M_Yaml M_DatabaseYaml.

(* ---- Numbers in a stream ---- *)
(* The number of decimal digits of a positive number. *)
Fixpoint decimals_in (fuel : nat) (n : N) : nat :=
  match fuel with O => 1 | S f => if (n <? 10)%N then 1 else S (decimals_in f (n / 10)) end.
Definition decimals (n : N) : nat := decimals_in (N.to_nat (N.log2 n)) n.
(* num/den rounded to an integer, half to even. *)
Definition round_even (num den : N) : N :=
  let q := (num / den)%N in
  let r := (2 * (num mod den))%N in
  if (r <? den)%N then q else if (den <? r)%N then N.succ q else if N.even q then q else N.succ q.
(* The decimal exponent of a number that is not zero, 10^x <= |q| < 10^(x+1). *)
Definition exponent (q : Q) : Z :=
  let n := Z.abs_N (Qnum q) in
  let d := N.pos (Qden q) in
  let k := (Z.of_nat (decimals n) - Z.of_nat (decimals d))%Z in
  if Qle_bool (Qpower (10#1) k) (Z.of_N n # Qden q) then k else (k - 1)%Z.
(* Six significant digits and the exponent, after rounding. *)
Definition six_digits (q : Q) : N * Z :=
  let x := exponent q in
  let n := Z.abs_N (Qnum q) in
  let d := N.pos (Qden q) in
  let m := round_even (n * 10 ^ Z.to_N (5 - x)) (d * 10 ^ Z.to_N (x - 5)) in
  if (m =? 1000000)%N then (100000%N, (x + 1)%Z) else (m, x).
(* Zeros at the end are not written. *)
Fixpoint strip (s : str) : str :=
  match s with
  | [] => []
  | c :: s' => match strip s' with [] => if Ascii.eqb c "0"%char then [] else [c] | t => c :: t end
  end.
Definition point (fp : str) : str := match fp with [] => [] | _ => "."%char :: fp end.
Definition two_digits (n : N) : str := if (n <? 10)%N then "0"%char :: N_to_string n else N_to_string n.
(* operator<< of std::ostream for a double, with the default precision of six digits
   and the default notation: printf's %.6g.  Zero has no sign here, and infinite
   numbers and NaN are left out. *)
Definition ostream (q : Q) : str :=
  if Qeq_bool q 0 then $"0" else
  (if (Qnum q <? 0)%Z then ["-"%char] else []) ++
  let (m, x) := six_digits q in
  let ds := print_fixed 6 m [] in
  if (x <? -4)%Z || (6 <=? x)%Z then
    firstn 1 ds ++ point (strip (skipn 1 ds)) ++ "e"%char :: (if (x <? 0)%Z then "-"%char else "+"%char) :: two_digits (Z.abs_N x)
  else if (x <? 0)%Z then "0"%char :: "."%char :: repeat "0"%char (Z.to_nat (- x - 1)) ++ strip ds
  else firstn (Z.to_nat (x + 1)) ds ++ point (strip (skipn (Z.to_nat (x + 1)) ds)).

(* ---- Documents ---- *)
(* Core/ElementalComposition.cpp:87-94 and Serialization/Core.YAML.cpp:150-153: the
   loops, over the words. *)
Definition coefficients_text (l : list (str * Q)) : str := join (map (fun p => ostream (snd p) ++ ":"%char :: fst p) l) $" ".

Section Writer.
(* How yaml-cpp writes numbers. *)
Variable printQ : Q -> str.
Variable print : double -> str.
Variable printN : nat -> str.

(* Common/YAML.hpp:57-62, appendIfNotDefault: the children to add. *)
Definition unless (default : bool) (key : str) (v : yaml) : list (str * yaml) := if default then [] else [(key, v)].
Definition strings (l : list str) : yaml := YSeq (map YScalar l).
(* Serialization/Core.YAML.cpp:95-101, with Core/Element.cpp:122-140. *)
Definition encodeElement (e : Element) : yaml :=
  YMap ([($"Symbol", YScalar (el_symbol e)); ($"MolarMass", YScalar (printQ (el_mass e)))] ++
    unless (match el_name e with [] => true | _ => false end) $"Name" (YScalar (el_name e)) ++
    unless (match el_tags e with [] => true | _ => false end) $"Tags" (strings (el_tags e))).
(* Serialization/Core.YAML.cpp:148-160, with Core/Model.hpp:167-170.  The model of the
   standard volume of the product is left out: a reaction made by the parser has none
   that is initialized. *)
Definition encodeReaction (reactants : list (Loaded * Q)) (m : RxnModel) : yaml :=
  YMap [($"Reactants", YScalar (coefficients_text (map (fun p => (ld_name (fst p), snd p)) reactants)));
        ($"ReactionThermoModel", serializeRxn print m)].
(* Serialization/Core.YAML.cpp:218-230, with Core/Species.cpp:236-285 and
   Core/Model.hpp:109-115: a memoized model has the serializer of the model.  The
   model of a species whose reaction has no reactants is that of its attributes;
   without any the default one has no serializer. *)
Definition encodeSpecies (l : Loaded) : outcome yaml :=
  let s := ld_species l in
  bind (substance s) (fun sub =>
  bind (aggregateState s) (fun a =>
  Ok (YMap ([($"Name", YScalar (name s)); ($"Formula", YScalar (sp_formula s)); ($"Substance", YScalar sub);
     ($"Elements", YScalar (coefficients_text (map (fun p => (el_symbol (fst p), snd p)) (sp_elements s))))] ++
    unless (Qeq_bool (sp_charge s) 0) $"Charge" (YScalar (printQ (sp_charge s))) ++
    [($"AggregateState", YScalar (state_name a))] ++
    match ld_reaction l with
    | Some (r :: rs, m) => [($"FormationReaction", encodeReaction (r :: rs) m)]
    | _ => [($"StandardThermoModel", match ld_model l with Some m => serializeStd print printN m | None => YNull end)]
    end ++
    unless (match sp_tags s with [] => true | _ => false end) $"Tags" (strings (sp_tags s)))))).
(* A list with no items is written as nothing: Core.YAML.cpp:115-119 and 128-132 and
   239-243 and 252-256. *)
Definition sequence (l : list yaml) : yaml := match l with [] => YNull | _ => YSeq l end.
(* Serialization/Core.YAML.cpp:79-85. *)
Definition encodeDatabase (els : list Element) (sps : list Loaded) : outcome yaml :=
  omap (fun nodes => YMap [($"Elements", sequence (map encodeElement els)); ($"Species", sequence nodes)]) (mapM encodeSpecies sps).
(* A database made from a document, DatabaseParserYAML.cpp:262-265, written.  The
   species are those of the parser, with their reactions and models (none is renamed
   by the database). *)
Definition write (p : Parsed) : outcome yaml := bind (toDatabase p) (fun db => encodeDatabase (db_elements db) (pa_species p)).
End Writer.
