(* Model of Reaktoro/Extensions/Supcrt/SupcrtDatabase.cpp: reading of species and
   their parameters from a document.  The document is the tree that pugixml gives:
   an element has a name, its first text (if any) and its elements. *)
From Verif Require Import Base M_Strings M_Formula M_Chem M_Algorithms M_System.

Inductive xml := Elt (x_name : str) (x_text : option str) (x_children : list xml).
Definition x_name (n : xml) : str := let 'Elt a _ _ := n in a.
(* xml_node::child, children and text of pugixml; no node has no children. *)
Definition child (n : option xml) (name : str) : option xml :=
  match n with Some (Elt _ _ l) => find (fun c => str_eqb (x_name c) name) l | None => None end.
Definition children (n : option xml) (name : str) : list xml :=
  match n with Some (Elt _ _ l) => List.filter (fun c => str_eqb (x_name c) name) l | None => [] end.
Definition text (n : option xml) : option str := match n with Some (Elt _ t _) => t | None => None end.
(* SupcrtDatabase.cpp:95-99, the C locale. *)
Definition tolower (c : ascii) : ascii := if isupper c then ascii_of_N (code c + 32) else c.
Definition lowercase (s : str) : str := map tolower s.

(* SupcrtParams.hpp:27-124. *)
Record Solute (A : Type) := mkSolute { so_name : str; so_charge : A; so_Gf : A; so_Hf : A; so_Sr : A; so_a1 : A; so_a2 : A; so_a3 : A; so_a4 : A; so_c1 : A; so_c2 : A; so_wref : A }.
Record MaierKelly (A : Type) := mkMaierKelly { ga_name : str; ga_Gf : A; ga_Hf : A; ga_Sr : A; ga_a : A; ga_b : A; ga_c : A; ga_Tmax : A }.
Record Mineral (A : Type) := mkMineral { mn_name : str; mn_Gf : A; mn_Hf : A; mn_Sr : A; mn_Vr : A; mn_nptrans : nat; mn_a : list A; mn_b : list A; mn_c : list A;
  mn_Ttr : list A; mn_Htr : list A; mn_Vtr : list A; mn_dPdTtr : list A; mn_Tmax : A }.
Arguments mkSolute {A}. Arguments so_name {A}. Arguments so_charge {A}. Arguments so_Gf {A}. Arguments so_Hf {A}. Arguments so_Sr {A}. Arguments so_a1 {A}.
Arguments so_a2 {A}. Arguments so_a3 {A}. Arguments so_a4 {A}. Arguments so_c1 {A}. Arguments so_c2 {A}. Arguments so_wref {A}.
Arguments mkMaierKelly {A}. Arguments ga_name {A}. Arguments ga_Gf {A}. Arguments ga_Hf {A}. Arguments ga_Sr {A}. Arguments ga_a {A}. Arguments ga_b {A}. Arguments ga_c {A}. Arguments ga_Tmax {A}.
Arguments mkMineral {A}. Arguments mn_name {A}. Arguments mn_Gf {A}. Arguments mn_Hf {A}. Arguments mn_Sr {A}. Arguments mn_Vr {A}. Arguments mn_nptrans {A}. Arguments mn_a {A}. Arguments mn_b {A}.
Arguments mn_c {A}. Arguments mn_Ttr {A}. Arguments mn_Htr {A}. Arguments mn_Vtr {A}. Arguments mn_dPdTtr {A}. Arguments mn_Tmax {A}.
Inductive Params := Solvent | SoluteOf (p : Solute Q) | GasOf (p : MaierKelly Q) | MineralOf (p : Mineral Q).

Section Reader.
(* strtod, which both as_double of pugixml and tofloat (StringUtils.hpp) use, and
   as_int of pugixml. *)
Variable number : str -> Q.
Variable integer : str -> Z.
(* Elements::withSymbol, the elements that are known. *)
Variable elements : list Element.

(* SupcrtDatabase.cpp:71-99. *)
Definition as_int (n : option xml) (c : str) (if_empty : Z) : Z := match text (child n c) with None => if_empty | Some t => integer t end.
Definition as_double (n : option xml) (c : str) (if_empty : Q) : Q := match text (child n c) with None => if_empty | Some t => number t end.
Definition as_text (n : option xml) (c : str) (if_empty : str) : str := match text (child n c) with None => if_empty | Some t => t end.
Definition missing : Q := 999999.
Definition missing_text : str := $"999999".
Definition as_lowercase_text (n : option xml) (c : str) (if_empty : str) : str := lowercase (as_text n c if_empty).
(* SupcrtDatabase.cpp:108-130. *)
Definition parseParamsAqueousSoluteHKF (n : xml) : Solute Q :=
  let node := Some n in
  let hkf := child (child node $"Thermo") $"HKF" in
  mkSolute (as_text node $"Name" missing_text) (as_double node $"Charge" missing)
    (as_double hkf $"Gf" missing) (as_double hkf $"Hf" missing) (as_double hkf $"Sr" missing)
    (as_double hkf $"a1" missing) (as_double hkf $"a2" missing) (as_double hkf $"a3" missing) (as_double hkf $"a4" missing)
    (as_double hkf $"c1" missing) (as_double hkf $"c2" missing) (as_double hkf $"wref" missing).
(* SupcrtDatabase.cpp:133-150. *)
Definition parseParamsMaierKelly (n : xml) : MaierKelly Q :=
  let node := Some n in
  let hkf := child (child node $"Thermo") $"HKF" in
  mkMaierKelly (as_text node $"Name" missing_text)
    (as_double hkf $"Gf" missing) (as_double hkf $"Hf" missing) (as_double hkf $"Sr" missing)
    (as_double hkf $"a" missing) (as_double hkf $"b" missing) (as_double hkf $"c" missing) (as_double hkf $"Tmax" missing).
(* SupcrtDatabase.cpp:153-200.  The number of transitions is stored as an unsigned
   integer; a negative number becomes so large that the loop does not end. *)
Definition range (i : nat) : str := $"TemperatureRange" ++ N_to_string (N.of_nat i).
Definition parseParamsMaierKellyHKF (n : xml) : outcome (Mineral Q) :=
  let node := Some n in
  let hkf := child (child node $"Thermo") $"HKF" in
  let z := as_int hkf $"NumPhaseTrans" 999999%Z in
  if Z.ltb z 0 then UB else
  let nt := Z.to_nat z in
  let over (l : list nat) (c : str) (if_empty : Q) : list Q := map (fun i => as_double (child hkf (range i)) c if_empty) l in
  let abc (c : str) := if Nat.eqb nt 0 then [as_double hkf c missing] else over (seq 0 (S nt)) c missing in
  Ok (mkMineral (as_text node $"Name" missing_text)
    (as_double hkf $"Gf" missing) (as_double hkf $"Hf" missing) (as_double hkf $"Sr" missing) (as_double hkf $"Vr" missing)
    nt (abc $"a") (abc $"b") (abc $"c")
    (over (seq 0 nt) $"Ttr" missing) (over (seq 0 nt) $"Htr" 0%Q) (over (seq 0 nt) $"Vtr" 0%Q) (over (seq 0 nt) $"dPdTtr" 0%Q)
    (as_double hkf $"Tmax" missing)).
(* SupcrtDatabase.cpp:203-212 and 237-246: the same decision for the parameters and
   for the model. *)
Definition parseParams (n : xml) : outcome Params :=
  let formula := as_text (Some n) $"Formula" missing_text in
  let type := as_lowercase_text (Some n) $"Type" missing_text in
  if str_eqb type $"aqueous" && str_eqb formula $"H2O" then Ok Solvent
  else if str_eqb type $"aqueous" then Ok (SoluteOf (parseParamsAqueousSoluteHKF n))
  else if str_eqb type $"gaseous" then Ok (GasOf (parseParamsMaierKelly n))
  else if str_eqb type $"mineral" then omap MineralOf (parseParamsMaierKellyHKF n)
  else Ok (GasOf (parseParamsMaierKelly n)).
(* SupcrtDatabase.cpp:215-223. *)
Fixpoint symbols_of (words : list str) : outcome (list (str * Q)) :=
  match words with
  | [] => Ok []
  | [_] => UB
  | s :: c :: words' => omap (cons (s, number c)) (symbols_of words')
  end.
Definition parseElements (n : xml) : outcome (list (str * Q)) := symbols_of (split (as_text (Some n) $"Elements" missing_text) $"()").
(* SupcrtDatabase.cpp:226-234. *)
Definition parseState (n : xml) : AggregateState :=
  let type := as_lowercase_text (Some n) $"Type" missing_text in
  if str_eqb type $"aqueous" then Aqueous else if str_eqb type $"gaseous" then Gas
  else if str_eqb type $"liquid" then Liquid else if str_eqb type $"mineral" then Solid else Undefined.
(* Core/ElementalComposition.cpp:52-57 and Core/Element.cpp:29-38. *)
Definition composition (pairs : list (str * Q)) : outcome (list (Element * Q)) :=
  mapM (fun p => match find (fun e => str_eqb (el_symbol e) (fst p)) elements with Some e => Ok (e, snd p) | None => Err end) pairs.
(* SupcrtDatabase.cpp:248-259. *)
Definition parseSpecies (n : xml) : outcome (Species * Params) :=
  bind (parseElements n) (fun pairs =>
  bind (composition pairs) (fun es =>
  bind (parseParams n) (fun p =>
  Ok (mkSpecies (as_text (Some n) $"Name" missing_text) (as_text (Some n) $"Formula" missing_text) [] es
        (as_double (Some n) $"Charge" 0%Q) (parseState n) [], p)))).
(* SupcrtDatabase.cpp:261-270; the parameters in the order of the species. *)
Definition addParsed (st : Database * list Params) (n : xml) : outcome (Database * list Params) :=
  bind (parseSpecies n) (fun sp => omap (fun db => (db, snd st ++ [snd sp])) (addSpecies (fst st) (fst sp))).
Fixpoint addAll (st : Database * list Params) (l : list xml) : outcome (Database * list Params) :=
  match l with [] => Ok st | n :: l' => bind (addParsed st n) (fun st' => addAll st' l') end.
Definition parseDatabase (doc : xml) : outcome (Database * list Params) :=
  addAll (emptyDB, []) (children (child (Some doc) $"Database") $"Species").
End Reader.
