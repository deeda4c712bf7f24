(* Model of the species, database, phase and chemical system classes of
   Reaktoro/Core. *)
From Verif Require Import Base M_Strings M_Formula M_Chem M_Algorithms.

(* Reaktoro/Core/AggregateState.hpp:31-50. *)
Inductive AggregateState :=
| Gas | Liquid | Solid | Plasma | CondensedPhase | Fluid | LiquidCrystal | CrystallineSolid | AmorphousSolid
| Vitreous | Adsorbed | Monomeric | Polymeric | SolidSolution | IonExchange | Aqueous | Undefined.
Scheme Equality for AggregateState.
Definition state_eqb := AggregateState_beq.

(* Reaktoro/Core/AggregateState.cpp:28-51, operator<<. *)
Definition state_name (a : AggregateState) : str :=
  match a with
  | Gas => $"Gas" | Liquid => $"Liquid" | Solid => $"Solid" | Plasma => $"Plasma" | CondensedPhase => $"CondensedPhase"
  | Fluid => $"Fluid" | LiquidCrystal => $"LiquidCrystal" | CrystallineSolid => $"CrystallineSolid"
  | AmorphousSolid => $"AmorphousSolid" | Vitreous => $"Vitreous" | Adsorbed => $"Adsorbed" | Monomeric => $"Monomeric"
  | Polymeric => $"Polymeric" | SolidSolution => $"SolidSolution" | IonExchange => $"IonExchange" | Aqueous => $"Aqueous"
  | Undefined => $"Undefined"
  end.

(* Reaktoro/Core/AggregateState.cpp:79-94, in the order of the tests. *)
Definition state_symbols : list (str * AggregateState) := [
  ($"g", Gas); ($"l", Liquid); ($"s", Solid); ($"pl", Plasma); ($"cd", CondensedPhase); ($"fl", Fluid);
  ($"lc", LiquidCrystal); ($"cr", CrystallineSolid); ($"am", AmorphousSolid); ($"vit", Vitreous);
  ($"ads", Adsorbed); ($"mon", Monomeric); ($"pol", Polymeric); ($"ss", SolidSolution); ($"ex", IonExchange);
  ($"aq", Aqueous)].

Fixpoint first_state (table : list (str * AggregateState)) (words : list str) : option AggregateState :=
  match table with
  | [] => None
  | (w, a) :: t => if contains str_eqb words w then Some a else first_state t words
  end.

(* Reaktoro/Core/AggregateState.cpp:53-72, parseAggregateState, in the order of
   the tests. *)
Definition parseAggregateState (symbol : str) : AggregateState :=
  match find (fun p => str_eqb symbol (fst p) || str_eqb symbol (state_name (snd p))) state_symbols with
  | Some p => snd p
  | None => Undefined
  end.

(* Reaktoro/Core/AggregateState.cpp:74-97, identifyAggregateState. *)
Definition identifyAggregateState (substance : str) : outcome AggregateState :=
  bind (splitSpeciesNameSuffix substance) (fun ns =>
  match first_state state_symbols (split (snd ns) $" ,") with
  | Some a => Ok a
  | None => omap (fun q => if negb (Qeq_bool q 0) then Aqueous else Undefined) (parseElectricCharge (fst ns))
  end).

(* Reaktoro/Core/Element.cpp: the attributes used here. *)
Record Element := mkElem { el_symbol : str; el_name : str; el_mass : Q; el_tags : list str }.

(* Reaktoro/Core/Species.cpp:55-87: name, formula, substance, elements, charge,
   aggregate_state, tags.  Thermodynamic models, formation reaction and attached
   data are left out. *)
Record Species := mkSpecies {
  sp_name : str; sp_formula : str; sp_substance : str; sp_elements : list (Element * Q); sp_charge : Q;
  sp_state : AggregateState; sp_tags : list str }.

(* Reaktoro/Core/Species.cpp:160-165 and 195-200, withName, withAggregateState. *)
Definition with_name (s : Species) (n : str) : Species :=
  mkSpecies n (sp_formula s) (sp_substance s) (sp_elements s) (sp_charge s) (sp_state s) (sp_tags s).
Definition with_state (s : Species) (a : AggregateState) : Species :=
  mkSpecies (sp_name s) (sp_formula s) (sp_substance s) (sp_elements s) (sp_charge s) a (sp_tags s).

(* Reaktoro/Core/Species.cpp:236-241, name(). *)
Definition name (s : Species) : str := match sp_name s with [] => sp_formula s | n => n end.
(* Reaktoro/Core/Species.cpp:243-246, formula(). *)
Definition formula (s : Species) : ChemicalFormula :=
  {| cf_str := sp_formula s; cf_elements := map (fun p => (el_symbol (fst p), snd p)) (sp_elements s);
     cf_charge := sp_charge s |}.
(* Reaktoro/Core/Species.cpp:248-253, substance(). *)
Definition substance (s : Species) : outcome str :=
  match sp_substance s with [] => omap fst (splitSpeciesNameSuffix (name s)) | x => Ok x end.
(* Reaktoro/Core/Species.cpp:265-270, aggregateState(). The default constructor leaves the
   stored state uninitialised; species built that way are not modelled. *)
Definition aggregateState (s : Species) : outcome AggregateState :=
  match sp_state s with Undefined => identifyAggregateState (name s) | a => Ok a end.
(* Reaktoro/Core/ElementalComposition.cpp:64-67, symbols(). *)
Definition symbols (s : Species) : list str := map (fun p => el_symbol (fst p)) (sp_elements s).
(* Reaktoro/Core/ElementalComposition.cpp:74-80, coefficient(symbol). *)
Fixpoint el_coefficient (l : list (Element * Q)) (symbol : str) : Q :=
  match l with
  | [] => 0
  | (e, q) :: l' => if str_eqb (el_symbol e) symbol then q else el_coefficient l' symbol
  end%Q.
(* Reaktoro/Core/ElementalComposition.cpp:29-35 and Reaktoro/Core/Species.cpp:292-295. *)
Definition elements_mass (l : list (Element * Q)) : Q :=
  fold_left (fun m p => (m + el_mass (fst p) * snd p)%Q) l 0%Q.
Definition molarMass (s : Species) : Q := (elements_mass (sp_elements s) - sp_charge s * molarMassElectron)%Q.

(* Sequential evaluation of a query whose predicate may throw. *)
Fixpoint ofilter {A} (f : A -> outcome bool) (l : list A) : outcome (list A) :=
  match l with
  | [] => Ok []
  | x :: l' => bind (f x) (fun b => bind (ofilter f l') (fun r => Ok (if b then x :: r else r)))
  end.
Fixpoint oindex {A} (f : A -> outcome bool) (l : list A) : outcome nat :=
  match l with
  | [] => Ok 0
  | x :: l' => bind (f x) (fun b => if b then Ok 0 else omap S (oindex f l'))
  end.

(* ---- SpeciesList ---- *)
(* Reaktoro/Core/SpeciesList.hpp:101-104, 107-110 and 113-116. *)
Definition findWithName (l : list Species) (n : str) : nat := indexfn l (fun s => str_eqb (name s) n).
Definition findWithFormula (l : list Species) (f : ChemicalFormula) : nat := indexfn l (fun s => equivalent f (formula s)).
Definition findWithSubstance (l : list Species) (x : str) : outcome nat :=
  oindex (fun s => omap (fun y => str_eqb y x) (substance s)) l.
(* Reaktoro/Core/SpeciesList.hpp:125-130 and 155-158: index or throw, then access. *)
Definition at_index (l : list Species) (i : nat) : outcome Species :=
  match nth_error l i with Some s => Ok s | None => Err end.
Definition getWithName (l : list Species) (n : str) : outcome Species := at_index l (findWithName l n).
(* Reaktoro/Core/SpeciesList.hpp:173-176, 179-182 and 185-188. *)
Definition withNames (l : list Species) (names : list str) : outcome (list Species) := mapM (getWithName l) names.
Definition withFormulas (l : list Species) (formulas : list str) : outcome (list Species) :=
  mapM (fun f => bind (mkChemicalFormula f) (fun cf => at_index l (findWithFormula l cf))) formulas.
Definition withSubstances (l : list Species) (xs : list str) : outcome (list Species) :=
  mapM (fun x => bind (findWithSubstance l x) (at_index l)) xs.
(* Reaktoro/Core/SpeciesList.hpp:191-194. *)
Definition withAggregateState (l : list Species) (a : AggregateState) : outcome (list Species) :=
  ofilter (fun s => omap (fun b => state_eqb b a) (aggregateState s)) l.
(* Reaktoro/Core/SpeciesList.hpp:197-202 and 205-210. *)
Definition withTag (l : list Species) (tag : str) : list Species :=
  match tag with [] => [] | _ => filter l (fun s => contains str_eqb (sp_tags s) tag) end.
Definition withoutTag (l : list Species) (tag : str) : list Species :=
  match tag with [] => l | _ => filter l (fun s => negb (contains str_eqb (sp_tags s) tag)) end.
(* Reaktoro/Core/SpeciesList.hpp:213-218 and 221-226. *)
Definition withTags (l : list Species) (tags : list str) : list Species :=
  match tags with [] => [] | _ => filter l (fun s => M_Algorithms.contained str_eqb tags (sp_tags s)) end.
Definition withoutTags (l : list Species) (tags : list str) : list Species :=
  match tags with [] => l | _ => filter l (fun s => negb (M_Algorithms.contained str_eqb tags (sp_tags s))) end.
(* Reaktoro/Core/SpeciesList.hpp:240-243. *)
Definition withElements (l : list Species) (syms : list str) : list Species :=
  filter l (fun s => M_Algorithms.contained str_eqb (symbols s) syms).

(* operator< on std::string: lexicographic on unsigned characters. *)
Fixpoint str_ltb (a b : str) : bool :=
  match a, b with
  | _, [] => false
  | [], _ => true
  | x :: a', y :: b' => N.ltb (code x) (code y) || (N.eqb (code x) (code y) && str_ltb a' b')
  end.
Definition merge_str := merge str_eqb str_ltb.

(* Reaktoro/Core/SpeciesList.hpp:258-264. *)
Fixpoint formulas_symbols (acc : list str) (formulas : list str) : outcome (list str) :=
  match formulas with
  | [] => Ok acc
  | f :: fs => bind (mkChemicalFormula f) (fun cf => formulas_symbols (merge_str acc (map fst (cf_elements cf))) fs)
  end.
Definition withElementsOf (l : list Species) (formulas : list str) : outcome (list Species) :=
  omap (withElements l) (formulas_symbols [] formulas).

(* ---- Database ---- *)
(* Reaktoro/Core/Database.cpp:35-53, Database::Impl. *)
Record Database := mkDB {
  db_species : list Species; db_elements : list Element; db_symbols : list str; db_names : list str;
  db_groups : list (AggregateState * list Species) }.
Definition emptyDB : Database := mkDB [] [] [] [] [].

(* Reaktoro/Core/Database.cpp:56-63, addElement. *)
Definition addElement (db : Database) (e : Element) : Database :=
  if contains str_eqb (db_symbols db) (el_symbol e) then db
  else mkDB (db_species db) (db_elements db ++ [e]) (el_symbol e :: db_symbols db) (db_names db) (db_groups db).

(* Reaktoro/Core/Database.cpp:70-72: the while loop. *)
Fixpoint unique_name (fuel : nat) (names : list str) (n : str) : outcome str :=
  match fuel with
  | O => UB
  | S f => if contains str_eqb names n then unique_name f names (n ++ $"!") else Ok n
  end.

Fixpoint add_group (g : list (AggregateState * list Species)) (a : AggregateState) (s : Species)
  : list (AggregateState * list Species) :=
  match g with
  | [] => [(a, [s])]
  | (b, l) :: g' => if state_eqb b a then (b, l ++ [s]) :: g' else (b, l) :: add_group g' a s
  end.

(* Reaktoro/Core/Database.cpp:66-105, addSpecies. *)
Definition addSpecies (db : Database) (s0 : Species) : outcome Database :=
  bind (unique_name (S (length (db_names db))) (db_names db) (name s0)) (fun u =>
  let s1 := if str_eqb (name s0) u then s0 else with_name s0 u in
  bind (aggregateState s1) (fun a1 =>
  let s2 := match a1 with Undefined => with_state s1 Aqueous | _ => s1 end in
  let db1 := mkDB (db_species db ++ [s2]) (db_elements db) (db_symbols db) (name s2 :: db_names db) (db_groups db) in
  let db2 := fold_left addElement (map fst (sp_elements s2)) db1 in
  bind (aggregateState s2) (fun a2 =>
  Ok (mkDB (db_species db2) (db_elements db2) (db_symbols db2) (db_names db2) (add_group (db_groups db2) a2 s2))))).

(* Histories of public calls, Database.cpp:118-131 and 146-165, by a caller who
   catches exceptions.  addSpecies can only throw in the first call of
   aggregateState(), line 91, before anything is stored, so the database is then
   as before. *)
Inductive dbop := OpElement (e : Element) | OpSpecies (s : Species) | OpClear.
Definition dbstep (db : Database) (op : dbop) : outcome Database :=
  match op with
  | OpElement e => Ok (addElement db e)
  | OpSpecies s => match addSpecies db s with Err => Ok db | o => o end
  | OpClear => Ok emptyDB
  end.
Fixpoint dbrun (db : Database) (ops : list dbop) : outcome Database :=
  match ops with
  | [] => Ok db
  | op :: ops' => bind (dbstep db op) (fun db' => dbrun db' ops')
  end.

(* Reaktoro/Core/Database.cpp:182-188. *)
Fixpoint find_group (g : list (AggregateState * list Species)) (a : AggregateState) : list Species :=
  match g with
  | [] => []
  | (b, l) :: g' => if state_eqb b a then l else find_group g' a
  end.
Definition speciesWithAggregateState (db : Database) (a : AggregateState) : list Species := find_group (db_groups db) a.

(* ---- Phase and PhaseList ---- *)
(* Reaktoro/Core/Phase.cpp:48-67; state of matter and activity models left out. *)
Record Phase := mkPhase { ph_name : str; ph_species : list Species }.

(* Reaktoro/Core/Phase.cpp:36-44: species[0] of an empty list is UB. *)
Fixpoint all_state (a : AggregateState) (l : list Species) : outcome unit :=
  match l with
  | [] => Ok tt
  | s :: l' => bind (aggregateState s) (fun b => if state_eqb b a then all_state a l' else Err)
  end.
Definition ensureCommonAggregateState (l : list Species) : outcome unit :=
  match l with
  | [] => UB
  | s0 :: _ => bind (aggregateState s0) (fun a => all_state a l)
  end.
(* Reaktoro/Core/Phase.cpp:87-94, withSpecies. *)
Definition withSpecies (p : Phase) (l : list Species) : outcome Phase :=
  bind (ensureCommonAggregateState l) (fun _ => Ok (mkPhase (ph_name p) l)).

(* Reaktoro/Core/PhaseList.hpp:96-105, findWithSpecies(index). *)
Fixpoint find_phase (phases : list Phase) (i : nat) (counter : nat) (index : nat) : nat :=
  match phases with
  | [] => i
  | p :: ps => let counter' := counter + length (ph_species p) in
               if index <? counter' then i else find_phase ps (S i) counter' index
  end.
Definition findWithSpecies (phases : list Phase) (index : nat) : nat := find_phase phases 0 0 index.
(* Reaktoro/Core/PhaseList.hpp:108-111. *)
Definition findWithSpeciesName (phases : list Phase) (n : str) : nat :=
  indexfn phases (fun p => containsfn (ph_species p) (fun s => str_eqb (name s) n)).
(* Reaktoro/Core/PhaseList.hpp:190-196: m_phases[i] out of range is UB. *)
Fixpoint numSpeciesUntilPhase (phases : list Phase) (iphase : nat) : outcome nat :=
  match iphase, phases with
  | O, _ => Ok 0
  | S k, [] => UB
  | S k, p :: ps => omap (Nat.add (length (ph_species p))) (numSpeciesUntilPhase ps k)
  end.

(* ---- Phases ---- *)
(* Reaktoro/Core/Phases.hpp: GenericPhase and GenericPhasesGenerator, without
   state of matter and activity models. *)
Record GenericPhase := mkGP {
  gp_name : str; gp_state : AggregateState; gp_names : list str; gp_symbols : list str; gp_exclude : list str }.

(* Reaktoro/Core/Phases.cpp:138-147 and 257-266: the selection of species. *)
Definition select_species (gp : GenericPhase) (db : Database) (elements : list str) : outcome (list Species) :=
  match gp_state gp with
  | Undefined => Err
  | a =>
    let l := speciesWithAggregateState db a in
    omap (fun l => match gp_exclude gp with [] => l | tags => withoutTags l tags end)
      (match gp_names gp, gp_symbols gp with
       | _ :: _, _ => withNames l (gp_names gp)
       | [], _ :: _ => Ok (withElements l (gp_symbols gp))
       | [], [] => Ok (withElements l elements)
       end)
  end.

(* Reaktoro/Core/Phases.cpp:132-157, GenericPhase::convert. *)
Definition convertPhase (db : Database) (elements : list str) (gp : GenericPhase) : outcome Phase :=
  bind (select_species gp db elements) (withSpecies (mkPhase (gp_name gp) [])).

(* Reaktoro/Core/Phases.cpp:251-282, GenericPhasesGenerator::convert: the
   constructor GenericPhase(const StringList&) is given the name as a string,
   which StringList splits at spaces (lines 270-271). *)
Definition convertGenerator (db : Database) (elements : list str) (g : GenericPhase) : outcome (list GenericPhase) :=
  bind (select_species g db elements) (fun l =>
  mapM (fun s => omap (fun words => mkGP (name s) (gp_state g) words [] []) (StringList (name s) " "%char)) l).

(* Reaktoro/Core/Phases.cpp:311-320. *)
Definition phase_symbols (db : Database) (gp : GenericPhase) : outcome (list str) :=
  let r1 := match gp_symbols gp with [] => [] | syms => merge_str [] syms end in
  match gp_names gp with
  | [] => Ok r1
  | names => omap (fun l => fold_left (fun r s => merge_str r (symbols s)) l r1) (withNames (db_species db) names)
  end.
Fixpoint collect_symbols (db : Database) (gps : list GenericPhase) (acc : list str) : outcome (list str) :=
  match gps with
  | [] => Ok acc
  | gp :: gps' => bind (phase_symbols db gp) (fun r => collect_symbols db gps' (merge_str acc r))
  end.

(* Reaktoro/Core/Phases.cpp:346-353. *)
Fixpoint set_names (gps : list GenericPhase) (names : list str) : list GenericPhase :=
  match gps, names with
  | gp :: gps', n :: names' => mkGP n (gp_state gp) (gp_names gp) (gp_symbols gp) (gp_exclude gp) :: set_names gps' names'
  | _, _ => gps
  end.

(* Reaktoro/Core/Phases.cpp:304-367, Phases::convert. *)
Definition convertPhases (db : Database) (genericphases generators : list GenericPhase) : outcome (list Phase) :=
  bind (collect_symbols db genericphases []) (fun s1 =>
  bind (collect_symbols db generators s1) (fun syms =>
  bind (mapM (convertGenerator db syms) generators) (fun generated =>
  let all := genericphases ++ concat generated in
  let named := set_names all (makeunique (map gp_name all) $"!") in
  mapM (convertPhase db syms) named))).

(* ---- ChemicalSystem ---- *)
(* Reaktoro/Core/ChemicalSystem.cpp:54-64: a std::map filled with emplace (first
   wins), listed by symbol, then std::sort by molar mass (elements of equal mass keep their order here, while
   std::sort leaves it open). *)
Fixpoint map_emplace (m : list (str * Element)) (k : str) (e : Element) : list (str * Element) :=
  match m with
  | [] => [(k, e)]
  | (k', e') :: m' => if str_eqb k k' then m else if str_ltb k k' then (k, e) :: m else (k', e') :: map_emplace m' k e
  end.
Definition Qltb (a b : Q) : bool := negb (Qle_bool b a).
Definition collectElements (l : list Species) : list Element :=
  sort (fun a b => Qltb (el_mass a) (el_mass b))
    (map snd (fold_left (fun m s => fold_left (fun m p => map_emplace m (el_symbol (fst p)) (fst p)) (sp_elements s) m) l [])).
(* Reaktoro/Core/ChemicalSystem.cpp:67-78. *)
Definition collectSpecies (phases : list Phase) : list Species :=
  fold_left (fun r p => concatenate r (ph_species p)) phases [].
(* Reaktoro/Core/ChemicalSystem.cpp:81-93, as a list of rows. *)
Definition formulaMatrix (species : list Species) (elements : list Element) : list (list Q) :=
  map (fun e => map (fun s => el_coefficient (sp_elements s) (el_symbol e)) species) elements ++ [map sp_charge species].
(* Reaktoro/Core/ChemicalSystem.cpp:34-41 and 44-51. *)
Fixpoint rename {A} (nm : A -> str) (set : A -> str -> A) (l : list A) (names : list str) : list A :=
  match l, names with
  | x :: l', n :: names' => (if str_eqb (nm x) n then x else set x n) :: rename nm set l' names'
  | _, _ => l
  end.
Definition fixDuplicateSpeciesNames (l : list Species) : list Species :=
  rename name with_name l (makeunique (map name l) $"!").
Definition fixDuplicatePhaseNames (l : list Phase) : list Phase :=
  rename ph_name (fun p n => mkPhase n (ph_species p)) l (makeunique (map ph_name l) $"!").

(* Reaktoro/Core/ChemicalSystem.cpp:97-129. *)
Record ChemicalSystem := mkSystem {
  sys_phases : list Phase; sys_species : list Species; sys_elements : list Element; sys_matrix : list (list Q) }.
Definition mkChemicalSystem (phases : list Phase) : ChemicalSystem :=
  let species := collectSpecies phases in
  let elements := collectElements species in
  mkSystem (fixDuplicatePhaseNames phases) (fixDuplicateSpeciesNames species) elements (formulaMatrix species elements).
