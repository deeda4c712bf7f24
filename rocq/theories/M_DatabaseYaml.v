(* Loading of databases from documents (Core/Support/DatabaseParserYAML.cpp). *)
From Verif Require Import Base M_Strings M_Algorithms M_Formula M_Chem M_System M_Attribs M_Registry M_Yaml.

(* A species made by the parser, with the formation reaction and the standard
   thermodynamic model of its attributes (Core/Species.hpp:36-77). *)
Inductive Loaded : Type :=
  mkLoaded (s : Species) (reaction : option (list (Loaded * Q) * RxnModel)) (model : option StdModel).
Definition ld_species (l : Loaded) : Species := let (s, _, _) := l in s.
Definition ld_reaction (l : Loaded) : option (list (Loaded * Q) * RxnModel) := let (_, r, _) := l in r.
Definition ld_model (l : Loaded) : option StdModel := let (_, _, m) := l in m.
Definition ld_name (l : Loaded) : str := name (ld_species l).
(* The lists of elements and species of the parser, DatabaseParserYAML.cpp:35-38. *)
Record Parsed := mkParsed { pa_elements : list Element; pa_species : list Loaded }.

Section Parser.
(* How yaml-cpp reads numbers.  The charge of a species and the mass of an element
   are rational numbers: infinite numbers and NaN are left out there. *)
Variable readQ : str -> option Q.
Variable read : str -> option double.
Variable readN : str -> option nat.
(* The elements known to the singleton Elements. *)
Variable registry : list Element.

(* Common/YAML.hpp:113-121 and 123-130, for strings, lists of strings and numbers. *)
Definition req_string (n : yaml) (key : str) : outcome str := bind (at_key n key) as_string.
Definition opt_string (n : yaml) (key : str) : outcome str :=
  bind (child n key) (fun c => match c with Some v => as_string v | None => Ok [] end).
Definition as_strings (n : yaml) : outcome (list str) := match n with YSeq l => mapM as_string l | _ => Err end.
Definition opt_strings (n : yaml) (key : str) : outcome (list str) :=
  bind (child n key) (fun c => match c with Some v => as_strings v | None => Ok [] end).
Definition as_rational (n : yaml) : outcome Q :=
  bind (as_string n) (fun t => match readQ t with Some q => Ok q | None => Err end).
Definition req_rational (n : yaml) (key : str) : outcome Q := bind (at_key n key) as_rational.
Definition opt_rational (n : yaml) (key : str) : outcome Q :=
  bind (child n key) (fun c => match c with Some v => as_rational v | None => Ok 0%Q end).
Definition defined (n : yaml) (key : str) : outcome bool :=
  bind (child n key) (fun c => Ok (match c with Some _ => true | None => false end)).

(* The nodes over which "for(auto child : doc[key])" iterates.  The nodes given by a
   map cannot be used: yaml-cpp throws. *)
Definition section_nodes (doc : yaml) (key : str) : outcome (list yaml) :=
  bind (child doc key) (fun c => match c with Some (YSeq l) => Ok l | Some (YMap (_ :: _)) => Err | _ => Ok [] end).
(* DatabaseParserYAML.cpp:59-68 and 70-79, getElementNode and getSpeciesNode. *)
Fixpoint findNode (key x : str) (l : list yaml) : outcome (option yaml) :=
  match l with
  | [] => Ok None
  | n :: l' => bind (req_string n key) (fun s => if str_eqb s x then Ok (Some n) else findNode key x l')
  end.

(* Core/Element.cpp:60-71, the constructor from attributes. *)
Definition elementOf (symbol : str) (mass : Q) (nm : str) (tags : list str) : outcome Element :=
  if is_empty symbol then Err else if Qltb mass 0 then Err
  else Ok (mkElem symbol (if is_empty nm then symbol else nm) mass tags).
(* DatabaseParserYAML.cpp:92-104, addElement(node). *)
Definition addElementNode (els : list Element) (n : yaml) : outcome (Element * list Element) :=
  bind (req_string n $"Symbol") (fun symbol => bind (req_rational n $"MolarMass") (fun mass =>
  bind (opt_string n $"Name") (fun nm => bind (opt_strings n $"Tags") (fun tags =>
  bind (elementOf symbol mass nm tags) (fun e => Ok (e, els ++ [e])))))).
(* DatabaseParserYAML.cpp:81-90, addElement(symbol), with Core/Element.cpp:29-38. *)
Definition addElementSymbol (enodes : list yaml) (els : list Element) (symbol : str) : outcome (Element * list Element) :=
  bind (findNode $"Symbol" symbol enodes) (fun o =>
  match o with
  | Some n => addElementNode els n
  | None => match element_withSymbol registry symbol with Some e => Ok (e, els ++ [e]) | None => Err end
  end).
(* Core/ElementList.hpp:89-98: the first element with a symbol. *)
Definition findElement (els : list Element) (symbol : str) : option Element :=
  nth_error els (indexfn els (fun e => str_eqb (el_symbol e) symbol)).
(* DatabaseParserYAML.cpp:153-163: the loop of createElementalComposition. *)
Fixpoint createElements (enodes : list yaml) (els : list Element) (l : list (str * Q)) : outcome (list (Element * Q) * list Element) :=
  match l with
  | [] => Ok ([], els)
  | (symbol, c) :: l' =>
    bind (match findElement els symbol with Some e => Ok (e, els) | None => addElementSymbol enodes els symbol end) (fun r =>
    bind (createElements enodes (snd r) l') (fun r' => Ok ((fst r, c) :: fst r', snd r')))
  end.
(* DatabaseParserYAML.cpp:147-166. *)
Definition createElementalComposition (enodes : list yaml) (els : list Element) (n : yaml) : outcome (list (Element * Q) * list Element) :=
  bind (req_string n $"Elements") (fun t => createElements enodes els (parseNumberStringPairs t)).
(* DatabaseParserYAML.cpp:168-175. *)
Definition createTags (n : yaml) : outcome (list str) :=
  bind (child n $"Tags") (fun c =>
  match c with
  | None => Ok []
  | Some (YSeq l) => mapM as_string l
  | Some v => bind (as_string v) (fun t => Ok (split t $" "))
  end).
(* DatabaseParserYAML.cpp:177-183. *)
Definition createStandardThermoModel (n : yaml) : outcome (option StdModel) :=
  bind (child n $"StandardThermoModel") (fun c => match c with None => Ok None | Some v => omap Some (StandardThermoModelYAML read readN v) end).
(* DatabaseParserYAML.cpp:217-223. *)
Definition createReactionThermoModel (n : yaml) : outcome RxnModel := bind (at_key n $"ReactionThermoModel") (ReactionThermoModelYAML read).
(* Core/SpeciesList.hpp:95-104: the first species with a name. *)
Definition findLoaded (l : list Loaded) (n : str) : option Loaded := nth_error l (indexfn l (fun s => str_eqb (ld_name s) n)).

Section Recursion.
Variable snodes : list yaml.
Variable addSpecies : Parsed -> yaml -> outcome (Loaded * Parsed).
(* DatabaseParserYAML.cpp:106-114, addSpecies(name). *)
Definition addSpeciesName (st : Parsed) (n : str) : outcome (Loaded * Parsed) :=
  bind (findNode $"Name" n snodes) (fun o => match o with Some nd => addSpecies st nd | None => Err end).
(* DatabaseParserYAML.cpp:203-214: the loop of createReactants. *)
Fixpoint createReactants (st : Parsed) (l : list (str * Q)) : outcome (list (Loaded * Q) * Parsed) :=
  match l with
  | [] => Ok ([], st)
  | (n, c) :: l' =>
    bind (match findLoaded (pa_species st) n with Some s => Ok (s, st) | None => addSpeciesName st n end) (fun r =>
    bind (createReactants (snd r) l') (fun r' => Ok ((fst r, c) :: fst r', snd r')))
  end.
(* DatabaseParserYAML.cpp:185-195 and 197-202: the reactants are made first. *)
Definition createFormationReaction (st : Parsed) (n : yaml) : outcome (option (list (Loaded * Q) * RxnModel) * Parsed) :=
  bind (child n $"FormationReaction") (fun c =>
  match c with
  | None => Ok (None, st)
  | Some f =>
    bind (req_string f $"Reactants") (fun t =>
    bind (createReactants st (parseNumberStringPairs t)) (fun r =>
    bind (createReactionThermoModel f) (fun m => Ok (Some (fst r, m), snd r))))
  end).
End Recursion.

(* Core/FormationReaction.cpp:154-157; the reaction model is always initialized. *)
Definition reaction_initialized (r : option (list (Loaded * Q) * RxnModel)) : bool :=
  match r with Some (_ :: _, _) => true | _ => false end.
Definition model_initialized (m : option StdModel) : bool := match m with Some _ => true | None => false end.
(* Core/Species.cpp:101-138: the species takes what is initialized. *)
Definition keep_reaction (r : option (list (Loaded * Q) * RxnModel)) : option (list (Loaded * Q) * RxnModel) :=
  if reaction_initialized r then r else None.

(* DatabaseParserYAML.cpp:116-145, addSpecies(node).  The recursion of the code has
   no bound; with not enough fuel the outcome is UB (the stack overflows if no
   amount of fuel is enough). *)
Fixpoint addSpecies (fuel : nat) (enodes snodes : list yaml) (st : Parsed) (n : yaml) : outcome (Loaded * Parsed) :=
  match fuel with
  | O => UB
  | S f =>
    bind (at_key n $"Name") (fun _ => bind (at_key n $"Formula") (fun _ => bind (at_key n $"AggregateState") (fun _ =>
    bind (at_key n $"Elements") (fun _ => bind (defined n $"FormationReaction") (fun dr => bind (defined n $"StandardThermoModel") (fun dm =>
    if negb dr && negb dm then Err else
    bind (req_string n $"Name") (fun nm =>
    match findLoaded (pa_species st) nm with
    | Some s => Ok (s, st)
    | None =>
      bind (req_string n $"Formula") (fun formula => bind (opt_string n $"Substance") (fun substance =>
      bind (opt_rational n $"Charge") (fun charge => bind (req_string n $"AggregateState") (fun a =>
      if state_eqb (parseAggregateState a) Undefined then Err else
      bind (createElementalComposition enodes (pa_elements st) n) (fun re =>
      bind (createFormationReaction snodes (addSpecies f enodes snodes) (mkParsed (snd re) (pa_species st)) n) (fun rr =>
      bind (createStandardThermoModel n) (fun m => bind (createTags n) (fun tags =>
      bind (speciesOf (mkAttribs nm formula substance (fst re) charge (parseAggregateState a) (reaction_initialized (fst rr)) (model_initialized m) tags)) (fun sp =>
      let l := mkLoaded sp (keep_reaction (fst rr)) m in
      Ok (l, mkParsed (pa_elements (snd rr)) (pa_species (snd rr) ++ [l])))))))))))
    end)))))))
  end.
(* DatabaseParserYAML.cpp:48-57, the constructor. *)
Fixpoint addElements (els : list Element) (l : list yaml) : outcome (list Element) :=
  match l with [] => Ok els | n :: l' => bind (addElementNode els n) (fun r => addElements (snd r) l') end.
Fixpoint addAllSpecies (fuel : nat) (enodes snodes : list yaml) (st : Parsed) (l : list yaml) : outcome Parsed :=
  match l with [] => Ok st | n :: l' => bind (addSpecies fuel enodes snodes st n) (fun r => addAllSpecies fuel enodes snodes (snd r) l') end.
Definition load (fuel : nat) (doc : yaml) : outcome Parsed :=
  bind (section_nodes doc $"Elements") (fun enodes =>
  bind (addElements [] enodes) (fun els =>
  bind (section_nodes doc $"Species") (fun snodes => addAllSpecies fuel enodes snodes (mkParsed els []) snodes))).
(* DatabaseParserYAML.cpp:262-265 with Core/Database.cpp:117-124. *)
Definition toDatabase (p : Parsed) : outcome Database :=
  fold_left (fun d s => bind d (fun db => M_System.addSpecies db s)) (map ld_species (pa_species p))
    (Ok (fold_left addElement (pa_elements p) emptyDB)).
End Parser.
