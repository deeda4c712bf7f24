(* What a Phreeqc object says about the species, phases, elements and reactions of
   the active state of PHREEQC (Extensions/Phreeqc/Phreeqc.cpp, PhreeqcUtils.cpp).
   What PHREEQC leaves behind after a calculation is the input of the model; its
   species, phases and elements are known by their names, which PHREEQC keeps unique. *)
From Verif Require Import Base M_Strings M_Algorithms M_System.

(* ---- The state of PHREEQC ---- *)
(* A species: the reaction rxn_x is a null pointer or a list of tokens. *)
Record PqSpecies := mkPqSpecies {
  ps_name : str; ps_charge : Q; ps_sorbed : bool;  (* of type EX or SURF *)
  ps_elements : list (str * Q); ps_reaction : option (list (str * Q)) }.
(* A phase: the first token of its reaction has the name of the phase. *)
Record PqPhase := mkPqPhase { pp_name : str; pp_elements : list (str * Q); pp_reaction : option (list (str * Q)) }.
Record Pq := mkPq {
  pq_list : list (PqSpecies * str);         (* species_list, with the names of the master species *)
  pq_x : list PqSpecies;                    (* s_x *)
  pq_gases : list PqPhase;                  (* the components of the gas phases, found *)
  pq_unknown_phases : list (PqPhase * bool);(* the unknowns of type PP with a reaction, and if they are in *)
  pq_electron : PqSpecies;                  (* s_eminus *)
  pq_unknowns : list (option str);          (* the element of the master species of each unknown, if it has one *)
  pq_primary : str -> str;                  (* elt->primary->elt *)
  pq_valence : str -> option str;           (* elt->master->s->secondary->elt, if there is a secondary master *)
  pq_secondary : str -> option str;         (* the same of a species *)
  pq_gfw : str -> Q }.                      (* in g/mol *)

(* ---- PhreeqcUtils.cpp ---- *)
(* PhreeqcUtils.cpp:241-263. *)
Definition equationOfSpecies (s : PqSpecies) : list (str * Q) :=
  match ps_reaction s with
  | None => []
  | Some tokens => let pairs := map (fun t => (fst t, (- snd t)%Q)) tokens in
                   if Nat.leb (length pairs) 1 then [] else pairs
  end.
(* PhreeqcUtils.cpp:265-286. *)
Definition equationOfPhase (p : PqPhase) : list (str * Q) :=
  match pp_reaction p with
  | None => []
  | Some pairs => if Nat.leb (length pairs) 1 then [] else pairs
  end.
(* PhreeqcUtils.cpp:221-229. *)
Fixpoint coefficient (equation : list (str * Q)) (name : str) : Q :=
  match equation with
  | [] => 0
  | (x, y) :: e => if str_eqb x name then y else coefficient e name
  end.
(* A std::set of pointers: each one once. *)
Fixpoint once_from {A} (name : A -> str) (seen : list str) (l : list A) : list A :=
  match l with
  | [] => []
  | x :: l' => if existsb (str_eqb (name x)) seen then once_from name seen l' else x :: once_from name (name x :: seen) l'
  end.
Definition once {A} (name : A -> str) (l : list A) : list A := once_from name [] l.
(* PhreeqcUtils.cpp:347-364. *)
Definition activeAqueousSpecies (pq : Pq) : list PqSpecies :=
  let species := List.filter (fun s => negb (ps_sorbed s)) (map fst (pq_list pq)) in
  once ps_name (species ++ (if existsb (fun s => negb (Qeq_bool (coefficient (equationOfSpecies s) $"e-") 0)) species then [pq_electron pq] else [])).
(* PhreeqcUtils.cpp:376-387. *)
Definition activeProductSpecies (pq : Pq) : list PqSpecies :=
  List.filter (fun s => negb (ps_sorbed s) && negb (match equationOfSpecies s with [] => true | _ => false end)) (pq_x pq).
(* PhreeqcUtils.cpp:389-400. *)
Definition activeGaseousSpecies (pq : Pq) : list PqPhase := once pp_name (pq_gases pq).
(* PhreeqcUtils.cpp:402-411. *)
Definition activePhasesInEquilibriumPhases (pq : Pq) : list PqPhase := map fst (List.filter snd (pq_unknown_phases pq)).

(* ---- Phreeqc.cpp ---- *)
(* Phreeqc.cpp:375-399; std::sort by name. *)
Definition sorted {A} (name : A -> str) (l : list A) : list A := sort (fun x y => str_ltb (name x) (name y)) l.
Definition aqueous (pq : Pq) : list PqSpecies := sorted ps_name (activeAqueousSpecies pq).
Definition gaseous (pq : Pq) : list PqPhase := sorted pp_name (activeGaseousSpecies pq).
Definition minerals (pq : Pq) : list PqPhase := sorted pp_name (activePhasesInEquilibriumPhases pq).
(* Phreeqc.cpp:401-423. *)
Definition masterOf (pq : Pq) (s : PqSpecies) : outcome str :=
  if str_eqb (ps_name s) (ps_name (pq_electron pq)) then Ok (ps_name s)
  else match find (fun x => str_eqb (ps_name (fst x)) (ps_name s)) (pq_list pq) with
       | Some x => Ok (snd x)
       | None => Err
       end.
(* Phreeqc.cpp:425-448: the elements that more than one unknown stands for. *)
Fixpoint redox (primary : str -> str) (unknowns : list (option str)) (e : str) : bool :=
  match unknowns with
  | [] => false
  | None :: us => redox primary us e
  | Some x :: us =>
    (str_eqb (primary x) e && existsb (fun y => match y with Some y' => str_eqb (primary x) (primary y') | None => false end) us) || redox primary us e
  end.
Definition isRedox (pq : Pq) (e : str) : bool := redox (pq_primary pq) (pq_unknowns pq) e.
(* Following e->master->s->secondary->elt. *)
Definition usualValence (pq : Pq) (e : str) : outcome str := match pq_valence pq e with Some v => Ok v | None => UB end.
(* Phreeqc.cpp:452-462. *)
Definition chooseInSpecies (pq : Pq) (master : str) (e : str) : outcome str :=
  if str_eqb master (ps_name (pq_electron pq)) then Ok e
  else if isRedox pq e then
    match pq_secondary pq master with
    | Some v => if str_eqb (pq_primary pq v) e then Ok v else usualValence pq e
    | None => usualValence pq e
    end
  else Ok e.
(* Phreeqc.cpp:464-467. *)
Definition chooseInPhase (pq : Pq) (e : str) : outcome str := if isRedox pq e then usualValence pq e else Ok e.
(* Phreeqc.cpp:469-483; insert keeps the value that is there. *)
Fixpoint inserted (m : list (str * Q)) (l : list (str * Q)) : list (str * Q) :=
  match l with
  | [] => m
  | (k, c) :: l' => inserted (if existsb (fun x => str_eqb (fst x) k) m then m else m ++ [(k, c)]) l'
  end.
Definition elementsWith (choose : str -> outcome str) (l : list (str * Q)) : outcome (list (str * Q)) :=
  omap (inserted []) (mapM (fun kc => omap (fun k => (k, snd kc)) (choose (fst kc))) l).
(* Phreeqc.cpp:485-498. *)
Definition elementsInSpecies (pq : Pq) : outcome (list (list (str * Q))) :=
  bind (mapM (fun s => bind (masterOf pq s) (fun m => elementsWith (chooseInSpecies pq m) (ps_elements s))) (aqueous pq)) (fun a =>
  bind (mapM (fun p => elementsWith (chooseInPhase pq) (pp_elements p)) (gaseous pq)) (fun g =>
  bind (mapM (fun p => elementsWith (chooseInPhase pq) (pp_elements p)) (minerals pq)) (fun m =>
  Ok (a ++ g ++ m)))).
(* Phreeqc.cpp:575-591. *)
Definition reactionsOf (pq : Pq) : list (list (str * Q)) :=
  map equationOfSpecies (activeProductSpecies pq) ++ map equationOfPhase (gaseous pq) ++ map equationOfPhase (minerals pq).
Definition species_names (pq : Pq) : list str := map ps_name (aqueous pq) ++ map pp_name (gaseous pq) ++ map pp_name (minerals pq).
Fixpoint assign {A} (l : list A) (i : nat) (x : A) : list A :=
  match l, i with [], _ => [] | _ :: l', O => x :: l' | y :: l', S i' => y :: assign l' i' x end.
(* Phreeqc.cpp:616-637: a row of the matrix; writing at the index of a name that is
   not there is out of range. *)
Fixpoint row_of (names : list str) (row : list Q) (equation : list (str * Q)) : outcome (list Q) :=
  match equation with
  | [] => Ok row
  | (x, c) :: e => let i := index str_eqb names x in
                   if Nat.ltb i (length row) then row_of names (assign row i c) e else UB
  end.

(* The object, Phreeqc.cpp:86-141, after execute (327-373). *)
Record Object := mkObject {
  o_aqueous : list PqSpecies; o_gaseous : list PqPhase; o_minerals : list PqPhase;
  o_in_species : list (list (str * Q)); o_elements : list str; o_masses : list Q;
  o_reactions : list (list (str * Q)); o_stoichiometry : list (list Q) }.
Definition initialize (pq : Pq) : outcome Object :=
  bind (elementsInSpecies pq) (fun ins =>
  let elements := unique str_eqb str_ltb (map fst (concat ins)) in
  let names := species_names pq in
  bind (mapM (row_of names (repeat 0%Q (length names))) (reactionsOf pq)) (fun rows =>
  Ok (mkObject (aqueous pq) (gaseous pq) (minerals pq) ins elements
    (* Phreeqc.cpp:559-573 *)
    (map (fun e => if str_eqb e $"E" || str_eqb e $"e" then 0 else pq_gfw pq (pq_primary pq e) * (1 # 1000)) elements ++ [0])%Q
    (reactionsOf pq) rows))).
(* Phreeqc.cpp:517-549, initializeNames. *)
Definition o_species_names (o : Object) : list str := map ps_name (o_aqueous o) ++ map pp_name (o_gaseous o) ++ map pp_name (o_minerals o).
Definition o_element_names (o : Object) : list str := o_elements o ++ [$"Z"].
Definition o_phase_names (o : Object) : list str :=
  $"Aqueous" :: (match o_gaseous o with [] => [] | _ => [$"Gaseous"] end) ++ map pp_name (o_minerals o).

(* The members of the class; operator[] out of range is undefined. *)
Definition at_ {A} (l : list A) (i : nat) : outcome A := match nth_error l i with Some x => Ok x | None => UB end.
(* Phreeqc.cpp:883-896. *)
Definition numElements (o : Object) : nat := length (o_element_names o).
Definition numSpecies (o : Object) : nat := length (o_species_names o).
Definition numPhases (o : Object) : nat := length (o_phase_names o).
(* Phreeqc.cpp:1155-1173. *)
Definition numSpeciesInPhase (o : Object) (i : nat) : outcome nat :=
  if negb (Nat.ltb i (numPhases o)) then Err
  else if Nat.eqb i 0 then Ok (length (o_aqueous o))
  else if Nat.eqb i 1 && negb (Nat.eqb (length (o_gaseous o)) 0) then Ok (length (o_gaseous o))
  else Ok 1.
(* Phreeqc.cpp:1175-1183 and 1190-1198. *)
Definition elementName (o : Object) (i : nat) : outcome str := at_ (o_element_names o) i.
Definition elementMolarMass (o : Object) (i : nat) : outcome Q := at_ (o_masses o) i.
Definition speciesName (o : Object) (i : nat) : outcome str := at_ (o_species_names o) i.
Definition phaseName (o : Object) (i : nat) : outcome str := at_ (o_phase_names o) i.
(* Phreeqc.cpp:551-557: the charges. *)
Definition charges (o : Object) : list Q := map ps_charge (o_aqueous o) ++ map (fun _ => 0%Q) (o_gaseous o) ++ map (fun _ => 0%Q) (o_minerals o).
(* Phreeqc.cpp:593-614 and 1185-1188: an entry of the formula matrix. *)
Definition elementStoichiometry (o : Object) (ispecies ielement : nat) : outcome Q :=
  if negb (Nat.ltb ispecies (numSpecies o) && Nat.ltb ielement (numElements o)) then UB
  else if Nat.eqb ielement (numElements o - 1) then at_ (charges o) ispecies
  else bind (at_ (o_elements o) ielement) (fun e => bind (at_ (o_in_species o) ispecies) (fun m => Ok (coefficient m e))).
(* Phreeqc.cpp:1236-1239: an entry of the stoichiometric matrix. *)
Definition reactionStoichiometry (o : Object) (j i : nat) : outcome Q := bind (at_ (o_stoichiometry o) j) (fun row => at_ row i).
