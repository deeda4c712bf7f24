(* Species made from the data of a PHREEQC instance (Extensions/Phreeqc/PhreeqcDatabase.cpp,
   PhreeqcUtils.cpp, PhreeqcThermo.cpp).  The instance itself, which PHREEQC fills
   when it reads a database, is the input of the model. *)
From Coq Require Import Reals Lra.
From Verif Require Import Base M_Thermo M_Formation M_PhreeqcWater.
Local Open Scope R_scope.

(* ---- The data of PHREEQC that are read ---- *)
(* The kinds of species and phases, PhreeqcUtils.cpp:112-143. *)
Inductive PType := AQ | HPLUS | H2O | EMINUS | SOLID | EX | SURF | SURF_PSI | SURF_PSI1 | SURF_PSI2 | OtherType.
(* The entries of the array logk that are read, PhreeqcThermo.cpp:74-78, 99, 118-140. *)
Record LogK := mkLogK {
  logK_T0 : R; delta_h : R; T_A1 : R; T_A2 : R; T_A3 : R; T_A4 : R; T_A5 : R; T_A6 : R;
  vm0 : R; vma1 : R; vma2 : R; vma3 : R; vma4 : R; wref : R }.
(* An element: the name of its master species, if it has one, and its mass in g/mol. *)
Record PElement := mkPE { pe_name : str; pe_master : option str; pe_gfw : R }.
(* A species.  Pointers to species and elements are given by their names, which
   PHREEQC keeps unique; the reaction is a null pointer or a list of tokens. *)
Record PSpecies := mkPS {
  ps_name : str; ps_type : PType; ps_z : R; ps_elts : list (str * R);
  ps_rxn : option (list (str * R)); ps_logk : LogK; ps_millero : R * R * R }.
(* A phase; the first token of its reaction is the phase itself. *)
Record PPhase := mkPP {
  pp_name : str; pp_formula : str; pp_type : PType; pp_elts : list (str * R);
  pp_rxn : option (list (str * R)); pp_logk : LogK }.
Record Instance := mkInstance { in_elements : list PElement; in_s : list PSpecies; in_phases : list PPhase }.

(* ---- The species that are made ---- *)
(* Core/AggregateState.hpp, the values used here. *)
Inductive PState := Aqueous | IonExchange | Adsorbed | Gas | Solid | Undefined.
Record Elem := mkElem { el_symbol : str; el_name : str; el_mass : R }.
Record Sp := mkSp {
  sp_name : str; sp_formula : str; sp_elements : list (Elem * R); sp_charge : R; sp_state : PState;
  sp_reaction : FormationReaction; sp_props : R -> R -> outcome StdProps }.
Definition asReactant (s : Sp) : Reactant := mkReactant (sp_name s) (sp_props s).

(* The value of std::string::find(text) < size: the text occurs. *)
Fixpoint prefixed (t s : str) : bool :=
  match t, s with
  | [], _ => true
  | _, [] => false
  | x :: t', y :: s' => Ascii.eqb x y && prefixed t' s'
  end.
Fixpoint occurs (t s : str) : bool :=
  match s with
  | [] => prefixed t []
  | _ :: s' => prefixed t s || occurs t s'
  end.

(* PhreeqcUtils.cpp:112-115, 135-143, 206-212. *)
Definition stateOfSpecies (s : PSpecies) : PState :=
  match ps_type s with
  | AQ | HPLUS | H2O | EMINUS => Aqueous
  | EX => IonExchange
  | SURF | SURF_PSI | SURF_PSI1 | SURF_PSI2 => Adsorbed
  | _ => Undefined
  end.
(* PhreeqcUtils.cpp:117-133, 214-219. *)
Definition stateOfPhase (p : PPhase) : PState :=
  if occurs $"(g)" (pp_name p) then Gas
  else match pp_type p with SOLID => Solid | _ => Undefined end.

(* PhreeqcUtils.cpp:288-305. *)
Definition reactantsOfSpecies (s : PSpecies) : outcome (list (str * R)) :=
  match ps_rxn s with
  | None => UB
  | Some tokens => Ok (filter (fun t => negb (str_eqb (fst t) (ps_name s))) tokens)
  end.
(* PhreeqcUtils.cpp:307-323. *)
Definition reactantsOfPhase (p : PPhase) : outcome (list (str * R)) :=
  match pp_rxn p with
  | None => UB
  | Some [] => UB
  | Some (_ :: tokens) => Ok tokens
  end.

Section Helper.
(* Water at given conditions, PhreeqcThermo.cpp:32-36; see M_PhreeqcWater. *)
Variable water : R -> R -> WaterThermo * WaterElectro.
(* The order in which a std::unordered_map is traversed. *)
Variable traversal : list (str * R) -> list (str * R).

(* PhreeqcUtils.cpp:180-194: emplace keeps the first value of a key. *)
Fixpoint emplaced (seen : list str) (l : list (str * R)) : list (str * R) :=
  match l with
  | [] => []
  | (k, c) :: l' => if existsb (str_eqb k) seen then emplaced seen l' else (k, c) :: emplaced (k :: seen) l'
  end.
Definition elementsOf (l : list (str * R)) : list (str * R) := traversal (emplaced [] l).

(* PhreeqcThermo.cpp:38-95, in cm3/mol. *)
Definition volumeOfSpecies (s : PSpecies) (T P : R) (w : WaterThermo * WaterElectro) : R :=
  let tc := T - 27315 / 100 in
  let pa := P * pascal_to_atm in
  let pb_s := 2600 + pa * (101325 / 10 ^ 5) in
  let TK_s := tc + 4515 / 100 in
  let k := ps_logk s in
  let '(m0, m1, m2) := ps_millero s in
  if str_eqb (ps_name s) $"H2O" then (18016 / 1000) / rho_0 (fst w)
  else if Req_EM_T (vma1 k) 0 then
    if Req_EM_T m0 0 then 0 else m0 + tc * (m1 + tc * m2)
  else vma1 k + vma2 k / pb_s + (vma3 k + vma4 k / pb_s) / TK_s - wref k * QBrn (snd w).
(* PhreeqcThermo.cpp:162-169 and 97-100, 171-177, in m3/mol. *)
Definition volumeModelOfSpecies (s : PSpecies) (T P : R) : R := volumeOfSpecies s T P (water T P) * (1 / 10 ^ 6).
Definition volumeModelOfPhase (p : PPhase) (T P : R) : R := vm0 (pp_logk p) * (1 / 10 ^ 6).

(* PhreeqcThermo.cpp:116-122. *)
Definition use_analytic_expression (k : LogK) : bool :=
  existsb (fun a => if Req_EM_T a 0 then false else true) [T_A1 k; T_A2 k; T_A3 k; T_A4 k; T_A5 k; T_A6 k].
(* PhreeqcThermo.cpp:102-145. *)
Definition reactionThermoModelAux (reactants : list (str * R)) (k : LogK) (sign : R) : Evaluator :=
  match reactants with
  | [] => assigns (rxnConstLgK 0 101325)
  | _ =>
    if use_analytic_expression k then
      assigns (rxnPhreeqcLgK (sign * T_A1 k) (sign * T_A2 k) (sign * T_A3 k) (sign * T_A4 k) (sign * T_A5 k) (sign * T_A6 k) 101325)
    else assigns (rxnVantHoff (sign * logK_T0 k) (sign * delta_h k * 1000) (29815 / 100) 101325)
  end.

(* What the overloads of PhreeqcUtils return for a species or a phase; the members
   of the helper are templates over the two. *)
Record Entry := mkEntry {
  e_name : str; e_formula : str; e_elements : list (str * R); e_charge : R; e_state : PState;
  e_reactants : outcome (list (str * R)); e_volume : R -> R -> R; e_model : list (str * R) -> Evaluator }.
(* PhreeqcUtils.cpp:160-163, 170-173, 180-186, 196-199, 206-212; PhreeqcThermo.cpp:147-151, 162-169. *)
Definition entryOfSpecies (s : PSpecies) : Entry :=
  mkEntry (ps_name s) (ps_name s) (elementsOf (ps_elts s)) (ps_z s) (stateOfSpecies s)
    (reactantsOfSpecies s) (volumeModelOfSpecies s) (fun rs => reactionThermoModelAux rs (ps_logk s) 1).
(* PhreeqcUtils.cpp:165-168, 175-178, 188-194, 201-204, 214-219; PhreeqcThermo.cpp:153-160, 171-177. *)
Definition entryOfPhase (p : PPhase) : Entry :=
  mkEntry (pp_name p) (pp_formula p) (elementsOf (pp_elts p)) 0 (stateOfPhase p)
    (reactantsOfPhase p) (volumeModelOfPhase p) (fun rs => reactionThermoModelAux rs (pp_logk p) (- (1))).

Variable inst : Instance.
(* Following a pointer to a species. *)
Definition deref (n : str) : outcome PSpecies :=
  match find (fun s => str_eqb n (ps_name s)) (in_s inst) with Some s => Ok s | None => UB end.

(* PhreeqcDatabase.cpp:39-56; the sets of symbols and names follow the lists. *)
Record Helper := mkHelper { h_elements : list Elem; h_species : list Sp; h_symbols : list str; h_names : list str }.
(* PhreeqcDatabase.cpp:84-93. *)
Definition containsElement (h : Helper) (symbol : str) : bool := existsb (str_eqb symbol) (h_symbols h).
Definition containsSpecies (h : Helper) (name : str) : bool := existsb (str_eqb name) (h_names h).
(* PhreeqcDatabase.cpp:95-108; PhreeqcUtils.cpp:145-158. *)
Definition addElement (h : Helper) (e : PElement) : outcome Helper :=
  if containsElement h (pe_name e) then Ok h
  else match pe_master e with
  | None => UB
  | Some m => Ok (mkHelper (h_elements h ++ [mkElem (pe_name e) m (pe_gfw e / 1000)]) (h_species h) (h_symbols h ++ [pe_name e]) (h_names h))
  end.
(* PhreeqcDatabase.cpp:155-171. *)
Definition createElements (h : Helper) (e : Entry) : outcome (list (Elem * R)) :=
  mapM (fun kc => match find (fun x => str_eqb (fst kc) (el_symbol x)) (h_elements h) with
    | Some x => Ok (x, snd kc)
    | None => Err
    end) (e_elements e).
(* SpeciesList.hpp:95-104 and Common/Algorithms.hpp:38-43: an index, or the size. *)
Fixpoint findWithName (l : list Sp) (name : str) : nat :=
  match l with [] => 0%nat | s :: l' => if str_eqb (sp_name s) name then 0%nat else S (findWithName l' name) end.
(* Appending to the list and the set of names, PhreeqcDatabase.cpp:119-122. *)
Definition appendSpecies (h : Helper) (s : Sp) (name : str) : Helper :=
  mkHelper (h_elements h) (h_species h ++ [s]) (h_symbols h) (h_names h ++ [name]).
(* PhreeqcDatabase.cpp:125-138, 183-196. *)
Definition createMasterSpecies (h : Helper) (e : Entry) : outcome Sp :=
  bind (createElements h e) (fun els =>
  Ok (mkSp (e_name e) (e_formula e) els (e_charge e) (e_state e) newFormationReaction
       (fun T P => Ok (mkStdProps 0 0 (e_volume e T P) 0 0)))).
(* PhreeqcDatabase.cpp:207-214, one reactant; [add] is addSpecies. *)
Definition createReactant (add : Helper -> Entry -> outcome Helper) (h : Helper) (r : str * R) : outcome (Helper * (Reactant * R)) :=
  bind (deref (fst r)) (fun s =>
  let idx := findWithName (h_species h) (ps_name s) in
  bind (if (idx =? length (h_species h))%nat then add h (entryOfSpecies s) else Ok h) (fun h' =>
  match nth_error (h_species h') idx with
  | Some x => Ok (h', (asReactant x, snd r))
  | None => UB
  end)).
(* PhreeqcDatabase.cpp:198-215. *)
Fixpoint createReactants (add : Helper -> Entry -> outcome Helper) (h : Helper) (rs : list (str * R)) : outcome (Helper * list (Reactant * R)) :=
  match rs with
  | [] => Ok (h, [])
  | r :: rs' =>
    bind (createReactant add h r) (fun hp =>
    bind (createReactants add (fst hp) rs') (fun hps => Ok (fst hps, snd hp :: snd hps)))
  end.
(* PhreeqcDatabase.cpp:140-153, 173-181; Species.cpp:202-208. *)
Definition createProductSpecies (add : Helper -> Entry -> outcome Helper) (h : Helper) (e : Entry) (rs : list (str * R)) : outcome (Helper * Sp) :=
  bind (createElements h e) (fun els =>
  bind (createReactants add h rs) (fun hps =>
  let reaction := withReactionThermoModel (withProductStandardVolumeModel (withReactants newFormationReaction (snd hps)) (e_volume e)) (e_model e rs) in
  bind (createStandardThermoModel reaction) (fun m =>
  Ok (fst hps, mkSp (e_name e) (e_formula e) els (e_charge e) (e_state e) reaction m)))).
(* PhreeqcDatabase.cpp:110-123; recursion that does not end is undefined behaviour. *)
Fixpoint addSpecies (fuel : nat) (h : Helper) (e : Entry) : outcome Helper :=
  match fuel with
  | O => UB
  | S fuel' =>
    if containsSpecies h (e_name e) then Ok h
    else bind (e_reactants e) (fun rs =>
    match rs with
    | [] => bind (createMasterSpecies h e) (fun s => Ok (appendSpecies h s (e_name e)))
    | _ => bind (createProductSpecies (addSpecies fuel') h e rs) (fun hs => Ok (appendSpecies (fst hs) (snd hs) (e_name e)))
    end)
  end.

Fixpoint foldM {A B} (f : A -> B -> outcome A) (a : A) (l : list B) : outcome A :=
  match l with [] => Ok a | b :: l' => bind (f a b) (fun a' => foldM f a' l') end.
(* PhreeqcDatabase.cpp:64-81.  Without a cycle the calls nest no deeper than there
   are species, and one phase. *)
Definition loadHelper : outcome Helper :=
  bind (foldM addElement (mkHelper [] [] [] []) (in_elements inst)) (fun h =>
  foldM (addSpecies (S (S (length (in_s inst))))) h (map entryOfSpecies (in_s inst) ++ map entryOfPhase (in_phases inst))).
(* PhreeqcDatabase.cpp:250-255, 275-277: the species handed to the database. *)
Definition phreeqcSpecies : outcome (list Sp) := omap h_species loadHelper.
End Helper.
