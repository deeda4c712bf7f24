(* Model of Reaktoro/Extensions/ThermoFun: the database read from a ThermoFun
   file and the standard properties of its species. *)
From Verif Require Import Base M_Strings M_Formula M_Chem M_Algorithms M_System.

(* Classes of the ThermoFun library (not part of the repository), the attributes read
   here: an element and a substance.  ts_class is the substance's own aggregate state,
   which the library offers and ThermoFunDatabase.cpp:74 would read were it not
   commented out. *)
Record TElement := mkTElement { te_symbol : str; te_name : str; te_mass : Q (* g/mol *) }.
Record TSubstance := mkTSubstance {
  ts_symbol : str; ts_formula : str; ts_name : str; ts_charge : Q; ts_class : AggregateState }.

(* A number of ThermoFun with its derivatives in temperature and pressure
   (ThermoFun's Reaktoro_::ThermoScalar: val, ddt, ddp). *)
Record TScalar := mkTScalar { val : Q; ddt : Q; ddp : Q }.
(* The results of thermoPropertiesSubstance that convertProps reads. *)
Record TProps := mkTProps {
  gibbs_energy : TScalar; enthalpy : TScalar; volume : TScalar (* J/bar *);
  heat_capacity_cp : TScalar; heat_capacity_cv : TScalar }.

(* autodiff::real: a value and its derivative along the seeded direction. *)
Record real := mkReal { rval : Q; rder : Q }.
(* Assignment of a double to a real: the derivative becomes zero. *)
Definition ofdouble (q : Q) : real := mkReal q 0.

(* Reaktoro/Core/StandardThermoProps.hpp:27-43. *)
Record StandardThermoProps := mkSTP { G0 : real; H0 : real; V0 : real; Cp0 : real; Cv0 : real }.

Section ThermoFun.
  (* ThermoFun::Database::parseSubstanceFormula: an ordered map from element to coefficient,
     given as its list of pairs. *)
  Variable parse : str -> list (TElement * Q).
  (* ThermoFun::ThermoEngine::thermoPropertiesSubstance(T, P, symbol). *)
  Variable engine : Q -> Q -> str -> TProps.

  (* ThermoFunDatabase.cpp:41-49, createElement, with Element.cpp:57-58 (no tags) and
     100-106 (a negative molar mass is refused). *)
  Definition createElement (e : TElement) : outcome Element :=
    let m := (te_mass e * (1 # 1000))%Q in
    if Qle_bool 0 m then Ok (mkElem (te_symbol e) (te_name e) m []) else Err.

  (* ThermoFunDatabase.cpp:51-63, createElements. *)
  Fixpoint elements_loop (l : list (TElement * Q)) : outcome (list (Element * Q)) :=
    match l with
    | [] => Ok []
    | (e, coeff) :: l' =>
        if str_eqb (te_symbol e) $"Zz" then elements_loop l'
        else bind (createElement e) (fun c => omap (cons (c, coeff)) (elements_loop l'))
    end.
  Definition createElements (s : TSubstance) : outcome (list (Element * Q)) := elements_loop (parse (ts_formula s)).

  (* ThermoFunDatabase.cpp:65-78, createSpecies, with Species.cpp:87-89, 141-143 and 153-193.
     A default-constructed species leaves its aggregate state unset: Species.cpp:76 has no
     initialiser and the constructor, lines 88-89, is empty.  Lines 68-76 never set it (line 74
     is commented out), and each of withName ... withAttachedData copies it, withName at line 69
     first.  [unset] is the outcome of reading the memory of that object.  The standard model and
     the attached data are kept apart (props below). *)
  Definition createSpecies (unset : outcome AggregateState) (s : TSubstance) : outcome Species :=
    bind unset (fun u =>
    omap (fun es => mkSpecies (ts_symbol s) (ts_formula s) (ts_name s) es (ts_charge s) u []) (createElements s)).

  (* ThermoFunDatabase.cpp:85-97, fromFile, on the substances of the file in the order of
     mapSubstances().  [mem k] is the outcome of reading the unset state of the k-th
     default-constructed species. *)
  Fixpoint addSubstances (mem : nat -> outcome AggregateState) (k : nat) (db : Database) (l : list TSubstance) : outcome Database :=
    match l with
    | [] => Ok db
    | s :: l' => bind (createSpecies (mem k) s) (fun sp => bind (addSpecies db sp) (fun db' => addSubstances mem (S k) db' l'))
    end.
  (* By the rules of C++ reading a value that was never set is undefined. *)
  Definition fromFile (subs : list TSubstance) : outcome Database := addSubstances (fun _ => UB) 0 emptyDB subs.
  (* On a machine that reads what the memory happens to hold, taken among the values of the
     enumeration. *)
  Definition fromFileOn (mem : nat -> AggregateState) (subs : list TSubstance) : outcome Database :=
    addSubstances (fun k => Ok (mem k)) 0 emptyDB subs.

  (* ThermoFunEngine.cpp:29-39, convertProps. *)
  Definition convertProps (o : TProps) : StandardThermoProps :=
    mkSTP (ofdouble (val (gibbs_energy o))) (ofdouble (val (enthalpy o))) (ofdouble (val (volume o) * (1 # 100000))%Q)
      (ofdouble (val (heat_capacity_cp o))) (ofdouble (val (heat_capacity_cv o))).

  (* ThermoFunEngine.cpp:59-73, props; containsSubstance looks the symbol up in the file. *)
  Definition props (subs : list TSubstance) (T P : real) (species : str) : outcome StandardThermoProps :=
    let Tval := rval T in
    let Pval := rval P in
    if contains str_eqb (map ts_symbol subs) species
    then Ok (convertProps (engine Tval Pval species)) else Err.

  (* ThermoFunDatabase.cpp:32-39 and 75: the standard model given to the species of a substance
     (without the memory of the last result, Species.cpp:218). *)
  Definition standardModel (subs : list TSubstance) (s : TSubstance) : real -> real -> outcome StandardThermoProps :=
    fun T P => props subs T P (ts_symbol s).
End ThermoFun.
