(* Model of Reaction (Core/Reaction.cpp) and Phase (Core/Phase.cpp) as objects that share
   their data through pointers (SharedPtr<Impl> pimpl, Reaction.hpp:81-84 and
   Phase.hpp:76-79).  A program is a list of operations on variables. *)
From Verif Require Import Base M_Chem M_Algorithms M_System M_State M_Naming.

Section Objects.
(* The data of an object, its content after new Impl(), and what a with-method changes. *)
Variables T E : Type.
Variable fresh : T.
(* The checks of a with-method before it clones, and the assignments after. *)
Variable check : E -> outcome unit.
Variable set : E -> T -> T.

(* The data at each address, and the address that each variable holds. *)
Record Store := mkStore { heap : list T; vars : list nat }.
Definition emptyStore : Store := mkStore [] [].
(* Reaction.cpp:40-42, Phase.cpp:69-71: the address of new data. *)
Definition construct (h : list T) : nat * list T := (length h, h ++ [fresh]).
(* Reaction.cpp:44-49, Phase.cpp:73-78. *)
Definition clone (h : list T) (p : nat) : nat * list T :=
  let '(q, h') := construct h in (q, upd h' q (nth p h' fresh)).
(* Reaction.cpp:51-77, Phase.cpp:80-115. *)
Definition withEdit (h : list T) (p : nat) (e : E) : outcome (nat * list T) :=
  bind (check e) (fun _ => let '(q, h') := clone h p in Ok (q, upd h' q (set e (nth q h' fresh)))).

Inductive op :=
| ONew                      (* T x; *)
| OCopy (i : nat)           (* T x = x_i; *)
| OAssign (i j : nat)       (* x_i = x_j; *)
| OWith (i : nat) (e : E).  (* T x = x_i.with...(...); *)
(* Use of a variable that is not there is UB.  An exception leaves no new variable. *)
Definition step (s : Store) (o : op) : outcome Store :=
  match o with
  | ONew => let '(q, h) := construct (heap s) in Ok (mkStore h (vars s ++ [q]))
  | OCopy i => match nth_error (vars s) i with Some p => Ok (mkStore (heap s) (vars s ++ [p])) | None => UB end
  | OAssign i j => match nth_error (vars s) i, nth_error (vars s) j with Some _, Some p => Ok (mkStore (heap s) (upd (vars s) i p)) | _, _ => UB end
  | OWith i e => match nth_error (vars s) i with
                 | Some p => omap (fun r => mkStore (snd r) (vars s ++ [fst r])) (withEdit (heap s) p e)
                 | None => UB
                 end
  end.
(* Programs may catch exceptions. *)
Fixpoint run (s : Store) (prog : list op) : outcome Store :=
  match prog with
  | [] => Ok s
  | o :: prog' => match step s o with Ok s' => run s' prog' | Err => run s prog' | UB => UB end
  end.
(* What the accessors of each variable read. *)
Definition reads (s : Store) : list T := map (fun p => nth p (heap s) fresh) (vars s).
End Objects.
Arguments mkStore {T}. Arguments heap {T}. Arguments vars {T}. Arguments emptyStore {T}.
Arguments ONew {E}. Arguments OCopy {E}. Arguments OAssign {E}. Arguments OWith {E}.
Arguments construct {T}. Arguments clone {T}. Arguments withEdit {T E}. Arguments step {T E}. Arguments run {T E}. Arguments reads {T}.

Section Reactions.
(* Equations, and functions of equilibrium constants and rates; none is an empty one. *)
Variables Eq K R : Type.
Variables (noEq : Eq) (noK : K) (noR : R).
(* Reaction.cpp:24-37. *)
Record Rxn := mkRxn { rx_name : str; rx_equation : Eq; rx_lnK : K; rx_rate : R }.
Definition newRxn : Rxn := mkRxn [] noEq noK noR.
(* Reaction.cpp:51-77. *)
Inductive REdit := RName (n : str) | REquation (e : Eq) | RLnK (f : K) | RRate (f : R).
Definition setRxn (e : REdit) (r : Rxn) : Rxn :=
  match e with
  | RName n => mkRxn n (rx_equation r) (rx_lnK r) (rx_rate r)
  | REquation q => mkRxn (rx_name r) q (rx_lnK r) (rx_rate r)
  | RLnK f => mkRxn (rx_name r) (rx_equation r) f (rx_rate r)
  | RRate f => mkRxn (rx_name r) (rx_equation r) (rx_lnK r) f
  end.
Definition reactions (prog : list (op REdit)) : outcome (list Rxn) := omap (reads newRxn) (run newRxn (fun _ => Ok tt) setRxn emptyStore prog).
(* Reaction.cpp:99-108. *)
Definition rxn_ltb (a b : Rxn) : bool := str_ltb (rx_name a) (rx_name b).
Definition rxn_eqb (a b : Rxn) : bool := str_eqb (rx_name a) (rx_name b).
End Reactions.
Arguments mkRxn {Eq K R}. Arguments rx_name {Eq K R}. Arguments rx_equation {Eq K R}. Arguments rx_lnK {Eq K R}. Arguments rx_rate {Eq K R}.
Arguments RName {Eq K R}. Arguments REquation {Eq K R}. Arguments RLnK {Eq K R}. Arguments RRate {Eq K R}.
Arguments setRxn {Eq K R}. Arguments newRxn {Eq K R}. Arguments reactions {Eq K R}. Arguments rxn_ltb {Eq K R}. Arguments rxn_eqb {Eq K R}.

Section Phases.
(* States of matter and activity models. *)
Variables M F : Type.
Variables (solid : M) (noF : F).
(* Phase.cpp:48-67. *)
Record Ph := mkPh { p_name : str; p_state : M; p_species : list Species; p_activity : F; p_ideal : F; p_masses : list Q }.
Definition newPh : Ph := mkPh [] solid [] noF noF [].
Inductive PEdit := PName (n : str) | PSpecies (l : list Species) | PState (m : M) | PActivity (f : F) | PIdeal (f : F).
(* Phase.cpp:89. *)
Definition checkPh (e : PEdit) : outcome unit := match e with PSpecies l => ensureCommonAggregateState l | _ => Ok tt end.
(* Phase.cpp:80-115, and 28-33 for the molar masses. *)
Definition setPh (e : PEdit) (p : Ph) : Ph :=
  match e with
  | PName n => mkPh n (p_state p) (p_species p) (p_activity p) (p_ideal p) (p_masses p)
  | PSpecies l => mkPh (p_name p) (p_state p) l (p_activity p) (p_ideal p) (map molarMass l)
  | PState m => mkPh (p_name p) m (p_species p) (p_activity p) (p_ideal p) (p_masses p)
  | PActivity f => mkPh (p_name p) (p_state p) (p_species p) f (p_ideal p) (p_masses p)
  | PIdeal f => mkPh (p_name p) (p_state p) (p_species p) (p_activity p) f (p_masses p)
  end.
Definition phases (prog : list (op PEdit)) : outcome (list Ph) := omap (reads newPh) (run newPh checkPh setPh emptyStore prog).
(* Phase.cpp:127-130. *)
Definition ph_aggregateState (p : Ph) : outcome AggregateState := match p_species p with [] => Ok Undefined | s :: _ => aggregateState s end.
(* Phase.cpp:152-160. *)
Definition ph_ltb (a b : Ph) : bool := str_ltb (p_name a) (p_name b).
Definition ph_eqb (a b : Ph) : bool := str_eqb (p_name a) (p_name b).
End Phases.
Arguments mkPh {M F}. Arguments p_name {M F}. Arguments p_state {M F}. Arguments p_species {M F}. Arguments p_activity {M F}. Arguments p_ideal {M F}. Arguments p_masses {M F}.
Arguments PName {M F}. Arguments PSpecies {M F}. Arguments PState {M F}. Arguments PActivity {M F}. Arguments PIdeal {M F}.
Arguments newPh {M F}. Arguments checkPh {M F}. Arguments setPh {M F}. Arguments phases {M F}. Arguments ph_aggregateState {M F}. Arguments ph_ltb {M F}. Arguments ph_eqb {M F}.
