(* What equilibrium specifications, conditions and restrictions must mean.  The
   model is used for the types of calls and of observable values only. *)
From Verif Require Import Base S_System S_State S_Chem M_Formula M_Chem M_System M_State M_Specs.

(* Two formulas denote the same substance. *)
Definition SameSubstance (f g : ChemicalFormula) : Prop :=
  (cf_charge f == cf_charge g)%Q /\ forall e q, assigns (cf_elements f) e q <-> assigns (cf_elements g) e q.

(* No two items at different positions are related. *)
Definition Apart {A} (R : A -> A -> Prop) (l : list A) : Prop :=
  forall i j x y, i <> j -> nth_error l i = Some x -> nth_error l j = Some y -> ~ R x y.

(* The input variable that a specification call introduces. *)
Definition input_of (c : scall) : option str :=
  match c with
  | STemperature => Some $"T" | SPressure => Some $"P" | SVolume => Some $"V" | SInternalEnergy => Some $"U"
  | SEnthalpy => Some $"H" | SGibbsEnergy => Some $"G" | SHelmholtzEnergy => Some $"A" | SEntropy => Some $"S"
  | SChemicalPotential x => Some ($"u[" ++ x ++ $"]")
  | SLnActivitySpecies sp => Some ($"lnActivity[" ++ name sp ++ $"]")
  | SLnActivity n | SLgActivity n | SActivity n => Some ($"lnActivity[" ++ n ++ $"]")
  | SFugacity g => Some ($"f[" ++ g ++ $"]")
  | SpH => Some $"pH" | SpMg => Some $"pMg" | SpE => Some $"pE" | SEh => Some $"Eh"
  | SOpenTo _ | SAddE _ | SAddU _ => None
  | SAddInput v => Some v | SAddParam p => Some (pa_id p)
  end.

(* The formulas that a call or a database contributes list each element once. *)
Definition call_ok (c : scall) : Prop :=
  match c with
  | SOpenTo f => listed_once (cf_elements f)
  | SAddU u => listed_once (cf_elements (u_substance u))
  | SLnActivitySpecies sp => listed_once (cf_elements (formula sp))
  | _ => True
  end.
Definition db_ok (db : Database) : Prop :=
  forall sp, In sp (db_species db) \/ (exists a, In sp (speciesWithAggregateState db a)) -> listed_once (cf_elements (formula sp)).

(* Constraints that the user supplies as functions. *)
Definition user_e (c : scall) : Prop := match c with SAddE _ => True | _ => False end.
Definition user_u (c : scall) : Prop := match c with SAddU _ => True | _ => False end.

(* Equation constraints: their name, their input and the property that must
   equal it. *)
Definition equation_table : list (str * str * (list Phase -> Props -> outcome Q)) := [
  ($"volume", $"V", volume); ($"internalEnergy", $"U", internalEnergy); ($"enthalpy", $"H", enthalpy);
  ($"gibbsEnergy", $"G", gibbsEnergy); ($"helmholtzEnergy", $"A", helmholtzEnergy); ($"entropy", $"S", entropy)].

(* Chemical potential constraints: the substance and the potential imposed on it
   as a function of the properties and of the value [x] of the input. *)
Section Potentials.
Variable log : Q -> Q.
Variable stdprops : Species -> Q -> Q -> outcome Std.
Variable db : Database.
Definition activity_potential (sp : Species) (lna : Q -> Q) (pr : Props) (x v : Q) : Prop :=
  exists std, stdprops sp (p_T pr) (p_P pr) = Ok std /\ (v == s_G0 std + (83144621 # 10000000) * p_T pr * lna x)%Q.
Definition in_database (a : AggregateState) (f : str) (sp : Species) : Prop :=
  exists g, mkChemicalFormula f = Ok g /\
    First (fun s => equivalent g (formula s) = true) (speciesWithAggregateState db a) sp.
Definition lnten : Q := 230258509299404590109361379290930926799774169921875 # 100000000000000000000000000000000000000000000000000.

Inductive Potential : str -> ChemicalFormula -> (Props -> Q -> Q -> Prop) -> Prop :=
| pot_u x f : mkChemicalFormula x = Ok f -> Potential ($"u[" ++ x ++ $"]") f (fun _ x v => v == x)%Q
| pot_activity sp : Potential ($"lnActivity[" ++ name sp ++ $"]") (formula sp) (activity_potential sp (fun x => x))
| pot_fugacity g sp : in_database Gas g sp -> Potential ($"f[" ++ g ++ $"]") (formula sp) (activity_potential sp log)
| pot_pH sp : in_database Aqueous $"H+" sp -> Potential $"pH" (formula sp) (activity_potential sp (fun x => - (x * lnten)))%Q
| pot_pMg sp : in_database Aqueous $"Mg+2" sp -> Potential $"pMg" (formula sp) (activity_potential sp (fun x => - (x * lnten)))%Q
| pot_pE f : mkChemicalFormula $"e-" = Ok f ->
    Potential $"pE" f (fun pr x v => v == - ((83144621 # 10000000) * p_T pr * x * lnten))%Q
| pot_Eh f : mkChemicalFormula $"e-" = Ok f -> Potential $"Eh" f (fun _ x v => v == - ((964853329 # 10000) * x))%Q.
End Potentials.

(* ---- Restrictions: how far the amount of a species may move in a direction ---- *)
Inductive Limit := Unlimited | Frozen | UpTo (v : Q).
Section Restricting.
Variable sys : ChemicalSystem.
(* The species that a call names. *)
Definition Refers (t : target) (i : nat) : Prop :=
  match t with
  | At j => i = j /\ i < length (sys_species sys)
  | Named n => FirstAt (fun sp => name sp = n) (sys_species sys) i
  end.
(* The amount in mol that a value of amount or mass unit denotes. *)
Definition Amount (i : nat) (v : Q) (un : str) (a : Q) : Prop :=
  (un = $"mol" /\ a = v) \/
  (un <> $"mol" /\ M_Units.convertible un $"kg" = Ok true /\
    exists m kg, molarMassAt sys i = Ok m /\ M_Units.convert v un $"kg" = Ok kg /\ M_State.divide kg m = Ok a) \/
  (un <> $"mol" /\ M_Units.convertible un $"kg" = Ok false /\ M_Units.convert v un $"mol" = Ok a).

(* The limit that a call imposes on increases and on decreases. *)
Inductive Upper : rcall -> nat -> Limit -> Prop :=
| up_react t i : Refers t i -> Upper (RCannotReact t) i Frozen
| up_inc t i : Refers t i -> Upper (RCannotIncrease t) i Frozen
| up_above t i v un a : Refers t i -> Amount i v un a -> Upper (RCannotIncreaseAbove t v un) i (UpTo a)
| up_free t i : Refers t i -> Upper (RCanReactFreely t) i Unlimited
| up_ifree t i : Refers t i -> Upper (RCanIncreaseFreely t) i Unlimited.
Inductive Lower : rcall -> nat -> Limit -> Prop :=
| lo_react t i : Refers t i -> Lower (RCannotReact t) i Frozen
| lo_dec t i : Refers t i -> Lower (RCannotDecrease t) i Frozen
| lo_below t i v un a : Refers t i -> Amount i v un a -> Lower (RCannotDecreaseBelow t v un) i (UpTo a)
| lo_free t i : Refers t i -> Lower (RCanReactFreely t) i Unlimited
| lo_dfree t i : Refers t i -> Lower (RCanDecreaseFreely t) i Unlimited.

(* The limit in force after a history: that of the last call about the species. *)
Definition InForce (K : rcall -> nat -> Limit -> Prop) (h : list rcall) (i : nat) (l : Limit) : Prop :=
  (l = Unlimited /\ forall c m, In c h -> ~ K c i m) \/
  (exists a c b, h = a ++ c :: b /\ K c i l /\ forall d m, In d b -> ~ K d i m).
(* A set of frozen species and a table of limited ones show limit [l] for species [i]. *)
Definition Shows (frozen : list nat) (limited : list (nat * Q)) (i : nat) (l : Limit) : Prop :=
  (In i frozen <-> l = Frozen) /\ (forall v, In (i, v) limited <-> l = UpTo v).
End Restricting.

(* ---- Conditions: the input each call sets and the value it must receive ---- *)
Section Setting.
Variable log : Q -> Q.
Definition setting (x : ccall) : option (str * outcome Q) :=
  match x with
  | CTemperature v u => Some ($"T", M_Units.convert v u $"K")
  | CPressure v u => Some ($"P", M_Units.convert v u $"Pa")
  | CVolume v u => Some ($"V", M_Units.convert v u $"m3")
  | CInternalEnergy v u => Some ($"U", M_Units.convert v u $"J")
  | CEnthalpy v u => Some ($"H", M_Units.convert v u $"J")
  | CGibbsEnergy v u => Some ($"G", M_Units.convert v u $"J")
  | CHelmholtzEnergy v u => Some ($"A", M_Units.convert v u $"J")
  | CEntropy v u => Some ($"S", M_Units.convert v u $"J/K")
  | CChemicalPotential n v u => Some ($"u[" ++ n ++ $"]", M_Units.convert v u $"J/mol")
  | CLnActivity n v => Some ($"lnActivity[" ++ n ++ $"]", Ok v)
  | CLgActivity n v => Some ($"lnActivity[" ++ n ++ $"]", Ok (v * lnten)%Q)
  | CActivity n v => Some ($"lnActivity[" ++ n ++ $"]", Ok (log v))
  | CFugacity n v u => Some ($"f[" ++ n ++ $"]", M_Units.convert v u $"bar")
  | CpH v => Some ($"pH", Ok v)
  | CpMg v => Some ($"pMg", Ok v)
  | CpE v => Some ($"pE", Ok v)
  | CEh v u => Some ($"Eh", M_Units.convert v u $"V")
  | CSet n v => Some (n, Ok v)
  | CStartN _ _ _ | CStart _ _ _ | CStartState _ | CStartComponents _ => None
  end.
End Setting.

(* ---- Conservation of elements and charge ---- *)
(* The number of atoms of an element that a composition states. *)
Definition Holds (l : list (str * Q)) (e : str) (c : Q) : Prop := In (e, c) l \/ (~ In e (map fst l) /\ c = 0%Q).
Definition composition (sp : Species) : list (str * Q) := map (fun p => (el_symbol (fst p), snd p)) (sp_elements sp).
(* The amounts [n] of the species, [q] of the implicit and [t] of the explicit
   titrants together contain the amounts [b] of each element and of charge. *)
Definition Conserved (sys : ChemicalSystem) (implicit explicit : list ChemicalFormula) (n q t b : list Q) : Prop :=
  (forall k e, nth_error (sys_elements sys) k = Some e -> exists cn cq ct bk,
     Forall2 (fun sp c => Holds (composition sp) (el_symbol e) c) (sys_species sys) cn /\
     Forall2 (fun f c => Holds (cf_elements f) (el_symbol e) c) implicit cq /\
     Forall2 (fun f c => Holds (cf_elements f) (el_symbol e) c) explicit ct /\
     nth_error b k = Some bk /\ (dotQ cn n + dotQ cq q + dotQ ct t == bk)%Q) /\
  (exists bk, nth_error b (length (sys_elements sys)) = Some bk /\
     (dotQ (map sp_charge (sys_species sys)) n + dotQ (map cf_charge implicit) q + dotQ (map cf_charge explicit) t == bk)%Q).
Definition composed_in (sys : ChemicalSystem) (f : ChemicalFormula) : Prop :=
  forall x, In x (map fst (cf_elements f)) -> In x (map el_symbol (sys_elements sys)).

(* ---- Bounds: the larger of two numbers ---- *)
Definition Larger (a b m : Q) : Prop := (a <= m /\ b <= m)%Q /\ (m = a \/ m = b).

(* ---- Derivatives: one seeded variable ---- *)
Definition Seeded (l : list Q) (i : nat) : Prop :=
  (exists g, nth_error l i = Some g /\ g == 1)%Q /\ forall j g, j <> i -> nth_error l j = Some g -> (g == 0)%Q.
Definition Unseeded (l : list Q) : Prop := Forall (fun g => g == 0)%Q l.

(* Column [j] of a matrix. *)
Definition col (j : nat) (m : list (list Q)) : list Q := map (fun r => nth j r 0%Q) m.
Definition shape (r c : nat) (m : list (list Q)) : Prop := length m = r /\ Forall (fun row => length row = c) m.
