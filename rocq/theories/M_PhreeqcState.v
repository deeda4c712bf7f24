(* The properties that a Phreeqc object computes at given temperatures, pressures and
   amounts (Extensions/Phreeqc/Phreeqc.cpp).  What PHREEQC itself computes (constants
   of reactions, volumes, activity coefficients, the equation of state of gases) is the
   input of the model, as functions of the variables that the object sets: what PHREEQC
   keeps between its own calls (such as the last conditions of k_temp) is not modelled,
   its source is not in the repository.  Values that are not finite are [None]. *)
From Coq Require Import Reals Lra.
From Verif Require Import Base M_Thermo.
Local Open Scope R_scope.

(* PHREEQC with the active species of a script: numbers of species, charges, index of
   water, matrix of the reactions, and the functions of PHREEQC. *)
Record Engine := mkEngine {
  na : nat; ng : nat; nm : nat; zs : list R; iw : nat; stoich : list (list R);
  lk : R -> R -> R -> list R;          (* k_temp: log10 K of the reactions, of tc, atm and ionic strength *)
  vm_tc : R -> R -> R -> list R;       (* k_temp: volumes of aqueous species, cm3/mol *)
  vm0 : list R;                        (* volumes of minerals, cm3/mol *)
  pitzer : bool;                       (* Pitzer or SIT *)
  lg : R -> R -> R -> list R -> list (option R) -> list R;  (* pitzer(), sit(), gammas(): log10 of activity coefficients *)
  AW : R -> R -> R -> list R -> list (option R) -> R;       (* activity of water of pitzer() and sit() *)
  PR : R -> R -> list R -> R * list (R * R);                (* calc_PR: volume, and fractions and fugacity coefficients *)
  solve : list R -> list R;            (* lu.solve *)
  T0 : R; patm0 : R; n0 : list R; lm0 : list (option R) }.  (* after the script: tk_x, patm_x, moles and lm *)

(* Phreeqc.cpp:39 and Thermodynamics/Water/WaterConstants.hpp:22-23. *)
Definition pascal_to_atm : R := 986923267 / 10 ^ 14.
Definition waterMolarMass : R := 18015268 / 10 ^ 9.
(* Values of std::log, std::log10: finite for positive arguments. *)
Definition log (x : R) : option R := if Rlt_dec 0 x then Some (ln x) else None.
Definition log10 (x : R) : option R := if Rlt_dec 0 x then Some (ln x / ln 10) else None.
(* Phreeqc.cpp:978. *)
Definition ln10_short : R := 230258509299 / 10 ^ 11.

(* The members of the object and of PHREEQC that are set, Phreeqc.cpp:74-84 and 143-183;
   ln_activities, ln_activity_coefficients and phase_molar_volumes are copies that no
   method returns (1266-1289) and are left out. *)
Record State := mkState {
  T : R; P : R; I : R; n : list R; lm : list (option R); lks : list R;
  G0 : list R; V0 : list R; lnc : list (option R); G0TPI : list R; V0TPI : list R;
  lng_aq : list R; lna_aq : list (option R); lng_gas : list (option R); lna_gas : list (option R); v_aq : R; v_gas : R }.

Fixpoint sum (l : list R) : R := match l with [] => 0 | x :: l' => x + sum l' end.
Fixpoint map2 {A B C} (f : A -> B -> C) (a : list A) (b : list B) : list C :=
  match a, b with x :: a', y :: b' => f x y :: map2 f a' b' | _, _ => [] end.
Fixpoint assign {A} (l : list A) (i : nat) (x : A) : list A :=
  match l, i with [], _ => [] | _ :: l', O => x :: l' | y :: l', S i' => y :: assign l' i' x end.
Definition Rgas : R := universalGasConstant.

Section Of_engine.
Variable e : Engine.
Definition aq (x : list R) : list R := firstn (na e) x.
Definition gas (x : list R) : list R := firstn (ng e) (skipn (na e) x).
Definition tc_of (t : R) : R := t - 27315 / 100.
Definition atm_of (p : R) : R := p * pascal_to_atm.
(* Phreeqc.cpp:903-958: the molalities and the ionic strength; without water the
   molalities are left as they are. *)
Definition massH2O (x : list R) : R := nth (iw e) (aq x) 0 * waterMolarMass.
Definition molalities (x : list R) (old : list (option R)) : list (option R) :=
  if Rlt_dec 0 (massH2O x) then map (fun y => log10 (y / massH2O x)) (aq x) else old.
Definition ionicStrength (x : list R) : R :=
  if Rlt_dec 0 (massH2O x) then sum (map2 (fun y z => y * z * z) (aq x) (zs e)) * ((1 / 2) / massH2O x) else 0.
(* Phreeqc.cpp:975-994: of the current constants. *)
Definition lnEquilibriumConstants (ks : list R) : list R := map (fun k => k * ln10_short) ks.
(* Phreeqc.cpp:1017-1030. *)
Definition gibbs (t : R) (ks : list R) : list R := map (fun g => g * (- Rgas * t)) (solve e (lnEquilibriumConstants ks)).
(* Phreeqc.cpp:996-1015. *)
Definition volumes (t p : R) (vs : list R) : list R :=
  map (fun v => v * (1 / 10 ^ 6)) vs ++ repeat (Rgas * t / p) (ng e) ++ map (fun v => v * (1 / 10 ^ 6)) (vm0 e).
(* Phreeqc.cpp:1066-1085. *)
Definition lnActivityConstants (p : R) : list (option R) :=
  assign (repeat (log (55508472 / 10 ^ 6)) (na e) ++ repeat (log (p / 10 ^ 5)) (ng e) ++ repeat (Some 0) (nm e)) (iw e) (Some 0).
(* Phreeqc.cpp:721-745: constants at zero ionic strength. *)
Definition updateThermo (s : State) : State :=
  let t := T s in let p := P s in
  let ks := lk e (tc_of t) (atm_of p) 0 in
  mkState t p (I s) (n s) (lm s) ks (gibbs t ks) (volumes t p (vm_tc e (tc_of t) (atm_of p) 0)) (lnActivityConstants p)
    (G0TPI s) (V0TPI s) (lng_aq s) (lna_aq s) (lng_gas s) (lna_gas s) (v_aq s) (v_gas s).
(* Phreeqc.cpp:771-835. *)
Definition ln_a (g : R) (m : option R) : option R := match m with Some m' => Some (g + m' * ln 10) | None => Some 0 end.
Definition lnActivitiesAqueous (t p i : R) (x : list R) (ms : list (option R)) : list (option R) :=
  let l := lg e (tc_of t) (atm_of p) i (aq x) ms in
  assign (map2 ln_a (map (fun g => g * ln 10) l) ms) (iw e)
    (if pitzer e then log (AW e (tc_of t) (atm_of p) i (aq x) ms) else log (nth (iw e) (aq x) 0 / sum (aq x))).
Definition volumeAqueous (v x : list R) : R := if Rlt_dec 0 (sum (aq x)) then sum (map2 Rmult (aq v) (aq x)) / sum (aq x) else 0.
(* Phreeqc.cpp:747-769 with 771-881; the arrays of gases are left as they are when
   there are none. *)
Definition updateChemical (s : State) : State :=
  let t := T s in let p := P s in let i := I s in let x := n s in
  let ks := lk e (tc_of t) (atm_of p) i in
  let v := volumes t p (vm_tc e (tc_of t) (atm_of p) i) in
  let eos := PR e (atm_of p) t (gas x) in
  let '(gg, lag, vg) := match ng e with
    | O => (lng_gas s, lna_gas s, v_gas s)
    | _ => (map (fun y => log (snd y)) (snd eos), map (fun y => log (fst y * snd y * (p / 10 ^ 5))) (snd eos), if Rlt_dec 0 (sum (gas x)) then fst eos else 0)
    end in
  mkState t p i x (lm s) ks (G0 s) (V0 s) (lnc s) (gibbs t ks) v
    (map (fun g => g * ln 10) (lg e (tc_of t) (atm_of p) i (aq x) (lm s))) (lnActivitiesAqueous t p i x (lm s)) gg lag
    (volumeAqueous v x) vg.
(* Phreeqc.cpp:1087-1112; the comma initializer of Eigen writes out of range when it
   is given more than numSpecies() values. *)
Definition add_to (a : option R) (d : R) : option R := option_map (fun y => y + d) a.
Definition lnActivities (s : State) : outcome (list (option R)) :=
  if negb (Nat.eqb (length (lna_aq s) + length (lna_gas s) + nm e) (na e + ng e + nm e)) then UB
  else Ok (map2 add_to (lna_aq s ++ lna_gas s ++ repeat (Some 0) (nm e)) (map2 (fun a b => (a - b) * 1 / (Rgas * T s)) (G0TPI s) (G0 s))).
(* Phreeqc.cpp:1054-1064. *)
Definition lnActivityCoefficients (s : State) : outcome (list (option R)) :=
  if negb (Nat.eqb (length (lng_aq s) + length (lng_gas s) + nm e) (na e + ng e + nm e)) then UB
  else Ok (map Some (lng_aq s) ++ lng_gas s ++ repeat (Some 0) (nm e)).
(* Phreeqc.cpp:1032-1052; there are aqueous species. *)
Definition phaseMolarVolumes (s : State) : list R :=
  v_aq s :: (match ng e with O => [] | _ => [v_gas s] end) ++ skipn (length (V0 s) - nm e) (V0 s).

(* Phreeqc.cpp:677-694, set(T, P). *)
Definition setTP (s : State) (t p : R) : State :=
  updateThermo (mkState t p (I s) (n s) (lm s) (lks s) (G0 s) (V0 s) (lnc s) (G0TPI s) (V0TPI s) (lng_aq s) (lna_aq s) (lng_gas s) (lna_gas s) (v_aq s) (v_gas s)).
(* Phreeqc.cpp:696-719, set(T, P, n): too few or too many amounts are read out of
   range.  Activities and coefficients are evaluated at once. *)
Definition setTPn (s : State) (t p : R) (x : list R) : outcome State :=
  if negb (Nat.eqb (length x) (na e + ng e + nm e)) then UB else
  let s1 := mkState t p (ionicStrength x) x (molalities x (lm s)) (lks s) (G0 s) (V0 s) (lnc s) (G0TPI s) (V0TPI s) (lng_aq s) (lna_aq s) (lng_gas s) (lna_gas s) (v_aq s) (v_gas s) in
  let s2 := updateChemical (updateThermo s1) in
  bind (lnActivityCoefficients s2) (fun _ => bind (lnActivities s2) (fun _ => Ok s2)).
(* Phreeqc.cpp:327-334 and 660-675: the script has left temperature, pressure, amounts
   and molalities in PHREEQC. *)
Definition execute (s : State) : outcome State :=
  setTPn (mkState (T s) (P s) (I s) (n s) (lm0 e) (lks s) (G0 s) (V0 s) (lnc s) (G0TPI s) (V0TPI s) (lng_aq s) (lna_aq s) (lng_gas s) (lna_gas s) (v_aq s) (v_gas s))
    (T0 e) (patm0 e * (1 / pascal_to_atm)) (n0 e).
End Of_engine.
(* Phreeqc.cpp:305-306: a new object; numbers that are not initialized are zero here,
   and they are not read before they are set by execute. *)
Definition blank : State := mkState 0 0 0 [] [] [] [] [] [] [] [] [] [] [] [] 0 0.
