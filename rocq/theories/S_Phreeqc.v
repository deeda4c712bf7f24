(* What species made from a PHREEQC instance should be. *)
From Coq Require Import Reals Lra Permutation.
From Verif Require Import Base M_Thermo M_Formation M_PhreeqcWater M_Phreeqc.
Local Open Scope R_scope.

(* Species and phases of an instance. *)
Inductive Item := ItSpecies (s : PSpecies) | ItPhase (p : PPhase).
Definition item_name (it : Item) : str := match it with ItSpecies s => ps_name s | ItPhase p => pp_name p end.
Definition item_formula (it : Item) : str := match it with ItSpecies s => ps_name s | ItPhase p => pp_formula p end.
Definition item_charge (it : Item) : R := match it with ItSpecies s => ps_z s | ItPhase _ => 0 end.
Definition item_elts (it : Item) : list (str * R) := match it with ItSpecies s => ps_elts s | ItPhase p => pp_elts p end.
Definition item_logk (it : Item) : LogK := match it with ItSpecies s => ps_logk s | ItPhase p => pp_logk p end.
Definition species_items (inst : Instance) : list Item := map ItSpecies (in_s inst).
Definition phase_items (inst : Instance) : list Item := map ItPhase (in_phases inst).
Definition items (inst : Instance) : list Item := species_items inst ++ phase_items inst.

(* The participants of a reaction other than [n], in order. *)
Inductive Others (n : str) : list (str * R) -> list (str * R) -> Prop :=
| others_nil : Others n [] []
| others_skip : forall c l l', Others n l l' -> Others n ((n, c) :: l) l'
| others_keep : forall m c l l', m <> n -> Others n l l' -> Others n ((m, c) :: l) ((m, c) :: l').
(* The item is formed from the species [l], with these coefficients.  The reaction of
   a phase is written from the phase, which comes first. *)
Inductive FormedFrom : Item -> list (str * R) -> Prop :=
| formed_species : forall s tokens l, ps_rxn s = Some tokens -> Others (ps_name s) tokens l -> FormedFrom (ItSpecies s) l
| formed_phase : forall p t l, pp_rxn p = Some (t :: l) -> FormedFrom (ItPhase p) l.

(* An instance that PHREEQC could have made: names are unique, every reaction is there
   and between known species, no species is formed from itself, and elements are known. *)
Record WellFormed (inst : Instance) : Prop := {
  wf_elements : NoDup (map pe_name (in_elements inst));
  wf_masters : forall e, In e (in_elements inst) -> pe_master e <> None;
  wf_species : NoDup (map ps_name (in_s inst));
  wf_phases : NoDup (map pp_name (in_phases inst));
  wf_elts : forall it, In it (items inst) -> NoDup (map fst (item_elts it)) /\ incl (map fst (item_elts it)) (map pe_name (in_elements inst));
  wf_reactions : forall it, In it (items inst) -> exists l, FormedFrom it l /\ incl (map fst l) (map ps_name (in_s inst));
  wf_acyclic : exists rank : str -> nat, forall s l n c, In s (in_s inst) -> FormedFrom (ItSpecies s) l -> In (n, c) l -> (rank n < rank (ps_name s))%nat }.

(* The aggregate states. *)
Inductive HasState : Item -> PState -> Prop :=
| state_aqueous : forall s, In (ps_type s) [AQ; HPLUS; H2O; EMINUS] -> HasState (ItSpecies s) Aqueous
| state_exchange : forall s, ps_type s = EX -> HasState (ItSpecies s) IonExchange
| state_surface : forall s, In (ps_type s) [SURF; SURF_PSI; SURF_PSI1; SURF_PSI2] -> HasState (ItSpecies s) Adsorbed
| state_none : forall s, ps_type s = SOLID \/ ps_type s = OtherType -> HasState (ItSpecies s) Undefined
| state_gas : forall p a b, pp_name p = a ++ $"(g)" ++ b -> HasState (ItPhase p) Gas
| state_solid : forall p, (forall a b, pp_name p <> a ++ $"(g)" ++ b) -> pp_type p = SOLID -> HasState (ItPhase p) Solid
| state_other : forall p, (forall a b, pp_name p <> a ++ $"(g)" ++ b) -> pp_type p <> SOLID -> HasState (ItPhase p) Undefined.
(* The elements are those of the item, each with the mass in kg/mol of the instance. *)
Definition Composition (inst : Instance) (it : Item) (l : list (Elem * R)) : Prop :=
  Permutation (map (fun ec => (el_symbol (fst ec), snd ec)) l) (item_elts it) /\
  forall e c, In (e, c) l -> exists x, In x (in_elements inst) /\ pe_name x = el_symbol e /\
    pe_master x = Some (el_name e) /\ el_mass e = pe_gfw x / 1000.
Record Identity (inst : Instance) (it : Item) (s : Sp) : Prop := {
  id_name : sp_name s = item_name it;
  id_formula : sp_formula s = item_formula it;
  id_charge : sp_charge s = item_charge it;
  id_state : HasState it (sp_state s);
  id_elements : Composition inst it (sp_elements s) }.
(* The formation reaction has the reactants of PHREEQC, and they are species of the list. *)
Definition Reaction (L : list Sp) (it : Item) (s : Sp) : Prop :=
  forall l, FormedFrom it l ->
  Forall2 (fun x t => rt_name (fst x) = fst t /\ snd x = snd t /\
    exists y, In y L /\ sp_name y = fst t /\ rt_props (fst x) = sp_props y) (fr_reactants (sp_reaction s)) l.

(* ---- In which order species have to come ---- *)
(* The species needed by those named in [ys], and these. *)
Inductive Reached (inst : Instance) (ys : list str) : str -> Prop :=
| reached_here : forall y, In y ys -> Reached inst ys y
| reached_next : forall s l n c, In s (in_s inst) -> Reached inst ys (ps_name s) -> FormedFrom (ItSpecies s) l -> In (n, c) l -> Reached inst ys n.
(* Every species that is not needed by an earlier one has reactants that are needed by
   an earlier one, or by an earlier reactant, or whose own reactants all are. *)
Definition Prepared (inst : Instance) : Prop :=
  forall before s after l l1 t l2, in_s inst = before ++ s :: after -> FormedFrom (ItSpecies s) l -> l = l1 ++ t :: l2 ->
  let ys := map ps_name before ++ map fst l1 in
  Reached inst (map ps_name before) (ps_name s) \/ Reached inst ys (fst t) \/
  forall q lq, In q (in_s inst) -> ps_name q = fst t -> FormedFrom (ItSpecies q) lq -> forall n c, In (n, c) lq -> Reached inst ys n.

(* ---- Equilibrium constants and volumes ---- *)
(* The logarithm of the equilibrium constant that the data of PHREEQC give at T: the
   analytical expression if there is one, and else the van 't Hoff equation with
   enthalpies in kJ/mol. *)
Definition LgK (k : LogK) (T v : R) : Prop :=
  ((T_A1 k <> 0 \/ T_A2 k <> 0 \/ T_A3 k <> 0 \/ T_A4 k <> 0 \/ T_A5 k <> 0 \/ T_A6 k <> 0) ->
    v = T_A1 k + T_A2 k * T + T_A3 k / T + T_A4 k * (ln T / ln 10) + T_A5 k / (T * T) + T_A6 k * (T * T)) /\
  (T_A1 k = 0 /\ T_A2 k = 0 /\ T_A3 k = 0 /\ T_A4 k = 0 /\ T_A5 k = 0 /\ T_A6 k = 0 ->
    v = logK_T0 k - delta_h k * 1000 / (universalGasConstant * ln 10) * (1 / T - 1 / (29815 / 100))).
(* Reactions of phases are written the other way around. *)
Definition direction (it : Item) : R := match it with ItSpecies _ => 1 | ItPhase _ => - (1) end.
Fixpoint total (l : list (str * R)) (g : str -> R) : R :=
  match l with [] => 0 | (n, c) :: l' => c * g n + total l' g end.
(* The properties of the species named [n] at T and P. *)
Definition PropsAt (L : list Sp) (n : str) (T P : R) (p : StdProps) : Prop :=
  exists s, In s L /\ sp_name s = n /\ sp_props s T P = Ok p.
(* The standard Gibbs energies give the equilibrium constant of PHREEQC for the reaction
   of PHREEQC at 1 atm, and away from it the change of volume of that reaction. *)
Definition Equilibrium (L : list Sp) (it : Item) : Prop :=
  forall l T P k p (props : str -> StdProps), FormedFrom it l -> l <> [] -> 0 < T -> LgK (item_logk it) T k ->
  PropsAt L (item_name it) T P p -> (forall n c, In (n, c) l -> PropsAt L n T P (props n)) ->
  total l (fun n => G0 (props n)) - G0 p =
    universalGasConstant * T * ln 10 * (direction it * k) - (V0 p - total l (fun n => V0 (props n))) * (P - 101325).
