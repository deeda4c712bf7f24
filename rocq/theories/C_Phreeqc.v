(* C116 and C117: species made from PHREEQC databases. *)
From Coq Require Import Reals Lra Permutation.
From Verif Require Import Base M_Thermo M_Formation C_Formation M_PhreeqcWater M_Phreeqc S_Phreeqc P_Phreeqc.
Local Open Scope nat_scope.

(* ---- C116 ---- *)
Definition C116_statement : Prop :=
  forall water traversal inst, (forall l, Permutation (traversal l) l) -> WellFormed inst ->
  exists L, phreeqcSpecies water traversal inst = Ok L /\ NoDup (map sp_name L) /\
    (forall n, In n (map sp_name L) <-> In n (map item_name (items inst))) /\
    forall it, In it (items inst) -> exists x, In x L /\ Identity inst it x /\ Reaction L it x.

Section Theorems.
Variable water : R -> R -> WaterThermo * WaterElectro.
Variable traversal : list (str * R) -> list (str * R).
Hypothesis trav : forall l, Permutation (traversal l) l.
Variable inst : Instance.
Hypothesis WF : WellFormed inst.

Lemma pairs_reaction (w : Prop) L pairs l : w -> Pairs w L pairs l ->
  Forall2 (fun x t => rt_name (fst x) = fst t /\ snd x = snd t /\ exists y, In y L /\ sp_name y = fst t /\ rt_props (fst x) = sp_props y) pairs l.
Proof.
  intros Hw H. induction H as [|x t pairs l (y & Hy & Ex & Ec & En) H IH]; constructor; [|exact IH].
  rewrite Ex. cbn [rt_name rt_props asReactant]. split; [auto|]. split; [exact Ec|]. exists y. auto.
Qed.
Lemma made_reaction (W : Item -> Prop) L it x : W it -> Made water traversal inst W L it x -> Reaction L it x.
Proof.
  intros Hw (_ & (l & HF & _ & HB) & _) l' HF'. rewrite (formed_unique _ _ _ HF' HF). destruct l as [|r l].
  - destruct HB as [-> _]. constructor.
  - destruct HB as (pairs & HP & -> & _). cbn [fr_reactants]. apply (pairs_reaction (W it)); assumption.
Qed.
(* What holds of the reactants in any case. *)
Definition ReactionOf (L : list Sp) (it : Item) (x : Sp) : Prop :=
  forall l, FormedFrom it l -> map snd (fr_reactants (sp_reaction x)) = map snd l /\
    forall r c, In (r, c) (fr_reactants (sp_reaction x)) -> exists y, In y L /\ r = asReactant y.
Lemma made_reactionOf (W : Item -> Prop) L it x : Made water traversal inst W L it x -> ReactionOf L it x.
Proof.
  intros (_ & (l & HF & _ & HB) & _) l' HF'. rewrite (formed_unique _ _ _ HF' HF). destruct l as [|r l].
  - destruct HB as [-> _]. split; [reflexivity|]. intros r c [].
  - destruct HB as (pairs & HP & -> & _). cbn [fr_reactants].
    clear HF HF'. induction HP as [|x' t pairs l0 (y & Hy & Ex & Ec & _) HP IH]; [split; [reflexivity|intros a b []]|].
    destruct IH as [IH1 IH2]. split; [cbn; congruence|]. intros a b [E|Hin]; [|apply (IH2 _ _ Hin)].
    exists y. split; [exact Hy|]. rewrite E in Ex. exact Ex.
Qed.
End Theorems.

(* Loading always ends with one species per name.  Species have the identity they have
   in PHREEQC, and reactants with the right coefficients that are species of the
   database.  Phases are right, with their reactions, if no species has their name. *)
Theorem C116_partial : forall water traversal inst, (forall l, Permutation (traversal l) l) -> WellFormed inst ->
  exists L, phreeqcSpecies water traversal inst = Ok L /\ NoDup (map sp_name L) /\
    (forall n, In n (map sp_name L) <-> In n (map item_name (items inst))) /\
    (forall s, In s (in_s inst) -> exists x, In x L /\ Identity inst (ItSpecies s) x /\ ReactionOf L (ItSpecies s) x) /\
    (forall p, In p (in_phases inst) -> ~ In (pp_name p) (map ps_name (in_s inst)) ->
      exists x, In x L /\ Identity inst (ItPhase p) x /\ Reaction L (ItPhase p) x).
Proof.
  intros water traversal inst trav WF.
  destruct (load_all water traversal trav inst WF False) as (L & EL & [H1 H2 H3 H4 H5]); [intros []|].
  exists L. split; [exact EL|]. split; [exact H1|]. split; [exact H2|]. split.
  - intros s Hs. destruct (H3 s Hs) as (x & Hx & HM). exists x. split; [exact Hx|]. split; [apply HM|]. apply (made_reactionOf _ _ _ _ _ _ _ HM).
  - intros p Hp Hno. destruct (H4 p Hp Hno) as (x & Hx & HM). exists x. split; [exact Hx|]. split; [apply HM|].
    apply (made_reaction _ _ _ _ _ _ _ I HM).
Qed.
Print Assumptions C116_partial.

(* The formation reactions of all species are those of PHREEQC exactly if the species
   come in a suitable order. *)
Theorem C116_order_partial : forall water traversal inst L, (forall l, Permutation (traversal l) l) -> WellFormed inst ->
  phreeqcSpecies water traversal inst = Ok L ->
  ((forall s, In s (in_s inst) -> exists x, In x L /\ Identity inst (ItSpecies s) x /\ Reaction L (ItSpecies s) x) <-> Prepared inst).
Proof.
  intros water traversal inst L trav WF EL. split.
  - intros HR. destruct (load_all water traversal trav inst WF False) as (L' & EL' & [H1 H2 H3 H4 H5]); [intros []|].
    rewrite EL in EL'. injection EL' as <-. apply H5. intros s x l Hs Hx En HF.
    destruct (HR s Hs) as (y & Hy & HI & HRy).
    assert (x = y) as ->.
    { assert (E : sp_name x = sp_name y) by (rewrite En, (id_name HI); reflexivity).
      clear -H1 Hx Hy E. induction L as [|z L IH]; [destruct Hx|]. cbn in H1. inversion H1 as [|a b Hz ND]; subst.
      destruct Hx as [->|Hx]; destruct Hy as [->|Hy]; auto.
      - destruct Hz. rewrite E. apply in_map. exact Hy.
      - destruct Hz. rewrite <- E. apply in_map. exact Hx. }
    specialize (HRy l HF). unfold RightNames. clear -HRy. induction HRy as [|x t pairs l (E & _) H IH]; constructor; auto.
  - intros HP. destruct (load_all water traversal trav inst WF True) as (L' & EL' & [H1 H2 H3 H4 H5]); [intros _; exact HP|].
    rewrite EL in EL'. injection EL' as <-. intros s Hs. destruct (H3 s Hs) as (x & Hx & HM). exists x. split; [exact Hx|]. split; [apply HM|].
    apply (made_reaction _ _ _ _ _ _ _ I HM).
Qed.
Print Assumptions C116_order_partial.

(* ---- The dimer of carbon dioxide in databases/phreeqc/phreeqc.dat ---- *)
Local Open Scope R_scope.
Definition lgk (k h a1 a2 a3 a4 a5 : R) : LogK := mkLogK k h a1 a2 a3 a4 a5 0 0 0 0 0 0 0.
(* phreeqc.dat:10, 14 and 33: the elements H, O and C. *)
Definition ex_elements : list PElement :=
  [mkPE $"H" (Some $"H+") (1008 / 1000); mkPE $"O" (Some $"H2O") 16; mkPE $"C" (Some $"CO3-2") (120111 / 10000)].
Definition ex_species (n : str) (ty : PType) (z : R) (elts tokens : list (str * R)) (k : LogK) : PSpecies :=
  mkPS n ty z elts (Some tokens) k (0, 0, 0).
(* phreeqc.dat:214-216, 208-211, 120, 64 and 70, in the order of their names, without
   the parameters for volumes. *)
Definition dimer : PSpecies := ex_species $"(CO2)2" AQ 0 [($"C", 2); ($"O", 4)] [($"(CO2)2", - (1)); ($"CO2", 2)] (lgk (- (18 / 10)) 0 (868 / 100) (- (103 / 10000)) (- (2190)) 0 0).
Definition co2 : PSpecies := ex_species $"CO2" AQ 0 [($"C", 1); ($"O", 2)] [($"CO2", - (1)); ($"CO3-2", 1); ($"H+", 2); ($"H2O", - (1))]
  (lgk (16681 / 1000) (- (24007792 / 1000000)) (4641965 / 10000) (9344813 / 100000000) (- (2698616 / 100)) (- (16575951 / 100000)) (22486289 / 10)).
Definition co3 : PSpecies := ex_species $"CO3-2" AQ (- (2)) [($"C", 1); ($"O", 3)] [($"CO3-2", 1)] (lgk 0 0 0 0 0 0 0).
Definition hplus : PSpecies := ex_species $"H+" HPLUS 1 [($"H", 1)] [($"H+", 1)] (lgk 0 0 0 0 0 0 0).
Definition h2o : PSpecies := ex_species $"H2O" H2O 0 [($"H", 2); ($"O", 1)] [($"H2O", 1)] (lgk 0 0 0 0 0 0 0).
Definition carbon (s : list PSpecies) : Instance := mkInstance ex_elements s [].

Fixpoint nodupb (l : list str) : bool := match l with [] => true | x :: l' => negb (existsb (str_eqb x) l') && nodupb l' end.
Lemma nodupb_ok l : nodupb l = true -> NoDup l.
Proof.
  induction l as [|x l IH]; intros H; [constructor|]. cbn in H. apply andb_true_iff in H as [H1 H2]. constructor; [|auto].
  intros C. apply existsb_str in C. rewrite C in H1. discriminate H1.
Qed.
Definition inclb (l l' : list str) : bool := forallb (fun x => existsb (str_eqb x) l') l.
Lemma inclb_ok l l' : inclb l l' = true -> incl l l'.
Proof. intros H x Hx. unfold inclb in H. rewrite forallb_forall in H. apply existsb_str. apply H. exact Hx. Qed.
(* The reactants of an item, to be computed. *)
Definition from (it : Item) : list (str * R) :=
  match it with
  | ItSpecies s => match ps_rxn s with Some l => filter (fun t => negb (str_eqb (fst t) (ps_name s))) l | None => [] end
  | ItPhase p => match pp_rxn p with Some (_ :: l) => l | _ => [] end
  end.
Definition has_rxn (it : Item) : bool :=
  match it with ItSpecies s => match ps_rxn s with Some _ => true | None => false end | ItPhase p => match pp_rxn p with Some (_ :: _) => true | _ => false end end.
Lemma from_formed it : has_rxn it = true -> FormedFrom it (from it).
Proof.
  destruct it as [s|p]; cbn.
  - destruct (ps_rxn s) as [l|] eqn:E; [|discriminate]. intros _. apply (formed_species s l _ E). apply others_filter. reflexivity.
  - destruct (pp_rxn p) as [[|t l]|] eqn:E; try discriminate. intros _. apply (formed_phase p t l E).
Qed.
Definition wf_check (inst : Instance) (rank : str -> nat) : bool :=
  nodupb (map pe_name (in_elements inst)) && forallb (fun e => match pe_master e with Some _ => true | None => false end) (in_elements inst) &&
  nodupb (map ps_name (in_s inst)) && nodupb (map pp_name (in_phases inst)) &&
  forallb (fun it => nodupb (map fst (item_elts it)) && inclb (map fst (item_elts it)) (map pe_name (in_elements inst)) &&
    has_rxn it && inclb (map fst (from it)) (map ps_name (in_s inst))) (items inst) &&
  forallb (fun s => forallb (fun t => Nat.ltb (rank (fst t)) (rank (ps_name s))) (from (ItSpecies s))) (in_s inst).
Lemma wf_check_ok inst rank : wf_check inst rank = true -> WellFormed inst.
Proof.
  unfold wf_check. rewrite !andb_true_iff. intros (((((H1 & H2) & H3) & H4) & H5) & H6).
  rewrite forallb_forall in H2, H5, H6.
  assert (G : forall it, In it (items inst) -> nodupb (map fst (item_elts it)) = true /\ inclb (map fst (item_elts it)) (map pe_name (in_elements inst)) = true /\
    has_rxn it = true /\ inclb (map fst (from it)) (map ps_name (in_s inst)) = true).
  { intros it Hit. specialize (H5 it Hit). rewrite !andb_true_iff in H5. tauto. }
  constructor.
  - apply nodupb_ok. exact H1.
  - intros e He. specialize (H2 e He). cbn in H2. destruct (pe_master e); [discriminate|discriminate H2].
  - apply nodupb_ok. exact H3.
  - apply nodupb_ok. exact H4.
  - intros it Hit. destruct (G it Hit) as (A & B & _). split; [apply nodupb_ok; exact A|apply inclb_ok; exact B].
  - intros it Hit. destruct (G it Hit) as (_ & _ & A & B). exists (from it). split; [apply from_formed; exact A|apply inclb_ok; exact B].
  - exists rank. intros s l n c Hs HF Hn. destruct (G (ItSpecies s)) as (_ & _ & A & _).
    { apply in_app_iff. left. apply in_map. exact Hs. }
    rewrite (formed_unique _ _ _ HF (from_formed _ A)) in Hn. specialize (H6 s Hs). cbn beta in H6. rewrite forallb_forall in H6. specialize (H6 (n, c) Hn).
    apply Nat.ltb_lt in H6. exact H6.
Qed.
Definition ex_rank (n : str) : nat := if str_eqb n $"(CO2)2" then 2 else if str_eqb n $"CO2" then 1 else if str_eqb n $"Cd(OH)2" then 1 else 0.
Definition phreeqc_dat : Instance := carbon [dimer; co2; co3; hplus; h2o].
Lemma phreeqc_dat_wf : WellFormed phreeqc_dat.
Proof. apply (wf_check_ok _ ex_rank). vm_compute. reflexivity. Qed.
Lemma reached_none inst n : ~ Reached inst [] n.
Proof. induction 1 as [y Hy|s l n c Hs _ IH HF Hn]; [destruct Hy|exact IH]. Qed.
Lemma phreeqc_dat_order : ~ Prepared phreeqc_dat.
Proof.
  intros H. destruct (H [] dimer [co2; co3; hplus; h2o] [($"CO2", 2)] [] ($"CO2", 2) [] eq_refl) as [C|[C|C]].
  - change [($"CO2", 2)] with (from (ItSpecies dimer)). apply from_formed. reflexivity.
  - reflexivity.
  - apply (reached_none _ _ C).
  - apply (reached_none _ _ C).
  - apply (reached_none phreeqc_dat $"CO3-2"). apply (C co2 (from (ItSpecies co2))) with (c := 1).
    + right. left. reflexivity.
    + reflexivity.
    + apply from_formed. reflexivity.
    + left. reflexivity.
Qed.

Theorem C116_refuted : ~ C116_statement.
Proof.
  intros H. destruct (H (fun _ _ => (mkWT 1 1, mkWE 1 1 1 1 1 1)) (fun l => l) phreeqc_dat (fun l => Permutation_refl l) phreeqc_dat_wf) as (L & EL & _ & _ & HL).
  apply phreeqc_dat_order. apply (C116_order_partial _ _ _ _ (fun l => Permutation_refl l) phreeqc_dat_wf EL).
  intros s Hs. apply HL. apply in_app_iff. left. apply in_map. exact Hs.
Qed.
Print Assumptions C116_refuted.
(* In this case: twice the carbonate ion is what the dimer is formed from, and its
   reaction neither keeps the oxygen nor the charge. *)
Theorem C116_dimer_refuted : forall water, exists L x, phreeqcSpecies water (fun l => l) phreeqc_dat = Ok L /\ In x L /\
  Identity phreeqc_dat (ItSpecies dimer) x /\ map (fun rc => (rt_name (fst rc), snd rc)) (fr_reactants (sp_reaction x)) = [($"CO3-2", 2)].
Proof.
  intros water. eexists. eexists. split; [vm_compute; reflexivity|].
  split; [do 4 right; left; reflexivity|]. split.
  - constructor.
    + reflexivity.
    + reflexivity.
    + reflexivity.
    + apply state_aqueous. left. reflexivity.
    + split; [apply Permutation_refl|]. cbn [sp_elements]. intros e c [E|[E|[]]]; injection E as <- <-.
      * exists (mkPE $"C" (Some $"CO3-2") (120111 / 10000)). split; [right; right; left; reflexivity|]. repeat split; reflexivity.
      * exists (mkPE $"O" (Some $"H2O") 16). split; [right; left; reflexivity|]. repeat split; reflexivity.
  - reflexivity.
Qed.
Print Assumptions C116_dimer_refuted.

(* A phase with the name of a species is not in the database: the only species with
   that name is neither a gas nor a solid. *)
Theorem C116_lost_refuted : forall water traversal inst L p, (forall l, Permutation (traversal l) l) -> WellFormed inst ->
  phreeqcSpecies water traversal inst = Ok L -> In p (in_phases inst) -> In (pp_name p) (map ps_name (in_s inst)) ->
  forall x, In x L -> sp_name x = pp_name p -> (exists s, In s (in_s inst) /\ Identity inst (ItSpecies s) x) /\ sp_state x <> Gas /\ sp_state x <> Solid.
Proof.
  intros water traversal inst L p trav WF EL Hp Hs x Hx En.
  destruct (load_all water traversal trav inst WF False) as (L' & EL' & [H1 H2 H3 H4 H5]); [intros []|].
  rewrite EL in EL'. injection EL' as <-. apply in_map_iff in Hs as (s & Es & Hs). destruct (H3 s Hs) as (y & Hy & HI & _).
  assert (x = y) as ->.
  { assert (E : sp_name x = sp_name y) by (rewrite En, (id_name HI); symmetry; exact Es).
    clear -H1 Hx Hy E. induction L as [|z L IH]; [destruct Hx|]. cbn in H1. inversion H1 as [|a b Hz ND]; subst.
    destruct Hx as [->|Hx]; destruct Hy as [->|Hy]; auto.
    - destruct Hz. rewrite E. apply in_map. exact Hy.
    - destruct Hz. rewrite <- E. apply in_map. exact Hx. }
  split; [exists s; auto|]. pose proof (id_state _ _ _ HI) as HS. inversion HS; split; discriminate.
Qed.
Print Assumptions C116_lost_refuted.
(* phreeqc.dat:786-787 and 1221-1223: the hydroxide of cadmium, a species and a mineral. *)
Definition cdoh2 : PSpecies := ex_species $"Cd(OH)2" AQ 0 [($"Cd", 1); ($"H", 2); ($"O", 2)] [($"Cd(OH)2", - (1)); ($"Cd+2", 1); ($"H+", - (2)); ($"H2O", 2)]
  (lgk (- (2035 / 100)) 0 0 0 0 0 0).
Definition cd : PSpecies := ex_species $"Cd+2" AQ 2 [($"Cd", 1)] [($"Cd+2", 1)] (lgk 0 0 0 0 0 0 0).
Definition cdoh2_phase : PPhase := mkPP $"Cd(OH)2" $"Cd(OH)2" SOLID [($"Cd", 1); ($"H", 2); ($"O", 2)]
  (Some [($"Cd(OH)2", - (1)); ($"Cd+2", 1); ($"H+", - (2)); ($"H2O", 2)]) (lgk (1365 / 100) 0 0 0 0 0 0).
Definition cadmium : Instance := mkInstance (mkPE $"Cd" (Some $"Cd+2") (1124 / 10) :: ex_elements) [cdoh2; cd; hplus; h2o] [cdoh2_phase].
Lemma cadmium_wf : WellFormed cadmium.
Proof. apply (wf_check_ok _ ex_rank). vm_compute. reflexivity. Qed.
Example C116_lost : forall water L, phreeqcSpecies water (fun l => l) cadmium = Ok L -> ~ exists x, In x L /\ Identity cadmium (ItPhase cdoh2_phase) x.
Proof.
  intros water L EL (x & Hx & HI).
  destruct (C116_lost_refuted water (fun l => l) cadmium L cdoh2_phase (fun l => Permutation_refl l) cadmium_wf EL (or_introl eq_refl) (or_introl eq_refl) x Hx (id_name HI)) as (_ & _ & H).
  apply H. pose proof (id_state _ _ _ HI) as HS. inversion HS as [| | | |p a b E|p HN HT|p HN HT]; [exfalso|reflexivity|exfalso].
  - assert (C : occurs $"(g)" $"Cd(OH)2" = true) by (apply occurs_app; [discriminate|exists a, b; exact E]). discriminate C.
  - apply HT. reflexivity.
Qed.

(* An order that is suitable: every species after its reactants. *)
Definition Ordered (inst : Instance) : Prop :=
  forall before s after l n c, in_s inst = before ++ s :: after -> FormedFrom (ItSpecies s) l -> In (n, c) l -> In n (map ps_name before).
Theorem C116_ordered_partial : forall water traversal inst L, (forall l, Permutation (traversal l) l) -> WellFormed inst -> Ordered inst ->
  phreeqcSpecies water traversal inst = Ok L ->
  forall s, In s (in_s inst) -> exists x, In x L /\ Identity inst (ItSpecies s) x /\ Reaction L (ItSpecies s) x.
Proof.
  intros water traversal inst L trav WF HO EL. apply (C116_order_partial water traversal inst L trav WF EL).
  intros before s after l l1 [n c] l2 Es HF El. right. left. apply reached_here. apply in_app_iff. left.
  apply (HO before s after l n c Es HF). rewrite El. apply in_app_iff. right. left. reflexivity.
Qed.
Print Assumptions C116_ordered_partial.

Fixpoint orderedb (before : list str) (l : list PSpecies) : bool :=
  match l with [] => true | s :: l' => has_rxn (ItSpecies s) && inclb (map fst (from (ItSpecies s))) before && orderedb (before ++ [ps_name s]) l' end.
Lemma orderedb_ok inst : orderedb [] (in_s inst) = true -> Ordered inst.
Proof.
  intros H before s after l n c Es HF Hn. rewrite Es in H.
  assert (G : forall b d, orderedb d (b ++ s :: after) = true -> has_rxn (ItSpecies s) = true /\ incl (map fst (from (ItSpecies s))) (d ++ map ps_name b)).
  { induction b as [|x b IH]; intros d Hd; cbn [app orderedb map] in Hd |- *; apply andb_true_iff in Hd as [Hd1 Hd2].
    - apply andb_true_iff in Hd1 as [Hd0 Hd1]. split; [exact Hd0|]. rewrite app_nil_r. apply inclb_ok. exact Hd1.
    - destruct (IH _ Hd2) as [A B]. split; [exact A|]. rewrite <- app_assoc in B. exact B. }
  destruct (G before [] H) as [A B]. rewrite (formed_unique _ _ _ HF (from_formed _ A)) in Hn. apply B. apply in_map_iff. exists (n, c). auto.
Qed.
Definition ordered_dat : Instance := carbon [co3; hplus; h2o; co2; dimer].
Example C116_nonvacuous : WellFormed ordered_dat /\ Ordered ordered_dat /\ in_s ordered_dat <> [] /\ from (ItSpecies dimer) = [($"CO2", 2)].
Proof.
  split; [apply (wf_check_ok _ ex_rank); vm_compute; reflexivity|]. split; [apply orderedb_ok; vm_compute; reflexivity|].
  split; [discriminate|reflexivity].
Qed.

(* ---- C117 ---- *)
Definition C117_statement : Prop :=
  forall water traversal inst, (forall l, Permutation (traversal l) l) -> WellFormed inst ->
  exists L, phreeqcSpecies water traversal inst = Ok L /\ forall it, In it (items inst) -> Equilibrium L it.

Lemma name_unique (L : list Sp) x y : NoDup (map sp_name L) -> In x L -> In y L -> sp_name x = sp_name y -> x = y.
Proof.
  intros H1 Hx Hy E. induction L as [|z L IH]; [destruct Hx|]. cbn in H1. inversion H1 as [|a b Hz ND]; subst.
  destruct Hx as [->|Hx]; destruct Hy as [->|Hy]; auto.
  - destruct Hz. rewrite E. apply in_map. exact Hy.
  - destruct Hz. rewrite <- E. apply in_map. exact Hx.
Qed.
Lemma analytic_cases k : (use_analytic_expression k = true /\ (T_A1 k <> 0 \/ T_A2 k <> 0 \/ T_A3 k <> 0 \/ T_A4 k <> 0 \/ T_A5 k <> 0 \/ T_A6 k <> 0)) \/
  (use_analytic_expression k = false /\ T_A1 k = 0 /\ T_A2 k = 0 /\ T_A3 k = 0 /\ T_A4 k = 0 /\ T_A5 k = 0 /\ T_A6 k = 0).
Proof.
  unfold use_analytic_expression. cbn [existsb].
  destruct (Req_EM_T (T_A1 k) 0); [|left; split; [reflexivity|tauto]].
  destruct (Req_EM_T (T_A2 k) 0); [|left; split; [reflexivity|tauto]].
  destruct (Req_EM_T (T_A3 k) 0); [|left; split; [reflexivity|tauto]].
  destruct (Req_EM_T (T_A4 k) 0); [|left; split; [reflexivity|tauto]].
  destruct (Req_EM_T (T_A5 k) 0); [|left; split; [reflexivity|tauto]].
  destruct (Req_EM_T (T_A6 k) 0); [|left; split; [reflexivity|tauto]].
  right. cbn. tauto.
Qed.
Lemma ln10_pos : 0 < ln 10.
Proof. rewrite <- ln_1. apply ln_increasing; lra. Qed.
(* The models of the reactions. *)
Lemma model_dG water traversal it l T P dV v : l <> [] -> 0 < T -> LgK (item_logk it) T v ->
  dG0 (evaluated (e_model (entry water traversal it) l) (mkRxnArgs T P dV)) = - (universalGasConstant * T * ln 10 * (direction it * v)) + dV * (P - 101325).
Proof.
  intros Hl HT [HA HB]. pose proof ln10_pos as H10.
  assert (HR : universalGasConstant <> 0) by (unfold universalGasConstant; lra).
  replace (e_model (entry water traversal it) l) with (reactionThermoModelAux l (item_logk it) (direction it)) by (destruct it; reflexivity).
  unfold reactionThermoModelAux. destruct l as [|t l]; [contradiction|].
  destruct (analytic_cases (item_logk it)) as [[-> H]|[-> H]].
  - rewrite (HA H). unfold evaluated, assigns, rxnPhreeqcLgK, log10, ln10. cbn [dG0]. field. lra.
  - rewrite (HB H). unfold evaluated, assigns, rxnVantHoff, ln10. cbn [dG0]. field. split; [lra|]. split; assumption || lra.
Qed.

Lemma weighted_total sel (l : list (str * R)) (props : str -> StdProps) :
  weighted sel (combine (map snd l) (map (fun t => props (fst t)) l)) = total l (fun n => sel (props n)).
Proof. induction l as [|[n c] l IH]; [reflexivity|]. cbn. rewrite IH. reflexivity. Qed.

Lemma made_equilibrium water traversal inst (W : Item -> Prop) L it x : NoDup (map sp_name L) -> W it -> In x L ->
  Made water traversal inst W L it x -> Equilibrium L it.
Proof.
  intros ND Hw Hx (HI & (l & HF & _ & HB) & _) l' T P v p props HF' Hne HT HK Hp Hr.
  rewrite (formed_unique _ _ _ HF' HF) in *. clear HF' l'.
  destruct Hp as (x' & Hx' & En & Ep). assert (x' = x) as -> by (apply (name_unique L); auto; rewrite En, (id_name HI); reflexivity).
  destruct l as [|t l]; [contradiction|]. destruct HB as (pairs & HP & _ & Eprops). rewrite Eprops in Ep. clear Eprops.
  set (rs := t :: l) in *. set (m := e_model (entry water traversal it) rs) in *. set (vol := e_volume (entry water traversal it)) in *.
  assert (RH : reactantsHave (mkFR pairs (Some m) (Some vol)) T P (map (fun t => props (fst t)) rs) /\ map snd pairs = map snd rs).
  { unfold reactantsHave. cbn [fr_reactants]. clearbody rs. clear -HP Hr Hw ND. induction HP as [|y r pairs rs (z & Hz & Ey & Ec & Hn) HP IH]; [split; [constructor|reflexivity]|].
    destruct IH as [IH1 IH2]; [intros n c H; apply (Hr n c); right; exact H|]. split; [|cbn; congruence]. constructor; [|exact IH1].
    destruct r as [n c]. destruct (Hr n c (or_introl eq_refl)) as (z' & Hz' & En' & Ep'). cbn in Hn.
    assert (z' = z) as -> by (apply (name_unique L); auto; rewrite En', Hn; auto).
    rewrite Ey. exact Ep'. }
  destruct RH as [RH Ecs].
  destruct (productProps_spec (mkFR pairs (Some m) (Some vol)) m vol T P _ RH (or_introl eq_refl)) as (r & Er & (HG & _ & HV) & _).
  cbn [fr_reactants fr_vol] in Er. rewrite Er in Ep. injection Ep as <-.
  unfold coefficients in HG. cbn [fr_reactants] in HG. rewrite Ecs, !weighted_total in HG. rewrite HG, HV. unfold m.
  rewrite (model_dG water traversal it rs T P _ v Hne HT HK). ring.
Qed.

(* The equilibrium constants of phases are those of PHREEQC if no species has their
   name, and those of species if species come in a suitable order. *)
Theorem C117_partial : forall water traversal inst, (forall l, Permutation (traversal l) l) -> WellFormed inst ->
  exists L, phreeqcSpecies water traversal inst = Ok L /\
    (forall p, In p (in_phases inst) -> ~ In (pp_name p) (map ps_name (in_s inst)) -> Equilibrium L (ItPhase p)) /\
    (Prepared inst -> forall s, In s (in_s inst) -> Equilibrium L (ItSpecies s)) /\
    (forall it T P, In it (items inst) -> exists p, PropsAt L (item_name it) T P p) /\
    (forall s T P p, In s (in_s inst) -> FormedFrom (ItSpecies s) [] -> PropsAt L (ps_name s) T P p -> G0 p = 0 /\ H0 p = 0).
Proof.
  intros water traversal inst trav WF.
  destruct (load_all water traversal trav inst WF False) as (L & EL & [H1 H2 H3 H4 H5]); [intros []|].
  exists L. split; [exact EL|]. split; [|split; [|split]].
  - intros p Hp Hno. destruct (H4 p Hp Hno) as (x & Hx & HM). apply (made_equilibrium _ _ _ _ _ _ x H1 I Hx HM).
  - intros HP. destruct (load_all water traversal trav inst WF True) as (L' & EL' & [H1' H2' H3' H4' H5']); [intros _; exact HP|].
    rewrite EL in EL'. injection EL' as <-. intros s Hs. destruct (H3' s Hs) as (x & Hx & HM). apply (made_equilibrium _ _ _ _ _ _ x H1 I Hx HM).
  - intros it T P Hit. assert (In (item_name it) (map sp_name L)) as Hn by (apply H2, in_map; exact Hit).
    assert (G : exists x it', In x L /\ sp_name x = item_name it /\ Made water traversal inst (fun it => match it with ItSpecies _ => False | ItPhase _ => True end) L it' x).
    { destruct (in_names_dec (item_name it) (map ps_name (in_s inst))) as [Hs|Hs].
      - apply in_map_iff in Hs as (s & Es & Hs). destruct (H3 s Hs) as (x & Hx & HM). exists x, (ItSpecies s). split; [exact Hx|]. split; [|exact HM].
        rewrite <- Es. destruct HM as (HI & _). apply (id_name HI).
      - apply in_app_iff in Hit as [Hit|Hit]; apply in_map_iff in Hit as (y & <- & Hy).
        + destruct Hs. cbn. apply in_map. exact Hy.
        + destruct (H4 y Hy Hs) as (x & Hx & HM). exists x, (ItPhase y). split; [exact Hx|]. split; [|exact HM]. destruct HM as (HI & _). apply (id_name HI). }
    destruct G as (x & it' & Hx & En & (_ & _ & HT)). destruct (HT T P) as (p & Ep). exists p. exists x. auto.
  - intros s T P p Hs HF (x' & Hx' & En & Ep). destruct (H3 s Hs) as (x & Hx & (HI & (l & HF' & _ & HB) & _)).
    assert (x' = x) as -> by (apply (name_unique L); auto; rewrite En, (id_name HI); reflexivity).
    rewrite (formed_unique _ _ _ HF' HF) in HB. destruct HB as [_ HB]. rewrite HB in Ep. injection Ep as <-. split; reflexivity.
Qed.
Print Assumptions C117_partial.

(* A species with a single reactant has the Gibbs energy of the species it was given. *)
Lemma made_single water traversal inst (W : Item -> Prop) L it x y c T p q k : Made water traversal inst W L it x ->
  map (fun rc => (rt_name (fst rc), snd rc)) (fr_reactants (sp_reaction x)) = [(sp_name y, c)] -> NoDup (map sp_name L) -> In y L ->
  0 < T -> LgK (item_logk it) T k -> sp_props x T 101325 = Ok p -> sp_props y T 101325 = Ok q ->
  G0 p = c * G0 q - universalGasConstant * T * ln 10 * (direction it * k).
Proof.
  intros (HI & (l & HF & _ & HB) & _) Em ND Hy HT HK Ep Eq. destruct l as [|t l].
  { destruct HB as [E _]. rewrite E in Em. discriminate Em. }
  destruct HB as (pairs & HP & E & Eprops). rewrite E in Em. cbn [fr_reactants] in Em. rewrite Eprops in Ep. clear E Eprops.
  destruct pairs as [|[r c'] [|? ?]]; try discriminate Em. cbn in Em. injection Em as En <-.
  inversion HP as [|a b d e (z & Hz & Er & _) HP']; subst. cbn in Er. subst r.
  assert (z = y) as -> by (apply (name_unique L); auto).
  set (m := e_model (entry water traversal it) (t :: l)) in *. set (vol := e_volume (entry water traversal it)) in *.
  destruct (productProps_spec (mkFR [(asReactant y, c')] (Some m) (Some vol)) m vol T 101325 [q]) as (r & Er & (HG & _ & HV) & _).
  - constructor; [exact Eq|constructor].
  - left. reflexivity.
  - cbn [fr_reactants fr_vol] in Er. rewrite Er in Ep. injection Ep as <-. rewrite HG. unfold m.
    rewrite (model_dG water traversal it (t :: l) T 101325 _ k); [|discriminate|exact HT|exact HK]. unfold coefficients. cbn. ring.
Qed.
Lemma ln1000 : ln 1000 = 3 * ln 10.
Proof. replace 1000 with (10 * (10 * 10)) by ring. rewrite !ln_mult by lra. ring. Qed.
(* With databases/phreeqc/phreeqc.dat, what Gibbs energies give for 2CO2 = (CO2)2 is not
   the equilibrium constant of that reaction. *)
Theorem C117_refuted : ~ C117_statement.
Proof.
  intros H. set (w := fun _ _ : R => (mkWT 1 1, mkWE 1 1 1 1 1 1)) in *.
  destruct (H w (fun l => l) phreeqc_dat (fun l => Permutation_refl l) phreeqc_dat_wf) as (L & EL & HE).
  destruct (C117_partial w (fun l => l) phreeqc_dat (fun l => Permutation_refl l) phreeqc_dat_wf) as (L1 & EL1 & _ & _ & Hall & Hzero).
  rewrite EL in EL1. injection EL1 as <-.
  destruct (load_all w (fun l => l) (fun l => Permutation_refl l) phreeqc_dat phreeqc_dat_wf False) as (L1 & EL1 & [H1 H2 H3 H4 H5]); [intros []|].
  rewrite EL in EL1. injection EL1 as <-.
  destruct (C116_dimer_refuted w) as (L1 & x & EL1 & Hx & HI & Em). rewrite EL in EL1. injection EL1 as <-.
  assert (Hit : forall s, In s (in_s phreeqc_dat) -> In (ItSpecies s) (items phreeqc_dat)) by (intros s Hs; apply in_app_iff; left; apply in_map; exact Hs).
  assert (D : In dimer (in_s phreeqc_dat)) by (left; reflexivity).
  assert (C2 : In co2 (in_s phreeqc_dat)) by (right; left; reflexivity).
  assert (C3 : In co3 (in_s phreeqc_dat)) by (do 2 right; left; reflexivity).
  assert (Hp : In hplus (in_s phreeqc_dat)) by (do 3 right; left; reflexivity).
  assert (Hw : In h2o (in_s phreeqc_dat)) by (do 4 right; left; reflexivity).
  destruct (Hall _ 1000 101325 (Hit _ D)) as (pd & PD). destruct (Hall _ 1000 101325 (Hit _ C2)) as (p2 & P2).
  destruct (Hall _ 1000 101325 (Hit _ C3)) as (p3 & P3). destruct (Hall _ 1000 101325 (Hit _ Hp)) as (ph & PH).
  destruct (Hall _ 1000 101325 (Hit _ Hw)) as (pw & PW).
  assert (Z3 : G0 p3 = 0) by (apply (Hzero co3 1000 101325 p3 C3); [apply (from_formed (ItSpecies co3)); reflexivity|exact P3]).
  assert (Zh : G0 ph = 0) by (apply (Hzero hplus 1000 101325 ph Hp); [apply (from_formed (ItSpecies hplus)); reflexivity|exact PH]).
  assert (Zw : G0 pw = 0) by (apply (Hzero h2o 1000 101325 pw Hw); [apply (from_formed (ItSpecies h2o)); reflexivity|exact PW]).
  set (kd := 868 / 100 + - (103 / 10000) * 1000 + - (2190) / 1000).
  set (k2 := 4641965 / 10000 + 9344813 / 100000000 * 1000 + - (2698616 / 100) / 1000 + - (16575951 / 100000) * 3 + 22486289 / 10 / (1000 * 1000)).
  pose proof ln10_pos as H10.
  assert (KD : LgK (item_logk (ItSpecies dimer)) 1000 kd).
  { split; cbn; [intros _; unfold kd; lra|]. intros (C & _). lra. }
  assert (K2 : LgK (item_logk (ItSpecies co2)) 1000 k2).
  { split; cbn; [intros _|intros (C & _); lra]. rewrite ln1000. replace (3 * ln 10 / ln 10) with 3 by (field; lra). unfold k2. lra. }
  (* What the dimer has. *)
  assert (GD : G0 pd = 2 * G0 p3 - universalGasConstant * 1000 * ln 10 * (1 * kd)).
  { destruct (H3 dimer D) as (x' & Hx' & HM).
    assert (x' = x) as -> by (apply (name_unique L); auto; rewrite (id_name (proj1 HM)), (id_name HI); reflexivity).
    destruct P3 as (y & Hy & Ey & Py). destruct PD as (x' & Hx'' & En & Px).
    assert (x' = x) as -> by (apply (name_unique L); auto; rewrite En, (id_name HI); reflexivity).
    apply (made_single _ _ _ _ _ _ _ y 2 1000 pd p3 kd HM); auto; [|lra]. rewrite Em, Ey. reflexivity. }
  (* What carbon dioxide has. *)
  set (props := fun n => if str_eqb n $"CO3-2" then p3 else if str_eqb n $"H+" then ph else if str_eqb n $"H2O" then pw else p2).
  assert (G2 : total (from (ItSpecies co2)) (fun n => G0 (props n)) - G0 p2 =
    universalGasConstant * 1000 * ln 10 * (1 * k2) - (V0 p2 - total (from (ItSpecies co2)) (fun n => V0 (props n))) * (101325 - 101325)).
  { apply (HE _ (Hit _ C2) _ 1000 101325 k2 p2 props); auto; [apply from_formed; reflexivity|discriminate|lra|].
    intros n c [E|[E|[E|[]]]]; injection E as <- <-; assumption. }
  assert (G3 : total (from (ItSpecies dimer)) (fun n => G0 (props n)) - G0 pd =
    universalGasConstant * 1000 * ln 10 * (1 * kd) - (V0 pd - total (from (ItSpecies dimer)) (fun n => V0 (props n))) * (101325 - 101325)).
  { apply (HE _ (Hit _ D) _ 1000 101325 kd pd props); auto; [apply from_formed; reflexivity|discriminate|lra|].
    intros n c [E|[]]; injection E as <- <-; assumption. }
  change (total (from (ItSpecies co2)) (fun n => G0 (props n))) with (1 * G0 p3 + (2 * G0 ph + (- (1) * G0 pw + 0))) in G2.
  change (total (from (ItSpecies dimer)) (fun n => G0 (props n))) with (2 * G0 p2 + 0) in G3.
  rewrite Z3 in *. rewrite Zh, Zw in G2.
  assert (E : universalGasConstant * 1000 * ln 10 * k2 = 0) by lra.
  assert (K2p : 0 < k2) by (unfold k2; lra).
  assert (0 < universalGasConstant * 1000 * ln 10 * k2); [|lra].
  apply Rmult_lt_0_compat; [|exact K2p]. apply Rmult_lt_0_compat; [|exact H10]. unfold universalGasConstant. lra.
Qed.
Print Assumptions C117_refuted.
(* The equilibrium constants of species that come in a suitable order are there. *)
Example C117_nonvacuous : WellFormed ordered_dat /\ Prepared ordered_dat /\ FormedFrom (ItSpecies co2) [($"CO3-2", 1); ($"H+", 2); ($"H2O", - (1))] /\
  exists k, LgK (item_logk (ItSpecies co2)) 1000 k /\ 35 < k < 36.
Proof.
  destruct C116_nonvacuous as (WF & HO & _). split; [exact WF|]. split; [|split].
  - intros before s after l l1 [n c] l2 Es HF El. right. left. apply reached_here. apply in_app_iff. left.
    apply (HO before s after l n c Es HF). rewrite El. apply in_app_iff. right. left. reflexivity.
  - change [($"CO3-2", 1); ($"H+", 2); ($"H2O", - (1))] with (from (ItSpecies co2)). apply from_formed. reflexivity.
  - pose proof ln10_pos as H10. exists (4641965 / 10000 + 9344813 / 100000000 * 1000 + - (2698616 / 100) / 1000 + - (16575951 / 100000) * 3 + 22486289 / 10 / (1000 * 1000)).
    split; [|lra]. split; cbn; [intros _|intros (C & _); lra]. rewrite ln1000. replace (3 * ln 10 / ln 10) with 3 by (field; lra). lra.
Qed.
