(* C54, C56, C100: aqueous mixtures and the models for one dissolved species. *)
From Coq Require Import Reals Qreals List Bool Lia Lra Permutation Sorted.
From Coquelicot Require Import Coquelicot.
Import ListNotations.
From Verif Require Import Base M_Strings M_Formula M_Chem M_Algorithms M_System M_Registry M_CubicEOS P_Helmholtz P_CubicEOS M_Aqueous S_Activity P_Aqueous P_Activity.
Local Open Scope R_scope.

(* Species for examples. *)
Definition aqua (f : str) (els : list (str * Q)) (z : Q) : Species :=
  mkSpecies f f f (map (fun e => (mkElem (fst e) (fst e) 0%Q [], snd e)) els) z Aqueous [].
Definition aH2O : Species := aqua $"H2O" [($"H", 2%Q); ($"O", 1%Q)] 0%Q.
Definition aCO2 : Species := aqua $"CO2" [($"C", 1%Q); ($"O", 2%Q)] 0%Q.
Definition aNa : Species := aqua $"Na+" [($"Na", 1%Q)] 1%Q.
Definition aCl : Species := aqua $"Cl-" [($"Cl", 1%Q)] (-1)%Q.
Definition aSO4 : Species := aqua $"SO4--" [($"S", 1%Q); ($"O", 4%Q)] (-2)%Q.
Definition aNaCl : Species := aqua $"NaCl" [($"Na", 1%Q); ($"Cl", 1%Q)] 0%Q.

(* ---- C54 ---- *)
(* The species of a mixture fall into water, neutral and charged species, and the
   charged species into cations and anions, each listed once and in the order of
   the mixture. *)
Theorem C54_partition : forall reactions rho eps l mx, mkAqueousMixture reactions rho eps l = Ok mx ->
  Permutation (seq 0 (length l)) (mx_water mx :: mx_neutral mx ++ mx_charged mx) /\
  Permutation (mx_charged mx) (mx_cations mx ++ mx_anions mx) /\
  Forall (StronglySorted Nat.lt) [mx_neutral mx; mx_charged mx; mx_cations mx; mx_anions mx] /\
  (exists s f, nth_error l (mx_water mx) = Some s /\ mkChemicalFormula $"H2O" = Ok f /\ equivalent f (formula s) = true) /\
  (forall k s, nth_error l k = Some s ->
     (In k (mx_neutral mx) <-> k <> mx_water mx /\ Qeq (sp_charge s) 0) /\
     (In k (mx_cations mx) <-> k <> mx_water mx /\ Qlt 0 (sp_charge s)) /\
     (In k (mx_anions mx) <-> k <> mx_water mx /\ Qlt (sp_charge s) 0)).
Proof.
  intros reactions rho eps l mx H. destruct (mx_partition _ _ _ _ _ H) as [P1 P2]. destruct (mx_inv _ _ _ _ _ H) as (_ & _ & E1 & E2 & E3 & E4 & _).
  split; [exact P1|]. split; [exact P2|]. split; [rewrite E1, E2, E3, E4; repeat constructor; apply pick_sorted|]. split.
  - destruct (water_is _ _ _ _ _ H) as (s & Hs & f & Hf & He). exists s, f. auto.
  - intros k s Hk. rewrite E1, E3, E4, !pick_in, Nat.sub_0_r.
    assert (Ex : forall p : nat -> Species -> bool, ((0 <= k)%nat /\ (exists s0, nth_error l k = Some s0 /\ p k s0 = true)) <-> p k s = true).
    { intros p. split; [intros (_ & s0 & E & Hp); rewrite Hk in E; injection E as <-; exact Hp|intros Hp; split; [lia|]; exists s; auto]. }
    rewrite !Ex. unfold is_neutral, is_cation, is_anion. set (c := sp_charge s).
    assert (B1 : Qeq_bool c 0 = true <-> Qeq c 0) by apply Qeq_bool_iff.
    assert (B2 : Qltb 0 c = true <-> Qlt 0 c).
    { unfold Qltb. rewrite negb_true_iff, <- not_true_iff_false, Qle_bool_iff. split; [apply QArith_base.Qnot_le_lt|apply QArith_base.Qlt_not_le]. }
    assert (T3 : Qlt c 0 <-> ~ Qeq c 0 /\ ~ Qlt 0 c).
    { split.
      - intros L. split; [intros E; rewrite E in L; exact (QArith_base.Qlt_irrefl _ L)|intros G; exact (QArith_base.Qlt_irrefl _ (QArith_base.Qlt_trans _ _ _ L G))].
      - intros [N G]. destruct (QArith_base.Q_dec c 0) as [[L|L]|E]; [exact L|contradiction|contradiction]. }
    assert (T4 : Qlt 0 c -> ~ Qeq c 0) by (intros G E; rewrite E in G; exact (QArith_base.Qlt_irrefl _ G)).
    rewrite T3, !andb_true_iff, !negb_true_iff, Nat.eqb_neq, <- !not_true_iff_false, B1, B2. tauto.
Qed.
Print Assumptions C54_partition.
(* Ionic strengths, for mole fractions of which water has some. *)
Definition half_z2m (l : list Species) (m : nat -> R) : R := / 2 * Sum (length l) (fun i => Q2R (sp_charge (nth i l aH2O)) ^ 2 * m i).
Theorem C54_strengths : forall reactions rho eps l mx T P x, mkAqueousMixture reactions rho eps l = Ok mx -> x (mx_water mx) <> 0 ->
  let st := mixtureState mx T P x in
  (* molalities are moles per kilogram of water *)
  (forall i, st_m st i = x i / (0.018015268 * x (mx_water mx))) /\
  (* the effective ionic strength *)
  st_Ie st = half_z2m l (st_m st) /\
  (* the stoichiometric one counts the ions into which complexes dissociate as well *)
  st_Is st = half_z2m l (fun i => if existsb (Nat.eqb i) (mx_charged mx)
    then st_m st i + Sum (length (mx_neutral mx)) (fun k => st_m st (nth k (mx_neutral mx) O) *
           Q2R (dis_coefficient reactions (formula (nth (nth k (mx_neutral mx) O) l aH2O)) (formula (nth i l aH2O))))
    else 0).
Proof.
  intros reactions rho eps l mx T P x H Hx st. destruct (mx_inv _ _ _ _ _ H) as (_ & Es & _ & _ & _ & _ & ED & _).
  assert (Hnth : forall i, (i < length l)%nat -> nth i l aH2O = species_at l i) by (intros i Hi; apply nth_indep; exact Hi).
  split; [|split].
  - intros i. unfold st, mixtureState. cbn [st_m]. unfold molalities. destruct (Req_EM_T (x (mx_water mx)) 0); [contradiction|reflexivity].
  - unfold st, mixtureState. cbn [st_Ie st_m]. unfold effectiveIonicStrength, half_z2m. rewrite Es. replace 0.5 with (/ 2) by lra. f_equal. apply Sum_ext. intros i Hi. unfold charge_at. rewrite Hnth by exact Hi. ring.
  - unfold st, mixtureState. cbn [st_Is st_m]. unfold stoichiometricIonicStrength, half_z2m. rewrite Es. replace 0.5 with (/ 2) by lra. f_equal. rewrite (Sum_mixture _ _ _ _ _ _ H).
    assert (Nw : existsb (Nat.eqb (mx_water mx)) (mx_charged mx) = false).
    { apply not_true_iff_false. intros E. apply existsb_exists in E as (k & Hk & E). apply Nat.eqb_eq in E. subst k. apply (charged_neq _ _ _ _ _ H) in Hk. tauto. }
    rewrite Nw. rewrite (Sum_ext (length (mx_neutral mx)) _ (fun _ => 0 * 0)).
    2: { intros k Hk. assert (Hin : In (nth k (mx_neutral mx) O) (mx_neutral mx)) by (apply nth_In; exact Hk).
         destruct (neutral_eq _ _ _ _ _ H _ Hin) as (_ & Hz & Hl). rewrite Hnth by exact Hl. unfold charge_at in Hz. rewrite Hz. ring. }
    rewrite Sum_scal. rewrite Rmult_0_r, Rmult_0_l, !Rplus_0_l. apply Sum_ext. intros j Hj.
    assert (Hin : In (nth j (mx_charged mx) O) (mx_charged mx)) by (apply nth_In; exact Hj). destruct (charged_neq _ _ _ _ _ H _ Hin) as (_ & _ & Hl).
    assert (existsb (Nat.eqb (nth j (mx_charged mx) O)) (mx_charged mx) = true) as -> by (apply existsb_exists; eexists; split; [exact Hin|apply Nat.eqb_refl]).
    rewrite Hnth by exact Hl. unfold charge_at. rewrite <- Rmult_assoc || idtac. f_equal; [ring|]. unfold stoichiometricMolalities. f_equal. apply Sum_ext. intros k Hk.
    rewrite ED. unfold dissociation. destruct (neutral_eq _ _ _ _ _ H (nth k (mx_neutral mx) O)) as (_ & _ & Hl'); [apply nth_In; exact Hk|]. rewrite !Hnth by assumption. ring.
Qed.
Print Assumptions C54_strengths.
Lemma ion_coefficient_nonneg ions ion : Forall (fun c => Qle 0 (fst c)) ions -> Qle 0 (ion_coefficient ions ion).
Proof. induction 1 as [|[c p] ions H _ IH]; cbn; [apply QArith_base.Qle_refl|]. destruct (equivalent p ion); [exact H|exact IH]. Qed.
Lemma dis_coefficient_nonneg reactions complex ion : Forall (fun r => Forall (fun c => Qle 0 (fst c)) (dr_ions r)) reactions -> Qle 0 (dis_coefficient reactions complex ion).
Proof.
  intros H. unfold dis_coefficient, dis_get. destruct (nth_error reactions _) eqn:E; [|apply QArith_base.Qle_refl]. apply nth_error_In in E. rewrite Forall_forall in H. apply ion_coefficient_nonneg, H, E.
Qed.
(* The ionic strengths are not negative, and the stoichiometric one is at least
   the effective one; they coincide when no neutral species of the mixture
   dissociates. *)
Theorem C54_order : forall reactions rho eps l mx T P x, mkAqueousMixture reactions rho eps l = Ok mx ->
  (forall i, 0 <= x i) -> Forall (fun r => Forall (fun c => Qle 0 (fst c)) (dr_ions r)) reactions ->
  let st := mixtureState mx T P x in
  0 <= st_Ie st <= st_Is st /\
  ((forall k i, In k (mx_neutral mx) -> In i (mx_charged mx) -> Qeq (dis_coefficient reactions (formula (species_at l k)) (formula (species_at l i))) 0) -> st_Is st = st_Ie st).
Proof.
  intros reactions rho eps l mx T P x H Hx Hr st. destruct (mx_inv _ _ _ _ _ H) as (_ & Es & _ & _ & _ & _ & ED & _).
  assert (Hm : forall i, 0 <= st_m st i).
  { intros i. unfold st, mixtureState. cbn [st_m]. unfold molalities. destruct (Req_EM_T (x (mx_water mx)) 0) as [|N]; [lra|].
    assert (0 < x (mx_water mx)) by (specialize (Hx (mx_water mx)); lra). apply Rmult_le_pos; [apply Hx|]. apply Rlt_le, Rinv_0_lt_compat, Rmult_lt_0_compat; [unfold waterMolarMass; lra|assumption]. }
  pose proof (strengths _ _ _ _ _ (molalities (mx_water mx) x) H) as E. change (molalities (mx_water mx) x) with (st_m st) in E. change (st_Is st = st_Ie st + 0.5 * Sum (length (mx_neutral mx)) (fun i => st_m st (nth i (mx_neutral mx) O) *
    Sum (length (mx_charged mx)) (fun j => charge_at l (nth j (mx_charged mx) O) * charge_at l (nth j (mx_charged mx) O) * Q2R (mx_D mx i j)))) in E.
  split; [split|].
  - unfold st, mixtureState. cbn [st_Ie]. unfold effectiveIonicStrength. assert (0 <= Sum (length (mx_species mx)) (fun i => charge_at (mx_species mx) i * charge_at (mx_species mx) i * molalities (mx_water mx) x i)); [|lra].
    apply Sum_nonneg. intros i _. apply Rmult_le_pos; [apply Rle_0_sqr|apply Hm].
  - rewrite E. assert (0 <= Sum (length (mx_neutral mx)) (fun i => st_m st (nth i (mx_neutral mx) 0%nat) * Sum (length (mx_charged mx)) (fun j => charge_at l (nth j (mx_charged mx) 0%nat) * charge_at l (nth j (mx_charged mx) 0%nat) * Q2R (mx_D mx i j)))); [|lra].
    apply Sum_nonneg. intros i Hi. apply Rmult_le_pos; [apply Hm|]. apply Sum_nonneg. intros j Hj. apply Rmult_le_pos; [apply Rle_0_sqr|].
    rewrite <- RMicromega.Q2R_0. apply Qle_Rle. rewrite ED. apply dis_coefficient_nonneg, Hr.
  - intros Z. rewrite E. rewrite (Sum_ext (length (mx_neutral mx)) _ (fun _ => 0 * 0)); [rewrite Sum_scal; ring|].
    intros i Hi. rewrite (Sum_ext (length (mx_charged mx)) _ (fun _ => 0 * 0)); [rewrite Sum_scal; ring|]. intros j Hj.
    replace (Q2R (mx_D mx i j)) with 0; [ring|]. rewrite <- RMicromega.Q2R_0. apply Qeq_eqR. symmetry. rewrite ED. apply Z; apply nth_In; assumption.
Qed.
Print Assumptions C54_order.
(* The built-in reactions have positive coefficients. *)
Definition positive_table : bool := forallb (fun r => forallb (fun c => Qltb 0 (fst c)) (snd r)) dissociation_table.
Theorem C54_builtin : forall reactions, default_reactions = Ok reactions -> Forall (fun r => Forall (fun c => Qle 0 (fst c)) (dr_ions r)) reactions.
Proof.
  unfold default_reactions. assert (Hp : positive_table = true) by (vm_compute; reflexivity). unfold positive_table in Hp. revert Hp. generalize dissociation_table as tbl.
  induction tbl as [|[c ions] tbl IH]; cbn [mapM forallb]; intros Hp reactions E; [injection E as <-; constructor|]. apply andb_true_iff in Hp as [H1 H2].
  unfold parse_reaction in E at 1. cbn [fst snd] in E, H1. destruct (mkChemicalFormula c) as [cf| |]; try discriminate. cbn [bind] in E.
  destruct (mapM _ ions) as [ions'| |] eqn:Ei; try discriminate. cbn [bind] in E. destruct (mapM parse_reaction tbl) as [rs| |]; try discriminate. cbn [bind] in E. injection E as <-.
  constructor; [|apply IH; [exact H2|reflexivity]]. cbn [dr_ions]. clear - H1 Ei. revert ions' Ei. induction ions as [|[q f] ions IH]; cbn [mapM forallb] in *; intros ions' Ei; [injection Ei as <-; constructor|].
  apply andb_true_iff in H1 as [Q1 Q2]. cbn [fst snd] in *. destruct (mkChemicalFormula f); try discriminate. cbn [omap bind] in Ei. destruct (mapM _ ions) as [is'| |] eqn:Ei'; try discriminate. cbn [bind] in Ei. injection Ei as <-.
  constructor; [|apply IH; [exact Q2|reflexivity]]. cbn [fst]. unfold Qltb in Q1. apply negb_true_iff in Q1. apply QArith_base.Qlt_le_weak, QArith_base.Qnot_le_lt. intros L. apply Qle_bool_iff in L. congruence.
Qed.
Print Assumptions C54_builtin.
Example C54_nonvacuous : exists mx, mkAqueousMixture [] (fun _ _ => 997) (fun _ _ => 78) [aNaCl; aH2O; aNa; aSO4; aCO2; aCl] = Ok mx /\
  mx_water mx = 1%nat /\ mx_neutral mx = [0; 4]%nat /\ mx_charged mx = [2; 3; 5]%nat /\ mx_cations mx = [2]%nat /\ mx_anions mx = [3; 5]%nat.
Proof. eexists. split; [vm_compute; reflexivity|]. repeat split. Qed.
(* With the reaction of NaCl the stoichiometric ionic strength is larger. *)
Example C54_dissociates : exists r mx, parse_reaction ($"NaCl", [(1%Q, $"Na+"); (1%Q, $"Cl-")]) = Ok r /\
  mkAqueousMixture [r] (fun _ _ => 997) (fun _ _ => 78) [aNaCl; aH2O; aNa; aCl] = Ok mx /\
  let st := mixtureState mx 300 1e5 (fun i => match i with O => 0.5 | 1%nat => 0.5 | _ => 0 end) in st_Ie st < st_Is st.
Proof.
  eexists _, _. split; [vm_compute; reflexivity|]. split; [vm_compute; reflexivity|]. cbn zeta.
  unfold mixtureState. cbn [st_Ie st_Is mx_water]. unfold effectiveIonicStrength, stoichiometricIonicStrength, stoichiometricMolalities, molalities. cbn [mx_species mx_charged mx_neutral mx_D length Sum nth].
  destruct (Req_EM_T 0.5 0) as [Z|_]; [lra|]. unfold charge_at, species_at, waterMolarMass, Q2R. cbn [nth sp_charge Qnum Qden aqua].
  match goal with |- context [mx_D ?a ?b ?c] => idtac | _ => idtac end. cbn. lra.
Qed.

(* ---- C56 ---- *)
(* An evaluation of a phase: its species, its conditions, and the properties the
   base model has written; the base model has exported the mixture. *)
Record Call := mkCall { c_gas : str; c_species : list Species; c_T : R; c_P : R; c_x : nat -> R; c_props : Props }.
Section Histories.
Variables (reactions : list Dissociation) (rho eps : R -> R -> R).
Variable model : str -> list Species -> outcome (Statics -> Props * Extra -> outcome (Props * Extra) * Statics).
Definition evaluate (s : Statics) (c : Call) : outcome (Props * Extra) * Statics :=
  match mkAqueousMixture reactions rho eps (c_species c), model (c_gas c) (c_species c) with
  | Ok mx, Ok f => f s (c_props c, Some (mx, mixtureState mx (c_T c) (c_P c) (c_x c)))
  | _, _ => (Err, s)
  end.
(* The statics after a history of evaluations. *)
Definition after (history : list Call) : Statics := fold_left (fun s c => snd (evaluate s c)) history None.
End Histories.
(* What a phase gives does not depend on the phases evaluated before. *)
Definition own_phase (model : str -> list Species -> outcome (Statics -> Props * Extra -> outcome (Props * Extra) * Statics)) : Prop :=
  forall reactions rho eps history c,
    fst (evaluate reactions rho eps model (after reactions rho eps model history) c) = fst (evaluate reactions rho eps model None c).
Definition C56_statement : Prop := own_phase rumpf /\ own_phase duanSun.

Definition brine1 : list Species := [aH2O; aCO2; aNa; aCl].
Definition brine2 : list Species := [aH2O; aCO2; aSO4; aNa].
Definition x1 : nat -> R := fun _ => 0.25.
(* As many moles per kilogram: 1 of sulfate, 2 of sodium. *)
Definition x2 : nat -> R := fun i => match i with O => 1 | 1%nat => 0.018015268 | 2%nat => 0.018015268 | _ => 2 * 0.018015268 end.
Definition call1 : Call := mkCall $"CO2" brine1 300 1e5 x1 (constProps 0).
Definition call2 : Call := mkCall $"CO2" brine2 300 1e5 x2 (constProps 0).
Definition nothing : R -> R -> R := fun _ _ => 1.
Lemma mixture_of l w : indexWithFormula l $"H2O" = Ok w -> exists mx, mkAqueousMixture [] nothing nothing l = Ok mx /\ mx_water mx = w.
Proof. intros E. unfold mkAqueousMixture. rewrite E. cbn [bind]. eexists. split; reflexivity. Qed.
Lemma brine2_state : exists mx, mkAqueousMixture [] nothing nothing brine2 = Ok mx /\ let st := mixtureState mx 300 1e5 x2 in st_ms st 0 = 1 /\ st_ms st 1 = 2 /\ st_m st 1 = 1 /\ st_T st = 300 /\ st_P st = 1e5.
Proof.
  destruct (mixture_of brine2 0 ltac:(vm_compute; reflexivity)) as (mx & E & Ew). exists mx. split; [exact E|]. cbn zeta.
  destruct (mx_inv _ _ _ _ _ E) as (_ & _ & En & Ec & _ & _ & ED & _). rewrite Ew in En, Ec. change (mx_neutral mx = [1%nat]) in En. change (mx_charged mx = [2; 3]%nat) in Ec.
  unfold mixtureState. cbn [st_ms st_m st_T st_P]. unfold stoichiometricMolalities. rewrite En, Ec, ED, Ew. cbn [length Sum nth]. unfold molalities, x2, waterMolarMass.
  destruct (Req_EM_T 1 0) as [Z|_]; [lra|].
  assert (D0 : forall i j, Q2R (dissociation [] brine2 (mx_neutral mx) (mx_charged mx) i j) = 0) by (intros; unfold dissociation, dis_coefficient, dis_get; cbn; unfold Q2R; cbn; lra).
  rewrite !D0. repeat split; lra.
Qed.
Lemma after_call1 ions value mx1 : mkAqueousMixture [] nothing nothing brine1 = Ok mx1 -> forall idx, positions ions mx1 = Ok idx ->
  after [] nothing nothing (fun gas l => omap (solute_static ions value) (indexWithFormula l gas)) [call1] = Some idx.
Proof.
  intros E idx Ei. unfold after. cbn [fold_left]. unfold evaluate. cbn [c_species c_gas call1]. rewrite E.
  assert (indexWithFormula brine1 $"CO2" = Ok 1%nat) as -> by (vm_compute; reflexivity). cbn [omap bind]. unfold solute_static. cbn [snd]. rewrite Ei. reflexivity.
Qed.
(* Evaluate the second phase with statics s: the coefficient of carbon dioxide. *)
Lemma evaluate_call2 ions value s idx mx : mkAqueousMixture [] nothing nothing brine2 = Ok mx ->
  (s = Some idx \/ s = None /\ positions ions mx = Ok idx) ->
  exists q e, fst (evaluate [] nothing nothing (fun gas l => omap (solute_static ions value) (indexWithFormula l gas)) s call2) = Ok (q, e) /\ ln_g q 1 = value mx (mixtureState mx 300 1e5 x2) idx.
Proof.
  intros E Hs. unfold evaluate. cbn [c_species c_gas c_T c_P c_x c_props call2]. rewrite E.
  assert (indexWithFormula brine2 $"CO2" = Ok 1%nat) as -> by (vm_compute; reflexivity). cbn [omap bind]. unfold solute_static. cbn [snd fst].
  destruct Hs as [->|[-> ->]]; (eexists _, _; split; [reflexivity|]; cbn; reflexivity).
Qed.
Lemma brine_positions ions idx1 idx2 mx1 mx2 : mkAqueousMixture [] nothing nothing brine1 = Ok mx1 -> mkAqueousMixture [] nothing nothing brine2 = Ok mx2 ->
  mapM (findFormula [aNa; aCl]) ions = Ok idx1 -> mapM (findFormula [aSO4; aNa]) ions = Ok idx2 -> positions ions mx1 = Ok idx1 /\ positions ions mx2 = Ok idx2 /\ length (mx_charged mx2) = 2%nat.
Proof.
  intros E1 E2 P1 P2.
  destruct (mixture_of brine1 0 ltac:(vm_compute; reflexivity)) as (? & E1' & W1). rewrite E1 in E1'. injection E1' as <-.
  destruct (mixture_of brine2 0 ltac:(vm_compute; reflexivity)) as (? & E2' & W2). rewrite E2 in E2'. injection E2' as <-.
  destruct (mx_inv _ _ _ _ _ E1) as (_ & S1 & _ & C1 & _). destruct (mx_inv _ _ _ _ _ E2) as (_ & S2 & _ & C2 & _). rewrite W1 in C1. rewrite W2 in C2.
  change (mx_charged mx1 = [2; 3]%nat) in C1. change (mx_charged mx2 = [2; 3]%nat) in C2.
  unfold positions, chargedSpecies. rewrite S1, S2, C1, C2. repeat split; assumption.
Qed.
(* The first phase determines where all later ones look for their ions. *)
Lemma differs ions value idx1 idx2 : mapM (findFormula [aNa; aCl]) ions = Ok idx1 -> mapM (findFormula [aSO4; aNa]) ions = Ok idx2 ->
  (forall mx, mkAqueousMixture [] nothing nothing brine2 = Ok mx -> value mx (mixtureState mx 300 1e5 x2) idx1 <> value mx (mixtureState mx 300 1e5 x2) idx2) ->
  ~ own_phase (fun gas l => omap (solute_static ions value) (indexWithFormula l gas)).
Proof.
  intros P1 P2 Hv H. destruct brine2_state as (mx2 & E2 & _). destruct (mixture_of brine1 0 ltac:(vm_compute; reflexivity)) as (mx1 & E1 & _).
  destruct (brine_positions ions idx1 idx2 mx1 mx2 E1 E2 P1 P2) as (Q1 & Q2 & _).
  specialize (H [] nothing nothing [call1] call2). rewrite (after_call1 ions value mx1 E1 idx1 Q1) in H.
  destruct (evaluate_call2 ions value (Some idx1) idx1 mx2 E2 (or_introl eq_refl)) as (q & e & A & B).
  destruct (evaluate_call2 ions value None idx2 mx2 E2 (or_intror (conj eq_refl Q2))) as (q' & e' & A' & B').
  rewrite A, A' in H. injection H as Hq _. apply (Hv mx2 E2). rewrite <- B, <- B', Hq. reflexivity.
Qed.
Lemma rumpf_differs : ~ own_phase rumpf.
Proof.
  apply (differs rumpf_ions rumpf_value [0; 2; 2; 2; 1]%nat [1; 2; 2; 2; 2]%nat); [vm_compute; reflexivity|vm_compute; reflexivity|].
  intros mx E. destruct brine2_state as (mx' & E' & S0 & S1 & _ & ST & _). rewrite E in E'. injection E' as <-.
  destruct (mixture_of brine2 0 ltac:(vm_compute; reflexivity)) as (? & E2' & W2). rewrite E in E2'. injection E2' as <-.
  destruct (mx_inv _ _ _ _ _ E) as (_ & _ & _ & C2 & _). rewrite W2 in C2. change (mx_charged mx = [2; 3]%nat) in C2.
  unfold rumpf_value, ionMolality. rewrite C2. cbn [nth length Nat.ltb Nat.leb]. rewrite S0, S1, ST. lra.
Qed.
Lemma duansun_differs : ~ own_phase duanSun.
Proof.
  apply (differs duansun_ions duansun_value [0; 2; 2; 2; 1; 2]%nat [1; 2; 2; 2; 2; 0]%nat); [vm_compute; reflexivity|vm_compute; reflexivity|].
  intros mx E. destruct brine2_state as (mx' & E' & S0 & S1 & _ & ST & SP). rewrite E in E'. injection E' as <-.
  destruct (mixture_of brine2 0 ltac:(vm_compute; reflexivity)) as (? & E2' & W2). rewrite E in E2'. injection E2' as <-.
  destruct (mx_inv _ _ _ _ _ E) as (_ & _ & _ & C2 & _). rewrite W2 in C2. change (mx_charged mx = [2; 3]%nat) in C2.
  unfold duansun_value, ionMolality. rewrite C2. cbn [nth length Nat.ltb Nat.leb]. rewrite S0, S1, ST, SP.
  unfold duansun_lambda, duansun_zeta, paramDuanSun. replace (1e-5 * 1e5) with 1 by lra. rewrite ln_1. lra.
Qed.
(* The positions of the ions are kept from the first phase ever evaluated. *)
Theorem C56_refuted : ~ C56_statement.
Proof. intros [H _]. exact (rumpf_differs H). Qed.
Print Assumptions C56_refuted.
Theorem C56_duan_sun_refuted : ~ own_phase rumpf /\ ~ own_phase duanSun.
Proof. exact (conj rumpf_differs duansun_differs). Qed.
Print Assumptions C56_duan_sun_refuted.
(* It is true when the phases evaluated before have the ions named by the model in
   the same positions among their charged species, hence when all have the same
   charged species. *)
Definition same_positions (ions : list str) reactions rho eps (c c' : Call) : Prop :=
  forall mx mx', mkAqueousMixture reactions rho eps (c_species c) = Ok mx -> mkAqueousMixture reactions rho eps (c_species c') = Ok mx' -> positions ions mx = positions ions mx'.
Lemma after_positions ions value reactions rho eps c : forall history s,
  Forall (same_positions ions reactions rho eps c) history ->
  (forall mx idx, mkAqueousMixture reactions rho eps (c_species c) = Ok mx -> s = Some idx -> positions ions mx = Ok idx) ->
  forall mx idx, mkAqueousMixture reactions rho eps (c_species c) = Ok mx ->
  fold_left (fun s c => snd (evaluate reactions rho eps (fun gas l => omap (solute_static ions value) (indexWithFormula l gas)) s c)) history s = Some idx -> positions ions mx = Ok idx.
Proof.
  induction history as [|c' history IH]; intros s Hh Hs mx idx E R0; cbn [fold_left] in R0; [exact (Hs mx idx E R0)|].
  inversion Hh as [|? ? H1 H2]; subst. eapply IH; [exact H2| |exact E|exact R0]. clear - H1 Hs. intros mx idx E. unfold evaluate. destruct (mkAqueousMixture reactions rho eps (c_species c')) as [mx'| |] eqn:E'; [|cbn; apply Hs; exact E|cbn; apply Hs; exact E].
  destruct (indexWithFormula (c_species c') (c_gas c')); [|cbn; apply Hs; exact E|cbn; apply Hs; exact E]. cbn [omap bind]. unfold solute_static. cbn [snd].
  destruct s as [idx0|].
  - cbn. intros H. injection H as <-. apply Hs; [exact E|reflexivity].
  - destruct (positions ions mx') eqn:Ep; cbn; intros H; try discriminate. injection H as <-. rewrite (H1 mx mx' E E'). exact Ep.
Qed.
Lemma own_phase_of ions value reactions rho eps history c : Forall (same_positions ions reactions rho eps c) history ->
  let model := fun gas l => omap (solute_static ions value) (indexWithFormula l gas) in
  fst (evaluate reactions rho eps model (after reactions rho eps model history) c) = fst (evaluate reactions rho eps model None c).
Proof.
  intros H model. pose proof (after_positions ions value reactions rho eps c history None H) as A. specialize (A ltac:(discriminate)). fold model in A.
  change (fold_left _ history None) with (after reactions rho eps model history) in A. destruct (after reactions rho eps model history) as [idx|]; [|reflexivity].
  unfold evaluate. destruct (mkAqueousMixture reactions rho eps (c_species c)) as [mx| |]; [|reflexivity|reflexivity]. specialize (A mx idx eq_refl eq_refl). unfold model.
  destruct (indexWithFormula (c_species c) (c_gas c)); [|reflexivity|reflexivity]. cbn [omap bind]. unfold solute_static. cbn [snd]. rewrite A. reflexivity.
Qed.
Theorem C56_partial : forall reactions rho eps history c,
  (Forall (same_positions rumpf_ions reactions rho eps c) history ->
   fst (evaluate reactions rho eps rumpf (after reactions rho eps rumpf history) c) = fst (evaluate reactions rho eps rumpf None c)) /\
  (Forall (same_positions duansun_ions reactions rho eps c) history ->
   fst (evaluate reactions rho eps duanSun (after reactions rho eps duanSun history) c) = fst (evaluate reactions rho eps duanSun None c)) /\
  (Forall (fun c' => c_species c' = c_species c) history -> Forall (same_positions rumpf_ions reactions rho eps c) history /\ Forall (same_positions duansun_ions reactions rho eps c) history).
Proof.
  intros reactions rho eps history c. split; [exact (own_phase_of rumpf_ions rumpf_value reactions rho eps history c)|]. split; [exact (own_phase_of duansun_ions duansun_value reactions rho eps history c)|].
  intros H. split; (eapply Forall_impl; [|exact H]; intros c' E mx mx' E1 E2; rewrite E in E2; rewrite E1 in E2; injection E2 as <-; reflexivity).
Qed.
Print Assumptions C56_partial.
Example C56_nonvacuous : Forall (fun c' => c_species c' = c_species call1) [call1; call1] /\
  exists r, fst (evaluate [] nothing nothing rumpf (after [] nothing nothing rumpf [call1; call1]) call1) = Ok r.
Proof.
  split; [repeat constructor|].
  pose proof (C56_partial [] nothing nothing [call1; call1] call1) as (A & _ & C). rewrite (A (proj1 (C ltac:(repeat constructor)))).
  unfold evaluate. cbn [c_species c_gas c_T c_P c_x c_props call1]. destruct (mixture_of brine1 0 ltac:(vm_compute; reflexivity)) as (mx1 & E1 & _). rewrite E1.
  unfold rumpf. assert (indexWithFormula brine1 $"CO2" = Ok 1%nat) as -> by (vm_compute; reflexivity). cbn [omap bind]. unfold solute_static. cbn [snd fst].
  destruct brine2_state as (mx2 & E2 & _).
  destruct (brine_positions rumpf_ions [0; 2; 2; 2; 1]%nat [1; 2; 2; 2; 2]%nat mx1 mx2 E1 E2) as (-> & _); [vm_compute; reflexivity|vm_compute; reflexivity|]. eexists. reflexivity.
Qed.

(* ---- C100 ---- *)
(* Of the properties only the activity and activity coefficient of species i
   change; they become ln g and ln g plus the logarithm of the molality. *)
Definition replaces (i : nat) (lng m : R) (p q : Props) : Prop :=
  ln_g q i = lng /\ ln_a q i = lng + ln m /\ (forall j, j <> i -> ln_g q j = ln_g p j /\ ln_a q j = ln_a p j) /\
  (Vex q, VexT q, VexP q, Gex q, Hex q, Cpex q, Cvex q) = (Vex p, VexT p, VexP p, Gex p, Hex p, Cpex p, Cvex p).
Lemma set_species_replaces p st i v : replaces i v (st_m st i) p (set_species p st i v).
Proof. unfold set_species, replaces. cbn. rewrite !set_at_same. repeat split; try reflexivity; intros; rewrite set_at_other by assumption; reflexivity. Qed.
(* The index of the first species with a formula. *)
Definition first_with (l : list Species) (f : str) (i : nat) : Prop :=
  exists cf s, mkChemicalFormula f = Ok cf /\ nth_error l i = Some s /\ equivalent cf (formula s) = true /\
  forall j s', (j < i)%nat -> nth_error l j = Some s' -> equivalent cf (formula s') = false.
Lemma index_first l f i : indexWithFormula l f = Ok i <-> first_with l f i.
Proof.
  unfold indexWithFormula, first_with. destruct (mkChemicalFormula f) as [cf| |]; cbn [bind]; [|split; [discriminate|intros (? & ? & ? & _); discriminate]|split; [discriminate|intros (? & ? & ? & _); discriminate]].
  unfold findWithFormula. revert i. induction l as [|s l IH]; intros i; cbn [indexfn length].
  - split; [discriminate|]. intros (? & ? & _ & E & _). destruct i; discriminate.
  - destruct (equivalent cf (formula s)) eqn:Es.
    + cbn [Nat.leb]. split.
      * intros E. injection E as <-. exists cf, s. repeat split; [exact Es|]. intros; lia.
      * intros (cf' & s' & E & Hn & He & Hf). injection E as <-. destruct i as [|i]; [reflexivity|]. specialize (Hf 0%nat s ltac:(lia) eq_refl). congruence.
    + cbn [Nat.leb]. destruct i as [|i].
      * split; [|intros (cf' & s' & E & Hn & He & _); injection E as <-; injection Hn as <-; congruence].
        destruct (Nat.leb _ _); [discriminate|]. intros E. discriminate.
      * specialize (IH i). split.
        -- intros E. destruct (Nat.leb (length l) (indexfn l (fun s0 => equivalent cf (formula s0)))) eqn:L; [discriminate|]. injection E as E. subst i.
           destruct (proj1 IH eq_refl) as (cf' & s' & E & Hn & He & Hf). injection E as <-. exists cf, s'. repeat split; [exact Hn|exact He|]. intros [|j] s0 Hj H0; [injection H0 as <-; exact Es|]. apply (Hf j s0); [lia|exact H0].
        -- intros (cf' & s' & E & Hn & He & Hf). injection E as <-. assert (X : exists cf0 s0, Ok cf = Ok cf0 /\ nth_error l i = Some s0 /\ equivalent cf0 (formula s0) = true /\ (forall j s'0, (j < i)%nat -> nth_error l j = Some s'0 -> equivalent cf0 (formula s'0) = false)).
           { exists cf, s'. repeat split; [exact Hn|exact He|]. intros j s0 Hj H0. apply (Hf (S j) s0); [lia|exact H0]. }
           apply IH in X. destruct (Nat.leb (length l) (indexfn l (fun s0 => equivalent cf (formula s0)))); [discriminate|]. injection X as ->. reflexivity.
Qed.
(* Setschenow and Drummond: for every phase with the species, every base model
   and all conditions.  Without a base model that exports the mixture, or without
   the species, there is an error. *)
Theorem C100_solute : forall formula_ b a1 a2 a3 a4 a5 l,
  (forall f, setschenow formula_ b l = Ok f -> exists i, first_with l formula_ i /\
     (forall T P x p mx st, exists q, f T P x (p, Some (mx, st)) = Ok (q, Some (mx, st)) /\ replaces i (ln10 * b * st_Is st) (st_m st i) p q) /\
     (forall T P x p, f T P x (p, None) = Err)) /\
  (forall f, drummond formula_ a1 a2 a3 a4 a5 l = Ok f -> exists i, first_with l formula_ i /\
     (forall T P x p mx st, exists q, f T P x (p, Some (mx, st)) = Ok (q, Some (mx, st)) /\
        replaces i ((a1 + a2 * st_T st + a3 / st_T st) * st_Is st - (a4 + a5 * st_T st) * (st_Is st / (st_Is st + 1))) (st_m st i) p q) /\
     (forall T P x p, f T P x (p, None) = Err)) /\
  ((exists f, setschenow formula_ b l = Ok f) <-> exists i, first_with l formula_ i) /\
  ((exists f, drummond formula_ a1 a2 a3 a4 a5 l = Ok f) <-> exists i, first_with l formula_ i).
Proof.
  intros fm b a1 a2 a3 a4 a5 l. unfold setschenow, drummond. split; [|split; [|split]].
  - intros f Hf. destruct (indexWithFormula l fm) as [i| |] eqn:Ei; try discriminate. cbn [omap bind] in Hf. injection Hf as <-. exists i. split; [apply index_first; exact Ei|]. split; [|reflexivity].
    intros T P x p mx st. eexists. split; [reflexivity|]. apply set_species_replaces.
  - intros f Hf. destruct (indexWithFormula l fm) as [i| |] eqn:Ei; try discriminate. cbn [omap bind] in Hf. injection Hf as <-. exists i. split; [apply index_first; exact Ei|]. split; [|reflexivity].
    intros T P x p mx st. eexists. split; [reflexivity|]. replace ((a4 + a5 * st_T st) * (st_Is st / (st_Is st + 1))) with ((a4 + a5 * st_T st) * st_Is st / (st_Is st + 1)) by (unfold Rdiv; ring). apply set_species_replaces.
  - split.
    + intros [f Hf]. destruct (indexWithFormula l fm) as [i| |] eqn:Ei; try discriminate. exists i. apply index_first. exact Ei.
    + intros [i Hi]. apply index_first in Hi. rewrite Hi. eexists. reflexivity.
  - split.
    + intros [f Hf]. destruct (indexWithFormula l fm) as [i| |] eqn:Ei; try discriminate. exists i. apply index_first. exact Ei.
    + intros [i Hi]. apply index_first in Hi. rewrite Hi. eexists. reflexivity.
Qed.
Print Assumptions C100_solute.
(* Rumpf and Duan-Sun in a process that has evaluated no other phase. *)
Definition ms_of (mx : Mixture) (st : MixtureState) (ion : str) (m : R) : Prop :=
  exists cf, mkChemicalFormula ion = Ok cf /\
  ((exists j s, nth_error (mx_charged mx) j = Some s /\ equivalent cf (formula (species_at (mx_species mx) s)) = true /\ m = st_ms st j /\
     forall j' s', (j' < j)%nat -> nth_error (mx_charged mx) j' = Some s' -> equivalent cf (formula (species_at (mx_species mx) s')) = false) \/
   (m = 0 /\ forall s, In s (mx_charged mx) -> equivalent cf (formula (species_at (mx_species mx) s)) = false)).
Lemma indexfn_spec {A} (l : list A) p : (exists j a, indexfn l p = j /\ nth_error l j = Some a /\ p a = true /\ forall j' a', (j' < j)%nat -> nth_error l j' = Some a' -> p a' = false) \/ (indexfn l p = length l /\ forall a, In a l -> p a = false).
Proof.
  induction l as [|a l IH]; cbn [indexfn]; [right; split; [reflexivity|intros ? []]|]. destruct (p a) eqn:E.
  - left. exists 0%nat, a. repeat split; [exact E|intros; lia].
  - destruct IH as [(j & b & Ej & Hn & Hp & Hf)|[El Hf]].
    + left. exists (S j), b. rewrite Ej. repeat split; [exact Hn|exact Hp|]. intros [|j'] a' Hj H; [injection H as <-; exact E|]. apply (Hf j' a'); [lia|exact H].
    + right. cbn [length]. rewrite El. split; [reflexivity|]. intros b [<-|H]; [exact E|apply Hf; exact H].
Qed.
Lemma ionMolality_of mx st ions idx k ion : positions ions mx = Ok idx -> nth_error ions k = Some ion -> ms_of mx st ion (ionMolality mx st idx k).
Proof.
  unfold positions. intros H Hk. assert (Hi : exists i, nth_error idx k = Some i /\ findFormula (chargedSpecies mx) ion = Ok i).
  { revert idx k H Hk. induction ions as [|i0 ions IH]; intros idx k H Hk; [destruct k; discriminate|]. cbn [mapM] in H. destruct (findFormula (chargedSpecies mx) i0) as [j| |] eqn:Ej; try discriminate. cbn [bind] in H.
    destruct (mapM (findFormula (chargedSpecies mx)) ions) as [js| |] eqn:Em; try discriminate. cbn [bind] in H. injection H as <-. destruct k as [|k]; cbn in *.
    - injection Hk as <-. exists j. auto.
    - apply (IH js k eq_refl Hk). }
  destruct Hi as (i & Hn & Hf). unfold ionMolality. rewrite (nth_error_nth _ _ _ Hn). unfold findFormula in Hf. destruct (mkChemicalFormula ion) as [cf| |] eqn:Ec; try discriminate. cbn [omap bind] in Hf. injection Hf as <-.
  exists cf. split; [exact Ec|]. unfold findWithFormula, chargedSpecies. destruct (indexfn_spec (map (species_at (mx_species mx)) (mx_charged mx)) (fun s => equivalent cf (formula s))) as [(j & a & Ej & Hj & Hp & Hfirst)|[El Hnone]].
  - left. rewrite Ej. rewrite nth_error_map in Hj. destruct (nth_error (mx_charged mx) j) as [s|] eqn:Es; [|discriminate]. injection Hj as <-. exists j, s. split; [exact Es|]. split; [exact Hp|]. split.
    + assert (j < length (mx_charged mx))%nat as L by (apply nth_error_Some; congruence). apply Nat.ltb_lt in L. rewrite L. reflexivity.
    + intros j' s' Hj' Hs'. apply (Hfirst j'); [exact Hj'|]. rewrite nth_error_map, Hs'. reflexivity.
  - right. rewrite El, map_length, Nat.ltb_irrefl. split; [reflexivity|]. intros s Hs. apply Hnone, in_map, Hs.
Qed.
Theorem C100_ions : forall gas l f, (forall mx st p r s, 
  rumpf gas l = Ok f -> f None (p, Some (mx, st)) = (Ok r, s) -> exists i mNa mK mCa mMg mCl, first_with l gas i /\
    ms_of mx st $"Na+" mNa /\ ms_of mx st $"K+" mK /\ ms_of mx st $"Ca++" mCa /\ ms_of mx st $"Mg++" mMg /\ ms_of mx st $"Cl-" mCl /\ snd r = Some (mx, st) /\
    let T := st_T st in let B := 0.254 - 76.82 / T - 10656 / T ^ 2 + 6312e3 / T ^ 3 in
    replaces i (2 * B * (mNa + mK + 2 * mCa + 2 * mMg) - 3 * 0.0028 * (mNa + mK + mCa + mMg) * mCl) (st_m st i) p (fst r)) /\
  (forall mx st p r s, duanSun gas l = Ok f -> f None (p, Some (mx, st)) = (Ok r, s) -> exists i mNa mK mCa mMg mCl mSO4, first_with l gas i /\
    ms_of mx st $"Na+" mNa /\ ms_of mx st $"K+" mK /\ ms_of mx st $"Ca++" mCa /\ ms_of mx st $"Mg++" mMg /\ ms_of mx st $"Cl-" mCl /\ ms_of mx st $"SO4--" mSO4 /\ snd r = Some (mx, st) /\
    let T := st_T st in let Pbar := st_P st * 1e-5 in
    let lambda := -0.411370585 + 6.07632013e-4 * T + 97.5347708 / T - 0.0237622469 * Pbar / T + 0.0170656236 * Pbar / (630 - T) + 1.41335834e-5 * T * ln Pbar in
    let zeta := 3.36389723e-4 - 1.98298980e-5 * T + 2.12220830e-3 * Pbar / T - 5.24873303e-3 * Pbar / (630 - T) in
    replaces i (2 * lambda * (mNa + mK + 2 * mCa + 2 * mMg) + zeta * (mNa + mK + mCa + mMg) * mCl - 0.07 * mSO4) (st_m st i) p (fst r)).
Proof.
  intros gas l f. split; intros mx st p r s Hf Hr.
  - unfold rumpf in Hf. destruct (indexWithFormula l gas) as [i| |] eqn:Ei; try discriminate. cbn [omap bind] in Hf. injection Hf as <-. unfold solute_static in Hr. cbn [snd fst] in Hr.
    destruct (positions rumpf_ions mx) as [idx| |] eqn:Ep; try discriminate. injection Hr as <- <-.
    exists i, (ionMolality mx st idx 0), (ionMolality mx st idx 1), (ionMolality mx st idx 2), (ionMolality mx st idx 3), (ionMolality mx st idx 4).
    split; [apply index_first; exact Ei|]. do 5 (split; [eapply ionMolality_of; [exact Ep|reflexivity]|]). split; [reflexivity|]. cbn [fst].
    cbn zeta. set (g := rumpf_value mx st idx).
    match goal with |- replaces _ ?v _ _ _ => replace v with g end; [apply set_species_replaces|]. unfold g, rumpf_value. replace (st_T st ^ 2) with (st_T st * st_T st) by ring. replace (st_T st ^ 3) with (st_T st * st_T st * st_T st) by ring. lra.
  - unfold duanSun in Hf. destruct (indexWithFormula l gas) as [i| |] eqn:Ei; try discriminate. cbn [omap bind] in Hf. injection Hf as <-. unfold solute_static in Hr. cbn [snd fst] in Hr.
    destruct (positions duansun_ions mx) as [idx| |] eqn:Ep; try discriminate. injection Hr as <- <-.
    exists i, (ionMolality mx st idx 0), (ionMolality mx st idx 1), (ionMolality mx st idx 2), (ionMolality mx st idx 3), (ionMolality mx st idx 4), (ionMolality mx st idx 5).
    split; [apply index_first; exact Ei|]. do 6 (split; [eapply ionMolality_of; [exact Ep|reflexivity]|]). split; [reflexivity|]. cbn [fst]. cbn zeta. set (g := duansun_value mx st idx).
    match goal with |- replaces _ ?v _ _ _ => replace v with g end; [apply set_species_replaces|]. unfold g, duansun_value, duansun_lambda, duansun_zeta, paramDuanSun. rewrite (Rmult_comm (st_P st) 1e-5). unfold Rdiv. ring_simplify. lra.
Qed.
Print Assumptions C100_ions.
Example C100_nonvacuous : exists f, setschenow $"CO2" 0.1 brine1 = Ok f /\ exists q, f 300 1e5 x1 (constProps 0, Some (mkMixture brine1 0 [1]%nat [2; 3]%nat [2]%nat [3]%nat (fun _ _ => 0%Q) nothing nothing, mkState 300 1e5 1 1 x1 x1 0.25 0.25)) = Ok q.
Proof.
  unfold setschenow. assert (indexWithFormula brine1 $"CO2" = Ok 1%nat) as -> by (vm_compute; reflexivity). eexists. split; [reflexivity|]. eexists. reflexivity.
Qed.
