(* C53, C94-C99: ideal, Redlich-Kister, Debye-Hueckel and HKF activity models. *)
From Coq Require Import Reals Qreals List Bool Lia Lra Permutation.
From Coquelicot Require Import Coquelicot.
Import ListNotations.
From Verif Require Import Base M_Strings M_Formula M_Chem M_Algorithms M_System M_Registry M_CubicEOS S_Chem P_Chem C_Chem P_Helmholtz P_CubicEOS M_Aqueous S_Activity P_Aqueous P_Activity P_DebyeHuckel P_HKFActivity C_Aqueous.
Local Open Scope R_scope.

(* ---- C53 ---- *)
(* The Gibbs-Duhem equation along every path of binary compositions. *)
Theorem C53_gibbs_duhem : forall a0 a1 a2 l f T P p path path' t, redlichKister a0 a1 a2 l = Ok f ->
  composition_path (length l) path path' t -> GibbsDuhem f (length l) T P p path t.
Proof. exact redlichKister_duhem. Qed.
Print Assumptions C53_gibbs_duhem.
(* The coefficients weighted by mole fractions add to the excess Gibbs energy,
   which is the Redlich-Kister expansion; a phase has exactly two species. *)
Theorem C53_excess : forall a0 a1 a2 l f, redlichKister a0 a1 a2 l = Ok f -> length l = 2%nat /\
  forall T P p x, 0 < T -> x 0%nat + x 1%nat = 1 -> exists q e, f T P x p = Ok (q, e) /\
  x 0%nat * ln_g q 0 + x 1%nat * ln_g q 1 = Gex q / (8.3144621 * T) /\
  Gex q = 8.3144621 * T * (x 0%nat * x 1%nat * (a0 + a1 * (x 0%nat - x 1%nat) + a2 * (x 0%nat - x 1%nat) ^ 2)) /\
  forall i, ln_a q i = ln_g q i + ln (x i).
Proof.
  intros a0 a1 a2 l f Hf. split; [unfold redlichKister in Hf; destruct (Nat.eqb_spec (length l) 2); [assumption|discriminate]|].
  intros T P p x HT Hx. destruct (redlichKister_sum a0 a1 a2 l f T P p x Hf HT Hx) as (q & e & E & S1 & _ & S3 & S4). exists q, e. split; [exact E|]. cbn in S1. change gasR with 8.3144621 in *. split; [lra|]. split; [exact S3|exact S4].
Qed.
Print Assumptions C53_excess.
Definition half_path : R -> nat -> R := fun s i => match i with O => s | _ => 1 - s end.
Example C53_nonvacuous : exists f, redlichKister 1 2 3 [aCO2; aH2O] = Ok f /\
  composition_path 2 half_path (fun i => match i with O => 1 | _ => -1 end) 0.3.
Proof.
  eexists. split; [reflexivity|]. split; [|split].
  - intros [|[|i]] H; cbn; [lra|lra|lia].
  - intros [|[|i]] H; [| |lia]; cbn; [eapply d_val; [apply d_id|reflexivity]|eapply d_val; [apply d_sub; [apply d_const|apply d_id]|cbv beta; lra]].
  - apply filter_forall. intros s. cbn. lra.
Qed.

(* ---- C94 ---- *)
(* Gibbs-Helmholtz: the derivative of the excess Gibbs energy over temperature is
   minus the excess enthalpy over its square. *)
Definition helmholtz_consistent (f : ActivityFn) : Prop := forall P x p T, 0 < T ->
  exists g h, locally T (fun s => exists q e, f s P x p = Ok (q, e) /\ Gex q = g s /\ Hex q = h s) /\
  is_derive (fun s => g s / s) T (- h T / T ^ 2).
Definition C94_statement : Prop := forall a0 a1 a2 l f, redlichKister a0 a1 a2 l = Ok f -> helmholtz_consistent f.
(* With parameters independent of temperature it fails for every nonideal phase
   at every composition with excess Gibbs energy. *)
Lemma rk_enthalpy a0 a1 a2 l f P x p T : redlichKister a0 a1 a2 l = Ok f -> 0 < T ->
  forall g h, locally T (fun s => exists q e, f s P x p = Ok (q, e) /\ Gex q = g s /\ Hex q = h s) ->
  (is_derive (fun s => g s / s) T (- h T / T ^ 2) <-> h T = 0).
Proof.
  intros Hf HT g h L. unfold redlichKister in Hf. destruct (negb (Nat.eqb (length l) 2)); [discriminate|]. injection Hf as <-.
  set (k := gasR * (x 0%nat * x 1%nat * (a0 + a1 * (x 0%nat - x 1%nat) + a2 * (x 0%nat - x 1%nat) ^ 2))).
  assert (Lg : locally T (fun s => g s = k * s)). { apply (filter_imp _ _) with (2 := L). intros s (q & e & E & <- & _). injection E as <- _. cbn. unfold k. ring. }
  assert (D0 : is_derive (fun s => g s / s) T 0).
  { apply (is_derive_ext_loc (fun _ => k)); [|apply d_const]. apply (filter_imp (fun s => g s = k * s /\ 0 < s)).
    - intros s [-> Hs]. match goal with |- @eq _ ?a ?b => change (@eq R a b) end. field. lra.
    - apply filter_and; [exact Lg|exact (open_gt 0 T HT)]. }
  split.
  - intros D. pose proof (is_derive_unique _ _ _ D0) as E1. pose proof (is_derive_unique _ _ _ D) as E2. rewrite E1 in E2. assert (H2 : 0 < T ^ 2) by (apply pow_lt; exact HT).
    assert (K1 : - h T / T ^ 2 * T ^ 2 = 0) by (rewrite <- E2; ring). assert (K2 : - h T / T ^ 2 * T ^ 2 = - h T) by (field; lra). lra.
  - intros ->. eapply d_val; [exact D0|]. field. lra.
Qed.
Theorem C94_refuted : ~ C94_statement.
Proof.
  intros H. assert (E : exists f, redlichKister 1 0 0 [aCO2; aH2O] = Ok f) by (eexists; reflexivity). destruct E as [f Hf].
  assert (HT : 0 < 300) by lra. destruct (H 1 0 0 _ f Hf 1e5 (fun _ => 0.5) (constProps 0, None) 300 HT) as (g & h & L & D).
  apply (rk_enthalpy _ _ _ _ _ _ _ _ _ Hf HT g h L) in D. apply locally_singleton in L. destruct L as (q & e & E & _ & Hh).
  unfold redlichKister in Hf. cbn [length Nat.eqb negb] in Hf. injection Hf as <-. injection E as <- _. cbn in Hh. rewrite D in Hh. unfold gasR in Hh. lra.
Qed.
Print Assumptions C94_refuted.
(* What is returned as excess enthalpy is the excess Gibbs energy, for parameters
   that do not depend on temperature the consistent excess enthalpy is zero: the
   returned one is consistent exactly where the excess Gibbs energy vanishes. *)
Theorem C94_partial : forall a0 a1 a2 l f P x p T, redlichKister a0 a1 a2 l = Ok f -> 0 < T ->
  exists q e, f T P x p = Ok (q, e) /\ Hex q = Gex q /\
  forall g h, locally T (fun s => exists q e, f s P x p = Ok (q, e) /\ Gex q = g s /\ Hex q = h s) ->
    (is_derive (fun s => g s / s) T (- h T / T ^ 2) <-> Gex q = 0).
Proof.
  intros a0 a1 a2 l f P x p T Hf HT. pose proof (rk_enthalpy a0 a1 a2 l f P x p T Hf HT) as K. pose proof Hf as Hf'. unfold redlichKister in Hf. destruct (negb (Nat.eqb (length l) 2)); [discriminate|]. injection Hf as <-.
  eexists _, _. split; [reflexivity|]. split; [reflexivity|]. intros g h L. rewrite (K g h L). apply locally_singleton in L. destruct L as (q & e & E & _ & <-). injection E as <- _. cbn. reflexivity.
Qed.
Print Assumptions C94_partial.

(* ---- C95 ---- *)
Definition C95_statement : Prop :=
  (forall n T P p path path' t, composition_path n path path' t -> GibbsDuhem idealSolution n T P p path t /\ GibbsDuhem idealGas n T P p path t) /\
  (forall l f w T P p m t, idealAqueous l = Ok f -> first_with l $"H2O" w -> (forall i, (i < length l)%nat -> i <> w -> 0 < m i) -> 0 < t ->
     GibbsDuhem f (length l) T P p (dilution (length l) w m) t).
(* Ideal solutions and gases satisfy it along every path. *)
Theorem C95_ideal_partial : forall n T P p path path' t, composition_path n path path' t -> GibbsDuhem idealSolution n T P p path t /\ GibbsDuhem idealGas n T P p path t.
Proof. intros. split; [eapply idealSolution_duhem|eapply idealGas_duhem]; eassumption. Qed.
Print Assumptions C95_ideal_partial.
(* The ideal aqueous model, for every solution: what is left over is the molar
   mass of water times the total molality times xw (1 - xw), with xw the mole
   fraction of water; it is not zero when there is a solute. *)
Theorem C95_aqueous_partial : forall l f w T P p m t, idealAqueous l = Ok f -> first_with l $"H2O" w ->
  (forall i, (i < length l)%nat -> i <> w -> 0 < m i) -> 0 < t ->
  let xw := dilution (length l) w m t w in
  duhem_residual f (length l) T P p (dilution (length l) w m) t (0.018015268 * Sum (length l) (solutes w m) * (xw * (1 - xw))) /\
  (GibbsDuhem f (length l) T P p (dilution (length l) w m) t <-> length l = 1%nat).
Proof.
  intros l f w T P p m t Hf Hw Hm Ht xw. apply index_first in Hw. pose proof (idealAqueous_residual l f w T P p m t Hf Hw Hm Ht) as D.
  assert (Hm' : forall i, (i < length l)%nat -> i <> w -> 0 <= m i) by (intros; apply Rlt_le, Hm; assumption).
  assert (Hl : (w < length l)%nat). { apply index_first in Hw. destruct Hw as (? & ? & _ & E & _). apply nth_error_Some. congruence. }
  unfold xw. rewrite dilution_water. split; [exact D|]. set (F := water_fraction (length l) w m t) in *. set (M := Sum (length l) (solutes w m)) in *.
  destruct (water_fraction_pos (length l) w m t Hm' Ht) as [H1 H2]. fold F in H1. fold M in H2.
  assert (HF : (1 - F) = Mw * (t * M) * F) by (unfold F, water_fraction; fold M; field; lra). pose proof Mw_pos as HMw. split.
  - intros G. pose proof (residual_unique _ _ _ _ _ _ _ _ _ G D) as E. destruct (Nat.eq_dec (length l) 1) as [|N]; [assumption|exfalso].
    assert (exists i, (i < length l)%nat /\ i <> w) as (i & Hi & Ni). { destruct w; [exists 1%nat; lia|exists 0%nat; lia]. }
    assert (HM : 0 < M). { unfold M. apply (Sum_pos _ _ i); [|exact Hi|].
      - intros k Hk. unfold solutes. destruct (Nat.eqb_spec k w); [lra|apply Hm'; assumption].
      - unfold solutes. apply Nat.eqb_neq in Ni as Nb. rewrite Nb. apply Hm; assumption. }
    rewrite HF in E. assert (0 < Mw * M * (F * (Mw * (t * M) * F))) by (clear - HMw HM H1 Ht; revert HMw HM H1 Ht; generalize Mw F M; intros; repeat apply Rmult_lt_0_compat; assumption). lra.
  - intros L. assert (M = 0) as Z. { unfold M. rewrite L in *. assert (w = 0)%nat as -> by lia. cbn. unfold solutes. cbn. ring. } replace (Mw * M * (F * (1 - F))) with 0 in D by (rewrite Z; ring). exact D.
Qed.
Print Assumptions C95_aqueous_partial.
Theorem C95_refuted : ~ C95_statement.
Proof.
  intros [_ H]. assert (W : first_with [aH2O; aCO2] $"H2O" 0) by (apply index_first; vm_compute; reflexivity).
  assert (E : exists f, idealAqueous [aH2O; aCO2] = Ok f). { unfold idealAqueous. rewrite (proj2 (index_first _ _ _) W). eexists. reflexivity. } destruct E as [f Hf].
  specialize (H _ f 0%nat 300 1e5 (constProps 0, None) (fun _ => 1) 1 Hf W ltac:(intros; lra) ltac:(lra)).
  apply (C95_aqueous_partial _ f 0%nat 300 1e5 (constProps 0, None) (fun _ => 1) 1 Hf W) in H; [discriminate|intros; lra|lra].
Qed.
Print Assumptions C95_refuted.

(* ---- C96 ---- *)
(* A solution in which every species other than water is charged. *)
Definition ions_only (l : list Species) (w : nat) : Prop := forall i s, nth_error l i = Some s -> i <> w -> ~ Qeq (sp_charge s) 0.
Definition electroneutral (l : list Species) (w : nat) (m : nat -> R) : Prop := Sum (length l) (fun i => Q2R (sp_charge (nth i l aH2O)) * solutes w m i) = 0.
Definition nonneg_sizes (params : DHParams) : Prop := 0 <= dh_adefault params /\ Forall (fun e => 0 <= snd e) (dh_aions params).
Definition C96_statement : Prop := forall params reactions rho eps l f w T P p m t,
  debyeHuckel params (mkAqueousMixture reactions rho eps) l = Ok f -> nonneg_sizes params -> first_with l $"H2O" w -> ions_only l w ->
  (forall i, (i < length l)%nat -> i <> w -> 0 < m i) -> electroneutral l w m -> 0 < t -> 0 < T -> 0 < rho T P -> 0 < eps T P ->
  GibbsDuhem f (length l) T P p (dilution (length l) w m) t.
Lemma dh_get_in f params d v : dh_get f params d = Ok v -> v = d \/ In v (map snd params).
Proof.
  induction params as [|[k x] params IH]; cbn; [intros E; injection E as <-; auto|]. destruct (mkChemicalFormula k); try discriminate. cbn [bind]. destruct (equivalent f a); [intros E; injection E as <-; auto|]. intros E. destruct (IH E); auto.
Qed.
Lemma dh_parameters_in params d l idx vs : dh_parameters params d l idx = Ok vs -> length vs = length idx /\ forall v, In v vs -> v = d \/ In v (map snd params).
Proof.
  unfold dh_parameters. revert vs. induction idx as [|i idx IH]; cbn [mapM]; intros vs E; [injection E as <-; split; [reflexivity|intros ? []]|].
  destruct (dh_get _ params d) as [v| |] eqn:Ev; try discriminate. cbn [bind] in E. destruct (mapM _ idx) as [vs'| |]; try discriminate. cbn [bind] in E. injection E as <-. destruct (IH vs' eq_refl) as [L H].
  split; [cbn; rewrite L; reflexivity|]. intros u [<-|Hu]; [apply (dh_get_in _ _ _ _ Ev)|apply H; exact Hu].
Qed.
Lemma debyeHuckel_inv params reactions rho eps l f : debyeHuckel params (mkAqueousMixture reactions rho eps) l = Ok f ->
  exists mx aions bions bneutral, mkAqueousMixture reactions rho eps l = Ok mx /\ f = dh_fn mx aions bions bneutral /\
  dh_parameters (dh_aions params) (dh_adefault params) l (mx_charged mx) = Ok aions /\ dh_parameters (dh_bions params) (dh_bdefault params) l (mx_charged mx) = Ok bions /\
  dh_parameters (dh_bneutrals params) (dh_bndefault params) l (mx_neutral mx) = Ok bneutral.
Proof.
  unfold debyeHuckel. destruct (mkAqueousMixture reactions rho eps l) as [mx| |]; try discriminate. cbn [bind].
  destruct (dh_parameters (dh_aions params) _ _ _) as [a| |] eqn:Ea; try discriminate. cbn [bind]. destruct (dh_parameters (dh_bions params) _ _ _) as [b| |] eqn:Eb; try discriminate. cbn [bind].
  destruct (dh_parameters (dh_bneutrals params) _ _ _) as [c| |] eqn:Ec; try discriminate. cbn [bind]. intros E. injection E as <-. exists mx, a, b, c. auto.
Qed.
Lemma mixture_water reactions rho eps l mx w : mkAqueousMixture reactions rho eps l = Ok mx -> first_with l $"H2O" w -> mx_water mx = w.
Proof. intros H W. apply index_first in W. destruct (mx_inv _ _ _ _ _ H) as (E & _). rewrite W in E. injection E as <-. reflexivity. Qed.
Lemma no_neutral reactions rho eps l mx : mkAqueousMixture reactions rho eps l = Ok mx -> ions_only l (mx_water mx) -> mx_neutral mx = [].
Proof.
  intros H HI. destruct (mx_neutral mx) as [|k ks] eqn:E; [reflexivity|exfalso]. assert (Hk : In k (mx_neutral mx)) by (rewrite E; left; reflexivity).
  destruct (neutral_eq _ _ _ _ _ H k Hk) as (N & _ & L). destruct (nth_error l k) as [s|] eqn:Es; [|apply nth_error_None in Es; lia].
  destruct (C54_partition _ _ _ _ _ H) as (_ & _ & _ & _ & C). apply (C k s Es) in Hk. exact (HI k s Es N (proj2 Hk)).
Qed.
Lemma dh_A_pos rho T eps : 0 < rho -> 0 < T -> 0 < eps -> 0 < dh_A (rho / 1000) T eps.
Proof.
  intros H1 H2 H3. unfold dh_A. assert (0 < T * eps) by (apply Rmult_lt_0_compat; assumption). assert (0 < sqrt (rho / 1000)) by (apply sqrt_lt_R0; lra). assert (0 < sqrt (T * eps)) by (apply sqrt_lt_R0; assumption).
  apply Rdiv_lt_0_compat; [apply Rmult_lt_0_compat; lra|]. apply Rmult_lt_0_compat; assumption.
Qed.
(* Sums over the charged species as sums over all species. *)
Lemma Sum_charged reactions rho eps l mx w m : mkAqueousMixture reactions rho eps l = Ok mx -> mx_water mx = w -> mx_neutral mx = [] -> forall g : Species -> R,
  Sum (length (mx_charged mx)) (fun j => g (nth (nth j (mx_charged mx) O) l aH2O) * ion_m mx m j) = Sum (length l) (fun i => g (nth i l aH2O) * solutes w m i).
Proof.
  intros H Hw Hn g. rewrite (Sum_mixture _ _ _ _ _ (fun i => g (nth i l aH2O) * solutes w m i) H), Hn, Hw. cbn [length Sum]. unfold solutes at 1. rewrite Nat.eqb_refl, Rmult_0_r, !Rplus_0_l. apply Sum_ext. intros j Hj.
  destruct (charged_neq _ _ _ _ _ H (nth j (mx_charged mx) O)) as (N & _); [apply nth_In; exact Hj|]. unfold solutes, ion_m. rewrite Hw in N. apply Nat.eqb_neq in N. rewrite N. reflexivity.
Qed.
Lemma ion_z_nth reactions rho eps l mx j : mkAqueousMixture reactions rho eps l = Ok mx -> (j < length (mx_charged mx))%nat -> ion_z l mx j = Q2R (sp_charge (nth (nth j (mx_charged mx) O) l aH2O)).
Proof.
  intros H Hj. unfold ion_z, charge_at, species_at. destruct (charged_neq _ _ _ _ _ H (nth j (mx_charged mx) O)) as (_ & _ & L); [apply nth_In; exact Hj|]. rewrite (nth_indep l noSpecies aH2O L). reflexivity.
Qed.
(* For every solution of ions: what is left over, in terms of the coefficients the
   model returns. *)
Theorem C96_residual_partial : forall params reactions rho eps l f w T P p m t,
  debyeHuckel params (mkAqueousMixture reactions rho eps) l = Ok f -> nonneg_sizes params -> first_with l $"H2O" w -> ions_only l w ->
  (forall i, (i < length l)%nat -> i <> w -> 0 < m i) -> 0 < t -> 0 < T -> 0 < rho T P -> 0 < eps T P ->
  exists q e, f T P (dilution (length l) w m t) p = Ok (q, e) /\
  let I := / 2 * Sum (length l) (fun i => Q2R (sp_charge (nth i l aH2O)) ^ 2 * solutes w m i) in
  let r := 0.018015268 * dilution (length l) w m t w * Sum (length l) (fun i => if Nat.eqb i w then 0 else (2 * I / Q2R (sp_charge (nth i l aH2O)) ^ 2 - m i) * ln_g q i) in
  duhem_residual f (length l) T P p (dilution (length l) w m) t r /\ (GibbsDuhem f (length l) T P p (dilution (length l) w m) t <-> r = 0).
Proof.
  intros params reactions rho eps l f w T P p m t Hf [Ha1 Ha2] Hw Hi Hm Ht HT Hr He.
  destruct (debyeHuckel_inv _ _ _ _ _ _ Hf) as (mx & aions & bions & bneutral & Hmx & -> & Ea & Eb & _). pose proof (mixture_water _ _ _ _ _ _ Hmx Hw) as Ew. rewrite <- Ew in Hi. pose proof (no_neutral _ _ _ _ _ Hmx Hi) as En. rewrite Ew in Hi.
  assert (Hpos : forall j, (j < length (mx_charged mx))%nat -> 0 <= nth j aions 0).
  { intros j Hj. destruct (dh_parameters_in _ _ _ _ _ Ea) as [L Hin]. destruct (Hin (nth j aions 0)) as [->|H]; [apply nth_In; lia|exact Ha1|]. apply in_map_iff in H as ([k v] & E & H). cbn in E. subst v. rewrite Forall_forall in Ha2. exact (Ha2 _ H). }
  rewrite <- Ew in Hm. pose proof (dh_residual _ _ _ _ _ Hmx En m aions bions bneutral T P p t Hm Ht HT Hr He Hpos) as D.
  destruct (dh_closed _ _ _ _ _ Hmx aions bions bneutral T P p (dilution (length l) (mx_water mx) m t)) as (q & E & Hc & _).
  destruct (ion_state _ _ _ _ _ Hmx En m Hm T P t Ht) as [_ S2]. rewrite S2 in Hc. rewrite <- Ew. exists q. eexists. split; [exact E|]. cbn zeta.
  set (I0 := / 2 * Sum (length l) (fun i => Q2R (sp_charge (nth i l aH2O)) ^ 2 * solutes (mx_water mx) m i)).
  assert (EI : ion_I l mx m = I0).
  { unfold ion_I, I0. replace 0.5 with (/ 2) by lra. f_equal. rewrite <- (Sum_charged _ _ _ _ _ (mx_water mx) m Hmx eq_refl En (fun s => Q2R (sp_charge s) ^ 2)). apply Sum_ext. intros j Hj. rewrite (ion_z_nth _ _ _ _ _ _ Hmx Hj). ring. }
  match goal with |- duhem_residual _ _ _ _ _ _ _ ?r /\ _ => assert (ER : r = Mw * water_fraction (length l) (mx_water mx) m t * Sum (length (mx_charged mx)) (fun j => (2 * ion_I l mx m / (ion_z l mx j * ion_z l mx j) - ion_m mx m j) *
       dh_lng (dh_A (rho T P / 1000) T (eps T P)) (dh_B (rho T P / 1000) T (eps T P)) (nth j aions 0) (nth j bions 0) (ion_z l mx j) (t * ion_I l mx m))) end.
  { rewrite dilution_water. f_equal. rewrite (Sum_mixture _ _ _ _ _ _ Hmx), En. cbn [length Sum]. rewrite Nat.eqb_refl, !Rplus_0_l. apply Sum_ext. intros j Hj.
    destruct (charged_neq _ _ _ _ _ Hmx (nth j (mx_charged mx) O)) as (N & _); [apply nth_In; exact Hj|]. apply Nat.eqb_neq in N. rewrite N. destruct (Hc j Hj) as [-> _]. rewrite EI. change (za l mx j) with (ion_z l mx j). rewrite <- (ion_z_nth _ _ _ _ _ _ Hmx Hj).
    unfold ion_m. f_equal. f_equal. f_equal. ring. }
  rewrite ER. split; [exact D|]. split; [intros G; exact (residual_unique _ _ _ _ _ _ _ _ _ D G)|intros Z]. unfold GibbsDuhem. rewrite <- Z. exact D.
Qed.
Print Assumptions C96_residual_partial.
(* Sodium chloride with the limiting law, at every concentration, temperature and
   density. *)
Definition salt : list Species := [aH2O; aNa; aCl].
Lemma salt_mixture reactions rho eps : exists mx, mkAqueousMixture reactions rho eps salt = Ok mx /\ mx_water mx = 0%nat /\ mx_charged mx = [1; 2]%nat /\ mx_neutral mx = [].
Proof.
  assert (indexWithFormula salt $"H2O" = Ok 0%nat) as W by (vm_compute; reflexivity). assert (exists mx, mkAqueousMixture reactions rho eps salt = Ok mx) as [mx E] by (unfold mkAqueousMixture; rewrite W; eexists; reflexivity).
  exists mx. split; [exact E|]. destruct (mx_inv _ _ _ _ _ E) as (W' & _ & En & Ec & _). rewrite W in W'. injection W' as W'. rewrite <- W' in *. split; [reflexivity|]. split; [rewrite Ec; vm_compute; reflexivity|rewrite En; vm_compute; reflexivity].
Qed.
Lemma salt_ions : ions_only salt 0.
Proof. intros [|[|[|i]]] s E N; cbn in E; [contradiction|injection E as <-; discriminate|injection E as <-; discriminate|destruct i; discriminate]. Qed.
Theorem C96_salt_refuted : forall reactions rho eps f T P p m t, debyeHuckel limitingLaw (mkAqueousMixture reactions rho eps) salt = Ok f ->
  0 < m -> 0 < t -> 0 < T -> 0 < rho T P -> 0 < eps T P -> ~ GibbsDuhem f 3 T P p (dilution 3 0 (fun _ => m)) t.
Proof.
  intros reactions rho eps f T P p m t Hf Hm Ht HT Hr He G.
  assert (W : first_with salt $"H2O" 0) by (apply index_first; vm_compute; reflexivity).
  destruct (C96_residual_partial limitingLaw reactions rho eps salt f 0 T P p (fun _ => m) t Hf) as (q & e & E & _ & D); try assumption; [split; [cbn; lra|constructor]|exact salt_ions|intros; exact Hm|].
  apply (proj1 D) in G. clear D.
  destruct (debyeHuckel_inv _ _ _ _ _ _ Hf) as (mx & aions & bions & bneutral & Hmx & -> & Ea & Eb & _).
  destruct (salt_mixture reactions rho eps) as (mx' & E' & Ew & Ec & En). rewrite Hmx in E'. injection E' as <-. rewrite Ec in Ea, Eb. cbn in Ea, Eb. injection Ea as <-. injection Eb as <-.
  destruct (dh_closed _ _ _ _ _ Hmx [0; 0] [0; 0] bneutral T P p (dilution 3 0 (fun _ => m) t)) as (q' & E2 & Hc & _). change (length salt) with 3%nat in E. rewrite E2 in E. injection E as -> _.
  assert (Hm3 : forall i, (i < 3)%nat -> i <> mx_water mx -> 0 < m) by (intros; exact Hm).
  destruct (ion_state _ _ _ _ _ Hmx En (fun _ => m) Hm3 T P t Ht) as [_ S2]. rewrite Ew in S2. change (length salt) with 3%nat in S2. rewrite S2 in Hc. rewrite Ec in Hc.
  assert (EI : ion_I salt mx (fun _ => m) = m). { unfold ion_I, ion_z, ion_m. rewrite Ec. cbn. unfold charge_at, Q2R. cbn. lra. }
  rewrite EI in Hc. destruct (Hc 0%nat ltac:(cbn; lia)) as [G1 _]. destruct (Hc 1%nat ltac:(cbn; lia)) as [G2 _]. clear Hc. cbn [nth] in G1, G2.
  unfold za in G1, G2. rewrite Ec in G1, G2. cbn [nth] in G1, G2. unfold dh_lng, dh_Lambda in G1, G2. unfold charge_at, species_at, Q2R in G1, G2. cbn in G1, G2.
  cbn [length salt Sum Nat.eqb nth] in G. unfold solutes in G. cbn [Nat.eqb] in G. unfold Q2R in G. cbn [sp_charge aqua aNa aCl aH2O Qnum Qden] in G.
  set (A := dh_A (rho T P / 1000) T (eps T P)) in *. pose proof (dh_A_pos (rho T P) T (eps T P) Hr HT He) as HA. fold A in HA.
  assert (HU : 0 < sqrt (t * m)) by (apply sqrt_lt_R0, Rmult_lt_0_compat; assumption). set (u := sqrt (t * m)) in *.
  assert (L1 : ln_g q 1 = - (ln10 * A * u)) by (rewrite G1; field; lra). assert (L2 : ln_g q 2 = - (ln10 * A * u)) by (rewrite G2; field; lra).
  rewrite L1, L2 in G. assert (0 < ln10 * A * u) as HL by (unfold ln10; apply Rmult_lt_0_compat; [apply Rmult_lt_0_compat; lra|exact HU]).
  rewrite dilution_water in G. destruct (water_fraction_pos 3 0 (fun _ => m) t) as [HF _]; [intros; lra|exact Ht|].
  set (F := water_fraction 3 0 (fun _ => m) t) in *. set (X := ln10 * A * u) in *. clearbody F X. clear - G HF HL Hm.
  assert (E : 18015268 * / 1000000000 * F * (- (2 * (m * X))) = 0) by (rewrite <- G; f_equal; field). assert (0 < F * (m * X)) by (apply Rmult_lt_0_compat; [exact HF|apply Rmult_lt_0_compat; assumption]). lra.
Qed.
Print Assumptions C96_salt_refuted.
Theorem C96_refuted : ~ C96_statement.
Proof.
  intros H. destruct (salt_mixture [] nothing nothing) as (mx & E & Ew & Ec & En).
  assert (exists f, debyeHuckel limitingLaw (mkAqueousMixture [] nothing nothing) salt = Ok f) as [f Hf].
  { unfold debyeHuckel. rewrite E. cbn [bind]. rewrite Ec, En. eexists. reflexivity. }
  apply (C96_salt_refuted [] nothing nothing f 300 1e5 (constProps 0, None) 1 1 Hf); try (unfold nothing; lra).
  apply (H limitingLaw [] nothing nothing salt f 0%nat 300 1e5 (constProps 0, None) (fun _ => 1) 1 Hf); try (unfold nothing; lra).
  - split; [cbn; lra|constructor].
  - apply index_first. vm_compute. reflexivity.
  - exact salt_ions.
  - intros; lra.
  - unfold electroneutral, solutes, Q2R. cbn. lra.
Qed.
Print Assumptions C96_refuted.

(* ---- C97 ---- *)
Definition C97_statement : Prop := forall params known reactions rho eps l f w T P p m t,
  activityHKF params known (mkAqueousMixture reactions rho eps) l = Ok f -> first_with l $"H2O" w -> 
  (forall i, (i < length l)%nat -> i <> w -> 0 < m i) -> electroneutral l w m -> 0 < t -> 0 < hk_B (params T P) ->
  (forall s, In s l -> 0 < effectiveIonicRadius known s \/ Qeq (sp_charge s) 0) ->
  GibbsDuhem f (length l) T P p (dilution (length l) w m) t.
Lemma activityHKF_inv params known reactions rho eps l f : activityHKF params known (mkAqueousMixture reactions rho eps) l = Ok f ->
  exists mx, mkAqueousMixture reactions rho eps l = Ok mx /\ f = hkf_fn params mx (map (fun i => effectiveIonicRadius known (species_at l i)) (mx_charged mx)).
Proof. unfold activityHKF. destruct (mkAqueousMixture reactions rho eps l) as [mx| |]; try discriminate. cbn [omap bind]. intros E. injection E as <-. exists mx. auto. Qed.
(* Every solution of ions: what is left over is proportional to the total charge,
   so that electroneutral solutions satisfy the equation. *)
Theorem C97_partial : forall params known reactions rho eps l f w T P p m t,
  activityHKF params known (mkAqueousMixture reactions rho eps) l = Ok f -> first_with l $"H2O" w -> ions_only l w -> (1 < length l)%nat ->
  (forall i, (i < length l)%nat -> i <> w -> 0 < m i) -> 0 < t -> 0 < hk_B (params T P) ->
  (forall s, In s l -> 0 < effectiveIonicRadius known s \/ Qeq (sp_charge s) 0) ->
  let I := / 2 * Sum (length l) (fun i => Q2R (sp_charge (nth i l aH2O)) ^ 2 * solutes w m i) in
  duhem_residual f (length l) T P p (dilution (length l) w m) t
    (dilution (length l) w m t w * (ln 10 * 0.018015268 * (0.5387e+05 * hk_bNaCl (params T P) * (t * I) * Sum (length l) (fun i => Q2R (sp_charge (nth i l aH2O)) * solutes w m i)))) /\
  (electroneutral l w m -> GibbsDuhem f (length l) T P p (dilution (length l) w m) t).
Proof.
  intros params known reactions rho eps l f w T P p m t Hf Hw Hi Hl Hm Ht HB Hr. destruct (activityHKF_inv _ _ _ _ _ _ _ Hf) as (mx & Hmx & ->).
  pose proof (mixture_water _ _ _ _ _ _ Hmx Hw) as Ew. rewrite <- Ew in *. pose proof (no_neutral _ _ _ _ _ Hmx Hi) as En. cbn zeta.
  assert (Hnc : (0 < length (mx_charged mx))%nat).
  { destruct (mx_partition _ _ _ _ _ Hmx) as [Pm _]. apply Permutation_length in Pm. rewrite En, seq_length in Pm. cbn in Pm. lia. }
  assert (Hrad : forall j, (j < length (mx_charged mx))%nat -> 0 < nth j (map (fun i => effectiveIonicRadius known (species_at l i)) (mx_charged mx)) 0).
  { intros j Hj. assert (Hin : In (nth j (mx_charged mx) O) (mx_charged mx)) by (apply nth_In; exact Hj). destruct (charged_neq _ _ _ _ _ Hmx _ Hin) as (_ & Hz & L).
    rewrite (nth_indep _ 0 (effectiveIonicRadius known (species_at l O))) by (rewrite map_length; exact Hj). rewrite (map_nth (fun i => effectiveIonicRadius known (species_at l i))).
    destruct (Hr (species_at l (nth j (mx_charged mx) O))) as [H|H]; [apply nth_In; exact L|exact H|]. exfalso. apply Hz. unfold charge_at. rewrite (Qeq_eqR _ _ H). unfold Q2R. cbn. ring. }
  pose proof (hkf_residual _ _ _ _ _ Hmx En params _ m T P p t Hnc Hm Ht HB Hrad) as D.
  assert (EI : ion_I l mx m = / 2 * Sum (length l) (fun i => Q2R (sp_charge (nth i l aH2O)) ^ 2 * solutes (mx_water mx) m i)).
  { unfold ion_I. replace 0.5 with (/ 2) by lra. f_equal. rewrite <- (Sum_charged _ _ _ _ _ (mx_water mx) m Hmx eq_refl En (fun s => Q2R (sp_charge s) ^ 2)). apply Sum_ext. intros j Hj. rewrite (ion_z_nth _ _ _ _ _ _ Hmx Hj). ring. }
  assert (EZ : Sum (length (mx_charged mx)) (fun j => ion_z l mx j * ion_m mx m j) = Sum (length l) (fun i => Q2R (sp_charge (nth i l aH2O)) * solutes (mx_water mx) m i)).
  { rewrite <- (Sum_charged _ _ _ _ _ (mx_water mx) m Hmx eq_refl En (fun s => Q2R (sp_charge s))). apply Sum_ext. intros j Hj. rewrite (ion_z_nth _ _ _ _ _ _ Hmx Hj). reflexivity. }
  rewrite EI, EZ in D. rewrite dilution_water. change hkf_omegaH with 0.5387e+05 in D. change Mw with 0.018015268 in D at 2 || change Mw with 0.018015268 in D. split; [exact D|].
  intros Z. unfold electroneutral in Z. rewrite Z in D. unfold GibbsDuhem. match type of D with duhem_residual _ _ _ _ _ _ _ ?r => replace r with 0 in D by ring end. exact D.
Qed.
Print Assumptions C97_partial.
(* With neutral solutes only, the activity of water is one whatever the solution. *)
Definition carbonated : list Species := [aH2O; aCO2].
Lemma carbonated_mixture reactions rho eps : exists mx, mkAqueousMixture reactions rho eps carbonated = Ok mx /\ mx_water mx = 0%nat /\ mx_charged mx = [] /\ mx_neutral mx = [1]%nat.
Proof.
  assert (indexWithFormula carbonated $"H2O" = Ok 0%nat) as W by (vm_compute; reflexivity). assert (exists mx, mkAqueousMixture reactions rho eps carbonated = Ok mx) as [mx E] by (unfold mkAqueousMixture; rewrite W; eexists; reflexivity).
  exists mx. split; [exact E|]. destruct (mx_inv _ _ _ _ _ E) as (W' & _ & En & Ec & _). rewrite W in W'. injection W' as W'. rewrite <- W' in *. split; [reflexivity|]. split; [rewrite Ec; vm_compute; reflexivity|rewrite En; vm_compute; reflexivity].
Qed.
Lemma hkf_carbonated params reactions rho eps mx radius T P p m s : mkAqueousMixture reactions rho eps carbonated = Ok mx -> 0 < m -> 0 < s ->
  exists q e, hkf_fn params mx radius T P (dilution 2 0 (fun _ => m) s) p = Ok (q, e) /\ ln_a q 0 = 0 /\ ln_a q 1 = ln (s * m).
Proof.
  intros Hmx Hm Hs. destruct (carbonated_mixture reactions rho eps) as (mx' & E' & Ew & Ec & En). rewrite Hmx in E'. injection E' as <-.
  unfold hkf_fn. rewrite Ew, Ec, En. cbn [length seq fold_left nth]. eexists _, _. split; [reflexivity|]. cbn [ln_a with_a]. split.
  - rewrite set_at_same. destruct (Req_EM_T _ 1) as [->|_]; [apply ln_1|ring].
  - rewrite set_at_other by discriminate. rewrite set_at_same. unfold mixtureState. cbn [st_Is st_m]. unfold stoichiometricIonicStrength. rewrite Ec, Ew. cbn [length Sum].
    rewrite molalities_dilution; [ring_simplify; reflexivity|intros; lra|exact Hs|discriminate].
Qed.
Theorem C97_neutral_refuted : forall params known reactions rho eps f T P p m t,
  activityHKF params known (mkAqueousMixture reactions rho eps) carbonated = Ok f -> 0 < m -> 0 < t -> ~ GibbsDuhem f 2 T P p (dilution 2 0 (fun _ => m)) t.
Proof.
  intros params known reactions rho eps f T P p m t Hf Hm Ht G. destruct (activityHKF_inv _ _ _ _ _ _ _ Hf) as (mx & Hmx & ->). set (radius := map _ _) in *.
  assert (D : duhem_residual (hkf_fn params mx radius) 2 T P p (dilution 2 0 (fun _ => m)) t (Mw * m * water_fraction 2 0 (fun _ => m) t)).
  { exists (fun s i => match hkf_fn params mx radius T P (dilution 2 0 (fun _ => m) s) p with Ok qe => ln_a (fst qe) i | _ => 0 end), (fun i => match i with O => 0 | _ => / t end). split; [|split].
    - apply (filter_imp (fun s => 0 < s)); [|exact (open_gt 0 t Ht)]. intros s Hs. destruct (hkf_carbonated params reactions rho eps mx radius T P p m s Hmx Hm Hs) as (q & e & E & _). exists q, e. split; [exact E|]. intros i. rewrite E. reflexivity.
    - intros [|[|i]] Hi; [| |lia].
      + apply (is_derive_ext_loc (fun _ => 0)); [|apply d_const]. apply (filter_imp (fun s => 0 < s)); [|exact (open_gt 0 t Ht)]. intros s Hs. destruct (hkf_carbonated params reactions rho eps mx radius T P p m s Hmx Hm Hs) as (q & e & E & H0 & _). rewrite E. symmetry. exact H0.
      + apply (is_derive_ext_loc (fun s => ln (s * m))).
        * apply (filter_imp (fun s => 0 < s)); [|exact (open_gt 0 t Ht)]. intros s Hs. destruct (hkf_carbonated params reactions rho eps mx radius T P p m s Hmx Hm Hs) as (q & e & E & _ & H1). rewrite E. symmetry. exact H1.
        * eapply d_val; [apply d_ln; [apply d_mul; [apply d_id|apply d_const]|apply Rmult_lt_0_compat; assumption]|]. cbv beta. field. lra.
    - cbn [Sum]. rewrite (dilution_solute 2 0 (fun _ => m) t 1) by discriminate. field. lra. }
  pose proof (residual_unique _ _ _ _ _ _ _ _ _ G D) as E. destruct (water_fraction_pos 2 0 (fun _ => m) t) as [HF _]; [intros; lra|exact Ht|]. pose proof Mw_pos.
  assert (0 < Mw * m * water_fraction 2 0 (fun _ => m) t) by (apply Rmult_lt_0_compat; [apply Rmult_lt_0_compat; assumption|exact HF]). lra.
Qed.
Print Assumptions C97_neutral_refuted.
Theorem C97_refuted : ~ C97_statement.
Proof.
  intros H. destruct (carbonated_mixture [] nothing nothing) as (mx & E & Ew & Ec & En). set (params := fun _ _ : R => mkHKF 1 1 1 1).
  assert (exists f, activityHKF params (fun _ => None) (mkAqueousMixture [] nothing nothing) carbonated = Ok f) as [f Hf] by (unfold activityHKF; rewrite E; eexists; reflexivity).
  apply (C97_neutral_refuted params (fun _ => None) [] nothing nothing f 300 1e5 (constProps 0, None) 1 1 Hf ltac:(lra) ltac:(lra)).
  apply (H params (fun _ => None) [] nothing nothing carbonated f 0%nat 300 1e5 (constProps 0, None) (fun _ => 1) 1 Hf); try (cbn; lra).
  - apply index_first. vm_compute. reflexivity.
  - intros; lra.
  - unfold electroneutral, solutes, Q2R. cbn. lra.
  - intros s [<-|[<-|[]]]; right; reflexivity.
Qed.
Print Assumptions C97_refuted.
Example C97_nonvacuous : exists f, activityHKF (fun _ _ => mkHKF 1.2 0.33 1e-7 0.1) (fun _ => None) (mkAqueousMixture [] nothing nothing) salt = Ok f /\
  GibbsDuhem f 3 300 1e5 (constProps 0, None) (dilution 3 0 (fun _ => 1)) 0.5.
Proof.
  destruct (salt_mixture [] nothing nothing) as (mx & E & _). assert (exists f, activityHKF (fun _ _ => mkHKF 1.2 0.33 1e-7 0.1) (fun _ => None) (mkAqueousMixture [] nothing nothing) salt = Ok f) as [f Hf] by (unfold activityHKF; rewrite E; eexists; reflexivity).
  exists f. split; [exact Hf|]. apply (C97_partial _ _ _ _ _ salt f 0%nat 300 1e5 (constProps 0, None) (fun _ => 1) 0.5 Hf).
  - apply index_first. vm_compute. reflexivity.
  - exact salt_ions.
  - cbn. lia.
  - intros; lra.
  - lra.
  - cbn. lra.
  - intros s [<-|[<-|[<-|[]]]]; [right; reflexivity|left|left]; unfold effectiveIonicRadius, estimatedRadius, Q2R; cbn; repeat (destruct (Req_EM_T _ _)); try lra; destruct (Rlt_dec _ _); lra.
  - unfold electroneutral, solutes, Q2R. cbn. lra.
Qed.

(* ---- C98 ---- *)
(* What an activity function returns for n species does not depend on what the
   properties contained before. *)
Definition same_props (n : nat) (q q' : Props) : Prop :=
  (Vex q, VexT q, VexP q, Gex q, Hex q, Cpex q, Cvex q) = (Vex q', VexT q', VexP q', Gex q', Hex q', Cpex q', Cvex q') /\
  forall i, (i < n)%nat -> ln_g q i = ln_g q' i /\ ln_a q i = ln_a q' i.
Definition overwrites (n : nat) (f : ActivityFn) : Prop := forall T P x p p' e q e1 q' e1', f T P x (p, e) = Ok (q, e1) -> f T P x (p', e) = Ok (q', e1') -> same_props n q q'.
Definition C98_statement : Prop :=
  (forall n, overwrites n idealSolution /\ overwrites n idealGas) /\
  (forall l f, idealAqueous l = Ok f -> overwrites (length l) f) /\
  (forall a0 a1 a2 l f, redlichKister a0 a1 a2 l = Ok f -> overwrites (length l) f) /\
  (forall params reactions rho eps l f, debyeHuckel params (mkAqueousMixture reactions rho eps) l = Ok f -> overwrites (length l) f) /\
  (forall params known reactions rho eps l f, activityHKF params known (mkAqueousMixture reactions rho eps) l = Ok f -> overwrites (length l) f).
Theorem C98_ideal_partial : (forall n, overwrites n idealSolution /\ overwrites n idealGas) /\ (forall l f, idealAqueous l = Ok f -> overwrites (length l) f).
Proof.
  split; [intros n; split|intros l f Hf; unfold idealAqueous in Hf; destruct (indexWithFormula l $"H2O"); try discriminate; injection Hf as <-];
    (intros T P x p p' e q e1 q' e1' E E'; injection E as <- _; injection E' as <- _; split; [reflexivity|intros; split; reflexivity]).
Qed.
Print Assumptions C98_ideal_partial.
(* Redlich-Kister and Debye-Hueckel leave the excess properties they do not
   compute as they were; HKF in addition leaves the coefficients of the ions that
   are absent, as the first three theorems show. *)
Theorem C98_refuted : ~ C98_statement.
Proof.
  intros (_ & _ & H & _). assert (E : exists f, redlichKister 1 0 0 [aCO2; aH2O] = Ok f) by (eexists; reflexivity). destruct E as [f Hf]. specialize (H _ _ _ _ f Hf 300 1e5 x1 (constProps 0) (constProps 1) None).
  unfold redlichKister in Hf. cbn [length Nat.eqb negb] in Hf. injection Hf as <-. specialize (H _ _ _ _ eq_refl eq_refl). destruct H as [H _]. cbn in H. injection H as H _ _ _ _. lra.
Qed.
Print Assumptions C98_refuted.
Theorem C98_stale_refuted : forall params reactions rho eps l f, debyeHuckel params (mkAqueousMixture reactions rho eps) l = Ok f ->
  (forall T P x p e, exists q e1, f T P x (p, e) = Ok (q, e1) /\ (Vex q, VexT q, VexP q, Gex q, Hex q, Cpex q, Cvex q) = (Vex p, VexT p, VexP p, Gex p, Hex p, Cpex p, Cvex p)) /\ ~ overwrites (length l) f.
Proof.
  intros params reactions rho eps l f Hf. destruct (debyeHuckel_inv _ _ _ _ _ _ Hf) as (mx & a & b & c & Hmx & -> & _).
  assert (K : forall T P x p e, exists q e1, dh_fn mx a b c T P x (p, e) = Ok (q, e1) /\ (Vex q, VexT q, VexP q, Gex q, Hex q, Cpex q, Cvex q) = (Vex p, VexT p, VexP p, Gex p, Hex p, Cpex p, Cvex p)).
  { intros T P x p e. unfold dh_fn. cbn [fst]. destruct (fold_left (dh_ion _ _ _ _ _ _) _ _) as [g1 a1]. destruct (fold_left (dh_neutral _ _ _) _ _) as [g2 a2]. eexists _, _. split; [reflexivity|]. reflexivity. }
  split; [exact K|]. intros H. destruct (K 300 1e5 x1 (constProps 0) None) as (q & e1 & E & S). destruct (K 300 1e5 x1 (constProps 1) None) as (q' & e1' & E' & S').
  destruct (H _ _ _ _ _ _ _ _ _ _ E E') as [Z _]. rewrite S, S' in Z. cbn in Z. injection Z as Z _ _ _ _ _ _. lra.
Qed.
Print Assumptions C98_stale_refuted.
(* An ion that is absent: with sodium chloride and no sodium, the coefficient of
   sodium is the one that was there. *)
Theorem C98_absent_refuted : forall params known reactions rho eps f T P x p e q e1, activityHKF params known (mkAqueousMixture reactions rho eps) salt = Ok f ->
  x 1%nat = 0 -> f T P x (p, e) = Ok (q, e1) -> ln_g q 1 = ln_g p 1.
Proof.
  intros params known reactions rho eps f T P x p e q e1 Hf Hx E. destruct (activityHKF_inv _ _ _ _ _ _ _ Hf) as (mx & Hmx & ->). destruct (salt_mixture reactions rho eps) as (mx' & E' & Ew & Ec & En). rewrite Hmx in E'. injection E' as <-.
  revert E. unfold hkf_fn. rewrite Ew, En, Ec. cbn [length seq fold_left fst]. unfold hkf_ion at 2. 
  assert (Z : st_ms (mixtureState mx T P x) 0 = 0). { unfold mixtureState. cbn [st_ms]. unfold stoichiometricMolalities. rewrite Ec, En. cbn [length Sum nth]. unfold molalities. rewrite Ew. destruct (Req_EM_T (x 0%nat) 0); [ring|]. rewrite Hx. unfold Rdiv. ring. }
  rewrite Z. destruct (Req_EM_T 0 0) as [_|N]; [|contradiction]. unfold hkf_ion. rewrite Ec. destruct (Req_EM_T (st_ms (mixtureState mx T P x) 1) 0); cbn [fst snd nth]; intros E; injection E as <- _; cbn; reflexivity.
Qed.
Print Assumptions C98_absent_refuted.
(* Activities and activity coefficients: Redlich-Kister and Debye-Hueckel always
   overwrite them, HKF when every ion is present. *)
Definition same_activities (n : nat) (q q' : Props) : Prop := forall i, (i < n)%nat -> ln_g q i = ln_g q' i /\ ln_a q i = ln_a q' i.
Lemma hkf_closed params reactions rho eps l mx radius T P p e x : mkAqueousMixture reactions rho eps l = Ok mx -> 
  (forall j, (j < length (mx_charged mx))%nat -> st_ms (mixtureState mx T P x) j <> 0) ->
  exists q e1, hkf_fn params mx radius T P x (p, e) = Ok (q, e1) /\
  (forall j, (j < length (mx_charged mx))%nat -> ln_g q (nth j (mx_charged mx) O) = hkf_log10_g (params T P) (charge_at l (nth j (mx_charged mx) O)) (nth j radius 0) (st_Is (mixtureState mx T P x)) (x (mx_water mx)) * ln 10) /\
  (forall k, In k (mx_neutral mx) -> ln_g q k = ln 10 * 0.1 * st_Is (mixtureState mx T P x)) /\
  (forall k, k <> mx_water mx -> ln_a q k = ln_g q k + ln (st_m (mixtureState mx T P x) k)) /\
  ln_a q (mx_water mx) = (if Req_EM_T (x (mx_water mx)) 1 then ln (x (mx_water mx)) else ln 10 * waterMolarMass * Sum (length (mx_charged mx)) (fun j => st_ms (mixtureState mx T P x) j * hkf_psi (params T P) (charge_at l (nth j (mx_charged mx) O)) (nth j radius 0) (st_Is (mixtureState mx T P x)) (x (mx_water mx)))) /\
  ln_g q (mx_water mx) = ln_a q (mx_water mx) - ln (x (mx_water mx)).
Proof.
  intros Hmx Hms. destruct (mx_inv _ _ _ _ _ Hmx) as (_ & Es & _). unfold hkf_fn. cbn [fst]. set (st := mixtureState mx T P x) in *. set (w := mx_water mx). set (xw := x w).
  set (v := ln 10 * 0.1 * st_Is st). set (nn := length (mx_neutral mx)).
  assert (G : forall n, (n <= nn)%nat -> let g := fold_left (fun g i => set_at g (nth i (mx_neutral mx) O) v) (seq 0 n) (ln_g p) in forall k, In k (firstn n (mx_neutral mx)) -> g k = v).
  { induction n as [|n IH]; intros Hn g k Hk; [destruct Hk|]. unfold g. rewrite seq_S, fold_left_app. cbn [fold_left]. rewrite Nat.add_0_l.
    destruct (Nat.eq_dec k (nth n (mx_neutral mx) O)) as [->|N]; [apply set_at_same|]. rewrite set_at_other by exact N. apply IH; [lia|].
    apply In_nth with (d := O) in Hk as (j & Hj & <-). rewrite firstn_length in Hj. destruct (Nat.eq_dec j n) as [->|Nj].
    - exfalso. apply N. clear - Hn. unfold nn in Hn. revert n Hn. generalize (mx_neutral mx). induction l as [|a l IH]; intros n Hn; [cbn in Hn; lia|]. destruct n; [reflexivity|]. cbn [firstn nth]. apply IH. cbn in Hn. lia.
    - assert (E : nth j (firstn (S n) (mx_neutral mx)) O = nth j (firstn n (mx_neutral mx)) O). { clear - Hj Nj. assert (j < n)%nat by lia. clear Hj Nj. revert n j H. generalize (mx_neutral mx). induction l as [|a l IH]; intros n j H; [rewrite !firstn_nil; reflexivity|]. destruct n; [lia|]. destruct j; [reflexivity|]. cbn [firstn nth]. apply IH. lia. }
      rewrite E. apply nth_In. rewrite firstn_length. unfold nn in Hn. lia. }
  specialize (G nn (le_n _)). cbn zeta in G. unfold nn in G. rewrite firstn_all in G. fold nn in G. set (g0 := fold_left _ (seq 0 nn) (ln_g p)) in *.
  (* the loop over the ions, whether or not the solution is pure water *)
  set (h := params T P) in *. set (nc := length (mx_charged mx)) in *.
  assert (L : forall n, (n <= nc)%nat -> let r := fold_left (hkf_ion mx st h radius xw) (seq 0 n) (g0, 0) in
    (forall j, (j < n)%nat -> fst r (nth j (mx_charged mx) O) = hkf_log10_g h (charge_at l (nth j (mx_charged mx) O)) (nth j radius 0) (st_Is st) xw * ln 10) /\
    (xw <> 1 -> snd r = Sum n (fun j => st_ms st j * hkf_psi h (charge_at l (nth j (mx_charged mx) O)) (nth j radius 0) (st_Is st) xw)) /\
    (forall k, ~ In k (mx_charged mx) -> fst r k = g0 k)).
  { induction n as [|n IH]; intros Hn; [cbn; split; [intros; lia|split; [reflexivity|reflexivity]]|].
    specialize (IH ltac:(lia)). rewrite seq_S, fold_left_app. cbn [fold_left]. cbn zeta in IH |- *. destruct (fold_left _ (seq 0 n) _) as [g phi]. cbn [fst snd] in IH. destruct IH as (I1 & I2 & I3).
    rewrite Nat.add_0_l. unfold hkf_ion. destruct (Req_EM_T (st_ms st n) 0) as [Z|_]; [exfalso; exact (Hms n ltac:(lia) Z)|]. cbn [fst snd]. rewrite Es. split; [|split].
    - intros j Hj. destruct (Nat.eq_dec j n) as [->|N]; [apply set_at_same|]. rewrite set_at_other; [apply I1; lia|]. intros E. apply N. eapply NoDup_nth; [exact (charged_nodup _ _ _ _ _ Hmx)|unfold nc in Hn; lia|unfold nc in Hn; lia|exact E].
    - intros N. destruct (Req_EM_T xw 1) as [|_]; [contradiction|]. rewrite (I2 N). cbn [Sum]. ring.
    - intros k Hk. rewrite set_at_other; [apply I3; exact Hk|]. intros ->. apply Hk, nth_In. unfold nc in Hn. lia. }
  specialize (L nc (le_n _)). cbn zeta in L. destruct (fold_left (hkf_ion mx st h radius xw) (seq 0 nc) (g0, 0)) as [g phi]. cbn [fst snd] in L. destruct L as (L1 & L2 & L3).
  eexists _, _. split; [reflexivity|]. cbn [ln_g ln_a with_a with_g].
  assert (Ng : forall k, k <> w -> forall v', set_at g w v' k = g k) by (intros; apply set_at_other; assumption).
  split; [|split; [|split; [|split]]].
  - intros j Hj. rewrite Ng by (apply (charged_neq _ _ _ _ _ Hmx), nth_In; exact Hj). apply L1. exact Hj.
  - intros k Hk. destruct (neutral_eq _ _ _ _ _ Hmx k Hk) as (N & Hz & _). rewrite Ng by exact N. rewrite L3; [apply G; exact Hk|]. intros Hc. apply (charged_neq _ _ _ _ _ Hmx) in Hc. tauto.
  - intros k N. rewrite (set_at_other _ w _ k N), Ng by exact N. reflexivity.
  - rewrite set_at_same. destruct (Req_EM_T xw 1) as [|N]; [reflexivity|]. rewrite (L2 N). reflexivity.
  - rewrite !set_at_same. reflexivity.
Qed.
Lemma mixture_cases reactions rho eps l mx i : mkAqueousMixture reactions rho eps l = Ok mx -> (i < length l)%nat ->
  i = mx_water mx \/ In i (mx_neutral mx) \/ exists j, (j < length (mx_charged mx))%nat /\ nth j (mx_charged mx) O = i.
Proof.
  intros H Hi. destruct (mx_partition _ _ _ _ _ H) as [Pm _]. assert (In i (mx_water mx :: mx_neutral mx ++ mx_charged mx)) as [E|E] by (apply (Permutation_in _ Pm), in_seq; lia); [auto|].
  apply in_app_iff in E as [E|E]; [auto|]. right. right. destruct (In_nth _ _ O E) as (j & Hj & Ej). exists j. auto.
Qed.
Theorem C98_activities_partial :
  (forall a0 a1 a2 l f T P x p p' e q e1 q' e1', redlichKister a0 a1 a2 l = Ok f -> f T P x (p, e) = Ok (q, e1) -> f T P x (p', e) = Ok (q', e1') -> same_activities (length l) q q') /\
  (forall params reactions rho eps l f T P x p p' e q e1 q' e1', debyeHuckel params (mkAqueousMixture reactions rho eps) l = Ok f -> f T P x (p, e) = Ok (q, e1) -> f T P x (p', e) = Ok (q', e1') -> same_activities (length l) q q') /\
  (forall params known reactions rho eps l f T P x p p' e q e1 q' e1', activityHKF params known (mkAqueousMixture reactions rho eps) l = Ok f ->
     Forall (fun r => Forall (fun c => Qle 0 (fst c)) (dr_ions r)) reactions -> (forall i, 0 < x i) ->
     f T P x (p, e) = Ok (q, e1) -> f T P x (p', e) = Ok (q', e1') -> same_activities (length l) q q').
Proof.
  split; [|split].
  - intros a0 a1 a2 l f T P x p p' e q e1 q' e1' Hf E E'. unfold redlichKister in Hf. destruct (Nat.eqb_spec (length l) 2) as [L|]; [|discriminate]. cbn [negb] in Hf. injection Hf as <-. injection E as <- _. injection E' as <- _.
    unfold same_activities. rewrite L. intros [|[|i]] Hi; [cbn; auto|cbn; auto|lia].
  - intros params reactions rho eps l f T P x p p' e q e1 q' e1' Hf E E'. destruct (debyeHuckel_inv _ _ _ _ _ _ Hf) as (mx & a & b & c & Hmx & -> & _).
    destruct (dh_closed _ _ _ _ _ Hmx a b c T P (p, e) x) as (r & Er & C1 & N1 & W1 & V1). destruct (dh_closed _ _ _ _ _ Hmx a b c T P (p', e) x) as (r' & Er' & C2 & N2 & W2 & V2).
    rewrite Er in E. injection E as <- _. rewrite Er' in E'. injection E' as <- _. intros i Hi. destruct (mixture_cases _ _ _ _ _ i Hmx Hi) as [->|[Hn|(j & Hj & <-)]].
    + rewrite V1, V2, W1, W2. auto.
    + destruct (In_nth _ _ O Hn) as (j & Hj & <-). destruct (N1 j Hj) as [-> ->]. destruct (N2 j Hj) as [-> ->]. auto.
    + destruct (C1 j Hj) as [-> ->]. destruct (C2 j Hj) as [-> ->]. auto.
  - intros params known reactions rho eps l f T P x p p' e q e1 q' e1' Hf Hr Hx E E'. destruct (activityHKF_inv _ _ _ _ _ _ _ Hf) as (mx & Hmx & ->). set (radius := map _ _) in *.
    assert (Hms : forall j, (j < length (mx_charged mx))%nat -> st_ms (mixtureState mx T P x) j <> 0).
    { intros j Hj. unfold mixtureState. cbn [st_ms]. unfold stoichiometricMolalities, molalities. destruct (Req_EM_T (x (mx_water mx)) 0) as [Z|_]; [specialize (Hx (mx_water mx)); lra|].
      assert (Pm : forall i, 0 < x i / (waterMolarMass * x (mx_water mx))) by (intros i; apply Rdiv_lt_0_compat; [apply Hx|apply Rmult_lt_0_compat; [unfold waterMolarMass; lra|apply Hx]]).
      apply Rgt_not_eq, Rplus_lt_le_0_compat; [apply Pm|]. apply Sum_nonneg. intros k Hk. apply Rmult_le_pos; [|apply Rlt_le, Pm]. rewrite <- RMicromega.Q2R_0. apply Qle_Rle. destruct (mx_inv _ _ _ _ _ Hmx) as (_ & _ & _ & _ & _ & _ & -> & _). apply dis_coefficient_nonneg, Hr. }
    destruct (hkf_closed params _ _ _ _ _ radius T P p e x Hmx Hms) as (r & u & Er & C1 & N1 & A1 & W1 & V1). destruct (hkf_closed params _ _ _ _ _ radius T P p' e x Hmx Hms) as (r' & u' & Er' & C2 & N2 & A2 & W2 & V2).
    rewrite Er in E. injection E as <- _. rewrite Er' in E'. injection E' as <- _. intros i Hi. destruct (mixture_cases _ _ _ _ _ i Hmx Hi) as [->|[Hn|(j & Hj & <-)]].
    + rewrite V1, V2, W1, W2. auto.
    + destruct (neutral_eq _ _ _ _ _ Hmx i Hn) as (N & _). rewrite A1, A2, N1, N2 by assumption. auto.
    + assert (N : nth j (mx_charged mx) O <> mx_water mx) by (apply (charged_neq _ _ _ _ _ Hmx), nth_In; exact Hj). rewrite A1, A2, C1, C2 by assumption. auto.
Qed.
Print Assumptions C98_activities_partial.

(* ---- C99 ---- *)
(* The table of parameters is a hash map, whose order of iteration is not
   specified: two orders of the same entries. *)
Definition C99_statement : Prop := forall f d params params' v v', Permutation params params' -> dh_get f params d = Ok v -> dh_get f params' d = Ok v' -> v = v'.
(* Two keys for the same species. *)
Theorem C99_refuted : ~ C99_statement.
Proof.
  intros H. assert (mkChemicalFormula $"HCO3-" = Ok (formula (aqua $"HCO3-" [($"H", 1%Q); ($"C", 1%Q); ($"O", 3%Q)] (-1)%Q))) as E1 by (vm_compute; reflexivity).
  assert (exists g, mkChemicalFormula $"CO3H-" = Ok g /\ equivalent (formula (aqua $"HCO3-" [($"H", 1%Q); ($"C", 1%Q); ($"O", 3%Q)] (-1)%Q)) g = true) as (g & E2 & Q2) by (eexists; split; [vm_compute; reflexivity|vm_compute; reflexivity]).
  set (f := formula (aqua $"HCO3-" [($"H", 1%Q); ($"C", 1%Q); ($"O", 3%Q)] (-1)%Q)) in *. assert (Q1 : equivalent f f = true) by (vm_compute; reflexivity).
  specialize (H f 0 [($"HCO3-", 4); ($"CO3H-", 5)] [($"CO3H-", 5); ($"HCO3-", 4)] 4 5 (perm_swap _ _ _)).
  cbn [dh_get] in H. rewrite E1, E2 in H. cbn [bind] in H. rewrite Q1, Q2 in H. specialize (H eq_refl eq_refl). lra.
Qed.
Print Assumptions C99_refuted.
(* The value of an ion: the one of the entry with the same elements and charge, or
   the default. *)
Definition entry_of (f : ChemicalFormula) (params : list (str * R)) (v : R) : Prop := exists key k, In (key, v) params /\ mkChemicalFormula key = Ok k /\ same_formula f k.
Definition value_of (f : ChemicalFormula) (params : list (str * R)) (d v : R) : Prop := entry_of f params v \/ v = d /\ forall u, ~ entry_of f params u.
Definition distinct_keys (params : list (str * R)) : Prop :=
  (forall p, In p params -> exists k, mkChemicalFormula (fst p) = Ok k) /\
  forall p q k k', In p params -> In q params -> mkChemicalFormula (fst p) = Ok k -> mkChemicalFormula (fst q) = Ok k' -> same_formula k k' -> p = q.
Lemma same_formula_swap f g h : same_formula f g -> same_formula f h -> same_formula g h.
Proof. intros [A B] [C D]. split; [rewrite <- A; exact C|]. intros e q. rewrite <- B. apply D. Qed.
Theorem C99_partial : forall f d params, listed_once (cf_elements f) -> distinct_keys params ->
  exists v, dh_get f params d = Ok v /\ value_of f params d v /\ (forall u, value_of f params d u -> u = v) /\
  forall params', Permutation params params' -> dh_get f params' d = Ok v.
Proof.
  intros f d params Hf Hd.
  assert (G : forall ps, (forall p, In p ps -> exists k, mkChemicalFormula (fst p) = Ok k) -> exists v, dh_get f ps d = Ok v /\ value_of f ps d v).
  { induction ps as [|[key x] ps IH]; intros Hk.
    - exists d. split; [reflexivity|]. right. split; [reflexivity|]. intros u (? & ? & [] & _).
    - destruct IH as (v & Ev & Hv); [intros p Hp; apply Hk; right; exact Hp|]. destruct (Hk _ (or_introl eq_refl)) as (k & Ek). cbn [fst] in Ek. cbn [dh_get]. rewrite Ek. cbn [bind].
      destruct (equivalent f k) eqn:E.
      + exists x. split; [reflexivity|]. left. exists key, k. split; [left; reflexivity|]. split; [exact Ek|]. apply equivalent_spec in E; [exact E|exact Hf|apply (C05_parsed _ _ Ek)].
      + exists v. split; [exact Ev|]. destruct Hv as [(key' & k' & Hi & Ek' & S)|[-> N]].
        * left. exists key', k'. split; [right; exact Hi|]. split; [exact Ek'|exact S].
        * right. split; [reflexivity|]. intros u (key' & k' & [Hi|Hi] & Ek' & S); [|apply (N u); exists key', k'; auto]. injection Hi as <- <-. rewrite Ek in Ek'. injection Ek' as <-.
          apply equivalent_spec in S; [rewrite S in E; discriminate|exact Hf|apply (C05_parsed _ _ Ek)]. }
  assert (U : forall ps, distinct_keys ps -> forall u v, value_of f ps d u -> value_of f ps d v -> u = v).
  { intros ps [_ D] u v [Hu|[-> Nu]] [Hv|[-> Nv]]; [|exfalso; exact (Nv _ Hu)|exfalso; exact (Nu _ Hv)|reflexivity].
    destruct Hu as (ku & fu & Iu & Eu & Su), Hv as (kv & fv & Iv & Ev & Sv). assert (E : (ku, u) = (kv, v)) by (apply (D _ _ fu fv Iu Iv Eu Ev), (same_formula_swap f); assumption). injection E as _ E. exact E. }
  destruct (G params (proj1 Hd)) as (v & Ev & Hv). exists v. split; [exact Ev|]. split; [exact Hv|]. split; [intros u Hu; apply (U params Hd); assumption|].
  intros params' Hp. destruct (G params') as (v' & Ev' & Hv'); [intros p Hi; apply (proj1 Hd); apply (Permutation_in _ (Permutation_sym Hp) Hi)|]. rewrite Ev'. f_equal. apply (U params Hd); [|exact Hv].
  assert (M : forall u, entry_of f params u <-> entry_of f params' u). { intros u. split; intros (key & k & Hi & R1 & R2); exists key, k; (split; [|auto]); [apply (Permutation_in _ Hp Hi)|apply (Permutation_in _ (Permutation_sym Hp) Hi)]. }
  destruct Hv' as [Hv'|[-> N]]; [left; apply M; exact Hv'|right; split; [reflexivity|]; intros u Hu; apply (N u), M, Hu].
Qed.
Print Assumptions C99_partial.
(* The built-in tables have one entry per ion. *)
Definition keys_check (l : list (str * Q)) : bool :=
  match mapM (fun p => mkChemicalFormula (fst p)) l with
  | Ok fs => (fix go fs := match fs with [] => true | f :: r => forallb (fun g => negb (equivalent f g)) r && go r end) fs
  | _ => false
  end.
Lemma keys_checked l : keys_check l = true -> distinct_keys (reals l).
Proof.
  unfold keys_check. destruct (mapM _ l) as [fs| |] eqn:E; try discriminate. intros H.
  assert (L : forall p, In p l -> exists k, mkChemicalFormula (fst p) = Ok k /\ In k fs).
  { clear H. revert fs E. induction l as [|a l IH]; cbn [mapM]; intros fs E p Hp; [destruct Hp|]. destruct (mkChemicalFormula (fst a)) as [k| |] eqn:Ek; try discriminate. cbn [bind] in E. destruct (mapM _ l) as [r| |]; try discriminate. cbn [bind] in E. injection E as <-.
    destruct Hp as [<-|Hp]; [exists k; split; [exact Ek|left; reflexivity]|]. destruct (IH r eq_refl p Hp) as (k' & E' & I'). exists k'. split; [exact E'|right; exact I']. }
  split.
  - intros p Hp. unfold reals in Hp. apply in_map_iff in Hp as (p0 & <- & Hp). destruct (L _ Hp) as (k & Ek & _). exists k. exact Ek.
  - intros p q k k' Hp Hq Ek Ek' S. unfold reals in Hp, Hq. apply in_map_iff in Hp as (p0 & <- & Hp). apply in_map_iff in Hq as (q0 & <- & Hq). cbn [fst] in Ek, Ek'. f_equal; [f_equal|f_equal; f_equal].
    all: cut (p0 = q0); [intros ->; reflexivity|]. all: clear L; revert fs E H p0 q0 Hp Hq Ek Ek'; induction l as [|a l IH]; cbn [mapM]; intros fs E H p0 q0 Hp Hq Ek Ek'; [destruct Hp|].
    all: destruct (mkChemicalFormula (fst a)) as [ka| |] eqn:Ea; try discriminate; cbn [bind] in E; destruct (mapM _ l) as [r| |] eqn:Er; try discriminate; cbn [bind] in E; injection E as <-.
    all: apply andb_true_iff in H as [H1 H2]; rewrite forallb_forall in H1.
    all: assert (L : forall p k, In p l -> mkChemicalFormula (fst p) = Ok k -> In k r)
      by (clear - Er; revert r Er; induction l as [|b l IHl]; cbn [mapM]; intros r Er p k Hp Ek; [destruct Hp|]; destruct (mkChemicalFormula (fst b)) as [kb| |] eqn:Eb; try discriminate; cbn [bind] in Er; destruct (mapM _ l) as [r'| |]; try discriminate; cbn [bind] in Er; injection Er as <-;
          destruct Hp as [<-|Hp]; [rewrite Ek in Eb; injection Eb as <-; left; reflexivity|right; apply (IHl r' eq_refl p k Hp Ek)]).
    all: destruct Hp as [<-|Hp], Hq as [<-|Hq]; [reflexivity| | |apply (IH r eq_refl H2 p0 q0 Hp Hq Ek Ek')].
    all: exfalso.
    all: first [rewrite Ek in Ea; injection Ea as <-; specialize (H1 k' (L _ _ Hq Ek')); apply equivalent_spec in S; [rewrite S in H1; discriminate|apply (C05_parsed _ _ Ek)|apply (C05_parsed _ _ Ek')]
               |rewrite Ek' in Ea; injection Ea as <-; specialize (H1 k (L _ _ Hp Ek)); destruct equivalent_relation as (_ & Sy & _); apply equivalent_spec in S; [apply Sy in S; [rewrite S in H1; discriminate| |]| |]; first [apply (C05_parsed _ _ Ek)|apply (C05_parsed _ _ Ek')]].
Qed.
Lemma builtin_keys : forallb keys_check [aions_phreeqc; bions_phreeqc; aions_wateq4f; bions_wateq4f; aions_kielland] = true.
Proof. vm_compute. reflexivity. Qed.
Theorem C99_builtin : forall ps, In ps [limitingLaw; kielland; wateq4f; phreeqc] -> distinct_keys (dh_aions ps) /\ distinct_keys (dh_bions ps) /\ distinct_keys (dh_bneutrals ps).
Proof.
  pose proof builtin_keys as B. rewrite forallb_forall in B.
  assert (E : distinct_keys []) by (split; [intros ? []|intros ? ? ? ? []]).
  intros ps [<-|[<-|[<-|[<-|[]]]]]; cbn [dh_aions dh_bions dh_bneutrals limitingLaw kielland wateq4f phreeqc]; (split; [|split]); try exact E; apply keys_checked, B; cbn; tauto.
Qed.
Print Assumptions C99_builtin.
(* Sodium in the table of Kielland. *)
Example C99_nonvacuous : value_of (formula aNa) (dh_aions kielland) 0 4.
Proof.
  left. eexists $"Na+", _. split; [|split; [vm_compute; reflexivity|]].
  - replace 4 with (Q2R (4)%Q) by (unfold Q2R; cbn; lra). cbn [dh_aions kielland]. unfold reals. apply in_map_iff. exists ($"Na+", 4%Q). split; [reflexivity|]. unfold aions_kielland. cbn [In]. tauto.
  - split; [vm_compute; reflexivity|]. intros e q. vm_compute. tauto.
Qed.
