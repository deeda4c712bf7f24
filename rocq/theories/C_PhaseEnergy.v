(* C125 and C126: the volume and the Gibbs energy of phases of gases and of ideal
   solutions. *)
From Coq Require Import Reals List Bool Lia Lra.
From Coquelicot Require Import Coquelicot.
Import ListNotations.
From Verif Require Import Base M_Strings M_Formula M_System M_CubicEOS M_Aqueous M_Gases M_Supcrt M_SupcrtModels.
From Verif Require Import P_System P_Helmholtz P_CubicEOS P_Lagrange S_Activity P_Gases C_Gases C_CubicEOS C_SupcrtModels.
From Verif Require Import M_Thermo M_PhaseEnergy.
Local Open Scope R_scope.

(* ---- Specification ---- *)
Definition R_ : R := 8.3144621.
Definition positive_amounts (n : list R) : Prop := n <> [] /\ Forall (fun v => 0 < v) n.
(* Quantities of an evaluated phase. *)
Definition of_phase (get : PhaseProps -> R) (species : list StdFn) (f : ActivityFn) (old : Props) (n : list R) (T P : R) : R :=
  match update species f old T P n with Ok d => get d | _ => 0 end.
(* The sum of the chemical potentials, weighted with the mole fractions. *)
Definition mean_potential (d : PhaseProps) : R := Sum (length (f_n d)) (fun i => f_x d i * f_u d i).
Definition evaluates (species : list StdFn) (f : ActivityFn) (old : Props) (n : list R) (T P : R) : Prop := exists d, update species f old T P n = Ok d.
(* Mixing: the mean of ln x. *)
Definition mean_ln (n : list R) : R :=
  let s := Sum (length n) (fun i => nth i n 0) in Sum (length n) (fun i => nth i n 0 / s * ln (nth i n 0 / s)).
(* Gases of the two kinds of databases. *)
Definition from_xml (T : R) (l : list StdFn) : Prop := Forall (fun s => exists p, s = xml_gas p /\ T <= ga_Tmax p) l.
Definition from_yaml (l : list StdFn) : Prop :=
  Forall (fun s => (exists p, s = yaml_gas p /\ mk_Vr p = 0) \/ (exists p, s = yaml_gas_hp p /\ hp_Vr p = 0 /\ hp_kappa0 p = 0)) l.

(* ---- Evaluation ---- *)
Lemma total_pos n : positive_amounts n -> 0 < Sum (length n) (amount_at n).
Proof.
  intros [H1 H2]. destruct n as [|a n]; [contradiction|]. apply (Sum_pos _ _ O).
  - intros k Hk. apply Rlt_le. rewrite Forall_forall in H2. apply H2. apply nth_In. exact Hk.
  - cbn. lia.
  - cbn. inversion H2. assumption.
Qed.
Lemma fractions_eq n i : positive_amounts n -> fractions n i = amount_at n i / Sum (length n) (amount_at n).
Proof. intros H. pose proof (total_pos n H). unfold fractions. cbn zeta. destruct (Req_EM_T _ 0); [lra|reflexivity]. Qed.
Lemma fractions_pos n i : positive_amounts n -> (i < length n)%nat -> 0 < fractions n i.
Proof.
  intros H Hi. rewrite fractions_eq by exact H. pose proof (total_pos n H). apply Rdiv_lt_0_compat; [|assumption].
  destruct H as [_ H]. rewrite Forall_forall in H. apply H, nth_In, Hi.
Qed.
Lemma Sum_fractions n : positive_amounts n -> Sum (length n) (fractions n) = 1.
Proof.
  intros H. pose proof (total_pos n H) as T. rewrite (Sum_ext _ _ (fun i => / Sum (length n) (amount_at n) * amount_at n i)).
  - rewrite Sum_scal. field. lra.
  - intros k _. rewrite fractions_eq by exact H. unfold Rdiv. ring.
Qed.
Lemma min_pos m x : (0 < m)%nat -> (forall i, (i < m)%nat -> 0 < x i) -> 0 < minCoeff m x.
Proof.
  intros H. induction m as [|m IH]; [lia|]. intros Hx. destruct m as [|m]; [apply Hx; lia|].
  change (minCoeff (S (S m)) x) with (Rmin (minCoeff (S m) x) (x (S m))). apply Rmin_glb_lt; [apply IH; [lia|intros; apply Hx; lia]|apply Hx; lia].
Qed.
Definition made (std : list StdProps) (q : Props) (T P : R) (n : list R) : PhaseProps :=
  mkPhase T P n (Sum (length n) (amount_at n)) (fractions n) std q (fun i => std_at std G0 i + universalGasConstant * T * ln_a q i).
Lemma update_ok species f old T P n std q e : positive_amounts n -> mapM (fun s : StdFn => s T P) species = Ok std -> f T P (fractions n) (old, None) = Ok (q, e) ->
  update species f old T P n = Ok (made std q T P n).
Proof.
  intros H Hs Hf. unfold update. rewrite Hs. cbn [bind]. cbv zeta.
  assert (L : (0 < length n)%nat) by (destruct H as [H _]; destruct n; [contradiction|cbn; lia]).
  destruct (Nat.eqb_spec (length n) 0) as [C|_]; [lia|].
  pose proof (min_pos _ (fractions n) L (fun i Hi => fractions_pos n i H Hi)). destruct (Req_EM_T _ 0); [lra|].
  pose proof (total_pos n H). destruct (Req_EM_T _ 0); [lra|]. rewrite Hf. reflexivity.
Qed.
Lemma xml_std T P l : 0 < T -> from_xml T l -> exists std, mapM (fun s : StdFn => s T P) l = Ok std /\ length std = length l /\
  (forall i, (i < length l)%nat -> std_at std V0 i = R_ * T / P).
Proof.
  intros HT. induction 1 as [|s l (p & -> & Hp) Hl (std & E & L & IH)]; [exists []; repeat split; intros; cbn in *; lia|].
  destruct (C124_gas_partial p T P (conj HT Hp)) as (r & Er & _ & _ & _ & _ & V & _).
  exists (r :: std). cbn [mapM]. unfold xml_gas at 1. rewrite Er. cbn [bind]. rewrite E. cbn [bind]. split; [reflexivity|]. split; [cbn; lia|].
  intros [|i] Hi; [exact V|]. cbn in Hi. apply IH. lia.
Qed.
Lemma xml_std_G T P P' l std std' : from_xml T l -> mapM (fun s : StdFn => s T P) l = Ok std -> mapM (fun s : StdFn => s T P') l = Ok std' ->
  forall i, std_at std G0 i = std_at std' G0 i /\ std_at std H0 i = std_at std' H0 i.
Proof.
  intros H. revert std std'. induction H as [|s l (p & -> & Hp) Hl IH]; intros std std' E E'; [injection E as <-; injection E' as <-; intros; split; reflexivity|].
  cbn [mapM] in E, E'. unfold xml_gas at 1 in E. unfold xml_gas at 1 in E'. unfold supcrtMaierKelly, checkTemperatureValidityHKF in E, E'.
  destruct (Rle_dec T 0); [discriminate|]. destruct (Rlt_dec (ga_Tmax p) T); [discriminate|]. cbn [bind] in E, E'.
  destruct (mapM (fun s : StdFn => s T P) l) as [s1| |]; try discriminate. destruct (mapM (fun s : StdFn => s T P') l) as [s2| |]; try discriminate.
  injection E as <-. injection E' as <-. intros [|i]; [split; reflexivity|]. apply (IH s1 s2 eq_refl eq_refl).
Qed.
Lemma yaml_one T P s : (exists p, s = yaml_gas p /\ mk_Vr p = 0) \/ (exists p, s = yaml_gas_hp p /\ hp_Vr p = 0 /\ hp_kappa0 p = 0) ->
  exists r, s T P = Ok r /\ V0 r = 0 /\ forall P', exists r', s T P' = Ok r' /\ G0 r' = G0 r /\ H0 r' = H0 r.
Proof.
  intros [(p & -> & H)|(p & -> & H & K)].
  - destruct p as [Gf Hf Sr Vr a b c]. cbn in H. subst Vr. eexists. split; [reflexivity|]. split; [reflexivity|].
    intros P'. eexists. split; [reflexivity|]. unfold stdMaierKelley. cbn [G0 H0]. split; ring.
  - destruct p as [Gf Hf Sr Vr a b c d al k0 k0p k0pp na]. cbn in H, K. subst Vr k0. unfold yaml_gas_hp, stdHollandPowell.
    destruct (Req_EM_T 0 0) as [_|N]; [|destruct (N eq_refl)]. eexists. split; [reflexivity|]. split; [reflexivity|].
    intros P'. eexists. split; [reflexivity|]. cbn [G0 H0]. split; ring.
Qed.
Lemma yaml_std T P l : from_yaml l -> exists std, mapM (fun s : StdFn => s T P) l = Ok std /\ length std = length l /\ (forall i, std_at std V0 i = 0).
Proof.
  induction 1 as [|s l Hs Hl (std & E & L & IH)]; [exists []; repeat split; intros [|]; reflexivity|].
  destruct (yaml_one T P s Hs) as (r & Er & V & _). exists (r :: std). cbn [mapM]. rewrite Er. cbn [bind]. rewrite E. cbn [bind]. split; [reflexivity|]. split; [cbn; lia|].
  intros [|i]; [exact V|]. apply IH.
Qed.
Lemma yaml_std_G T P P' l std std' : from_yaml l -> mapM (fun s : StdFn => s T P) l = Ok std -> mapM (fun s : StdFn => s T P') l = Ok std' ->
  forall i, std_at std G0 i = std_at std' G0 i /\ std_at std H0 i = std_at std' H0 i.
Proof.
  intros H. revert std std'. induction H as [|s l Hs Hl IH]; intros std std' E E'; [injection E as <-; injection E' as <-; intros; split; reflexivity|].
  destruct (yaml_one T P s Hs) as (r & Er & V & K). destruct (K P') as (r' & Er' & KG & KH). cbn [mapM] in E, E'. rewrite Er in E. rewrite Er' in E'. cbn [bind] in E, E'.
  destruct (mapM (fun s : StdFn => s T P) l) as [s1| |]; try discriminate. destruct (mapM (fun s : StdFn => s T P') l) as [s2| |]; try discriminate.
  injection E as <-. injection E' as <-. intros [|i]; [split; symmetry; assumption|]. apply (IH s1 s2 eq_refl eq_refl).
Qed.
Definition from_database (T : R) (l : list StdFn) : Prop := from_xml T l \/ from_yaml l.
Lemma db_std T P l : 0 < T -> from_database T l -> exists std, mapM (fun s : StdFn => s T P) l = Ok std /\ length std = length l.
Proof.
  intros HT [H|H]; [destruct (xml_std T P l HT H) as (s & A & B & _)|destruct (yaml_std T P l H) as (s & A & B & _)]; exists s; split; assumption.
Qed.
Lemma db_std_G T P P' l std std' : from_database T l -> mapM (fun s : StdFn => s T P) l = Ok std -> mapM (fun s : StdFn => s T P') l = Ok std' ->
  forall i, std_at std G0 i = std_at std' G0 i /\ std_at std H0 i = std_at std' H0 i.
Proof. intros [H|H]; [apply xml_std_G; exact H|apply yaml_std_G; exact H]. Qed.

(* ---- Sums over the species ---- *)
Lemma mean_ln_eq n : positive_amounts n -> mean_ln n = Sum (length n) (fun i => fractions n i * ln (fractions n i)).
Proof. intros H. unfold mean_ln. cbn zeta. apply Sum_ext. intros k _. rewrite fractions_eq by exact H. reflexivity. Qed.
Lemma mean_made std q T P n : mean_potential (made std q T P n) =
  Sum (length n) (fun i => fractions n i * std_at std G0 i) + R_ * T * Sum (length n) (fun i => fractions n i * ln_a q i).
Proof.
  unfold mean_potential, made. cbn [f_n f_x f_u]. rewrite <- Sum_scal, <- Sum_add. apply Sum_ext. intros k _.
  replace universalGasConstant with R_ by (unfold R_, universalGasConstant; lra). ring.
Qed.
(* A model of gases: the activities are those of the ideal gas times coefficients
   whose mean logarithm is the excess Gibbs energy over R T. *)
Definition coefficients (f : ActivityFn) (old : Props) (n : list R) (T P : R) : Prop := exists q e, f T P (fractions n) (old, None) = Ok (q, e) /\
  R_ * T * Sum (length n) (fun i => fractions n i * ln_a q i) = Gex q + R_ * T * (mean_ln n + ln (P * 1e-5)).
Lemma mean_gas f old n T P species std : coefficients f old n T P -> positive_amounts n -> mapM (fun s : StdFn => s T P) species = Ok std ->
  exists q e, f T P (fractions n) (old, None) = Ok (q, e) /\ update species f old T P n = Ok (made std q T P n) /\
    mean_potential (made std q T P n) = molarGibbsEnergy (made std q T P n) + R_ * T * (mean_ln n + ln (P * 1e-5)).
Proof.
  intros (q & e & Hf & HC) Hn Hs. exists q, e. split; [exact Hf|]. split; [exact (update_ok _ _ _ _ _ _ _ _ _ Hn Hs Hf)|].
  rewrite mean_made. unfold molarGibbsEnergy, M_PhaseEnergy.mixed, made. cbn [f_n f_x f_std f_act]. rewrite HC. ring.
Qed.
Lemma ideal_coefficients old n T P : positive_amounts n -> coefficients idealGas old n T P.
Proof.
  intros H. unfold coefficients, idealGas. eexists _, _. split; [reflexivity|]. unfold with_a, constProps. cbn [ln_a Gex].
  rewrite (mean_ln_eq n H). rewrite (Sum_ext _ _ (fun i => fractions n i * ln (fractions n i) + ln (P * 1.0e-5) * fractions n i)) by (intros; ring).
  rewrite Sum_add, Sum_scal, (Sum_fractions n H). replace (1.0e-5) with (1e-5) by lra. ring.
Qed.
Lemma sr_euler (y : nat -> R) T P : Sum 3 y = 1 -> Sum 3 (fun g => y g * sr_lnphi T P y g) = gred y T P.
Proof.
  intros H. unfold sr_lnphi, sr_Z, gred. cbn zeta. set (p := 1e-5 * P).
  assert (E : Sum 3 (fun g => y g * (1 - (1 + mix2 y (computeB T) * p + mix3 y (computeC T) * p * p) +
       Sum 3 (fun k => 2 * y k * computeB T g k * p + Sum 3 (fun l => 1.5 * y k * y l * computeC T g k l * p * p)))) =
       (- (mix2 y (computeB T) * p + mix3 y (computeC T) * p * p)) * Sum 3 y + 2 * mix2 y (computeB T) * p + 1.5 * mix3 y (computeC T) * p * p).
  { generalize (computeB T) (computeC T). intros B C.
    assert (M2 : mix2 y B = Sum 3 (fun g => y g * Sum 3 (fun k => y k * B g k))) by (unfold mix2; apply Sum_ext; intros; rewrite <- Sum_scal; apply Sum_ext; intros; ring).
    assert (M3 : mix3 y C = Sum 3 (fun g => y g * Sum 3 (fun k => Sum 3 (fun l => y k * y l * C g k l)))) by (unfold mix3; apply Sum_ext; intros; rewrite <- Sum_scal; apply Sum_ext; intros; rewrite <- Sum_scal; apply Sum_ext; intros; ring).
    transitivity ((- (mix2 y B * p + mix3 y C * p * p)) * Sum 3 y + 2 * Sum 3 (fun g => y g * Sum 3 (fun k => y k * B g k)) * p + 1.5 * Sum 3 (fun g => y g * Sum 3 (fun k => Sum 3 (fun l => y k * y l * C g k l))) * p * p).
    - generalize (mix2 y B) (mix3 y C). intros m2 m3. cbn [Sum]. ring.
    - rewrite <- M2, <- M3. reflexivity. }
  rewrite E, H. lra.
Qed.
Lemma sr_coefficients l f old n T P : spycherReed l = Ok f -> distinct_gases l -> length n = length l -> positive_amounts n -> coefficients f old n T P.
Proof.
  intros Hf HG HL Hn. apply accepted in Hf as (HS & idx & Hi & _ & ->). apply (found _ _ HG HS) in Hi. subst idx. destruct (located l HS (proj2 HG)) as [H1 H2].
  unfold coefficients. eexists _, _. split; [reflexivity|]. cbv zeta. cbn [ln_a Gex]. set (N := length l) in *. set (idx := sr_where l) in *. set (x := fractions n). set (y := sr_fractions idx N x).
  rewrite HL. rewrite (Sum_ext _ _ (fun i => x i * sr_set idx N (sr_lnphi T P y) (ln_g old) i + (x i * ln (x i) + ln (1e-5 * P) * x i))) by (intros; cbn [fst]; ring).
  assert (HX : Sum N x = 1) by (rewrite <- HL; apply Sum_fractions; exact Hn).
  rewrite !Sum_add, Sum_scal, HX. rewrite (mean_ln_eq n Hn), HL. fold N x.
  assert (Y : forall g, y g = present idx N x g) by reflexivity.
  assert (SY : Sum 3 y = 1) by (rewrite <- HX, (sum_present idx N x H1 H2); reflexivity).
  assert (EG : Sum N (fun i => x i * sr_set idx N (sr_lnphi T P y) (ln_g old) i) = gred y T P).
  { rewrite (sum_present idx N _ H1 H2), <- (sr_euler y T P SY). apply Sum_ext. intros g Hg. rewrite Y. unfold present. cbn zeta. destruct (Nat.ltb_spec (nth g idx N) N) as [L|L]; [|ring].
    rewrite (sr_set_at idx N _ _ g Hg L H2). reflexivity. }
  rewrite EG. replace (P * 1e-5) with (1e-5 * P) by ring. unfold gred, M_Gases.universalGasConstant, R_. ring.
Qed.

(* ---- C125 ---- *)
(* The activity models of gases whose parameters do not depend on the species. *)
Definition gas_model (f : ActivityFn) (n : list R) : Prop := f = idealGas \/ exists l, spycherReed l = Ok f /\ distinct_gases l /\ length l = length n.
Lemma gas_coefficients f old n T P : gas_model f n -> positive_amounts n -> coefficients f old n T P.
Proof. intros [->|(l & H1 & H2 & H3)] Hn; [apply ideal_coefficients; exact Hn|apply (sr_coefficients l); auto]. Qed.
Lemma gas_excess f old n T P : gas_model f n -> 0 < T -> 0 < P -> is_derive (fun P => computed f Gex T P (fractions n) (old, None)) P (computed f Vex T P (fractions n) (old, None)).
Proof.
  intros [->|(l & H1 & H2 & H3)] HT HP; [|apply (C107_potential l f T P (fractions n) (old, None) H1 HT HP)].
  unfold computed, idealGas, with_a, constProps. cbn [Gex Vex]. apply d_const.
Qed.
Lemma potential_P species f old n T P : gas_model f n -> from_database T species -> positive_amounts n -> 0 < T -> 0 < P ->
  is_derive (of_phase mean_potential species f old n T) P (computed f Vex T P (fractions n) (old, None) + R_ * T / P).
Proof.
  intros HM HS Hn HT HP. destruct (db_std T P species HT HS) as (std & Es & _).
  set (g0 := Sum (length n) (fun i => fractions n i * std_at std G0 i)).
  assert (E : forall P', 0 < P' -> of_phase mean_potential species f old n T P' = g0 + computed f Gex T P' (fractions n) (old, None) + R_ * T * (mean_ln n + ln (P' * 1e-5))).
  { intros P' HP'. destruct (db_std T P' species HT HS) as (std' & Es' & _). destruct (mean_gas f old n T P' species std' (gas_coefficients f old n T P' HM Hn) Hn Es') as (q & e & Ef & Eu & Em).
    unfold of_phase. rewrite Eu, Em. unfold molarGibbsEnergy, M_PhaseEnergy.mixed, made, computed. cbn [f_n f_x f_std f_act]. rewrite Ef. f_equal. f_equal. unfold g0. apply Sum_ext. intros k _. f_equal.
    apply (db_std_G T P' P species std' std HS Es' Es). }
  apply (is_derive_ext_loc (fun P' => g0 + computed f Gex T P' (fractions n) (old, None) + R_ * T * (mean_ln n + ln (P' * 1e-5)))).
  - apply (filter_imp (fun u => 0 < u)); [intros u Hu; symmetry; apply E; exact Hu|]. apply (open_gt 0). exact HP.
  - eapply d_val; [apply d_add; [apply d_add; [apply d_const|apply gas_excess; assumption]|apply d_mul; [apply d_const|apply d_add; [apply d_const|apply d_ln; [apply d_mul; [apply d_id|apply d_const]|lra]]]]|].
    cbn beta. replace 1e-5 with (/ 100000) by lra. field. lra.
Qed.
Lemma volume_made f old n T P species std : gas_model f n -> positive_amounts n -> mapM (fun s : StdFn => s T P) species = Ok std ->
  evaluates species f old n T P /\
  of_phase molarVolume species f old n T P = Sum (length n) (fun i => fractions n i * std_at std V0 i) + computed f Vex T P (fractions n) (old, None).
Proof.
  intros HM Hn Es. destruct (mean_gas f old n T P species std (gas_coefficients f old n T P HM Hn) Hn Es) as (q & e & Ef & Eu & _).
  split; [eexists; exact Eu|]. unfold of_phase. rewrite Eu. unfold molarVolume, M_PhaseEnergy.mixed, made, computed. cbn [f_n f_x f_std f_act]. rewrite Ef. reflexivity.
Qed.
(* C125, full statement: the molar volume of a phase of gases of a database is the
   derivative of its molar Gibbs energy, the mean of its chemical potentials, with
   respect to the pressure at constant temperature and composition. *)
Definition C125_statement : Prop := forall species f old n T P, gas_model f n -> from_database T species -> length species = length n -> positive_amounts n -> 0 < T -> 0 < P ->
  is_derive (of_phase mean_potential species f old n T) P (of_phase molarVolume species f old n T P).
(* Proved for gases of SUPCRT databases.  The ideal gas has its volume. *)
Theorem C125_supcrt_partial : forall species f old n T P, gas_model f n -> from_xml T species -> length species = length n -> positive_amounts n -> 0 < T -> 0 < P ->
  evaluates species f old n T P /\
  is_derive (of_phase mean_potential species f old n T) P (of_phase molarVolume species f old n T P) /\
  (f = idealGas -> of_phase molarVolume species f old n T P = 8.3144621 * T / P).
Proof.
  intros species f old n T P HM HS HL Hn HT HP. destruct (xml_std T P species HT HS) as (std & Es & Ls & HV). destruct (volume_made f old n T P species std HM Hn Es) as [HE EV].
  assert (E : Sum (length n) (fun i => fractions n i * std_at std V0 i) = R_ * T / P).
  { rewrite (Sum_ext _ _ (fun i => R_ * T / P * fractions n i)); [rewrite Sum_scal, (Sum_fractions n Hn); ring|]. intros k Hk. rewrite HV by (rewrite HL; exact Hk). ring. }
  split; [exact HE|]. rewrite EV, E. split.
  - eapply d_val; [apply potential_P; auto; left; exact HS|]. ring.
  - intros ->. unfold computed, idealGas, with_a, constProps, R_. cbn [Vex]. ring.
Qed.
Print Assumptions C125_supcrt_partial.
(* Gases of the YAML databases lack the volume of the ideal gas. *)
Theorem C125_yaml_partial : forall species f old n T P, gas_model f n -> from_yaml species -> positive_amounts n -> 0 < T -> 0 < P ->
  evaluates species f old n T P /\
  is_derive (of_phase mean_potential species f old n T) P (of_phase molarVolume species f old n T P + 8.3144621 * T / P).
Proof.
  intros species f old n T P HM HS Hn HT HP. destruct (yaml_std T P species HS) as (std & Es & Ls & HV). destruct (volume_made f old n T P species std HM Hn Es) as [HE EV].
  assert (E : Sum (length n) (fun i => fractions n i * std_at std V0 i) = 0).
  { rewrite (Sum_ext _ _ (fun i => 0 * fractions n i)); [rewrite Sum_scal; ring|]. intros k Hk. rewrite HV. ring. }
  split; [exact HE|]. rewrite EV, E. eapply d_val; [apply potential_P; auto; right; exact HS|]. unfold R_. ring.
Qed.
Print Assumptions C125_yaml_partial.
(* So that a phase of ideal gases has no volume at any temperature and pressure. *)
Theorem C125_ideal_refuted : forall species old n T P, from_yaml species -> positive_amounts n -> 0 < T -> 0 < P ->
  evaluates species idealGas old n T P /\ of_phase molarVolume species idealGas old n T P = 0 /\
  ~ is_derive (of_phase mean_potential species idealGas old n T) P (of_phase molarVolume species idealGas old n T P).
Proof.
  intros species old n T P HS Hn HT HP. destruct (C125_yaml_partial species idealGas old n T P (or_introl eq_refl) HS Hn HT HP) as [HE HD].
  assert (V : of_phase molarVolume species idealGas old n T P = 0).
  { destruct (yaml_std T P species HS) as (std & Es & Ls & HV). destruct (volume_made idealGas old n T P species std (or_introl eq_refl) Hn Es) as [_ ->].
    rewrite (Sum_ext _ _ (fun i => 0 * fractions n i)) by (intros; rewrite HV; ring). rewrite Sum_scal. unfold computed, idealGas, with_a, constProps. cbn [Vex]. ring. }
  split; [exact HE|]. split; [exact V|]. rewrite V in *. intros D. pose proof (eq_trans (eq_sym (is_derive_unique _ _ _ HD)) (is_derive_unique _ _ _ D)) as X.
  assert (0 < 8.3144621 * T / P) by (apply Rdiv_lt_0_compat; lra). lra.
Qed.
Print Assumptions C125_ideal_refuted.
(* CO2(g) of supcrt98.yaml (lines 3057-3070; Gf, Hf, Sr, Vr, a, b, c) and of
   supcrt98.xml. *)
Definition yaml_CO2 : MaierKelley := mkMK (-394358.74) (-393509.38) 213.73964 0 44.22488 0.0087864 (-861904).
Definition xml_CO2 : MaierKelly R := mkMaierKelly $"CO2(g)" (-94254) (-94051) 51.085 10.57 0.0021 (-206000) 2500.
Definition some_props : Props := constProps 0.
Theorem C125_refuted : ~ C125_statement.
Proof.
  intros H. destruct (C125_ideal_refuted [yaml_gas yaml_CO2] some_props [1] 298.15 100000) as (_ & _ & N); try lra.
  - constructor; [left; exists yaml_CO2; split; reflexivity|constructor].
  - split; [discriminate|constructor; [lra|constructor]].
  - apply N. apply H; try lra; [left; reflexivity| |reflexivity|].
    + right. constructor; [left; exists yaml_CO2; split; reflexivity|constructor].
    + split; [discriminate|constructor; [lra|constructor]].
Qed.
Print Assumptions C125_refuted.
(* A phase of the model of Spycher and Reed with carbon dioxide of the YAML database has
   a negative volume at 300 K and 10 bar. *)
Theorem C125_negative_refuted : exists l f, spycherReed l = Ok f /\ distinct_gases l /\ length l = 1%nat /\
  of_phase molarVolume [yaml_gas yaml_CO2] f some_props [1] 300 1000000 < 0.
Proof.
  assert (G : distinct_gases [gCO2]).
  { split; [intros s [<-|[]]; vm_compute; reflexivity|]. cbn. repeat constructor. intros []. }
  destruct (proj2 (C107_accepts [gCO2])) as [f Hf]; [intros s [<-|[]]; right; left; reflexivity|].
  exists [gCO2], f. split; [exact Hf|]. split; [exact G|]. split; [reflexivity|].
  assert (Hn : positive_amounts [1]) by (split; [discriminate|constructor; [lra|constructor]]).
  assert (HS : from_yaml [yaml_gas yaml_CO2]) by (constructor; [left; exists yaml_CO2; split; reflexivity|constructor]).
  destruct (yaml_std 300 1000000 _ HS) as (std & Es & Ls & HV).
  destruct (volume_made f some_props [1] 300 1000000 _ std (or_intror (ex_intro _ [gCO2] (conj Hf (conj G eq_refl)))) Hn Es) as [_ ->].
  cbn [length Sum]. rewrite HV. apply accepted in Hf as (HA & idx & Hi & _ & ->). apply (found _ _ G HA) in Hi. subst idx. rewrite sr_Vex.
  assert (X : forall g, sr_fractions (sr_where [gCO2]) (length [gCO2]) (fractions [1]) g = if Nat.eqb g 1 then 1 else 0).
  { assert (F : fractions [1] 0%nat = 1) by (rewrite fractions_eq by exact Hn; cbn; field). intros g. unfold sr_fractions. cbn zeta.
    assert (sr_where [gCO2] = [1; 0; 1]%nat) as -> by (vm_compute; reflexivity). destruct g as [|[|[|g]]]; cbn; try reflexivity; [exact F|destruct g; reflexivity]. }
  set (y := sr_fractions _ _ _) in *. assert (Z : sr_Z 300 1000000 y < 1).
  { unfold sr_Z, mix2, mix3. cbn zeta. cbn [Sum]. rewrite !X. cbn [Nat.eqb]. unfold computeB, computeC, at2, at3, sr_a, sr_b, sr_c, sr_d, sr_e, sr_f, table2, table3. cbn [nth]. lra. }
  unfold Rgas. nra.
Qed.
Print Assumptions C125_negative_refuted.
(* With a cubic equation of state and gases of the YAML databases, the first
   evaluation gives the volume Z R T/P and the second one, at the same conditions,
   zero; with gases of SUPCRT databases R T/P is added to both. *)
Theorem C125_cubic_refuted : forall single e species old n T P, nspecies e = length n -> positive_amounts n -> from_yaml species -> 0 < T -> 0 < P ->
  simple_roots e T P (fractions n) -> accepts single e T P (fractions n) ->
  exists r, compute single e fresh T P (fractions n) = Ok r /\
  of_phase molarVolume species (cubicFn single e fresh) old n T P = Zsel e T P (fractions n) * (8.3144621 * T / P) /\
  of_phase molarVolume species (cubicFn single e r) old n T P = 0.
Proof.
  intros single e species old n T P HN Hn HS HT HP HR HA. assert (H1 : Sum (nspecies e) (fractions n) = 1) by (rewrite HN; apply Sum_fractions; exact Hn).
  destruct (yaml_std T P species HS) as (std & Es & Ls & HV).
  assert (V : forall q, molarVolume (made std q T P n) = Vex q).
  { intros q. unfold molarVolume, M_PhaseEnergy.mixed, made. cbn [f_n f_x f_std f_act]. rewrite (Sum_ext _ _ (fun i => 0 * fractions n i)) by (intros; rewrite HV; ring). rewrite Sum_scal. ring. }
  eexists. split; [apply (compute_ok single e fresh T P _ H1 HR HA)|]. split.
  - unfold of_phase. erewrite update_ok; [|exact Hn|exact Es|unfold cubicFn; rewrite (compute_ok single e fresh T P _ H1 HR HA); reflexivity]. rewrite V. cbn [Vex Vres residuals fresh]. unfold gasR. ring.
  - unfold of_phase. erewrite update_ok; [|exact Hn|exact Es|unfold cubicFn; rewrite (compute_ok single e _ T P _ H1 HR HA); reflexivity]. rewrite V. cbn [Vex Vres residuals fresh]. ring.
Qed.
Print Assumptions C125_cubic_refuted.
Example C125_nonvacuous : from_xml 300 [xml_gas xml_CO2] /\ from_yaml [yaml_gas yaml_CO2] /\ positive_amounts [1] /\ gas_model idealGas [1] /\
  nspecies w1 = length [1] /\ simple_roots w1 27 27 (fractions [1]) /\ accepts noresort w1 27 27 (fractions [1]).
Proof.
  split; [constructor; [exists xml_CO2; split; [reflexivity|cbn; lra]|constructor]|]. split; [constructor; [left; exists yaml_CO2; split; reflexivity|constructor]|].
  assert (Hn : positive_amounts [1]) by (split; [discriminate|constructor; [lra|constructor]]).
  split; [exact Hn|]. split; [left; reflexivity|]. split; [reflexivity|].
  assert (X : bmix w1 (fractions [1]) = bmix w1 x1 /\ amix w1 27 (fractions [1]) = amix w1 27 x1).
  { assert (F : fractions [1] 0%nat = 1) by (rewrite fractions_eq by exact Hn; cbn; field). unfold bmix, amix, x1. cbn [nspecies w1 Sum]. rewrite F. split; reflexivity. }
  assert (S : simple_roots w1 27 27 (fractions [1])). { unfold simple_roots, eos_beta, eos_q. rewrite (proj1 X), (proj2 X). exact simple_w1. }
  split; [exact S|]. apply accepts_none; [reflexivity|exact S].
Qed.

(* ---- C126 ---- *)
(* C126, full statement: the molar Gibbs energy of a phase is the mean of the
   chemical potentials of its species. *)
Definition simple_model (f : ActivityFn) (n : list R) : Prop := f = idealSolution \/ gas_model f n.
Definition C126_statement : Prop := forall species f old n T P d, simple_model f n -> positive_amounts n -> 0 < T -> 0 < P ->
  update species f old T P n = Ok d -> molarGibbsEnergy d = mean_potential d.
(* What is missing: the energy of mixing, and for gases the dependence on the
   pressure. *)
Theorem C126_solution_partial : forall species old n T P d, positive_amounts n -> update species idealSolution old T P n = Ok d ->
  mean_potential d = molarGibbsEnergy d + 8.3144621 * T * mean_ln n.
Proof.
  intros species old n T P d Hn Hu. destruct (mapM (fun s : StdFn => s T P) species) as [std| |] eqn:Es; try (unfold update in Hu; rewrite Es in Hu; discriminate).
  erewrite update_ok in Hu; [|exact Hn|exact Es|reflexivity]. injection Hu as <-. rewrite mean_made, (mean_ln_eq n Hn).
  unfold molarGibbsEnergy, M_PhaseEnergy.mixed, made, with_a, constProps, R_. cbn [f_n f_x f_std f_act ln_a Gex]. ring.
Qed.
Print Assumptions C126_solution_partial.
Theorem C126_gas_partial : forall species f old n T P d, gas_model f n -> positive_amounts n -> update species f old T P n = Ok d ->
  mean_potential d = molarGibbsEnergy d + 8.3144621 * T * (mean_ln n + ln (P * 1e-5)).
Proof.
  intros species f old n T P d HM Hn Hu. destruct (mapM (fun s : StdFn => s T P) species) as [std| |] eqn:Es; try (unfold update in Hu; rewrite Es in Hu; discriminate).
  destruct (mean_gas f old n T P species std (gas_coefficients f old n T P HM Hn) Hn Es) as (q & e & _ & Eu & Em). rewrite Eu in Hu. injection Hu as <-. exact Em.
Qed.
Print Assumptions C126_gas_partial.
(* For one species in an ideal solution, as in minerals, nothing is missing. *)
Theorem C126_pure_partial : forall species old n T P d, length n = 1%nat -> positive_amounts n -> update species idealSolution old T P n = Ok d ->
  molarGibbsEnergy d = mean_potential d.
Proof.
  intros species old n T P d HL Hn Hu. rewrite (C126_solution_partial _ _ _ _ _ _ Hn Hu). destruct n as [|a [|b n]]; try discriminate. destruct Hn as [_ Hn]. inversion Hn. subst.
  unfold mean_ln. cbn. replace (a / (0 + a)) with 1 by (field; lra). rewrite ln_1. ring.
Qed.
Print Assumptions C126_pure_partial.
(* For two or more species something is missing. *)
Lemma mean_ln_neg n : positive_amounts n -> (2 <= length n)%nat -> mean_ln n < 0.
Proof.
  intros Hn HL. rewrite (mean_ln_eq n Hn).
  assert (L : forall i, (i < length n)%nat -> fractions n i < 1).
  { intros i Hi. rewrite <- (Sum_fractions n Hn). 
    assert (exists j, (j < length n)%nat /\ j <> i) as (j & Hj & Ne) by (destruct i; [exists 1%nat|exists 0%nat]; split; lia).
    assert (S : 0 < Sum (length n) (fun k => if Nat.eqb k i then 0 else fractions n k)).
    { apply (Sum_pos _ _ j); [|exact Hj|]; intros; [destruct (Nat.eqb k i); [lra|apply Rlt_le, fractions_pos; assumption]|]. destruct (Nat.eqb_spec j i); [contradiction|]. apply fractions_pos; assumption. }
    rewrite (Sum_ext _ (fractions n) (fun k => delta k i * fractions n k + (if Nat.eqb k i then 0 else fractions n k))); [|intros k _; unfold delta; destruct (Nat.eqb k i); ring].
    rewrite Sum_add. pose proof (Sum_delta w1 (length n) i (fractions n) Hi) as E1. unfold delta in *. rewrite E1. lra. }
  assert (N : forall i, (i < length n)%nat -> 0 < fractions n i * - ln (fractions n i)).
  { intros i Hi. pose proof (fractions_pos n i Hn Hi) as Hp. apply Rmult_lt_0_compat; [exact Hp|]. rewrite <- ln_1. 
    pose proof (ln_increasing _ _ Hp (L i Hi)). rewrite ln_1 in *. lra. }
  assert (0 < Sum (length n) (fun i => fractions n i * - ln (fractions n i))).
  { apply (Sum_pos _ _ O); [intros; apply Rlt_le, N; assumption|lia|apply N; lia]. }
  rewrite (Sum_ext _ _ (fun i => (-1) * (fractions n i * ln (fractions n i)))) in H by (intros; ring). rewrite Sum_scal in H. lra.
Qed.
Theorem C126_mixing_refuted : forall species old n T P d, (2 <= length n)%nat -> positive_amounts n -> 0 < T -> update species idealSolution old T P n = Ok d ->
  mean_potential d < molarGibbsEnergy d.
Proof.
  intros species old n T P d HL Hn HT Hu. rewrite (C126_solution_partial _ _ _ _ _ _ Hn Hu). pose proof (mean_ln_neg n Hn HL). nra.
Qed.
Print Assumptions C126_mixing_refuted.
Theorem C126_refuted : ~ C126_statement.
Proof.
  intros H. assert (Hn : positive_amounts [1; 1]) by (split; [discriminate|repeat constructor; lra]).
  assert (HS : from_yaml [yaml_gas yaml_CO2; yaml_gas yaml_CO2]) by (do 2 (constructor; [left; exists yaml_CO2; split; reflexivity|]); constructor).
  destruct (yaml_std 300 100000 _ HS) as (std & Es & _).
  assert (U : update [yaml_gas yaml_CO2; yaml_gas yaml_CO2] idealSolution some_props 300 100000 [1; 1] = Ok (made std (with_a (constProps 0) (fun i => ln (fractions [1; 1] i))) 300 100000 [1; 1])).
  { eapply update_ok; [exact Hn|exact Es|reflexivity]. }
  assert (A : 0 < 300) by lra. assert (B : 0 < 100000) by lra.
  specialize (H _ _ _ _ _ _ _ (or_introl eq_refl) Hn A B U). pose proof (C126_mixing_refuted _ _ [1; 1] _ _ _ (le_n 2) Hn A U). lra.
Qed.
Print Assumptions C126_refuted.
(* The entropy of a phase of ideal gases of either kind of database does not depend
   on the pressure. *)
Theorem C126_entropy_refuted : forall species old n T P P', from_database T species -> positive_amounts n -> 0 < T ->
  evaluates species idealGas old n T P /\ of_phase molarEntropy species idealGas old n T P = of_phase molarEntropy species idealGas old n T P'.
Proof.
  intros species old n T P P' HS Hn HT. destruct (db_std T P species HT HS) as (std & Es & _). destruct (db_std T P' species HT HS) as (std' & Es' & _).
  pose proof (db_std_G T P P' species std std' HS Es Es') as HG.
  assert (U : forall P, forall s, mapM (fun s : StdFn => s T P) species = Ok s -> update species idealGas old T P n = Ok (made s (with_a (constProps 0) (fun i => ln (fractions n i) + ln (P * 1.0e-5))) T P n)).
  { intros Q s E. eapply update_ok; [exact Hn|exact E|reflexivity]. }
  split; [eexists; apply U; exact Es|]. unfold of_phase. rewrite (U P std Es), (U P' std' Es').
  unfold molarEntropy, molarEnthalpy, molarGibbsEnergy, M_PhaseEnergy.mixed, made, with_a, constProps. cbn [f_n f_x f_std f_act f_T Hex Gex].
  rewrite (Sum_ext _ (fun i => fractions n i * std_at std H0 i) (fun i => fractions n i * std_at std' H0 i)) by (intros k _; rewrite (proj2 (HG k)); reflexivity).
  rewrite (Sum_ext _ (fun i => fractions n i * std_at std G0 i) (fun i => fractions n i * std_at std' G0 i)) by (intros k _; rewrite (proj1 (HG k)); reflexivity). reflexivity.
Qed.
Print Assumptions C126_entropy_refuted.
Example C126_nonvacuous : positive_amounts [1; 2] /\ positive_amounts [3] /\ from_database 300 [yaml_gas yaml_CO2; yaml_gas yaml_CO2] /\ gas_model idealGas [1; 2] /\
  (exists d, update [yaml_gas yaml_CO2; yaml_gas yaml_CO2] idealSolution some_props 300 200000 [1; 2] = Ok d /\ f_nsum d = 3) /\
  (exists d, update [yaml_gas yaml_CO2] idealSolution some_props 300 200000 [3] = Ok d) /\
  (exists d, update [yaml_gas yaml_CO2; yaml_gas yaml_CO2] idealGas some_props 300 200000 [1; 2] = Ok d) /\ ln (200000 * 1e-5) <> 0.
Proof.
  assert (H2 : positive_amounts [1; 2]) by (split; [discriminate|repeat constructor; lra]). assert (H1 : positive_amounts [3]) by (split; [discriminate|repeat constructor; lra]).
  split; [exact H2|]. split; [exact H1|].
  assert (Y : from_yaml [yaml_gas yaml_CO2; yaml_gas yaml_CO2]) by (do 2 (constructor; [left; exists yaml_CO2; split; reflexivity|]); constructor).
  split; [right; exact Y|]. split; [left; reflexivity|]. split; [|split; [|split]].
  - eexists. split; [eapply update_ok; [exact H2|reflexivity|reflexivity]|]. cbn. ring.
  - eexists. eapply update_ok; [exact H1|reflexivity|reflexivity].
  - eexists. eapply update_ok; [exact H2|reflexivity|reflexivity].
  - pose proof (ln_increasing 1 (200000 * 1e-5) ltac:(lra) ltac:(lra)) as L. rewrite ln_1 in L. lra.
Qed.
