(* C118: the properties of water of PHREEQC. *)
From Coq Require Import Reals Lra.
From Coquelicot Require Import Coquelicot.
From Verif Require Import Base M_Thermo M_PhreeqcWater S_PhreeqcWater.
Local Open Scope R_scope.

Definition C118_statement : Prop :=
  forall T P, 27315 / 100 <= T -> 0 <= P ->
  (exists w, waterProps T P = Some w) /\ Compressibility waterProps T P /\ LimitingSlope waterProps T P /\ Born waterProps T P.

Lemma pta_pos : 0 < pascal_to_atm.
Proof. unfold pascal_to_atm. lra. Qed.
Lemma pa_above T P : p_sat T < P * pascal_to_atm -> pa_of T P = P * pascal_to_atm - (p_sat T - 1 / 10 ^ 6).
Proof. intros H. unfold pa_of. destruct (Rlt_dec (P * pascal_to_atm) (p_sat T)); [lra|reflexivity]. Qed.
Lemma pa_below T P : P * pascal_to_atm < p_sat T -> pa_of T P = 1 / 10 ^ 6.
Proof. intros H. unfold pa_of. destruct (Rlt_dec (P * pascal_to_atm) (p_sat T)); [ring|contradiction]. Qed.
Lemma locally_gt (f : R -> R) (x c : R) : c < f x -> continuous f x -> locally x (fun y => c < f y).
Proof. intros H Hc. apply (Hc (fun z => c < z)). apply open_gt. exact H. Qed.
Lemma locally_lt (f : R -> R) (x c : R) : f x < c -> continuous f x -> locally x (fun y => f y < c).
Proof. intros H Hc. apply (Hc (fun z => z < c)). apply open_lt. exact H. Qed.
Lemma above_locally T P : p_sat T < P * pascal_to_atm -> locally P (fun p => p_sat T < p * pascal_to_atm).
Proof.
  intros H. apply (locally_gt (fun p => p * pascal_to_atm) P _ H).
  apply (ex_derive_continuous (fun p => p * pascal_to_atm) P). auto_derive. auto.
Qed.
Lemma below_locally T P : P * pascal_to_atm < p_sat T -> locally P (fun p => p * pascal_to_atm < p_sat T).
Proof.
  intros H. apply (locally_lt (fun p => p * pascal_to_atm) P _ H).
  apply (ex_derive_continuous (fun p => p * pascal_to_atm) P). auto_derive. auto.
Qed.

(* The numerator of the compressibility. *)
Definition slope (T P : R) : R :=
  let tc := tc_of T in let pa := pa_of T P in wp0 tc + pa * (2 * wp1 tc + pa * (3 * wp2 tc + sqrt pa * (35 / 10) * wp3 tc)).
Lemma cubic_derive (r a b c d k s x : R) : 0 < x * k - s ->
  is_derive (fun x => r + (x * k - s) * (a + (x * k - s) * (b + (x * k - s) * (c + sqrt (x * k - s) * d)))) x
    ((a + (x * k - s) * (2 * b + (x * k - s) * (3 * c + sqrt (x * k - s) * (35 / 10) * d))) * k).
Proof.
  intros H. pose proof (sqrt_lt_R0 _ H) as Hs. auto_derive; [lra|].
  replace (x * k + - s) with (x * k - s) by ring.
  pose proof (sqrt_sqrt (x * k - s) (Rlt_le _ _ H)) as E.
  set (q := sqrt (x * k - s)) in *. rewrite <- E. field. lra.
Qed.
Lemma rho_derive T P : p_sat T < P * pascal_to_atm -> is_derive (rho_of T) P (slope T P * pascal_to_atm).
Proof.
  intros H. unfold slope. rewrite (pa_above T P H). cbv zeta.
  eapply is_derive_ext_loc; [|apply (cubic_derive (rho_0_sat (th_of T)) (wp0 (tc_of T)) (wp1 (tc_of T)) (wp2 (tc_of T)) (wp3 (tc_of T)) pascal_to_atm (p_sat T - 1 / 10 ^ 6) P)].
  - apply (filter_imp (fun p => p_sat T < p * pascal_to_atm)); [|apply above_locally; exact H].
    intros p Hp. unfold rho_of. rewrite (pa_above T p Hp). reflexivity.
  - lra.
Qed.

Lemma eps_derive T P : 0 < (b_of T + pb_of P) / (b_of T + 1000) ->
  is_derive (eps_of T) P (c_of T / (b_of T + pb_of P) * (pascal_to_atm * (101325 / 10 ^ 5))).
Proof.
  intros H.
  assert (H1 : b_of T + 1000 <> 0).
  { intros E. rewrite E in H. unfold Rdiv in H. rewrite Rinv_0, Rmult_0_r in H. lra. }
  assert (H2 : b_of T + pb_of P <> 0).
  { intros E. rewrite E in H. unfold Rdiv in H. rewrite Rmult_0_l in H. lra. }
  unfold eps_of, pb_of in *. generalize dependent (b_of T). intros b H H1 H2. generalize (c_of T) as c, (d1000_of T) as d. intros c d.
  revert H H1 H2. generalize pascal_to_atm as k, (101325 / 10 ^ 5) as u. intros k u H H1 H2.
  auto_derive; [exact H|]. unfold Rdiv. field. split; assumption.
Qed.
Lemma debye_derive (rho eps : R -> R) (x r' e' K D : R) : is_derive rho x r' -> is_derive eps x e' -> 0 < rho x -> 0 < eps x -> 0 < K ->
  is_derive (fun p => sqrt (K * rho p / eps p) * (D / eps p)) x
    (sqrt (K * rho x / eps x) * (D / eps x) * (1 / 2 * r' / rho x - 3 / 2 * e' / eps x)).
Proof.
  intros Hr He Pr Pe PK.
  assert (HK : 0 < K * rho x / eps x).
  { apply Rdiv_lt_0_compat; [|exact Pe]. apply Rmult_lt_0_compat; assumption. }
  pose proof (sqrt_lt_R0 _ HK) as Hs. pose proof (sqrt_sqrt _ (Rlt_le _ _ HK)) as E.
  auto_derive.
  - repeat split; try lra; eexists; eassumption.
  - change (Derive (fun x0 : R => rho x0) x) with (Derive rho x). change (Derive (fun x0 : R => eps x0) x) with (Derive eps x).
    rewrite (is_derive_unique _ _ _ Hr), (is_derive_unique _ _ _ He).
    change (K * rho x * / eps x) with (K * rho x / eps x). set (q := sqrt (K * rho x / eps x)) in *.
    assert (Eq : eps x = K * rho x / (q * q)) by (rewrite E; field; lra).
    clearbody q. clear E HK. rewrite Eq. field. repeat split; lra.
Qed.

(* Liquid water for which nothing is limited. *)
Record Liquid (T P : R) : Prop := {
  lq_T : 0 < T <= 647096 / 1000;
  lq_P : p_sat T < P * pascal_to_atm;
  lq_rho : 1 / 100 < rho_of T P;
  lq_b : 0 < (b_of T + pb_of P) / (b_of T + 1000);
  lq_eps : 0 < eps_of T P }.
Definition thermo (T P : R) : WaterThermo := mkWT (rho_of T P / 1000) (slope T P / rho_of T P).
Lemma thermo_props T P : T <= 647096 / 1000 -> 1 / 100 < rho_of T P -> waterThermoProps T P = Some (thermo T P).
Proof.
  intros HT Hr. unfold waterThermoProps. destruct (Rlt_dec (th_of T) 0) as [C|_]; [exfalso; revert C; unfold th_of; lra|].
  destruct (Rlt_dec (rho_of T P) (1 / 100)); [lra|]. reflexivity.
Qed.
Definition electro (T P : R) : WaterElectro :=
  let K := 8 * pi_ph * AVOGADRO * (1671008 / 10 ^ 9) / T / 1000000 in
  let B := sqrt (K * rho_of T P / eps_of T P) in
  mkWE (eps_of T P) (B * (1671008 / 10 ^ 9 / T / (2 * ln10) / eps_of T P)) (B / 10 ^ 8)
    (B * (1671008 / 10 ^ 9 / (eps_of T P * T)) * R_LITER_ATM * 1000 * T * (c_of T / (b_of T + pb_of P) * (101325 / 10 ^ 5) / eps_of T P - slope T P / rho_of T P / 3))
    ((- (1) / eps_of T P + 1) * (4184004 / 10 ^ 5)) (c_of T / (b_of T + pb_of P) / eps_of T P / eps_of T P * (4184004 / 10 ^ 5)).
Lemma log10_pos : 0 < ln10.
Proof. unfold ln10. rewrite <- ln_1. apply ln_increasing; lra. Qed.
Lemma props_liquid T P : 0 < T <= 647096 / 1000 -> 1 / 100 < rho_of T P -> 0 < eps_of T P -> waterProps T P = Some (thermo T P, electro T P).
Proof.
  intros HT Hr He. unfold waterProps. rewrite (thermo_props T P) by lra. pose proof log10_pos as H10. apply f_equal, f_equal.
  unfold waterElectroProps, electro. destruct (Rle_dec (eps_of T P) 0) as [C|_]; [lra|]. cbv zeta. cbn [rho_0 kappa_0 thermo].
  replace (8 * pi_ph * AVOGADRO * (1671008 / 10 ^ 9 / (eps_of T P * T)) * (rho_of T P / 1000) / 1000)
    with (8 * pi_ph * AVOGADRO * (1671008 / 10 ^ 9) / T / 1000000 * rho_of T P / eps_of T P) by (field; lra).
  set (B := sqrt _).
  replace (B * (1671008 / 10 ^ 9 / (eps_of T P * T)) / (2 * ln10)) with (B * (1671008 / 10 ^ 9 / T / (2 * ln10) / eps_of T P)) by (field; lra).
  reflexivity.
Qed.
Lemma liquid_locally T P : Liquid T P -> locally P (Liquid T).
Proof.
  intros [HT HP Hr Hb He].
  assert (L1 := above_locally T P HP).
  assert (L2 : locally P (fun p => 1 / 100 < rho_of T p)) by (apply (locally_gt (rho_of T) P _ Hr); apply (ex_derive_continuous (rho_of T) P); eexists; apply rho_derive; exact HP).
  assert (L4 : locally P (fun p => 0 < eps_of T p)) by (apply (locally_gt (eps_of T) P _ He); apply (ex_derive_continuous (eps_of T) P); eexists; apply eps_derive; exact Hb).
  assert (L3 : locally P (fun p => 0 < (b_of T + pb_of p) / (b_of T + 1000))).
  { apply (locally_gt (fun p => (b_of T + pb_of p) / (b_of T + 1000)) P _ Hb).
    apply (ex_derive_continuous (fun p => (b_of T + pb_of p) / (b_of T + 1000)) P). unfold pb_of. generalize (b_of T) as b. intros b.
    unfold Rdiv. generalize (/ (b + 1000)) pascal_to_atm (101325 * / 10 ^ 5). intros v k u. auto_derive. auto. }
  generalize (filter_and _ _ L1 (filter_and _ _ L2 (filter_and _ _ L3 L4))). apply filter_imp. intros p (A & B & C & D). constructor; assumption.
Qed.

Lemma slope_of (water : Props) sel f u T P v : (forall p, Liquid T p -> exists w, water T p = Some w /\ f p = sel w) -> Liquid T P -> is_derive f P (v / u) -> Slope water sel u T P v.
Proof.
  intros H HL HD. exists f. split; [|exact HD]. generalize (liquid_locally T P HL). apply filter_imp. intros p Hp. apply H. exact Hp.
Qed.
Lemma props_at T P : Liquid T P -> waterProps T P = Some (thermo T P, electro T P).
Proof. intros [HT HP Hr Hb He]. apply props_liquid; assumption. Qed.
(* In liquid water all is as it should be. *)
Theorem C118_partial : forall T P, Liquid T P ->
  (exists w, waterProps T P = Some w) /\ Compressibility waterProps T P /\ LimitingSlope waterProps T P /\ Born waterProps T P.
Proof.
  intros T P HL. pose proof (props_at T P HL) as E. pose proof HL as [HT HP Hr Hb He]. pose proof log10_pos as H10.
  pose proof (rho_derive T P HP) as Dr. pose proof (eps_derive T P Hb) as De. pose proof pta_pos as Hk.
  assert (Hat : atm = / pascal_to_atm) by (unfold atm, pascal_to_atm; field).
  split; [eexists; exact E|].
  split; [|split].
  - intros w Ew. rewrite E in Ew. injection Ew as <-.
    apply (slope_of waterProps _ (fun p => ln (rho_of T p / 1000)) atm T P _); [|exact HL|].
    + intros p Hp. exists (thermo T p, electro T p). split; [apply props_at; exact Hp|reflexivity].
    + cbn [fst thermo kappa_0]. rewrite Hat. auto_derive; [split; [eexists; exact Dr|split; [lra|exact I]]|].
      change (Derive (fun x => rho_of T x) P) with (Derive (rho_of T) P). rewrite (is_derive_unique _ _ _ Dr).
      field. repeat split; lra.
  - intros w Ew. rewrite E in Ew. injection Ew as <-.
    set (K := 8 * pi_ph * AVOGADRO * (1671008 / 10 ^ 9) / T / 1000000).
    assert (PK : 0 < K). { unfold K, Rdiv. assert (0 < / T) by (apply Rinv_0_lt_compat; lra). unfold pi_ph, AVOGADRO. repeat apply Rmult_lt_0_compat; lra. }
    set (D := 1671008 / 10 ^ 9 / T / (2 * ln10)).
    apply (slope_of waterProps _ (fun p => - (4 / 3) * ln 10 * (820597 / 10000) * T * (sqrt (K * rho_of T p / eps_of T p) * (D / eps_of T p))) atm T P _); [|exact HL|].
    + intros p Hp. exists (thermo T p, electro T p). split; [apply props_at; exact Hp|reflexivity].
    + assert (Pr : 0 < rho_of T P) by lra.
      pose proof (debye_derive (rho_of T) (eps_of T) P _ _ K D Dr De Pr He PK) as DD.
      apply (is_derive_scal _ P (- (4 / 3) * ln 10 * (820597 / 10000) * T)) in DD.
      refine (eq_ind _ (fun d => is_derive _ P d) DD _ _).
      cbn [snd electro DH_Av]. fold K. rewrite Hat. set (B := sqrt (K * rho_of T P / eps_of T P)).
      unfold D, R_LITER_ATM. change ln10 with (ln 10). change ln10 with (ln 10) in H10. 
      assert (b_of T + pb_of P <> 0).
      { intros C. rewrite C in Hb. unfold Rdiv in Hb. rewrite Rmult_0_l in Hb. lra. }
      match goal with |- ?a = ?b => change (@eq R a b) end. unfold scal; cbn. field. repeat split; lra.
  - intros w Ew. rewrite E in Ew. injection Ew as <-. split; [cbn [snd electro ZBrn eps_r]; field; lra|].
    exists (/ (pascal_to_atm * (101325 / 10 ^ 5))). split.
    { unfold pascal_to_atm, bar. apply Rabs_le. lra. }
    apply (slope_of waterProps _ (fun p => (- (1) / eps_of T p + 1) * (4184004 / 10 ^ 5)) _ T P _); [|exact HL|].
    + intros p Hp. exists (thermo T p, electro T p). split; [apply props_at; exact Hp|reflexivity].
    + cbn [snd electro QBrn]. auto_derive; [split; [eexists; exact De|split; [lra|exact I]]|].
      change (Derive (fun x => eps_of T x) P) with (Derive (eps_of T) P). rewrite (is_derive_unique _ _ _ De).
      assert (b_of T + pb_of P <> 0).
      { intros C. rewrite C in Hb. unfold Rdiv in Hb. rewrite Rmult_0_l in Hb. lra. }
      field. repeat split; lra.
Qed.
Print Assumptions C118_partial.

(* Below the saturation pressure the density that is returned does not depend on
   pressure, and yet a compressibility is. *)
Lemma wp0_bound t : 0 <= t <= 350 -> 3 / 100 < wp0 t.
Proof.
  intros Ht. unfold wp0.
  pose proof (Rle_0_sqr (t * (t - 21945 / 100))) as B. pose proof (Rle_0_sqr (t - 79)) as C. unfold Rsqr in B, C.
  assert (D : 0 <= t * (t * t)) by (apply Rmult_le_pos; [lra|apply Rle_0_sqr]). pose proof (Rle_0_sqr t) as E. unfold Rsqr in E. lra.
Qed.
Lemma powers t : 0 <= t <= 350 -> 0 <= t * t <= 122500 /\ 0 <= t * (t * t) <= 42875000 /\ 0 <= t * (t * (t * t)) <= 15006250000.
Proof.
  intros Ht. assert (A : 0 <= t * t <= 350 * 350) by (split; [apply Rmult_le_pos; lra|apply Rmult_le_compat; lra]).
  assert (B : 0 <= t * (t * t) <= 350 * (350 * 350)) by (split; [apply Rmult_le_pos; lra|apply Rmult_le_compat; lra]).
  assert (C : 0 <= t * (t * (t * t)) <= 350 * (350 * (350 * 350))) by (split; [apply Rmult_le_pos; lra|apply Rmult_le_compat; lra]).
  lra.
Qed.
Lemma wp1_bound t : 0 <= t <= 350 -> - (1) < wp1 t.
Proof.
  intros Ht. unfold wp1.
  destruct (powers t Ht) as (A & B & C). lra.
Qed.
Lemma wp2_bound t : 0 <= t <= 350 -> - (1) < wp2 t.
Proof.
  intros Ht. unfold wp2.
  destruct (powers t Ht) as (A & B & C). lra.
Qed.
Lemma wp3_bound t : 0 <= t <= 350 -> - (1) < wp3 t.
Proof.
  intros Ht. unfold wp3.
  destruct (powers t Ht) as (A & B & C). lra.
Qed.
Lemma sqrt_micro : sqrt (1 / 10 ^ 6) = 1 / 1000.
Proof. replace (1 / 10 ^ 6) with ((1 / 1000) * (1 / 1000)) by lra. apply sqrt_square. lra. Qed.
Lemma tc_range T : 27315 / 100 <= T -> 0 <= tc_of T <= 350.
Proof. intros H. unfold tc_of. destruct (Rlt_dec 350 (T - 27315 / 100)); lra. Qed.
Theorem C118_vapour_refuted : forall T P, 27315 / 100 <= T <= 647096 / 1000 -> P * pascal_to_atm < p_sat T -> ~ Compressibility waterProps T P.
Proof.
  intros T P HT HP H.
  set (rho := if Rlt_dec (rho_of T P) (1 / 100) then 1 / 100 else rho_of T P).
  assert (Hrho : 0 < rho) by (unfold rho; destruct (Rlt_dec (rho_of T P) (1 / 100)); lra).
  assert (Ew : forall p, p * pascal_to_atm < p_sat T -> exists e, waterProps T p = Some (mkWT (rho / 1000) (slope T P / rho), e)).
  { intros p Hp. assert (Er : rho_of T p = rho_of T P) by (unfold rho_of; rewrite (pa_below T p Hp), (pa_below T P HP); reflexivity).
    unfold waterProps, waterThermoProps. destruct (Rlt_dec (th_of T) 0) as [C|_]; [exfalso; revert C; unfold th_of; lra|].
    rewrite Er. fold rho. eexists. apply f_equal. apply f_equal2; [|reflexivity]. unfold slope. rewrite (pa_below T p Hp), (pa_below T P HP). reflexivity. }
  destruct (Ew P HP) as (e & EP). destruct (H _ EP) as (f & Hf & Df). cbn [fst kappa_0] in Df.
  assert (D0 : is_derive f P 0).
  { apply (is_derive_ext_loc (fun _ => ln (rho / 1000))).
    - generalize (filter_and _ _ Hf (below_locally T P HP)). apply filter_imp. intros p ((w & Ep & Efp) & Hp).
      destruct (Ew p Hp) as (e' & E'). rewrite Ep in E'. injection E' as ->. rewrite Efp. reflexivity.
    - apply (@is_derive_const R_AbsRing). }
  pose proof (is_derive_unique _ _ _ Df) as E1. rewrite (is_derive_unique _ _ _ D0) in E1.
  assert (Hs : 0 < slope T P).
  { unfold slope. rewrite (pa_below T P HP), sqrt_micro. pose proof (tc_range T (proj1 HT)) as Htc.
    pose proof (wp0_bound _ Htc). pose proof (wp1_bound _ Htc). pose proof (wp2_bound _ Htc). pose proof (wp3_bound _ Htc). lra. }
  assert (0 < slope T P / rho / atm); [|lra]. unfold atm. repeat apply Rdiv_lt_0_compat; try assumption; lra.
Qed.
Print Assumptions C118_vapour_refuted.
Theorem C118_refuted : ~ C118_statement.
Proof.
  intros H. destruct (H (27315 / 100) 0) as (_ & C & _); [lra|lra|]. revert C. apply C118_vapour_refuted; [lra|].
  rewrite Rmult_0_l. unfold p_sat. apply exp_pos.
Qed.
Print Assumptions C118_refuted.
(* Above 350 degC the properties are not those at 350 degC, as the warning has it, and
   above the critical temperature they are not numbers. *)
Theorem C118_limit_refuted : ~ (forall T P, 35000 / 100 < T - 27315 / 100 -> waterThermoProps T P = waterThermoProps (350 + 27315 / 100) P) /\
  forall T P, 647096 / 1000 < T -> waterProps T P = None.
Proof.
  assert (G : forall T P, 647096 / 1000 < T -> waterThermoProps T P = None).
  { intros T P HT. unfold waterThermoProps. destruct (Rlt_dec (th_of T) 0) as [|C]; [reflexivity|exfalso; apply C; unfold th_of; lra]. }
  split.
  - intros H. specialize (H 700 0). rewrite (G 700) in H by lra. unfold waterThermoProps in H.
    destruct (Rlt_dec (th_of (350 + 27315 / 100)) 0) as [C|_]; [revert C; unfold th_of; lra|]. assert (35000 / 100 < 700 - 27315 / 100) as K by lra. discriminate (H K).
  - intros T P HT. unfold waterProps. rewrite (G T P HT). reflexivity.
Qed.
Print Assumptions C118_limit_refuted.

(* Water at 293.06 degC, just above saturation. *)
Lemma pow0_eighth k : pow0 (1 / 8) (k / 3) = Rpower 2 (- k).
Proof.
  unfold pow0. destruct (Req_EM_T (1 / 8) 0); [lra|]. unfold Rpower. apply f_equal.
  replace (1 / 8) with (/ (2 * (2 * 2))) by lra. rewrite ln_Rinv by lra. rewrite !ln_mult by lra. field.
Qed.
Lemma pow0_nat n : pow0 (1 / 8) (IZR (Z.of_nat n) / 3) = / 2 ^ n.
Proof. rewrite pow0_eighth, <- INR_IZR_INZ, Rpower_Ropp, Rpower_pow by lra. reflexivity. Qed.
Example C118_nonvacuous : exists T P, Liquid T P /\ 27315 / 100 < T < 62315 / 100.
Proof.
  set (T := 7 / 8 * (647096 / 1000)). exists T, ((p_sat T + 1 / 10 ^ 6) / pascal_to_atm). pose proof pta_pos as Hk.
  assert (EP : (p_sat T + 1 / 10 ^ 6) / pascal_to_atm * pascal_to_atm = p_sat T + 1 / 10 ^ 6) by (field; lra).
  assert (Hps : 0 < p_sat T) by apply exp_pos.
  split; [|unfold T; lra].
  assert (HP : p_sat T < (p_sat T + 1 / 10 ^ 6) / pascal_to_atm * pascal_to_atm) by (rewrite EP; lra).
  assert (HT : th_of T = 1 / 8) by (unfold th_of, T; field).
  assert (Hb : 622 < b_of T < 624) by (unfold b_of, T; lra).
  assert (Hpb : 0 < pb_of ((p_sat T + 1 / 10 ^ 6) / pascal_to_atm)) by (unfold pb_of; rewrite EP; lra).
  set (x := (b_of T + pb_of ((p_sat T + 1 / 10 ^ 6) / pascal_to_atm)) / (b_of T + 1000)).
  assert (Hx : 622 / 1624 < x).
  { unfold x. apply (Rmult_lt_reg_r (b_of T + 1000)); [lra|]. unfold Rdiv at 2. rewrite Rmult_assoc, Rinv_l, Rmult_1_r by lra. lra. }
  constructor.
  - unfold T. lra.
  - exact HP.
  - unfold rho_of. rewrite (pa_above _ _ HP), EP, HT. replace (p_sat T + 1 / 10 ^ 6 - (p_sat T - 1 / 10 ^ 6)) with (2 / 10 ^ 6) by lra.
    assert (Hs : 0 <= sqrt (2 / 10 ^ 6) <= 1).
    { split; [apply sqrt_pos|]. apply (Rle_trans _ (sqrt 1)); [apply sqrt_le_1_alt; lra|rewrite sqrt_1; lra]. }
    assert (Htc : 0 <= tc_of T <= 350) by (apply tc_range; unfold T; lra).
    pose proof (wp0_bound _ Htc). pose proof (wp1_bound _ Htc). pose proof (wp2_bound _ Htc). pose proof (wp3_bound _ Htc).
    assert (- (1) <= sqrt (2 / 10 ^ 6) * wp3 (tc_of T)) by nra.
    assert (322 < rho_0_sat (1 / 8)); [|lra].
    unfold rho_0_sat. rewrite (pow0_nat 1 : pow0 (1 / 8) (1 / 3) = _), (pow0_nat 2 : pow0 (1 / 8) (2 / 3) = _), (pow0_nat 5 : pow0 (1 / 8) (5 / 3) = _),
      (pow0_nat 16 : pow0 (1 / 8) (16 / 3) = _), (pow0_nat 43 : pow0 (1 / 8) (43 / 3) = _), (pow0_nat 110 : pow0 (1 / 8) (110 / 3) = _). lra.
  - fold x. lra.
  - unfold eps_of. fold x.
    assert (Hl : - (1624 / 622) < ln x - 1).
    { assert (Hi : / x < 1624 / 622). { replace (1624 / 622) with (/ (622 / 1624)) by field. apply Rinv_lt_contravar; [|exact Hx]. apply Rmult_lt_0_compat; lra. }
      assert (Hi0 : 0 < / x) by (apply Rinv_0_lt_compat; lra).
      pose proof (exp_ineq1_le (ln (/ x))) as G. rewrite (exp_ln _ Hi0), ln_Rinv in G by lra. lra. }
    assert (Hd : 12 < d1000_of T).
    { unfold d1000_of. apply (Rlt_le_trans _ (34279 / 100 * exp (- (3)))).
      - rewrite exp_Ropp. replace 3 with (1 + 1 + 1) at 1 by ring. rewrite !exp_plus. pose proof exp_le_3 as H3. pose proof (exp_pos 1) as H0.
        assert (H27 : exp 1 * exp 1 * exp 1 <= 27) by (replace 27 with (3 * 3 * 3) by ring; repeat apply Rmult_le_compat; try lra; apply Rmult_le_pos; lra).
        assert (Hi : / 27 <= / (exp 1 * exp 1 * exp 1)) by (apply Rinv_le_contravar; [repeat apply Rmult_lt_0_compat; exact H0|exact H27]). lra.
      - apply Rmult_le_compat_l; [lra|]. left. apply exp_increasing. unfold T. lra. }
    assert (Hc : 6 < c_of T < 7).
    { unfold c_of. replace (- (18289 / 100) + T) with (383319 / 1000) by (unfold T; lra). lra. }
    assert (0 < c_of T * (ln x - 1 + 1624 / 622)) by (apply Rmult_lt_0_compat; lra). lra.
Qed.
