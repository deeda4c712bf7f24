(* C108: the equation of state of Spycher, Pruess and Ennis-King for carbon dioxide
   with traces of water. *)
From Coq Require Import Reals List Bool Lia Lra.
From Coquelicot Require Import Coquelicot.
Import ListNotations.
From Verif Require Import Base M_Strings M_Formula M_Chem M_Algorithms M_System M_Roots M_CubicEOS M_Aqueous P_Algorithms P_Helmholtz C_Roots P_CubicEOS C_PhaseId S_Activity C_Aqueous M_Gases C_Gases.
Local Open Scope R_scope.

(* ---- Specification: the equation of Redlich and Kwong, in bar and cm3 ---- *)
Definition Rbar : R := 83.1447.
Definition a_co2 (T : R) : R := 7.54e+07 - 4.13e+04 * T.
Definition rk_pressure (T v : R) : R := Rbar * T / (v - 27.8) - a_co2 T / (sqrt T * v * (v + 27.8)).
(* The Gibbs energy of a mole of carbon dioxide as a function of its volume. *)
Definition rk_gibbs (T Pb v : R) : R := Pb * v - Rbar * T * ln (v - 27.8) - a_co2 T / (sqrt T * 27.8) * ln ((v + 27.8) / v).
(* The volume of the phase: the pressure is Pb there, and no volume has less Gibbs energy. *)
Definition stable_volume (T Pb v : R) : Prop := 27.8 < v /\ rk_pressure T v = Pb /\ forall v', 27.8 < v' -> rk_gibbs T Pb v <= rk_gibbs T Pb v'.
(* Helmholtz energy of n1 moles of carbon dioxide and n2 of water, less that of the
   ideal gases in the same volume, divided by R T; aw is the attraction between
   molecules of water. *)
Definition rk_energy (aw T v n1 n2 : R) : R :=
  let b := 27.8 * n1 + 18.18 * n2 in
  let d := a_co2 T * n1 ^ 2 + 2 * 7.89e+07 * n1 * n2 + aw * n2 ^ 2 in
  - (n1 + n2) * ln ((v - b) / v) - d / (Rbar * (T * sqrt T) * b) * ln ((v + b) / v).
(* The range of the model. *)
Definition in_range (T P : R) : Prop := 285.15 <= T <= 373.15 /\ 0 < P <= 600e5.
(* The volumes with pressure Pb are not close to being equal. *)
Definition apart (T Pb : R) : Prop :=
  / 2 ^ 52 * 100 < Rabs (discriminant (- (Rbar * T / Pb)) (a_co2 T / (Pb * sqrt T) - Rbar * T * 27.8 / Pb - 27.8 ^ 2) (- (a_co2 T * 27.8 / (Pb * sqrt T)))).

(* ---- Volumes ---- *)
Lemma bco2 : pe_bCO2 = 27.8. Proof. unfold pe_bCO2. lra. Qed.
Lemma sqrt_range T : 285.15 <= T <= 373.15 -> 0 < sqrt T < 19.4.
Proof.
  intros H. split; [apply sqrt_lt_R0; lra|]. assert (0 <= sqrt T) by apply sqrt_pos. assert (S : sqrt T * sqrt T = T) by (apply sqrt_sqrt; lra).
  destruct (Rlt_le_dec (sqrt T) 19.4) as [|L]; [assumption|]. exfalso. assert (19.4 * 19.4 <= sqrt T * sqrt T) by (apply Rmult_le_compat; lra). lra.
Qed.
Section Volume.
Variables (T Pb : R).
Hypotheses (HT : 285.15 <= T <= 373.15) (HP : 0 < Pb <= 600).
Let A := a_co2 T / sqrt T.
Let RT := Rbar * T.
Lemma A_big : 3000000 < A.
Proof.
  unfold A, a_co2. destruct (sqrt_range T HT) as [S0 S1]. apply Rmult_lt_reg_r with (sqrt T); [exact S0|]. unfold Rdiv. rewrite Rmult_assoc, Rinv_l, Rmult_1_r by lra. lra.
Qed.
Lemma RT_bound : 0 < RT < 32000.
Proof. unfold RT, Rbar. lra. Qed.
Lemma cubic_form V : Pb * realCubic (pe_b T Pb) (pe_c T Pb) (pe_d T Pb) V = Pb * (V * (V - 27.8) * (V + 27.8)) - RT * (V * (V + 27.8)) + A * (V - 27.8).
Proof.
  unfold realCubic, pe_b, pe_c, pe_d, A, RT. change (pe_aCO2 T) with (a_co2 T). change pe_R with Rbar. rewrite !bco2. destruct (sqrt_range T HT) as [S0 _]. field. lra.
Qed.
Lemma above V : realCubic (pe_b T Pb) (pe_c T Pb) (pe_d T Pb) V = 0 -> 27.8 < V.
Proof.
  intros Z. pose proof (cubic_form V) as E. rewrite Z, Rmult_0_r in E. pose proof A_big as HA. pose proof RT_bound as HR. clearbody A RT.
  destruct (Rlt_le_dec 27.8 V) as [|L]; [assumption|]. exfalso. destruct (Rle_lt_dec 0 V) as [H0|H0].
  - assert (0 <= Pb * (V * (27.8 - V) * (V + 27.8))) by (repeat apply Rmult_le_pos; lra). assert (0 <= RT * (V * (V + 27.8))) by (repeat apply Rmult_le_pos; lra). assert (0 <= A * (27.8 - V)) by (apply Rmult_le_pos; lra).
    assert (K1 : A * (27.8 - V) = 0) by lra. apply Rmult_integral in K1 as [K1|K1]; [lra|]. assert (V = 27.8) by lra. subst V. assert (0 < RT * (27.8 * (27.8 + 27.8))) by (repeat apply Rmult_lt_0_compat; lra). lra.
  - destruct (Rle_lt_dec V (-27.8)) as [H1|H1].
    + assert (0 <= Pb * (- V * (27.8 - V) * (- V - 27.8))) by (repeat apply Rmult_le_pos; lra). assert (0 <= RT * (- V * (- V - 27.8))) by (repeat apply Rmult_le_pos; lra). assert (0 < A * (27.8 - V)) by (apply Rmult_lt_0_compat; lra). lra.
    + set (u := - V) in *. assert (Hu : 0 < u < 27.8) by (unfold u; lra). replace V with (- u) in E by (unfold u; ring).
      assert (Q : u * (27.8 - u) <= 27.8 * 27.8 / 4) by (pose proof (pow2_ge_0 (u - 13.9)); lra). assert (Q0 : 0 < u * (27.8 - u)) by (apply Rmult_lt_0_compat; lra).
      assert (K1 : Pb * (u * (27.8 - u)) <= 600 * (27.8 * 27.8 / 4)) by (apply Rmult_le_compat; lra).
      assert (K2 : RT * (u * (27.8 - u)) <= 32000 * (27.8 * 27.8 / 4)) by (apply Rmult_le_compat; lra).
      assert (K3 : (u + 27.8) * (A - Pb * (u * (27.8 - u))) >= 27.8 * (3000000 - 600 * (27.8 * 27.8 / 4))). { apply Rle_ge, Rmult_le_compat; lra. }
      assert (E' : 0 = - ((u + 27.8) * (A - Pb * (u * (27.8 - u)))) + RT * (u * (27.8 - u))) by (rewrite E; ring). lra.
Qed.
Lemma pressure_at V : 27.8 < V -> Pb - rk_pressure T V = Pb * realCubic (pe_b T Pb) (pe_c T Pb) (pe_d T Pb) V / ((V - 27.8) * (V * (V + 27.8))).
Proof.
  intros H. rewrite cubic_form. unfold rk_pressure, A, RT. destruct (sqrt_range T HT) as [S0 _]. field. repeat split; lra.
Qed.
Lemma d_gibbs V : 27.8 < V -> is_derive (fun v => rk_gibbs T Pb v) V (Pb - rk_pressure T V).
Proof.
  intros H. unfold rk_gibbs, rk_pressure. destruct (sqrt_range T HT) as [S0 _]. auto_derive.
  - repeat split; try lra. apply Rmult_lt_0_compat; [lra|]. apply Rinv_0_lt_compat. lra.
  - field. repeat split; lra.
Qed.
(* Between two volumes where the cubic keeps its sign the energy moves one way. *)
Lemma rising x y : 27.8 < x -> x <= y -> (forall z, x <= z <= y -> 0 <= realCubic (pe_b T Pb) (pe_c T Pb) (pe_d T Pb) z) -> rk_gibbs T Pb x <= rk_gibbs T Pb y.
Proof.
  intros Hx Hxy H. destruct (MVT_gen (fun v => rk_gibbs T Pb v) x y (fun v => Pb - rk_pressure T v)) as (c & Hc & E).
  - rewrite Rmin_left, Rmax_right by exact Hxy. intros v Hv. apply d_gibbs. lra.
  - rewrite Rmin_left, Rmax_right by exact Hxy. intros v Hv. apply continuity_pt_filterlim. apply (ex_derive_continuous (fun v => rk_gibbs T Pb v)). eexists. apply d_gibbs. lra.
  - rewrite Rmin_left, Rmax_right in Hc by exact Hxy. assert (0 <= Pb - rk_pressure T c).
    { rewrite pressure_at by lra. apply Rdiv_le_0_compat; [apply Rmult_le_pos; [lra|apply H; exact Hc]|]. repeat apply Rmult_lt_0_compat; lra. }
    assert (0 <= (Pb - rk_pressure T c) * (y - x)) by (apply Rmult_le_pos; lra). lra.
Qed.
Lemma falling x y : 27.8 < x -> x <= y -> (forall z, x <= z <= y -> realCubic (pe_b T Pb) (pe_c T Pb) (pe_d T Pb) z <= 0) -> rk_gibbs T Pb y <= rk_gibbs T Pb x.
Proof.
  intros Hx Hxy H. destruct (MVT_gen (fun v => rk_gibbs T Pb v) x y (fun v => Pb - rk_pressure T v)) as (c & Hc & E).
  - rewrite Rmin_left, Rmax_right by exact Hxy. intros v Hv. apply d_gibbs. lra.
  - rewrite Rmin_left, Rmax_right by exact Hxy. intros v Hv. apply continuity_pt_filterlim. apply (ex_derive_continuous (fun v => rk_gibbs T Pb v)). eexists. apply d_gibbs. lra.
  - rewrite Rmin_left, Rmax_right in Hc by exact Hxy. assert (0 <= - (Pb - rk_pressure T c)).
    { rewrite pressure_at by lra. replace (- (Pb * realCubic (pe_b T Pb) (pe_c T Pb) (pe_d T Pb) c / ((c - 27.8) * (c * (c + 27.8))))) with (Pb * - realCubic (pe_b T Pb) (pe_c T Pb) (pe_d T Pb) c / ((c - 27.8) * (c * (c + 27.8)))) by (field; repeat split; lra).
      apply Rdiv_le_0_compat; [apply Rmult_le_pos; [lra|specialize (H c Hc); lra]|]. repeat apply Rmult_lt_0_compat; lra. }
    assert (0 <= - (Pb - rk_pressure T c) * (y - x)) by (apply Rmult_le_pos; lra). lra.
Qed.
Lemma choice Vl Vg : 27.8 < Vl -> 27.8 < Vg ->
  pe_select T Pb Vl Vg = (if Rlt_dec (rk_gibbs T Pb Vl) (rk_gibbs T Pb Vg) then Vl else Vg).
Proof.
  intros Hl Hg. unfold pe_select. cbn zeta. change (pe_aCO2 T) with (a_co2 T). change pe_R with Rbar. rewrite !bco2.
  assert (E : Pb * (Vg - Vl) - (Rbar * T * ln ((Vg - 27.8) / (Vl - 27.8)) + a_co2 T / (sqrt T * 27.8) * ln ((Vg + 27.8) / (Vl + 27.8) * Vl / Vg)) = rk_gibbs T Pb Vg - rk_gibbs T Pb Vl).
  { unfold rk_gibbs. replace ((Vg + 27.8) / (Vl + 27.8) * Vl / Vg) with ((Vg + 27.8) / Vg / ((Vl + 27.8) / Vl)) by (field; repeat split; lra).
    rewrite (ln_div (Vg - 27.8)), (ln_div ((Vg + 27.8) / Vg)) by (try apply Rdiv_lt_0_compat; lra). ring. }
  destruct (Rlt_dec _ _) as [L|L]; destruct (Rlt_dec _ _) as [L'|L']; try reflexivity; exfalso; lra.
Qed.
Lemma volume : apart T Pb -> exists v, volumeCO2 T Pb = Ok v /\ stable_volume T Pb v.
Proof.
  intros HD. unfold apart in HD. replace (- (Rbar * T / Pb)) with (pe_b T Pb) in HD by (unfold pe_b; change pe_R with Rbar; field; lra).
  replace (a_co2 T / (Pb * sqrt T) - Rbar * T * 27.8 / Pb - 27.8 ^ 2) with (pe_c T Pb) in HD by (unfold pe_c; change pe_R with Rbar; change (pe_aCO2 T) with (a_co2 T); rewrite !bco2; destruct (sqrt_range T HT); field; lra).
  replace (- (a_co2 T * 27.8 / (Pb * sqrt T))) with (pe_d T Pb) in HD by (unfold pe_d; change (pe_aCO2 T) with (a_co2 T); rewrite !bco2; destruct (sqrt_range T HT); field; lra).
  replace (/ 2 ^ 52 * 100) with eps in HD by (unfold eps; ring). pose proof eps_pos as EP.
  assert (RootP : forall v, realCubic (pe_b T Pb) (pe_c T Pb) (pe_d T Pb) v = 0 -> rk_pressure T v = Pb).
  { intros v Z. pose proof (above v Z) as Hv. pose proof (pressure_at v Hv) as E. rewrite Z in E. unfold Rdiv in E. rewrite Rmult_0_r, Rmult_0_l in E. lra. }
  unfold volumeCO2. destruct (Rabs_gt _ _ EP HD) as [D|D].
  - destruct (single_sign _ _ _ D) as (s & Es & Sg). destruct (cardano_one_eq _ _ _ D) as (u & w & Hw & ->). cbn [bind fst snd]. destruct (Req_EM_T (- w) 0) as [Z|_]; [lra|].
    assert (S1 : single_root (pe_b T Pb) (pe_c T Pb) (pe_d T Pb) = s). { specialize (Es Vapor). unfold root in Es. rewrite (root_one Vapor _ _ _ D) in Es. exact Es. }
    rewrite S1. exists s. split; [reflexivity|]. assert (Z : realCubic (pe_b T Pb) (pe_c T Pb) (pe_d T Pb) s = 0) by (apply Sg; reflexivity).
    split; [apply above; exact Z|]. split; [apply RootP; exact Z|]. intros v' Hv'. pose proof (above s Z). destruct (Rle_lt_dec s v') as [L|L].
    + apply rising; try assumption. intros z Hz. destruct (Rle_lt_dec z s); [right; symmetry; apply Sg; lra|left; apply Sg; lra].
    + apply falling; try assumption; [lra|]. intros z Hz. destruct (Rle_lt_dec s z); [right; apply Sg; lra|left; apply Sg; lra].
  - destruct (cardano_three _ _ _ D) as (r0 & r1 & r2 & -> & E0 & E1 & E2 & L1 & L2). cbn [bind fst snd]. destruct (Req_EM_T 0 0) as [_|N]; [|contradiction].
    assert (F : forall z, realCubic (pe_b T Pb) (pe_c T Pb) (pe_d T Pb) z = (z - r0) * (z - r1) * (z - r2)).
    { intros z. unfold realCubic. rewrite <- E1. replace (pe_b T Pb) with (- (r0 + r1 + r2)) by lra. replace (pe_d T Pb) with (- (r0 * r1 * r2)) by lra. ring. }
    rewrite (Rmin_left r1 r2), (Rmin_left r0 r1), (Rmax_right r1 r2), (Rmax_right r0 r2) by lra.
    assert (Z0 : realCubic (pe_b T Pb) (pe_c T Pb) (pe_d T Pb) r0 = 0) by (rewrite F; ring). assert (Z2 : realCubic (pe_b T Pb) (pe_c T Pb) (pe_d T Pb) r2 = 0) by (rewrite F; ring).
    pose proof (above r0 Z0) as A0. pose proof (above r2 Z2) as A2. rewrite choice by assumption.
    assert (M : forall v', 27.8 < v' -> rk_gibbs T Pb r0 <= rk_gibbs T Pb v' \/ rk_gibbs T Pb r2 <= rk_gibbs T Pb v').
    { intros v' Hv'. destruct (Rle_lt_dec v' r0) as [K|K]; [left|destruct (Rle_lt_dec v' r1) as [K1|K1]; [left|destruct (Rle_lt_dec v' r2) as [K2|K2]; right]].
      - apply falling; try assumption. intros z Hz. rewrite F. assert (0 <= (r0 - z) * (r1 - z) * (r2 - z)) by (repeat apply Rmult_le_pos; lra). lra.
      - apply rising; try assumption; [lra|]. intros z Hz. rewrite F. assert (0 <= (z - r0) * (r1 - z) * (r2 - z)) by (repeat apply Rmult_le_pos; lra). lra.
      - apply falling; try assumption. intros z Hz. rewrite F. assert (0 <= (z - r0) * (z - r1) * (r2 - z)) by (repeat apply Rmult_le_pos; lra). lra.
      - apply rising; try assumption; [lra|]. intros z Hz. rewrite F. repeat apply Rmult_le_pos; lra. }
    destruct (Rlt_dec (rk_gibbs T Pb r0) (rk_gibbs T Pb r2)) as [K|K]; eexists; (split; [reflexivity|]).
    + split; [exact A0|]. split; [apply RootP; exact Z0|]. intros v' Hv'. destruct (M v' Hv'); lra.
    + split; [exact A2|]. split; [apply RootP; exact Z2|]. intros v' Hv'. destruct (M v' Hv'); lra.
Qed.
End Volume.

(* ---- Fugacity coefficients ---- *)
Lemma d_energy_co2 aw T v : 0 < T -> 27.8 < v -> forall Pb, 0 < Pb ->
  is_derive (fun n => rk_energy aw T v n 0) 1 (pe_lnphi (pe_aCO2 T) pe_bCO2 T Pb v + ln (Pb * v / (Rbar * T))).
Proof.
  intros HT Hv Pb HP. assert (S0 : 0 < sqrt T) by (apply sqrt_lt_R0; exact HT). unfold rk_energy, pe_lnphi. cbn zeta. change (pe_aCO2 T) with (a_co2 T). change pe_R with Rbar. rewrite !bco2.
  replace (ln (v / (v - 27.8))) with (- ln ((v - 27.8) / v)). 2: { rewrite <- ln_Rinv by (apply Rdiv_lt_0_compat; lra). f_equal. field. split; lra. }
  assert (HR : Rbar <> 0) by (unfold Rbar; lra).
  auto_derive.
  - replace (27.8 * 1 + 18.18 * 0) with 27.8 by ring. repeat split; try lra.
    + apply Rmult_lt_0_compat; [lra|apply Rinv_0_lt_compat; lra].
    + apply Rmult_integral_contrapositive_currified; [apply Rmult_integral_contrapositive_currified; [exact HR|apply Rmult_integral_contrapositive_currified; lra]|lra].
    + apply Rmult_lt_0_compat; [lra|apply Rinv_0_lt_compat; lra].
  - replace (27.8 * 1 + 18.18 * 0) with 27.8 by ring. change (v + - (27.8)) with (v - 27.8). fold (Rdiv (v - 27.8) v) (Rdiv (v + 27.8) v). generalize (ln ((v - 27.8) / v)) (ln ((v + 27.8) / v)). intros l1 l2. field. repeat split; lra.
Qed.
(* What the coefficient of water lacks. *)
Definition missing (T v : R) : R := 18.18 * a_co2 T / (Rbar * (T * sqrt T) * 27.8 ^ 2) * ln ((v + 27.8) / (v + 18.18)).
Lemma missing_pos T v : 285.15 <= T <= 373.15 -> 27.8 < v -> 0 < missing T v.
Proof.
  intros HT Hv. unfold missing. destruct (sqrt_range T HT) as [S0 _]. assert (HR : 0 < Rbar) by (unfold Rbar; lra). assert (HA : 0 < a_co2 T) by (unfold a_co2; lra). apply Rmult_lt_0_compat.
  - apply Rdiv_lt_0_compat; [apply Rmult_lt_0_compat; [lra|exact HA]|]. apply Rmult_lt_0_compat; [apply Rmult_lt_0_compat; [exact HR|apply Rmult_lt_0_compat; lra]|apply pow_lt; lra].
  - rewrite <- ln_1. apply ln_increasing; [lra|]. apply Rmult_lt_reg_r with (v + 18.18); [lra|]. unfold Rdiv. rewrite Rmult_assoc, Rinv_l by lra. lra.
Qed.
Lemma d_energy_h2o aw T v : 0 < T -> 27.8 < v -> forall Pb, 0 < Pb ->
  is_derive (fun n => rk_energy aw T v 1 n) 0 (pe_lnphi pe_aH2OCO2 pe_bH2O T Pb v + ln (Pb * v / (Rbar * T)) + missing T v).
Proof.
  intros HT Hv Pb HP. assert (S0 : 0 < sqrt T) by (apply sqrt_lt_R0; exact HT). unfold rk_energy, pe_lnphi, missing. cbn zeta. change (pe_aCO2 T) with (a_co2 T). change pe_R with Rbar. rewrite !bco2. change pe_bH2O with 18.18. change pe_aH2OCO2 with 7.89e+07.
  replace (ln (v / (v - 27.8))) with (- ln ((v - 27.8) / v)). 2: { rewrite <- ln_Rinv by (apply Rdiv_lt_0_compat; lra). f_equal. field. split; lra. }
  replace ((v + 27.8) / (v + 18.18)) with ((v + 27.8) / v / ((v + 18.18) / v)) by (field; split; lra). rewrite (ln_div ((v + 27.8) / v)) by (apply Rdiv_lt_0_compat; lra).
  assert (HR : Rbar <> 0) by (unfold Rbar; lra).
  auto_derive.
  - replace (27.8 * 1 + 18.18 * 0) with 27.8 by ring. repeat split; try lra.
    + apply Rmult_lt_0_compat; [lra|apply Rinv_0_lt_compat; lra].
    + apply Rmult_integral_contrapositive_currified; [apply Rmult_integral_contrapositive_currified; [exact HR|apply Rmult_integral_contrapositive_currified; lra]|lra].
    + apply Rmult_lt_0_compat; [lra|apply Rinv_0_lt_compat; lra].
  - replace (27.8 * 1 + 18.18 * 0) with 27.8 by ring. change (v + - (27.8)) with (v - 27.8). fold (Rdiv (v - 27.8) v) (Rdiv (v + 27.8) v). generalize (ln ((v - 27.8) / v)) (ln ((v + 27.8) / v)) (ln ((v + 18.18) / v)). intros l1 l2 l3. field. repeat split; lra.
Qed.

(* ---- C108 ---- *)
(* The whole property: the volume is that of the stable phase, and the fugacity
   coefficients are the derivatives of its energy. *)
Definition C108_statement : Prop := forall l f T P x p, spycherPruessEnnis l = Ok f -> in_range T P -> apart T (P * 1e-5) ->
  exists q e v, f T P x p = Ok (q, e) /\ stable_volume T (P * 1e-5) v /\
    Vex q = v * 1e-6 - 8.31447 * T / P /\
    (forall k, first_with l $"CO2" k -> forall aw, is_derive (fun n => rk_energy aw T v n 0) 1 (ln_g q k + ln (P * 1e-5 * v / (Rbar * T)))) /\
    (forall k, first_with l $"H2O" k -> forall aw, is_derive (fun n => rk_energy aw T v 1 n) 0 (ln_g q k + ln (P * 1e-5 * v / (Rbar * T)))).
Lemma first_found l fm k : first_with l fm k -> findFormula l fm = Ok k /\ (k < length l)%nat.
Proof.
  intros H. apply index_first in H. unfold indexWithFormula in H. unfold findFormula. destruct (mkChemicalFormula fm) as [cf| |]; try discriminate. cbn [bind omap] in *.
  destruct (Nat.leb_spec (length l) (findWithFormula l cf)); [discriminate|]. injection H as <-. split; [reflexivity|exact H0].
Qed.
Lemma keys_of : exists a b, mkChemicalFormula $"H2O" = Ok a /\ mkChemicalFormula $"CO2" = Ok b /\
  length (cf_elements a) = 2%nat /\ In $"H" (map fst (cf_elements a)) /\ In $"O" (map fst (cf_elements a)) /\ In $"C" (map fst (cf_elements b)).
Proof.
  assert (E : match mkChemicalFormula $"H2O", mkChemicalFormula $"CO2" with Ok a, Ok b =>
    Nat.eqb (length (cf_elements a)) 2 && existsb (str_eqb $"H") (map fst (cf_elements a)) && existsb (str_eqb $"O") (map fst (cf_elements a)) && existsb (str_eqb $"C") (map fst (cf_elements b)) | _, _ => false end = true) by (vm_compute; reflexivity).
  destruct (mkChemicalFormula $"H2O") as [a| |]; try discriminate. destruct (mkChemicalFormula $"CO2") as [b| |]; try discriminate. exists a, b.
  rewrite !andb_true_iff, Nat.eqb_eq in E. destruct E as (((E1 & E2) & E3) & E4).
  assert (K : forall x l, existsb (str_eqb x) l = true -> In x l) by (intros x l H; apply existsb_exists in H as (y & I & E); apply str_eqb_eq in E; subst; exact I).
  auto 8.
Qed.
Lemma equivalent_keys f s : equivalent f (formula s) = true -> length (cf_elements f) = length (sp_elements s) /\ forall e, In e (map fst (cf_elements f)) -> In e (map fst (cf_elements (formula s))).
Proof.
  unfold equivalent. rewrite !andb_true_iff. intros H. assert (C : M_Chem.contained pair_eqb (cf_elements f) (cf_elements (formula s)) = true) by tauto. assert (L : Nat.eqb (length (cf_elements f)) (length (cf_elements (formula s))) = true) by tauto.
  split; [apply Nat.eqb_eq in L; rewrite L; cbn [formula cf_elements]; apply map_length|]. intros e I. apply in_map_iff in I as ((e', q) & <- & I). apply P_Chem.contained_spec with (1 := C) in I as (q' & I' & _). apply (in_map fst) in I'. exact I'.
Qed.
Lemma water_carbon_apart l i j : first_with l $"H2O" i -> first_with l $"CO2" j -> i <> j.
Proof.
  intros (a & s & Ea & Ns & Es & _) (b & s' & Eb & Ns' & Es' & _) ->. rewrite Ns in Ns'. injection Ns' as <-.
  destruct keys_of as (a' & b' & Ea' & Eb' & L & KH & KO & KC). rewrite Ea in Ea'. rewrite Eb in Eb'. injection Ea' as <-. injection Eb' as <-.
  destruct (equivalent_keys a s Es) as [L1 K1]. destruct (equivalent_keys b s Es') as [_ K2].
  assert (N : NoDup [$"H"; $"O"; $"C"]) by (repeat constructor; cbn [In]; intuition discriminate).
  assert (I : incl [$"H"; $"O"; $"C"] (map fst (cf_elements (formula s)))) by (intros e [<-|[<-|[<-|[]]]]; auto).
  apply NoDup_incl_length in I; [|exact N]. rewrite map_length in I. cbn [formula cf_elements] in I. rewrite map_length in I. cbn [length] in I. lia.
Qed.
(* Every computation succeeds with the volume of the stable phase; the excess volume is
   wrong by nine times the volume of an ideal gas, and the coefficient of carbon
   dioxide is right. *)
Theorem C108_volume_partial : forall l f T P x p, spycherPruessEnnis l = Ok f -> in_range T P -> apart T (P * 1e-5) ->
  exists q e v, f T P x p = Ok (q, e) /\ stable_volume T (P * 1e-5) v /\
    Vex q = v * 1e-6 - 8.31447 * T / P - 9 * (8.31447 * T / P) /\
    (forall k, first_with l $"CO2" k -> forall aw, is_derive (fun n => rk_energy aw T v n 0) 1 (ln_g q k + ln (P * 1e-5 * v / (Rbar * T)))) /\
    (forall k, first_with l $"H2O" k -> forall aw, is_derive (fun n => rk_energy aw T v 1 n) 0 (ln_g q k + ln (P * 1e-5 * v / (Rbar * T)) + missing T v)) /\
    0 < missing T v /\
    (forall k, first_with l $"CO2" k \/ first_with l $"H2O" k -> ln_a q k = ln (x k) + ln (P * 1e-5) + ln_g q k) /\
    (forall k, ~ first_with l $"CO2" k -> ~ first_with l $"H2O" k -> ln_a q k = ln (x k) + ln (P * 1e-5) /\ ln_g q k = ln_g (fst p) k) /\
    VexT q = VexT (fst p) /\ VexP q = VexP (fst p) /\ Gex q = Gex (fst p) /\ Hex q = Hex (fst p) /\ Cpex q = Cpex (fst p) /\ Cvex q = Cvex (fst p).
Proof.
  intros l f T P x p Hf [HT HP] HD. unfold spycherPruessEnnis in Hf. destruct (findFormula l $"H2O") as [iw| |] eqn:Ew; try discriminate. destruct (findFormula l $"CO2") as [ic| |] eqn:Ec; try discriminate. cbn [bind] in Hf. injection Hf as <-.
  assert (HPb : 0 < P * 1e-5 <= 600) by lra. destruct (volume T (P * 1e-5) HT HPb HD) as (v & Ev & HV). assert (Hv : 27.8 < v) by apply HV.
  unfold pe_fn. cbn zeta. replace (P * 1.0e-5) with (P * 1e-5) by lra. rewrite Ev. cbn [bind]. eexists _, _, v. split; [reflexivity|]. split; [exact HV|]. cbn [Vex ln_g ln_a VexT VexP Gex Hex Cpex Cvex fst].
  assert (FW : forall fm i k, findFormula l fm = Ok i -> first_with l fm k -> i = k /\ (k < length l)%nat).
  { intros fm i k E H. apply first_found in H as [H L]. rewrite E in H. injection H as ->. split; [reflexivity|exact L]. }
  assert (WF : forall fm i, findFormula l fm = Ok i -> (i < length l)%nat -> first_with l fm i).
  { intros fm i E L. apply index_first. unfold indexWithFormula. unfold findFormula in E. destruct (mkChemicalFormula fm) as [cf| |]; try discriminate. cbn [omap bind] in *. injection E as <-. destruct (Nat.leb_spec (length l) (findWithFormula l cf)); [lia|reflexivity]. }
  assert (GC : forall k (g : nat -> R) u, first_with l $"CO2" k -> (if Nat.ltb ic (length l) then set_at g ic u else g) k = u).
  { intros k g u H. destruct (FW _ _ _ Ec H) as [-> L]. apply Nat.ltb_lt in L. rewrite L. unfold set_at. rewrite Nat.eqb_refl. reflexivity. }
  assert (GW : forall k (g : nat -> R) u w, first_with l $"H2O" k -> (if Nat.ltb ic (length l) then set_at (if Nat.ltb iw (length l) then set_at g iw w else g) ic u else (if Nat.ltb iw (length l) then set_at g iw w else g)) k = w).
  { intros k g u w H. destruct (FW _ _ _ Ew H) as [-> L]. assert (L' := L). apply Nat.ltb_lt in L. rewrite L. destruct (Nat.ltb_spec ic (length l)) as [L2|L2].
    - unfold set_at. destruct (Nat.eqb_spec k ic) as [->|]; [|rewrite Nat.eqb_refl; reflexivity]. exfalso. exact (water_carbon_apart l ic ic H (WF _ _ Ec L2) eq_refl).
    - unfold set_at. rewrite Nat.eqb_refl. reflexivity. }
  split; [unfold pe_R, Rdiv; generalize (/ P); intros; lra|]. split; [|split; [|split; [|split; [|split]]]].
  - intros k Hk aw. rewrite (GC k _ _ Hk). apply d_energy_co2; lra.
  - intros k Hk aw. rewrite (GW k _ _ _ Hk). apply d_energy_h2o; lra.
  - apply missing_pos; assumption.
  - intros k [Hk|Hk].
    + rewrite !(GC k _ _ Hk). destruct (FW _ _ _ Ec Hk) as [-> L]. destruct (Nat.ltb_spec iw (length l)) as [L2|L2]; [|reflexivity]. unfold set_at. destruct (Nat.eqb_spec k iw) as [->|]; [|reflexivity].
      exfalso. exact (water_carbon_apart l iw iw (WF _ _ Ew L2) Hk eq_refl).
    + rewrite !(GW k _ _ _ Hk). destruct (FW _ _ _ Ew Hk) as [-> L]. reflexivity.
  - intros k Hc Hw. assert (Nc : (if Nat.ltb ic (length l) then Nat.eqb k ic else false) = false). { destruct (Nat.ltb_spec ic (length l)) as [L|]; [|reflexivity]. apply Nat.eqb_neq. intros ->. apply Hc. apply WF; assumption. }
    assert (Nw : (if Nat.ltb iw (length l) then Nat.eqb k iw else false) = false). { destruct (Nat.ltb_spec iw (length l)) as [L|]; [|reflexivity]. apply Nat.eqb_neq. intros ->. apply Hw. apply WF; assumption. }
    destruct (Nat.ltb ic (length l)), (Nat.ltb iw (length l)); unfold set_at; rewrite ?Nc, ?Nw; split; reflexivity.
  - repeat split.
Qed.
Print Assumptions C108_volume_partial.
(* A state in the range. *)
Lemma apart_324 : apart 324 (1e5 * 1e-5).
Proof.
  unfold apart. assert (S : sqrt 324 = 18) by (replace 324 with (18 * 18) by lra; apply sqrt_square; lra). rewrite S.
  assert (E : / 2 ^ 52 * 100 < 1) by lra.
  eapply Rlt_le_trans; [exact E|]. eapply Rle_trans; [|apply Rle_abs]. unfold discriminant, realCubic, a_co2, Rbar. lra.
Qed.
Definition carbonic : list Species := [gH2O; gCO2].
Lemma carbonic_first : first_with carbonic $"H2O" 0 /\ first_with carbonic $"CO2" 1.
Proof.
  destruct supported_parse as (a & b & c & Ea & Eb & _ & Q). assert (HP := proj1 gases_distinct). cbn [In] in HP.
  assert (Fa : formula gH2O = a). { specialize (HP gH2O ltac:(auto)). change (sp_formula gH2O) with $"H2O" in HP. rewrite Ea in HP. congruence. }
  assert (Fb : formula gCO2 = b). { specialize (HP gCO2 ltac:(auto)). change (sp_formula gCO2) with $"CO2" in HP. rewrite Eb in HP. congruence. }
  split.
  - exists a, gH2O. rewrite Fa. split; [exact Ea|]. split; [reflexivity|]. split; [tauto|]. intros j s' Hj. lia.
  - exists b, gCO2. rewrite Fb. split; [exact Eb|]. split; [reflexivity|]. split; [tauto|]. intros j s' Hj Hn. assert (j = 0%nat) by lia. subst j. cbn [nth_error carbonic] in Hn. injection Hn as <-. rewrite Fa. tauto.
Qed.
Lemma carbonic_ok : exists f, spycherPruessEnnis carbonic = Ok f.
Proof. destruct carbonic_first as [A B]. apply first_found in A as [A _]. apply first_found in B as [B _]. unfold spycherPruessEnnis. rewrite A, B. cbn [bind]. eexists. reflexivity. Qed.
Theorem C108_refuted : ~ C108_statement.
Proof.
  intros H. destruct carbonic_ok as (f & Hf). assert (R : in_range 324 1e5) by (unfold in_range; lra).
  destruct (H carbonic f 324 1e5 (fun _ => 1) (constProps 0, None) Hf R apart_324) as (q & e & v & E & HV & EV & _).
  destruct (C108_volume_partial carbonic f 324 1e5 (fun _ => 1) (constProps 0, None) Hf R apart_324) as (q' & e' & v' & E' & HV' & EV' & _).
  rewrite E in E'. injection E' as <- <-. assert (D : v' - v = 9 * (83.1447 * 324)) by lra. destruct HV as (Hv & _). destruct HV' as (Hv' & HP' & _).
  unfold rk_pressure, Rbar in HP'. assert (S : sqrt 324 = 18) by (replace 324 with (18 * 18) by lra; apply sqrt_square; lra). rewrite S in HP'.
  assert (0 < a_co2 324 / (18 * v' * (v' + 27.8))) by (apply Rdiv_lt_0_compat; [unfold a_co2; lra|repeat apply Rmult_lt_0_compat; lra]).
  assert (K : 1 < 83.1447 * 324 / (v' - 27.8)) by lra. apply (Rmult_lt_compat_r (v' - 27.8)) in K; [|lra]. unfold Rdiv in K. rewrite Rmult_assoc, Rinv_l in K by lra. lra.
Qed.
Print Assumptions C108_refuted.
(* The coefficient of water is not that derivative in any state of the range. *)
Theorem C108_water_refuted : forall l f T P x p k, spycherPruessEnnis l = Ok f -> in_range T P -> apart T (P * 1e-5) -> first_with l $"H2O" k ->
  exists q e v, f T P x p = Ok (q, e) /\ stable_volume T (P * 1e-5) v /\
    forall aw, ~ is_derive (fun n => rk_energy aw T v 1 n) 0 (ln_g q k + ln (P * 1e-5 * v / (Rbar * T))).
Proof.
  intros l f T P x p k Hf HR HD Hk. destruct (C108_volume_partial l f T P x p Hf HR HD) as (q & e & v & E & HV & _ & _ & W & M & _). exists q, e, v. split; [exact E|]. split; [exact HV|].
  intros aw D. specialize (W k Hk aw). apply is_derive_unique in D. apply is_derive_unique in W. lra.
Qed.
Print Assumptions C108_water_refuted.
Example C108_nonvacuous : exists f, spycherPruessEnnis carbonic = Ok f /\ in_range 324 1e5 /\ apart 324 (1e5 * 1e-5) /\ first_with carbonic $"H2O" 0 /\ first_with carbonic $"CO2" 1.
Proof. destruct carbonic_ok as (f & Hf). exists f. split; [exact Hf|]. split; [unfold in_range; lra|]. split; [exact apart_324|exact carbonic_first]. Qed.
