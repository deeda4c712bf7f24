(* C89: standard properties of aqueous solutes and of water in the HKF model. *)
From Coq Require Import Reals List ZArith Lia Lra.
From Coquelicot Require Import Coquelicot.
From Verif Require Import Base M_Helmholtz M_Water M_HKF S_Water P_Helmholtz P_Water C_Helmholtz C_Water C_Electro P_HKF.
From Verif Require M_Thermo.
Local Open Scope R_scope.

Definition standard_identities (F : R -> R -> M_Thermo.StdProps) (k T P : R) : Prop :=
  StandardIdentities (fun T P => M_Thermo.G0 (F T P)) (fun T P => M_Thermo.H0 (F T P)) (fun T P => M_Thermo.V0 (F T P))
    (fun T P => M_Thermo.Cp0 (F T P)) k T P.

(* The water state W meets the conditions under which the electrostatic
   properties of water and of solutes are computed without a division by zero,
   and (T, P) is not on the border between two regions of the g function. *)
Definition water_regular (W : R -> R -> WaterThermoState) (T P : R) : Prop :=
  density_derivatives_hold W T P /\ coefficients_nonzero T /\ 0 < w_density (W T P) /\
  w_densityT (W T P) <> 0 /\ w_densityP (W T P) <> 0 /\ e_epsilon (electro W T P) <> 0 /\ inside T P (w_density (W T P)).

Lemma stdHKF_D p (wes : R -> R -> WaterElectroState) (aes : R -> R -> Electro) T P :
  228 < T -> 0 <= P ->
  Differentials2 (fun T P => e_bornZ (wes T P)) (fun T P => e_bornY (wes T P)) (fun T P => e_bornQ (wes T P))
    (fun T P => e_bornX (wes T P)) (fun T P => e_bornU (wes T P)) (fun T P => e_bornN (wes T P)) T P ->
  Differentials2 (fun T P => s_w (aes T P)) (fun T P => s_wT (aes T P)) (fun T P => s_wP (aes T P))
    (fun T P => s_wTT (aes T P)) (fun T P => s_wTP (aes T P)) (fun T P => s_wPP (aes T P)) T P ->
  standard_identities (fun T P => stdHKF p (wes T P) (aes T P) T P) (k_Hf p - k_Gf p - 298.15 * k_Sr p) T P.
Proof.
  intros HT HP [A B C] [A' B' C'].
  set (lP := fun P => ln ((260000000 + P) / 260100000)).
  set (lT := fun T => ln (T / (29815 / 100))).
  set (lt := fun T => ln (29815 / 100 / T * (T - 228) / (29815 / 100 - 228))).
  set (std := fun T P => let w := s_w (aes T P) in let wT := s_wT (aes T P) in let wP := s_wP (aes T P) in let wTT := s_wTT (aes T P) in
    let Z := e_bornZ (wes T P) in let Y := e_bornY (wes T P) in let Q := e_bornQ (wes T P) in let X := e_bornX (wes T P) in
    M_Thermo.mkStdProps
     (k_Gf p - k_Sr p * (T - 29815 / 100) - k_c1 p * (T * lT T - T + 29815 / 100)
      + k_a1 p * (P - 100000) + k_a2 p * lP P
      - k_c2 p * ((1 / (T - 228) - 1 / (29815 / 100 - 228)) * (228 - T) / 228 - T / (228 * 228) * lt T)
      + 1 / (T - 228) * (k_a3 p * (P - 100000) + k_a4 p * lP P)
      - w * (Z + 1) + k_wref p * (k_Zr + 1) + k_wref p * k_Yr * (T - 29815 / 100))
     (k_Hf p + k_c1 p * (T - 29815 / 100) - k_c2 p * (1 / (T - 228) - 1 / (29815 / 100 - 228))
      + k_a1 p * (P - 100000) + k_a2 p * lP P
      + (2 * T - 228) / ((T - 228) * (T - 228)) * (k_a3 p * (P - 100000) + k_a4 p * lP P)
      - w * (Z + 1) + w * T * Y + T * (Z + 1) * wT + k_wref p * (k_Zr + 1) - k_wref p * (29815 / 100) * k_Yr)
     (k_a1 p + k_a2 p / (260000000 + P) + (k_a3 p + k_a4 p / (260000000 + P)) / (T - 228) - w * Q - (Z + 1) * wP)
     (k_c1 p + k_c2 p / ((T - 228) * (T - 228)) - 2 * T / ((T - 228) * ((T - 228) * (T - 228))) * (k_a3 p * (P - 100000) + k_a4 p * lP P)
      + w * T * X + 2 * T * Y * wT + T * (Z + 1) * wTT)
     (k_c1 p + k_c2 p / ((T - 228) * (T - 228)) - 2 * T / ((T - 228) * ((T - 228) * (T - 228))) * (k_a3 p * (P - 100000) + k_a4 p * lP P)
      + w * T * X + 2 * T * Y * wT + T * (Z + 1) * wTT)).
  assert (Estd : forall T P, stdHKF p (wes T P) (aes T P) T P = std T P).
  { intros x y. unfold stdHKF, std, lP, lT, lt, k_Tr, k_Pr, k_theta, k_psi. cbv zeta.
    replace 298.15 with (29815 / 100) by lra. replace 228.0 with 228 by lra. replace 1.0e5 with 100000 by lra.
    replace 2600.0e5 with 260000000 by lra. replace (260000000 + 100000) with 260100000 by lra. reflexivity. }
  assert (JlP : JD (fun _ P => lP P) T P 0 (1 / (260000000 + P))).
  { unfold lP. jj; [lra|apply Rdiv_lt_0_compat; lra|field; lra|field; lra]. }
  assert (JlT : JD (fun T _ => lT T) T P (1 / T) 0).
  { unfold lT. jj; [lra|apply Rdiv_lt_0_compat; lra|field; lra|field; lra]. }
  assert (Jlt : JD (fun T _ => lt T) T P (1 / (T - 228) - 1 / T) 0).
  { unfold lt. jj; [lra|lra| |field; lra|field; lra].
    apply Rdiv_lt_0_compat; [|lra]. apply Rmult_lt_0_compat; [apply Rdiv_lt_0_compat|]; lra. }
  assert (K : JD (fun T P => M_Thermo.G0 (std T P)) T P (- ((M_Thermo.H0 (std T P) - M_Thermo.G0 (std T P) - (k_Hf p - k_Gf p - 29815 / 100 * k_Sr p)) / T)) (M_Thermo.V0 (std T P))).
  { unfold std; cbv zeta; cbn [M_Thermo.G0 M_Thermo.H0 M_Thermo.V0]. fold (lP P) (lT T) (lt T).
    generalize k_Zr k_Yr. intros Zr Yr.
    jj; [lra..|field; lra|field; lra]. }
  assert (KH : exists hP : R, JD (fun T P => M_Thermo.H0 (std T P)) T P (M_Thermo.Cp0 (std T P)) hP).
  { eexists. unfold std; cbv zeta; cbn [M_Thermo.H0 M_Thermo.Cp0]. fold (lP P).
    generalize k_Zr k_Yr. intros Zr Yr.
    assert ((T - 228) * (T - 228) <> 0) by (apply Rmult_integral_contrapositive_currified; lra).
    jj; [lra..|field; lra|reflexivity]. }
  destruct KH as [hP KH].
  assert (E298 : 298.15 = 29815 / 100) by lra.
  assert (X : forall f, (fun T P => f (stdHKF p (wes T P) (aes T P) T P) : R) T P = f (std T P)) by (intros f; cbv beta; rewrite Estd; reflexivity).
  assert (XD : forall (f : M_Thermo.StdProps -> R) a b, JD (fun T P => f (std T P)) T P a b -> JD (fun T P => f (stdHKF p (wes T P) (aes T P) T P)) T P a b).
  { intros f a b. apply differentiable_pt_lim_ext. apply locally_2d_forall. intros x y. rewrite Estd. reflexivity. }
  rewrite E298. split; cbv beta.
  - rewrite !Estd. apply (XD M_Thermo.G0). exact K.
  - exists hP. rewrite Estd. apply (XD M_Thermo.H0). exact KH.
  - eexists. rewrite Estd. apply XD in K, KH. jj; [lra| |reflexivity]. rewrite !Estd. field. lra.
Qed.

Theorem C89_solute (p : HKF) (W : R -> R -> WaterThermoState) (T P : R) :
  228 < T -> 0 <= P -> water_regular W T P -> radii_nonzero p (g_ (gHKF T P (W T P))) ->
  standard_identities (fun T P => StandardThermoModelHKF p (W T P) T P) (k_Hf p - k_Gf p - 298.15 * k_Sr p) T P.
Proof.
  intros HT HP (HW & HK & Hr & HrT & HrP & He & Hin) Hn. unfold StandardThermoModelHKF.
  apply (stdHKF_D p (fun T P => electro W T P) (fun T P => speciesElectroPropsHKF (gHKF T P (W T P)) p) T P HT HP).
  - apply (C88_born W T P); try assumption; lra.
  - apply (electro_D p (fun T P => gHKF T P (W T P))); [|exact Hn]. apply DG_gHKF; assumption.
Qed.
Print Assumptions C89_solute.

(* The reported entropy (H0 - G0)/T is the derivative of the Gibbs energy exactly
   when the parameters are on one scale, Gf = Hf - Tr Sr. *)
Theorem C89_entropy (p : HKF) (W : R -> R -> WaterThermoState) (T P : R) :
  228 < T -> 0 <= P -> water_regular W T P -> radii_nonzero p (g_ (gHKF T P (W T P))) ->
  let F := fun T P => StandardThermoModelHKF p (W T P) T P in
  (is_derive (fun x => M_Thermo.G0 (F x P)) T (- ((M_Thermo.H0 (F T P) - M_Thermo.G0 (F T P)) / T)) <-> k_Gf p = k_Hf p - 298.15 * k_Sr p).
Proof.
  intros HT HP HW Hn F. destruct (C89_solute p W T P HT HP HW Hn) as [HG _ _]. cbv beta in HG. change (fun T P => StandardThermoModelHKF p (W T P) T P) with F in HG.
  apply jd_derive in HG. destruct HG as [HG _]. cbv beta in HG. fold (F T P) in HG.
  split.
  - intros H. pose proof (eq_trans (eq_sym (is_derive_unique _ _ _ H)) (is_derive_unique _ _ _ HG)) as HG'. clear HG. rename HG' into HG.
    apply (f_equal (fun x => - x * T)) in HG. unfold Rdiv in HG.
    replace (- - ((M_Thermo.H0 (F T P) - M_Thermo.G0 (F T P)) * / T) * T) with (M_Thermo.H0 (F T P) - M_Thermo.G0 (F T P)) in HG by (field; lra).
    replace (- - ((M_Thermo.H0 (F T P) - M_Thermo.G0 (F T P) - (k_Hf p - k_Gf p - 298.15 * k_Sr p)) * / T) * T)
      with (M_Thermo.H0 (F T P) - M_Thermo.G0 (F T P) - (k_Hf p - k_Gf p - 298.15 * k_Sr p)) in HG by (field; lra).
    lra.
  - intros E. eapply d_val; [exact HG|]. rewrite E. field. lra.
Qed.
Print Assumptions C89_entropy.

(* With the Wagner and Pruss equation of state for water. *)
Theorem C89_wagner_pruss (p : HKF) (r : R -> R -> R) (T P : R) :
  let W := state_with waterHelmholtzStateWagnerPruss r in
  228 < T -> r T P <> 322 -> solves_eos waterHelmholtzStateWagnerPruss r T P ->
  coefficients_nonzero T -> w_densityT (W T P) <> 0 -> e_epsilon (electro W T P) <> 0 -> inside T P (r T P) ->
  radii_nonzero p (g_ (gHKF T P (W T P))) ->
  standard_identities (fun T P => StandardThermoModelHKF p (W T P) T P) (k_Hf p - k_Gf p - 298.15 * k_Sr p) T P.
Proof.
  intros W HT Hr Hs HK Hn He Hin Hrad. destruct (C50_wagner_pruss_partial r T P ltac:(lra) Hr Hs) as (Hd & _ & _ & HD). fold W in Hd, HD.
  assert (HP : 0 < P /\ 0 < r T P) by (destruct Hs as (_ & [d Hd'] & _); split; apply (Hd' T P); rewrite Rminus_eq_0, Rabs_R0; apply cond_pos).
  apply C89_solute; [exact HT|lra| |exact Hrad].
  split; [exact (HD Hn)|]. split; [exact HK|]. rewrite Hd. split; [apply HP|]. split; [exact Hn|]. split; [|split; assumption].
  intros Z. apply Hn. unfold W, state_with, waterThermoState in Z |- *. cbv zeta in Z |- *. cbn [w_densityT w_densityP] in Z |- *.
  unfold Rdiv in Z |- *. rewrite Rmult_1_l in Z. rewrite Z. ring.
Qed.
Print Assumptions C89_wagner_pruss.

(* At the reference conditions, and where the solvent has its reference Born
   functions and the g function vanishes with its first derivatives, the model
   returns the given formation properties. *)
Theorem C89_reference (p : HKF) (wes : WaterElectroState) :
  e_bornZ wes = -1.278055636e-02 -> e_bornY wes = -5.795424563e-05 ->
  (k_charge p <> 0 -> k_wref p / 6.94656968e+05 + k_charge p / 3.082 <> 0) ->
  let s := stdHKF p wes (speciesElectroPropsHKF (mkG 0 0 0 0 0 0) p) 298.15 1e5 in
  s_w (speciesElectroPropsHKF (mkG 0 0 0 0 0 0) p) = k_wref p /\ M_Thermo.G0 s = k_Gf p /\ M_Thermo.H0 s = k_Hf p.
Proof.
  intros HZ HY Hn.
  assert (Hw : s_w (speciesElectroPropsHKF (mkG 0 0 0 0 0 0) p) = k_wref p).
  { unfold speciesElectroPropsHKF. destruct (Req_EM_T (k_charge p) 0) as [Z|Z]; [reflexivity|].
    cbv zeta. cbn [s_w g_]. specialize (Hn Z). fold eta in Hn. assert (0 < eta) by (unfold eta; lra).
    set (c := 3.082) in *. assert (0 < c) by (unfold c; lra). set (q := k_wref p / eta + k_charge p / c) in *.
    replace (k_charge p * k_charge p / (k_charge p * k_charge p / q + Rabs (k_charge p) * 0) - k_charge p / (c + 0)) with (q - k_charge p / c) by (field; repeat split; lra).
    unfold q. field. lra. }
  assert (HwT : s_wT (speciesElectroPropsHKF (mkG 0 0 0 0 0 0) p) = 0).
  { unfold speciesElectroPropsHKF. destruct (Req_EM_T (k_charge p) 0) as [Z|Z]; [reflexivity|]. cbv zeta. cbn [s_wT gT_]. ring. }
  cbv zeta. split; [exact Hw|].
  unfold stdHKF. cbv zeta. cbn [M_Thermo.G0 M_Thermo.H0]. rewrite Hw, HwT, HZ, HY.
  unfold k_Tr, k_Pr, k_theta, k_psi, k_Zr, k_Yr.
  replace (298.15 / 298.15) with 1 by lra.
  replace ((2600.0e5 + 1e5) / (2600.0e5 + 1.0e5)) with 1 by lra.
  replace (1 * (298.15 - 228.0) / (298.15 - 228.0)) with 1 by lra. rewrite ln_1.
  replace (1e5 - 1.0e5) with 0 by lra. split; lra.
Qed.
Print Assumptions C89_reference.

(* ---- Water as a species ---- *)
Definition specific (W : WaterThermoState) : M_Thermo.WaterSpecific :=
  M_Thermo.mkWS (w_entropy W) (w_enthalpy W) (w_volume W) (w_cp W) (w_cv W).
Theorem C89_water (S : R -> R -> HelmholtzState) (r : R -> R -> R) (Ttr Str Gtr Htr T P : R) :
  T <> 0 -> fields_are_derivatives S T (r T P) -> solves_eos S r T P ->
  standard_identities (M_Thermo.stdWaterHKF (fun T P => specific (state_with S r T P)) Ttr Str Gtr Htr) (Htr - Gtr - Ttr * Str) T P.
Proof.
  intros HT HS He. destruct (C50_any_eos S r T P HT HS He) as (_ & _ & [_ _ _ _ E [hP F] (vT & vP & G & H)] & _).
  assert (Eg : forall T P, w_gibbs (state_with S r T P) = w_enthalpy (state_with S r T P) - T * w_entropy (state_with S r T P)).
  { intros. unfold state_with, waterThermoState. cbv zeta. cbn [w_gibbs w_enthalpy w_entropy]. ring. }
  unfold standard_identities, M_Thermo.stdWaterHKF, specific. cbv zeta.
  cbn [M_Thermo.G0 M_Thermo.H0 M_Thermo.V0 M_Thermo.Cp0 M_Thermo.w_entropy M_Thermo.w_enthalpy M_Thermo.w_volume M_Thermo.w_cp].
  set (M := M_Thermo.waterMolarMass). cbv beta in *.
  split.
  - eapply differentiable_pt_lim_ext; [apply locally_2d_forall; intros x y|].
    2: eapply j_val; [apply j_add; [apply j_sub; [apply j_mul; [apply (j_const M)|exact E]|apply j_mul; [apply j_fst|apply (j_const Str)]]|apply (j_const (Ttr * Str + Gtr))]|cbv beta; field; exact HT|cbv beta; ring].
    cbv beta. rewrite Eg. ring.
  - exists (M * hP). jj; ring.
  - exists (M * - vT). jj; [exact HT|field; exact HT|field; exact HT].
Qed.
Print Assumptions C89_water.

(* A sodium-like ion in the ideal gas of C50_nonvacuous. *)
Definition sodium : HKF := mkHKF (-261881) (-240300) 58.4086 0.769e-5 (-956.0) 13.623e-5 (-11.4056e4) 76.0651 (-124725) 138323 1 1000.
Example C89_nonvacuous : let W := state_with ideal (fun T P => P / T) in
  228 < 298.15 /\ 0 <= 29815 /\ water_regular W 298.15 29815 /\ radii_nonzero sodium (g_ (gHKF 298.15 29815 (W 298.15 29815))) /\ k_charge sodium <> 0.
Proof.
  cbv zeta. destruct C88_nonvacuous as (_ & HK & HD & HP & He).
  split; [lra|]. split; [lra|].
  assert (Hs : solves_eos ideal (fun T P => P / T) 298.15 29815).
  { repeat split.
    - apply differentiable_continuity_pt. exists (- 29815 / (298.15 * 298.15)), (1 / 298.15).
      eapply j_val; [apply (j_div (fun _ y => y) (fun x _ => x)); [apply j_snd|apply j_fst|cbv beta; lra]| |]; cbv beta; lra.
    - eapply locally_2d_impl; [|exact (locally_2d_pos 298.15 29815 ltac:(lra) ltac:(lra))]. apply locally_2d_forall.
      intros x y [Hx Hy]. assert (0 < y / x) by (apply Rdiv_lt_0_compat; assumption). repeat split; try assumption.
      unfold ideal; proj. field. split; lra.
    - unfold ideal; proj. lra. }
  assert (Hf : fields_are_derivatives ideal 298.15 (29815 / 298.15)).
  { assert (HD' : 0 < 29815 / 298.15) by lra. generalize (29815 / 298.15) HD'. generalize 298.15. intros t d Hd. assert (d <> 0) by lra. assert (d * d <> 0) by nz. assert (d * d * d <> 0) by nz.
    split; unfold ideal; proj; jj; try assumption; field; assumption. }
  assert (HT : w_densityT (state_with ideal (fun T P => P / T) 298.15 29815) <> 0).
  { unfold state_with, waterThermoState, ideal. cbv zeta. cbn [w_densityT]. proj.
    replace (29815 / (298.15 / (29815 / 298.15))) with (100 * 100) by lra. rewrite sqrt_square by lra. replace (29815 / 298.15) with 100 by lra.
    apply Rmult_integral_contrapositive_currified; [lra|apply Rinv_neq_0_compat; lra]. }
  destruct (C50_any_eos ideal (fun T P => P / T) 298.15 29815 ltac:(lra) Hf Hs) as (_ & _ & _ & _ & Hd).
  split.
  - split; [exact (Hd HT)|]. split; [exact HK|]. rewrite HD. split; [lra|]. split; [exact HT|]. split; [exact HP|]. split; [exact He|left; lra].
  - split; [|cbn; lra]. intros _. unfold gHKF. cbv zeta. rewrite HD. rewrite (above_false 100 1000), (above_true 350 100) by lra. cbn [orb g_].
    unfold radius, sodium, eta. cbn [k_charge k_wref]. rewrite Rabs_R1. split; [|lra].
    assert (0 < 1 ^ 2 / (138323 / 6.94656968e+05 + 1 / 3.082)) by (apply Rdiv_lt_0_compat; lra). lra.
Qed.
Example C89_reference_nonvacuous : exists wes : WaterElectroState,
  e_bornZ wes = -1.278055636e-02 /\ e_bornY wes = -5.795424563e-05 /\ (k_charge sodium <> 0 -> k_wref sodium / 6.94656968e+05 + k_charge sodium / 3.082 <> 0).
Proof.
  exists (mkE 0 0 0 0 0 0 (-1.278055636e-02) (-5.795424563e-05) 0 0 0 0). split; [reflexivity|]. split; [reflexivity|].
  intros _. unfold sodium. cbn [k_charge k_wref]. lra.
Qed.
