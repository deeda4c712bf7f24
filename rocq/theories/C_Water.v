(* C50: the thermodynamic properties of water. *)
From Coq Require Import Reals List ZArith Lia Lra.
From Coquelicot Require Import Coquelicot.
Import ListNotations.
From Verif Require Import Base M_Helmholtz M_Water S_Water P_Helmholtz P_Wagner P_Helmholtz2 P_Water C_Helmholtz.
Local Open Scope R_scope.

(* A choice of density near (T, P) that solves the equation of state: continuous,
   positive, and with the pressure that the Helmholtz function f gives,
   P = r^2 df/dr, at every point near (T, P).  And the compressibility is finite. *)
Definition solves_eos (S : R -> R -> HelmholtzState) (r : R -> R -> R) (T P : R) : Prop :=
  continuity_2d_pt r T P /\
  locally_2d (fun T P => 0 < P /\ 0 < r T P /\ r T P * r T P * helmholtzD (S T (r T P)) = P) T P /\
  2 * r T P * helmholtzD (S T (r T P)) + r T P * r T P * helmholtzDD (S T (r T P)) <> 0.

(* The thermodynamic state computed with that density. *)
Definition state_with (S : R -> R -> HelmholtzState) (r : R -> R -> R) (T P : R) : WaterThermoState :=
  waterThermoState T P (S T (r T P)).
Definition identities_hold (W : R -> R -> WaterThermoState) (T P : R) : Prop :=
  FluidIdentities (fun T P => w_density (W T P)) (fun T P => w_volume (W T P)) (fun T P => w_entropy (W T P))
    (fun T P => w_helmholtz (W T P)) (fun T P => w_internal_energy (W T P)) (fun T P => w_enthalpy (W T P))
    (fun T P => w_gibbs (W T P)) (fun T P => w_cp (W T P)) T P.
Definition density_derivatives_hold (W : R -> R -> WaterThermoState) (T P : R) : Prop :=
  Differentials2 (fun T P => w_density (W T P)) (fun T P => w_densityT (W T P)) (fun T P => w_densityP (W T P))
    (fun T P => w_densityTT (W T P)) (fun T P => w_densityTP (W T P)) (fun T P => w_densityPP (W T P)) T P.

Definition C50_statement : Prop :=
  (forall T D, waterPressureHGK T D = D ^ 2 * helmholtzD (waterHelmholtzStateHGK T D)) /\
  (forall T D, 0 < T -> 0 < D -> D <> 322 ->
     waterPressureWagnerPruss T D = D ^ 2 * helmholtzD (waterHelmholtzStateWagnerPruss T D)) /\
  (forall r T P, 0 < T -> r T P <> 322 -> solves_eos waterHelmholtzStateWagnerPruss r T P ->
     identities_hold (state_with waterHelmholtzStateWagnerPruss r) T P /\
     density_derivatives_hold (state_with waterHelmholtzStateWagnerPruss r) T P).

(* Any Helmholtz function, as long as the fields are its derivatives. *)
Theorem C50_any_eos (S : R -> R -> HelmholtzState) (r : R -> R -> R) (T P : R) :
  T <> 0 -> fields_are_derivatives S T (r T P) -> solves_eos S r T P ->
  let W := state_with S r in
  w_density (W T P) = r T P /\ w_pressure (W T P) = P /\
  identities_hold W T P /\
  is_derive (fun x => helmholtz (S x (r T P)) + x * - helmholtzT (S x (r T P))) T (w_cv (W T P)) /\
  (w_densityT (W T P) <> 0 -> density_derivatives_hold W T P).
Proof.
  intros HT HS (Hc & He & Hp). destruct (thermo S r T P HS Hc He Hp HT) as [t1 t2 t3 t4 t5 t6 t7 t8 t9 t10 t11 t12 t13].
  cbv zeta. split; [exact t1|]. split; [exact t2|]. split; [split; assumption|]. split; [exact t13|].
  intros Hn. split; [assumption|exact (t8 Hn)|assumption].
Qed.
Print Assumptions C50_any_eos.

Theorem C50_wagner_pruss_partial (r : R -> R -> R) (T P : R) :
  0 < T -> r T P <> 322 -> solves_eos waterHelmholtzStateWagnerPruss r T P ->
  let W := state_with waterHelmholtzStateWagnerPruss r in
  w_density (W T P) = r T P /\ w_pressure (W T P) = P /\
  identities_hold W T P /\ (w_densityT (W T P) <> 0 -> density_derivatives_hold W T P).
Proof.
  intros HT Hr Hs. assert (0 < r T P).
  { destruct Hs as (_ & [d Hd] & _). apply Hd; rewrite Rminus_eq_0, Rabs_R0; apply cond_pos. }
  destruct (C50_any_eos _ r T P ltac:(lra) (C87_wagner_pruss T (r T P) HT H Hr) Hs) as (A & B & C & _ & E).
  cbv zeta. auto.
Qed.
Print Assumptions C50_wagner_pruss_partial.

(* With the Haar-Gallagher-Kell equation, everything but the two second
   derivatives of density that use the wrong third derivative. *)
Theorem C50_hgk_partial (r : R -> R -> R) (T P : R) :
  hgk_domain T (r T P) -> solves_eos waterHelmholtzStateHGK r T P ->
  let W := state_with waterHelmholtzStateHGK r in
  w_density (W T P) = r T P /\ w_pressure (W T P) = P /\ identities_hold W T P /\
  differentiable_pt_lim (fun T P => w_density (W T P)) T P (w_densityT (W T P)) (w_densityP (W T P)) /\
  exists rTP : R, differentiable_pt_lim (fun T P => w_densityP (W T P)) T P rTP (w_densityPP (W T P)).
Proof.
  intros Hd (Hc & He & Hp) W.
  destruct (hgk_domain_ok T (r T P) Hd) as (HT & HD & Hy & Hr).
  pose proof (Derivs_hgk_true T (r T P) HT HD Hy Hr) as HS.
  assert (HpT : locally_2d (fun x y => x <> 0) T P).
  { assert (HP : 0 < P) by (destruct He as [d Hd']; apply (Hd' T P); rewrite Rminus_eq_0, Rabs_R0; apply cond_pos).
    eapply locally_2d_impl; [|exact (locally_2d_pos T P HT HP)]. apply locally_2d_forall. intros; lra. }
  assert (He' : locally_2d (fun T P => 0 < P /\ 0 < r T P /\ r T P * r T P * helmholtzD (hgk_true T (r T P)) = P) T P).
  { eapply locally_2d_impl; [|exact (locally_2d_and _ _ _ _ He HpT)]. apply locally_2d_forall. intros x y [(A & B & C) D].
    repeat split; assumption. }
  assert (Hp' : 2 * r T P * helmholtzD (hgk_true T (r T P)) + r T P * r T P * helmholtzDD (hgk_true T (r T P)) <> 0).
  { rewrite hgk_eq in Hp by lra. exact Hp. }
  destruct (thermo hgk_true r T P HS Hc He' Hp' ltac:(lra)) as [t1 t2 t3 t4 t5 t6 t7 t8 t9 t10 t11 t12 t13].
  set (W' := fun T P => waterThermoState T P (hgk_true T (r T P))) in *.
  assert (HW : forall x y, x <> 0 -> W x y = waterThermoState x y (shift (hgk_true x (r x y)) (hgk_errTDD x (r x y)) (hgk_errTTT x (r x y)))).
  { intros x y Hx. unfold W, state_with. rewrite hgk_eq by exact Hx. reflexivity. }
  assert (HWat : w_density (W T P) = w_density (W' T P) /\ w_pressure (W T P) = w_pressure (W' T P) /\
    w_volume (W T P) = w_volume (W' T P) /\ w_entropy (W T P) = w_entropy (W' T P) /\ w_helmholtz (W T P) = w_helmholtz (W' T P) /\
    w_internal_energy (W T P) = w_internal_energy (W' T P) /\ w_enthalpy (W T P) = w_enthalpy (W' T P) /\
    w_gibbs (W T P) = w_gibbs (W' T P) /\ w_cp (W T P) = w_cp (W' T P) /\ w_densityT (W T P) = w_densityT (W' T P) /\
    w_densityP (W T P) = w_densityP (W' T P) /\ w_densityPP (W T P) = w_densityPP (W' T P)).
  { rewrite HW by lra. repeat split. }
  destruct HWat as (-> & -> & E1 & E2 & E3 & E4 & E5 & E6 & E7 & -> & -> & ->).
  assert (ext : forall (f : WaterThermoState -> R) a b,
    (forall x y h p q, f (waterThermoState x y (shift h p q)) = f (waterThermoState x y h)) ->
    differentiable_pt_lim (fun T P => f (W' T P)) T P a b -> differentiable_pt_lim (fun T P => f (W T P)) T P a b).
  { intros f a b Hf. apply differentiable_pt_lim_ext. eapply locally_2d_impl; [|exact HpT]. apply locally_2d_forall.
    intros x y Hx. rewrite HW by exact Hx. rewrite Hf. reflexivity. }
  split; [exact t1|]. split; [exact t2|]. split; [|split].
  - unfold identities_hold. split; cbv beta; rewrite ?E1, ?E2, ?E3, ?E4, ?E5, ?E6, ?E7.
    + rewrite HW by lra. exact t3.
    + exact t4.
    + exact t5.
    + exact t6.
    + apply (ext w_gibbs); [reflexivity|exact t10].
    + destruct t11 as [hP t11]. exists hP. apply (ext w_enthalpy); [reflexivity|exact t11].
    + destruct t12 as (vT & vP & t12 & t12'). exists vT, vP. split; [apply (ext w_volume)|apply (ext w_entropy)]; try reflexivity; assumption.
  - apply (ext w_density); [reflexivity|exact t7].
  - eexists. apply (ext w_densityP); [reflexivity|exact t9].
Qed.
Print Assumptions C50_hgk_partial.

(* ---- The pressure functions ---- *)
(* At T = 647.27 K the pressure of one equation grows without bound as the
   density approaches a finite limit, that of the other does not. *)
Definition limit_density : R := 317.763 / 0.05969061923.
Lemma base_D d : d <> 0 -> 0.05969061923 * d <> 1 ->
  helmholtzD (hgk2 1 d) =
  let c := 0.05969061923 in let x := 1 / (1 - c * d) in
  4.2923415 * (c * x + 1 / d + - 130 / 3 * (c * x * x) + 169 / 3 * (c * x * x * x) - 14 * c).
Proof.
  intros Hd Hy. rewrite hgk2_eq by lra. unfold shift, b_hgk2; proj.
  assert (Ey : b_y 1 d = 0.05969061923 * d).
  { unfold b_y, at_, hgk_yc; cbn [nth]. rewrite ln_1. replace (powerRZ 1 (-3)) with 1 by (unfold powerRZ; rewrite pow1, Rinv_1; reflexivity). replace (powerRZ 1 (-5)) with 1 by (unfold powerRZ; rewrite pow1, Rinv_1; reflexivity). lra. }
  unfold b_h_r, b_u_r, b_x_r, b_y_r, b_x. rewrite Ey. unfold hgk_A20. cbv zeta.
  set (c := 0.05969061923) in *. field. split; [lra|exact Hd].
Qed.
Lemma base_unbounded (M delta : R) : 0 < delta ->
  exists d, 0 < d /\ d < 1 / 0.05969061923 /\ 1 / 0.05969061923 - d < delta /\ d <> 322 / 317.763 /\ M < helmholtzD (hgk2 1 d).
Proof.
  intros Hd. set (c := 0.05969061923) in *.
  set (eta := Rmin (Rmin 1 delta / 2) (1 / (c * (2 + Rabs M * 10)))).
  pose proof (Rabs_pos M) as HM. assert (Hc : 0 < c) by (unfold c; lra).
  assert (Hm : 0 < Rmin 1 delta) by (apply Rmin_pos; lra).
  assert (Heta : 0 < eta).
  { unfold eta. apply Rmin_pos; [lra|]. apply Rdiv_lt_0_compat; [lra|]. apply Rmult_lt_0_compat; lra. }
  pose proof (Rmin_l (Rmin 1 delta / 2) (1 / (c * (2 + Rabs M * 10)))) as L1. fold eta in L1.
  pose proof (Rmin_r (Rmin 1 delta / 2) (1 / (c * (2 + Rabs M * 10)))) as L2. fold eta in L2.
  pose proof (Rmin_l 1 delta). pose proof (Rmin_r 1 delta).
  assert (Hcinv : 16 < 1 / c < 17) by (unfold c; split; lra).
  exists (1 / c - eta). repeat split; try lra.
  set (d := 1 / c - eta) in *. assert (Hd0 : 0 < d) by (unfold d; lra).
  assert (Hcd : 1 - c * d = c * eta) by (unfold d; field; lra).
  assert (Hce : 0 < c * eta) by (apply Rmult_lt_0_compat; assumption).
  rewrite base_D by (fold c; lra). fold c. cbv zeta. rewrite Hcd. set (x := 1 / (c * eta)).
  assert (Hx : 2 + Rabs M * 10 <= x).
  { apply (Rmult_le_compat_l (c * (2 + Rabs M * 10))) in L2; [|left; apply Rmult_lt_0_compat; lra].
    replace (c * (2 + Rabs M * 10) * (1 / (c * (2 + Rabs M * 10)))) with 1 in L2 by (field; split; lra).
    apply (Rmult_le_reg_r (c * eta) _ _ Hce). replace (x * (c * eta)) with 1 by (unfold x; field; split; lra). lra. }
  pose proof (Rle_abs M).
  assert (H3 : 0 < 1 / d) by (apply Rdiv_lt_0_compat; lra).
  assert (Hx2 : x * x >= 2 * x) by nra. assert (Hx3 : x * x * x >= 2 * (x * x)) by nra.
  assert (Hb : c * (70 * x - 14) <= c * x + - 130 / 3 * (c * x * x) + 169 / 3 * (c * x * x * x) - 14 * c).
  { replace (c * x + - 130 / 3 * (c * x * x) + 169 / 3 * (c * x * x * x) - 14 * c)
      with (c * (x + - 130 / 3 * (x * x) + 169 / 3 * (x * x * x) - 14)) by field.
    apply Rmult_le_compat_l; lra. }
  assert (Hcb : c * (70 * x - 14) >= 3 * x).
  { unfold c. lra. }
  lra.
Qed.

Lemma sum_derive (f0 f1 f3 f4 w : R -> R) (d a0 a1 a3 a4 aw k c : R) :
  is_derive f0 d a0 -> is_derive f1 d a1 -> is_derive f3 d a3 -> is_derive f4 d a4 -> is_derive w (d * k) aw ->
  ex_derive (fun d => w (d * k) * c - (f0 d + f1 d + f3 d + f4 d)) d.
Proof.
  intros H0 H1 H3 H4 Hw.
  pose proof (d_mul (fun d => d) (fun _ => k) d _ _ (d_id d) (d_const k d)) as E1. cbv beta in E1.
  pose proof (d_comp w (fun d => d * k) d _ _ Hw E1) as E2. cbv beta in E2.
  pose proof (d_mul (fun d => w (d * k)) (fun _ => c) d _ _ E2 (d_const c d)) as E3.
  pose proof (d_add _ _ d _ _ (d_add _ _ d _ _ (d_add _ _ d _ _ H0 H1) H3) H4) as E4.
  eexists. exact (d_sub _ _ d _ _ E3 E4).
Qed.

Lemma pressure_wrong : exists T D, 0 < T /\ 0 < D /\ D <> 322 /\
  waterPressureWagnerPruss T D <> D ^ 2 * helmholtzD (waterHelmholtzStateWagnerPruss T D).
Proof.
  set (dl := 1 / 0.05969061923).
  set (rest := fun d => helmholtzD (hgk0 1 d) + helmholtzD (hgk1 1 d) + helmholtzD (hgk3 1 d) + helmholtzD (b_hgk4 1 d)).
  set (g := fun d => helmholtzD (waterHelmholtzStateWagnerPruss 647.27 (d * 317.763)) * (317.763 / 69595.89) - rest d).
  assert (Hdl : 0 < dl) by (unfold dl; lra).
  assert (Hg : continuous g dl).
  { apply (ex_derive_continuous g).
    pose proof (Derivs_hgk0 1 dl ltac:(lra)) as [_ _ A0 _ _ _]. pose proof (Derivs_hgk1 1 dl ltac:(lra) Hdl) as [_ _ A1 _ _ _].
    pose proof (Derivs_hgk3 1 dl ltac:(lra) Hdl) as [_ _ A3 _ _ _].
    assert (Hreg : regular dl).
    { intros i Hi. do 4 (destruct i as [|i]; [unfold at_, hgk_ri, dl; cbn [nth]; lra|]). lia. }
    pose proof (Derivs_b_hgk4 1 dl Hreg) as [_ _ A4 _ _ _].
    assert (HW : 0 < dl * 317.763 /\ dl * 317.763 <> 322) by (unfold dl; split; lra).
    pose proof (Derivs_WagnerPruss 647.27 (dl * 317.763) ltac:(lra) (proj1 HW) (proj2 HW)) as [_ _ AW _ _ _].
    apply jd_derive in A0, A1, A3, A4, AW.
    destruct A0 as [_ A0], A1 as [_ A1], A3 as [_ A3], A4 as [_ A4], AW as [_ AW].
    exact (sum_derive _ _ _ _ _ dl _ _ _ _ _ _ _ A0 A1 A3 A4 AW). }
  destruct (Hg (ball (g dl) 1)) as [delta Hdelta].
  { exists (mkposreal 1 Rlt_0_1). intros y Hy. exact Hy. }
  destruct (base_unbounded (Rabs (g dl) + 1) delta (cond_pos delta)) as (d & Hd0 & Hd1 & Hd2 & Hd3 & Hd4).
  exists 647.27, (d * 317.763). split; [lra|]. split; [lra|]. split.
  - intros E. apply Hd3. lra.
  - intros E. unfold waterPressureWagnerPruss, waterPressure in E. cbv zeta in E.
    assert (E' : helmholtzD (waterHelmholtzStateHGK 647.27 (d * 317.763)) = helmholtzD (waterHelmholtzStateWagnerPruss 647.27 (d * 317.763))).
    { apply (Rmult_eq_reg_l ((d * 317.763) ^ 2)); [|apply pow_nonzero; lra]. rewrite <- E. ring. }
    unfold waterHelmholtzStateHGK in E'. cbv zeta in E'. cbn [helmholtzD] in E'.
    unfold referenceTemperature, referenceDensity, referenceHelmholtz in E'.
    replace (647.27 / 647.27) with 1 in E' by lra. replace (d * 317.763 / 317.763) with d in E' by (field; lra).
    rewrite hgk4_eq in E'. unfold shift, addH in E'. cbn [helmholtzD] in E'.
    assert (Eg : helmholtzD (hgk2 1 d) = g d) by (unfold g, rest; rewrite <- E'; lra).
    assert (Hb : Rabs (g d - g dl) < 1).
    { apply (Hdelta d). change (Rabs (d - dl) < delta). rewrite Rabs_left; fold dl in Hd1, Hd2; lra. }
    apply Rabs_def2 in Hb. pose proof (Rle_abs (g dl)). lra.
Qed.
Theorem C50_refuted : ~ C50_statement.
Proof.
  intros (_ & H & _). destruct pressure_wrong as (T & D & HT & HD & HDc & Hn). exact (Hn (H T D HT HD HDc)).
Qed.
Print Assumptions C50_refuted.
(* What the pressure functions do. *)
Theorem C50_pressure_partial (T D : R) :
  waterPressureHGK T D = D ^ 2 * helmholtzD (waterHelmholtzStateHGK T D) /\ waterPressureWagnerPruss T D = waterPressureHGK T D.
Proof. split; [unfold waterPressureHGK, waterPressure; cbv zeta; ring|reflexivity]. Qed.
Print Assumptions C50_pressure_partial.

(* ---- The density solver ---- *)
(* A density that is returned is one Newton step (or, where that step would not
   be positive, one fixed-point step) away from a density whose pressure is
   within 1e-8 critical pressures of the given one. *)
Theorem C50_density_solver (T P : R) (model : R -> R -> HelmholtzState) (som : StateOfMatter) (D' : R) :
  waterDensity T P model som = Ok D' ->
  exists D, Rabs (D ^ 2 * helmholtzD (model T D) - P) < 1e-8 * 22.064e6 /\
    let f := D ^ 2 * helmholtzD (model T D) - P in
    let df := 2 * D * helmholtzD (model T D) + D ^ 2 * helmholtzDD (model T D) in
    (df <> 0 -> f / df < D -> D' = D - f / df /\ 0 < D') /\
    (df <> 0 -> D <= f / df -> D * helmholtzD (model T D) * D' = P \/ D * helmholtzD (model T D) = 0).
Proof.
  unfold waterDensity. cbv zeta. generalize (match som with Liquid => 10 * waterCriticalDensity | NotLiquid => waterMolarMass / (universalGasConstant * T / P) end).
  generalize 100%nat. intros fuel. induction fuel as [|fuel IH]; intros D; cbn [density_loop]; [discriminate|].
  destruct (Rlt_dec (Rabs ((D * D * helmholtzD (model T D) - P) / waterCriticalPressure)) 1e-8) as [Hs|Hs]; [|exact (IH _)].
  intros H. injection H as H. exists D. unfold waterCriticalPressure in *.
  assert (Hf : (D * D * helmholtzD (model T D) - P) / 22.064e6 = (D ^ 2 * helmholtzD (model T D) - P) / 22.064e6) by (f_equal; ring).
  assert (Hdf : (2 * D * helmholtzD (model T D) + D * D * helmholtzDD (model T D)) / 22.064e6 = (2 * D * helmholtzD (model T D) + D ^ 2 * helmholtzDD (model T D)) / 22.064e6) by (f_equal; ring).
  rewrite Hf in *. rewrite Hdf in *. cbv zeta.
  set (f := D ^ 2 * helmholtzD (model T D) - P) in *. set (df := 2 * D * helmholtzD (model T D) + D ^ 2 * helmholtzDD (model T D)) in *.
  split; [|split].
  - unfold Rdiv in Hs. rewrite Rabs_mult, (Rabs_pos_eq (/ 22.064e6)) in Hs by lra. lra.
  - intros Hn Hlt. assert (E : f / 22.064e6 / (df / 22.064e6) = f / df) by (field; lra). rewrite E in H.
    destruct (Rlt_dec (f / df) D); [|contradiction]. split; lra.
  - intros Hn Hge. assert (E : f / 22.064e6 / (df / 22.064e6) = f / df) by (field; lra). rewrite E in H.
    destruct (Rlt_dec (f / df) D); [lra|].
    destruct (Req_dec (D * helmholtzD (model T D)) 0) as [Z|Z]; [right; exact Z|left]. subst D'. field.
    split; intros Z'; apply Z; rewrite Z'; ring.
Qed.
Print Assumptions C50_density_solver.

(* ---- Instances ---- *)
(* An ideal gas: f = T ln D, with density P / T. *)
Definition ideal (T D : R) : HelmholtzState :=
  mkH (T * ln D) (ln D) (T / D) 0 (1 / D) (- T / (D * D)) 0 0 (- 1 / (D * D)) (2 * T / (D * D * D)).
Example C50_nonvacuous :
  fields_are_derivatives ideal 300 ((fun T P => P / T) 300 100000) /\ solves_eos ideal (fun T P => P / T) 300 100000 /\
  w_densityT (state_with ideal (fun T P => P / T) 300 100000) <> 0.
Proof.
  assert (HD : 0 < 100000 / 300) by lra. cbv beta.
  assert (Hs : solves_eos ideal (fun T P => P / T) 300 100000).
  { repeat split.
    - apply differentiable_continuity_pt. exists (- 100000 / (300 * 300)), (1 / 300).
      eapply j_val; [apply (j_div (fun _ y => y) (fun x _ => x)); [apply j_snd|apply j_fst|cbv beta; lra]| |]; cbv beta; field.
    - eapply locally_2d_impl; [|exact (locally_2d_pos 300 100000 ltac:(lra) ltac:(lra))]. apply locally_2d_forall.
      intros x y [Hx Hy]. assert (0 < y / x) by (apply Rdiv_lt_0_compat; assumption). repeat split; try assumption.
      unfold ideal; proj. field. split; lra.
    - unfold ideal; proj. lra. }
  split; [|split]; [|exact Hs|].
  - generalize (100000 / 300) HD. intros d Hd. assert (d <> 0) by lra. assert (d * d <> 0) by nz. assert (d * d * d <> 0) by nz.
    split; unfold ideal; proj; jj; try assumption; field; assumption.
  - unfold state_with, waterThermoState, ideal. cbv zeta. cbn [w_densityT]. proj.
    replace (100000 / (300 / (100000 / 300))) with ((100000 / 300) * (100000 / 300)) by lra.
    rewrite sqrt_square by lra. match goal with |- ?x <> 0 => replace x with (- (10 / 9)) by field end. lra.
Qed.
(* A model for which the solver returns. *)
Lemma density_loop_root model T P D fuel : D * D * helmholtzD (model T D) = P -> 0 < D ->
  density_loop model T P D (S fuel) = Ok D.
Proof.
  intros E HD. cbn [density_loop]. cbv zeta. rewrite E.
  replace ((P - P) / waterCriticalPressure) with 0 by (unfold Rdiv; ring).
  match goal with |- context [0 / ?q] => replace (0 / q) with 0 by (unfold Rdiv; ring) end.
  rewrite Rabs_R0. destruct (Rlt_dec 0 1e-8) as [_|N]; [|exfalso; apply N; lra].
  destruct (Rlt_dec 0 D) as [_|N]; [|contradiction]. f_equal. lra.
Qed.
Example C50_density_solver_nonvacuous :
  waterDensity 300 100000 (fun T D => mkH 0 0 (100000 / (D * D)) 0 0 0 0 0 0 0) Liquid = Ok (10 * 322).
Proof. apply density_loop_root; [proj; unfold waterCriticalDensity; lra|unfold waterCriticalDensity; lra]. Qed.
