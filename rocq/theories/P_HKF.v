(* Proofs about the HKF equations of state. *)
From Coq Require Import Reals List ZArith Lia Lra.
From Coquelicot Require Import Coquelicot.
From Verif Require Import Base M_Helmholtz M_Water M_HKF S_Water P_Helmholtz P_Water C_Helmholtz C_Water C_Electro.
From Verif Require M_Thermo.
Local Open Scope R_scope.

Definition DG (G : R -> R -> gState) (T P : R) : Prop :=
  Differentials2 (fun T P => g_ (G T P)) (fun T P => gT_ (G T P)) (fun T P => gP_ (G T P))
    (fun T P => gTT_ (G T P)) (fun T P => gTP_ (G T P)) (fun T P => gPP_ (G T P)) T P.
Lemma D2_ext (f fT fP fTT fTP fPP g gT gP gTT gTP gPP : R -> R -> R) (T P : R) :
  locally_2d (fun T P => f T P = g T P /\ fT T P = gT T P /\ fP T P = gP T P /\ fTT T P = gTT T P /\ fTP T P = gTP T P /\ fPP T P = gPP T P) T P ->
  Differentials2 f fT fP fTT fTP fPP T P -> Differentials2 g gT gP gTT gTP gPP T P.
Proof.
  intros L [A B C].
  assert (E : f T P = g T P /\ fT T P = gT T P /\ fP T P = gP T P /\ fTT T P = gTT T P /\ fTP T P = gTP T P /\ fPP T P = gPP T P).
  { destruct L as [d Hd]. apply Hd; rewrite Rminus_eq_0, Rabs_R0; apply cond_pos. }
  destruct E as (_ & E1 & E2 & E3 & E4 & E5). rewrite E1, E2 in A. rewrite E3, E4 in B. rewrite E4, E5 in C.
  split; (eapply differentiable_pt_lim_ext; [|eassumption]); (eapply locally_2d_impl; [|exact L]); apply locally_2d_forall; tauto.
Qed.
Lemma DG_ext G G' T P : locally_2d (fun T P => G T P = G' T P) T P -> DG G T P -> DG G' T P.
Proof.
  intros L. apply D2_ext. eapply locally_2d_impl; [|exact L]. apply locally_2d_forall. intros x y ->. repeat split.
Qed.
Lemma DG_sub G G' T P : DG G T P -> DG G' T P -> DG (fun T P => subG (G T P) (G' T P)) T P.
Proof. intros [A B C] [A' B' C']. split; unfold subG; cbn [g_ gT_ gP_ gTT_ gTP_ gPP_]; apply j_sub; assumption. Qed.
Lemma DG_zero T P : DG (fun _ _ => mkG 0 0 0 0 0 0) T P.
Proof. split; cbn [g_ gT_ gP_ gTT_ gTP_ gPP_]; apply j_const. Qed.

Lemma ag_neg c : ag c < 0.
Proof. unfold ag. pose proof (pow2_ge_0 (c - 400)). pose proof (pow2_ge_0 (c - 500)). lra. Qed.
Lemma bg_pos c : 0 < bg c.
Proof. unfold bg. pose proof (pow2_ge_0 (c - 400)). pose proof (pow2_ge_0 (c - 500)). lra. Qed.

(* Region I. *)
Lemma DG_region1 W T P : density_derivatives_hold W T P -> 0 < w_density (W T P) < 1000 ->
  w_densityT (W T P) <> 0 -> w_densityP (W T P) <> 0 -> DG (fun T P => g_region1 T (W T P)) T P.
Proof.
  intros [R1 R2 R3] Hr HrT HrP.
  assert (Hr1 : w_density (W T P) <> 0) by lra.
  assert (A : JD (fun x _ => ag (x - 273.15)) T P (agT (T - 273.15)) 0) by (unfold ag; jj; unfold agT; ring).
  assert (B : JD (fun x _ => bg (x - 273.15)) T P (bgT (T - 273.15)) 0) by (unfold bg; jj; unfold bgT; ring).
  assert (A1 : JD (fun x _ => agT (x - 273.15)) T P agTT 0) by (unfold agT; jj; unfold agTT; ring).
  assert (B1 : JD (fun x _ => bgT (x - 273.15)) T P bgTT 0) by (unfold bgT; jj; unfold bgTT; ring).
  assert (Ha : ag (T - 273.15) <> 0) by (pose proof (ag_neg (T - 273.15)); lra).
  assert (Hb : bg (T - 273.15) <> 0) by (pose proof (bg_pos (T - 273.15)); lra).
  assert (Hr2 : 0 < 1 - w_density (W T P) / 1000) by lra.
  assert (Hr3 : 1000 - w_density (W T P) <> 0) by lra.
  assert (L : JD (fun x y => ln (1 - w_density (W x y) / 1000)) T P (- w_densityT (W T P) / (1000 - w_density (W T P))) (- w_densityP (W T P) / (1000 - w_density (W T P)))).
  { jj; try lra; field; repeat split; lra. }
  assert (PW : JD (fun x y => Rpower (1 - w_density (W x y) / 1000) (bg (x - 273.15))) T P
    (Rpower (1 - w_density (W T P) / 1000) (bg (T - 273.15)) * (bgT (T - 273.15) * ln (1 - w_density (W T P) / 1000) - bg (T - 273.15) * w_densityT (W T P) / (1000 - w_density (W T P))))
    (Rpower (1 - w_density (W T P) / 1000) (bg (T - 273.15)) * (- bg (T - 273.15) * w_densityP (W T P) / (1000 - w_density (W T P))))).
  { unfold Rpower. jj; try eassumption; unfold Rdiv; ring. }
  assert (HPW : Rpower (1 - w_density (W T P) / 1000) (bg (T - 273.15)) <> 0) by (apply Rgt_not_eq, exp_pos).
  split; unfold g_region1; cbv zeta; cbn [g_ gT_ gP_ gTT_ gTP_ gPP_].
  - jj; try eassumption; fin.
  - jj; try eassumption; try lra; fin.
  - jj; try eassumption; try lra; fin.
Qed.
(* Decimal fractions as quotients of integers, for field. *)
Ltac dec a b := try replace a with b by lra.
Ltac decimals x :=
  cbn [Init.Nat.pred]; try replace (INR 16) with 16 by (simpl; ring); try replace (INR 3) with 3 by (simpl; ring); try replace (INR 4) with 4 by (simpl; ring);
  try generalize 3.666660e+01; try generalize (-1.504956e-10); try generalize 5.017990e-14; intros;
  try generalize (Rpower x 4.8); intros;
  dec 4.8 (24 / 5); dec (-1.0e-5) (- (1 / 100000)); dec 1.0e-5 (1 / 100000); dec 4.80 (24 / 5); dec 18.24 (456 / 25); dec 16.0 16; dec 240.0 240; dec 3.0 3; dec 4.0 4; dec 6.0 6; dec 12.0 12; dec 1e+5 100000.
(* Region II. *)
Lemma DG_region2 T P : 155 < T - 273.15 -> P * 1.0e-5 < 1000 -> DG f_region2 T P.
Proof.
  intros HT HP.
  set (x := (T - 273.15 - 155) / 300). set (y := 1000 - P * 1.0e-5).
  assert (Hx : 0 < x) by (unfold x; lra). assert (Hy : 0 < y) by (unfold y; lra).
  assert (Jx : JD (fun T _ : R => (T - 273.15 - 155) / 300) T P (1 / 300) 0) by (jj; try lra; field; lra).
  assert (Jy : JD (fun _ P : R => 1000 - P * 1.0e-5) T P 0 (- 1.0e-5)) by (jj; lra).
  assert (Jp : JD (fun T _ : R => Rpower ((T - 273.15 - 155) / 300) 4.8) T P (4.8 * Rpower x 4.8 / (300 * x)) 0).
  { eapply j_val; [apply (j_Rpower (fun T _ => (T - 273.15 - 155) / 300)); [exact Jx|exact Hx]| |]; fold x.
    - field. repeat split; lra.
    - ring. }
  split; unfold f_region2; cbv zeta; cbn [g_ gT_ gP_ gTT_ gTP_ gPP_]; fold x y.
  - jj; fold x y; try eassumption; decimals x; fin.
  - jj; fold x y; try eassumption; try (match goal with |- _ <> 0 => solve [lra|nz; lra] end); decimals x; fin.
  - jj; fold x y; try eassumption; try (match goal with |- _ <> 0 => solve [lra|nz; lra] end); decimals x; fin.
Qed.

(* The g function in the whole plane, away from the borders of its regions. *)
Definition inside (T P d : R) : Prop :=
  d < 350 \/ 1000 < d \/
  (350 < d < 1000 /\ (155 < T - 273.15 < 355 /\ P * 1.0e-5 < 1000 \/ T - 273.15 < 155 \/ 355 < T - 273.15 \/ 1000 < P * 1.0e-5)).
Lemma above_true x y : y < x -> above x y = true.
Proof. intros. unfold above. destruct (Rlt_dec y x); [reflexivity|contradiction]. Qed.
Lemma above_false x y : x <= y -> above x y = false.
Proof. intros. unfold above. destruct (Rlt_dec y x); [lra|reflexivity]. Qed.
Lemma near f T P c : continuity_2d_pt f T P -> f T P < c -> locally_2d (fun x y => f x y < c) T P.
Proof.
  intros Hc Hlt. assert (He : 0 < c - f T P) by lra. destruct (Hc (mkposreal _ He)) as [d Hd]. exists d. intros u v Hu Hv.
  specialize (Hd u v Hu Hv). cbn [pos] in Hd. apply Rabs_def2 in Hd. lra.
Qed.
Lemma near' f T P c : continuity_2d_pt f T P -> c < f T P -> locally_2d (fun x y => c < f x y) T P.
Proof.
  intros Hc Hlt. assert (He : 0 < f T P - c) by lra. destruct (Hc (mkposreal _ He)) as [d Hd]. exists d. intros u v Hu Hv.
  specialize (Hd u v Hu Hv). cbn [pos] in Hd. apply Rabs_def2 in Hd. lra.
Qed.
Lemma JD_cont f T P a b : JD f T P a b -> continuity_2d_pt f T P.
Proof. intros H. apply differentiable_continuity_pt. exists a, b. exact H. Qed.
Lemma DG_gHKF W T P : density_derivatives_hold W T P -> inside T P (w_density (W T P)) ->
  0 < w_density (W T P) -> w_densityT (W T P) <> 0 -> w_densityP (W T P) <> 0 -> DG (fun T P => gHKF T P (W T P)) T P.
Proof.
  intros HW Hin Hpos HT HP. pose proof HW as [R1 _ _]. apply JD_cont in R1.
  assert (CT : continuity_2d_pt (fun x _ => x - 273.15) T P) by (eapply JD_cont; jj; reflexivity).
  assert (CP : continuity_2d_pt (fun _ y => y * 1.0e-5) T P) by (eapply JD_cont; jj; reflexivity).
  destruct Hin as [Hd|[Hd|[Hd Hc]]].
  - apply (DG_ext (fun _ _ => mkG 0 0 0 0 0 0)); [|apply DG_zero].
    eapply locally_2d_impl; [|exact (near _ _ _ _ R1 Hd)]. apply locally_2d_forall. intros x y Hxy.
    unfold gHKF. cbv zeta. rewrite (above_true 350) by exact Hxy. rewrite orb_true_r. reflexivity.
  - apply (DG_ext (fun _ _ => mkG 0 0 0 0 0 0)); [|apply DG_zero].
    eapply locally_2d_impl; [|exact (near' _ _ _ _ R1 Hd)]. apply locally_2d_forall. intros x y Hxy.
    unfold gHKF. cbv zeta. rewrite (above_true _ 1000) by exact Hxy. reflexivity.
  - pose proof (DG_region1 W T P HW ltac:(lra) HT HP) as D1.
    pose proof (locally_2d_and _ _ _ _ (near _ _ _ _ R1 (proj2 Hd)) (near' _ _ _ _ R1 (proj1 Hd))) as L.
    destruct Hc as [[Hc HcP]|Hc].
    + pose proof (DG_sub _ _ _ _ D1 (DG_region2 T P (proj1 Hc) HcP)) as D2.
      apply (DG_ext (fun T P => subG (g_region1 T (W T P)) (f_region2 T P))); [|exact D2].
      pose proof (near _ _ _ _ CT (proj2 Hc)) as L1. pose proof (near' _ _ _ _ CT (proj1 Hc)) as L2. pose proof (near _ _ _ _ CP HcP) as L3.
      eapply locally_2d_impl; [|exact (locally_2d_and _ _ _ _ L (locally_2d_and _ _ _ _ L1 (locally_2d_and _ _ _ _ L2 L3)))].
      apply locally_2d_forall. intros x y [[A1 A2] [A3 [A4 A5]]]. unfold gHKF. cbv zeta.
      rewrite (above_false _ 1000), (above_false 350), (above_true _ 155), (above_true 355), (above_true 1000) by lra. reflexivity.
    + apply (DG_ext (fun T P => g_region1 T (W T P))); [|exact D1].
      destruct Hc as [Hc|[Hc|Hc]].
      * eapply locally_2d_impl; [|exact (locally_2d_and _ _ _ _ L (near _ _ _ _ CT Hc))].
        apply locally_2d_forall. intros x y [[A1 A2] A3]. unfold gHKF. cbv zeta.
        rewrite (above_false _ 1000), (above_false 350), (above_false _ 155) by lra. reflexivity.
      * eapply locally_2d_impl; [|exact (locally_2d_and _ _ _ _ L (near' _ _ _ _ CT Hc))].
        apply locally_2d_forall. intros x y [[A1 A2] A3]. unfold gHKF. cbv zeta.
        rewrite (above_false _ 1000), (above_false 350), (above_false 355) by lra. rewrite andb_false_r. reflexivity.
      * eapply locally_2d_impl; [|exact (locally_2d_and _ _ _ _ L (near' _ _ _ _ CP Hc))].
        apply locally_2d_forall. intros x y [[A1 A2] A3]. unfold gHKF. cbv zeta.
        rewrite (above_false _ 1000), (above_false 350), (above_false 1000) by lra. rewrite andb_false_r. reflexivity.
Qed.

(* The Born coefficient of a solute. *)
Definition radius (p : HKF) (g : R) : R := k_charge p ^ 2 / (k_wref p / 6.94656968e+05 + k_charge p / 3.082) + Rabs (k_charge p) * g.
Definition radii_nonzero (p : HKF) (g : R) : Prop := k_charge p <> 0 -> radius p g <> 0 /\ 3.082 + g <> 0.
Lemma cube_abs z : Rabs (z * z * z) = z * z * Rabs z.
Proof. rewrite Rabs_mult, <- (Rabs_pos_eq (z * z)) at 1 by nra. rewrite Rabs_Rabsolu. rewrite (Rabs_pos_eq (z * z)) by nra. reflexivity. Qed.
Lemma electro_D p G T P : DG G T P -> radii_nonzero p (g_ (G T P)) ->
  let E := fun T P => speciesElectroPropsHKF (G T P) p in
  Differentials2 (fun T P => s_w (E T P)) (fun T P => s_wT (E T P)) (fun T P => s_wP (E T P))
    (fun T P => s_wTT (E T P)) (fun T P => s_wTP (E T P)) (fun T P => s_wPP (E T P)) T P.
Proof.
  intros [A B C] Hn E. unfold E, speciesElectroPropsHKF. destruct (Req_EM_T (k_charge p) 0) as [Z|Z].
  - split; cbn [s_w s_wT s_wP s_wTT s_wTP s_wPP]; apply j_const.
  - destruct (Hn Z) as [Hr Hg]. unfold radius in Hr. cbv zeta. cbn [s_w s_wT s_wP s_wTT s_wTP s_wPP].
    fold eta in Hr. set (z := k_charge p) in *.
    replace (z ^ 2) with (z * z) in Hr by ring. set (r0 := z * z / (k_wref p / eta + z / 3.082)) in *.
    set (c := 3.082) in *. assert (Ha : Rabs z * Rabs z = z * z) by (rewrite <- Rabs_mult; apply Rabs_pos_eq; nra).
    rewrite cube_abs. generalize eta. intros et. clearbody r0. set (az := Rabs z) in *. clearbody c.
    replace (z * z * z * z) with (z * z * (az * az)) by (rewrite Ha; ring). clearbody az. clear Hn E.
    assert (N1 : (r0 + az * g_ (G T P)) * (r0 + az * g_ (G T P)) <> 0) by (apply Rmult_integral_contrapositive_currified; assumption).
    assert (N2 : (c + g_ (G T P)) ^ 2 <> 0) by (apply pow_nonzero; assumption).
    split; jj; try assumption; cbn [INR Init.Nat.pred]; field; split; assumption.
Qed.
