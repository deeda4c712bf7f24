(* C124: the standard properties of the species of a SUPCRT database. *)
From Coq Require Import Reals List ZArith Lra Lia.
From Coquelicot Require Import Coquelicot.
From Verif Require Import Base M_Algorithms M_Helmholtz M_Water M_HKF M_Naming M_Supcrt M_SupcrtModels.
From Verif Require Import S_Water P_Helmholtz P_Water C_Helmholtz C_Water C_Electro P_HKF C_HKF.
From Verif Require M_Thermo.
Import M_Thermo.
Local Open Scope R_scope.

(* ---- The parameters of a SUPCRT database in SI units ---- *)
(* From calories and bar to joules and pascal; the volume from cm3 to m3. *)
Definition solute_SI (p : Solute R) : HKF :=
  mkHKF (so_Gf p * 4.184) (so_Hf p * 4.184) (so_Sr p * 4.184) (so_a1 p * 4.184 / 100000) (so_a2 p * 4.184) (so_a3 p * 4.184 / 100000) (so_a4 p * 4.184)
        (so_c1 p * 4.184) (so_c2 p * 4.184) (so_wref p * 4.184) (so_charge p) 0.
Definition gas_SI (p : MaierKelly R) : MaierKelley := mkMK (ga_Gf p * 4.184) (ga_Hf p * 4.184) (ga_Sr p * 4.184) 0 (ga_a p * 4.184) (ga_b p * 4.184) (ga_c p * 4.184).
Definition mineral_SI (p : Mineral R) : MineralHKF :=
  mkMin (mn_Gf p * 4.184) (mn_Hf p * 4.184) (mn_Sr p * 4.184) (mn_Vr p / 1000000) (mn_nptrans p)
    (map (fun x => x * 4.184) (mn_a p)) (map (fun x => x * 4.184) (mn_b p)) (map (fun x => x * 4.184) (mn_c p))
    (mn_Ttr p) (map (fun x => x * 4.184) (mn_Htr p)) (map (fun x => x / 1000000) (mn_Vtr p)) (map (fun x => x * 100000) (mn_dPdTtr p)).
Definition specific_of (w : WaterThermoState) : WaterSpecific := mkWS (M_Water.w_entropy w) (M_Water.w_enthalpy w) (M_Water.w_volume w) (M_Water.w_cp w) (M_Water.w_cv w).

(* ---- Water ---- *)
(* As the library's own model of water, with the constants of the triple point. *)
Theorem C124_solvent : forall wt T P,
  supcrtSolvent wt T P = stdWaterHKF (fun _ _ => specific_of wt) 273.16 (15.1320 * 4.184) (-56290.0 * 4.184) (-68767.0 * 4.184) T P.
Proof.
  intros wt T P. unfold supcrtSolvent, stdWaterHKF, specific_of, calorieToJoule. cbn [M_Thermo.w_entropy M_Thermo.w_enthalpy M_Thermo.w_volume M_Thermo.w_cp M_Thermo.w_cv].
  replace M_Water.waterMolarMass with M_Thermo.waterMolarMass by (unfold M_Water.waterMolarMass, M_Thermo.waterMolarMass; lra). reflexivity.
Qed.
Print Assumptions C124_solvent.

(* ---- Gases ---- *)
Theorem C124_gas_partial : forall p T P, 0 < T <= ga_Tmax p -> exists r, supcrtMaierKelly p T P = Ok r /\
  let s := stdMaierKelley 0 (gas_SI p) T P in G0 r = G0 s /\ H0 r = H0 s /\ Cp0 r = Cp0 s /\ Cv0 r = Cv0 s /\ V0 r = 8.3144621 * T / P /\ V0 s = 0.
Proof.
  intros p T P [H1 H2]. unfold supcrtMaierKelly, checkTemperatureValidityHKF.
  destruct (Rle_dec T 0) as [C|_]; [lra|]. destruct (Rlt_dec (ga_Tmax p) T) as [C|_]; [lra|]. rewrite Rmin_left by exact H2.
  eexists. split; [reflexivity|]. cbv zeta. unfold stdMaierKelley, gas_SI. cbn [G0 H0 Cp0 Cv0 V0]. destruct (Req_EM_T 0 0) as [_|N]; [|destruct (N eq_refl)].
  unfold Tr, universalGasConstant, calorieToJoule. replace 298.15 with (29815 / 100) by lra. replace 0.5 with (/ 2) by lra.
  set (k := 4.184). repeat split.
  - ring.
  - ring.
  - unfold Rdiv. ring.
  - replace 8.3144621 with (83144621 / 10000000) by lra. unfold Rdiv. ring.
Qed.
Print Assumptions C124_gas_partial.
(* Outside of the range of temperatures the evaluation fails. *)
Theorem C124_range : forall (g : MaierKelly R) (m : Mineral R) T P,
  (T <= 0 \/ ga_Tmax g < T -> supcrtMaierKelly g T P = Err) /\ (T <= 0 \/ mn_Tmax m < T -> supcrtMaierKellyHKF m T P = Err).
Proof.
  intros g m T P. unfold supcrtMaierKelly, supcrtMaierKellyHKF, checkTemperatureValidityHKF.
  split; intros H; (destruct (Rle_dec T 0); [reflexivity|]); [destruct (Rlt_dec (ga_Tmax g) T)|destruct (Rlt_dec (mn_Tmax m) T)]; try reflexivity; lra.
Qed.
Print Assumptions C124_range.

(* ---- Solutes ---- *)
Definition Proton_ok (p : Solute R) : Prop := named_H (so_name p) = true -> so_charge p = 1 /\ so_wref p = 0.
Lemma electro_scale s p : Proton_ok p ->
  let e := speciesElectroStateHKF s p in
  speciesElectroPropsHKF s (solute_SI p) = mkEl (s_w e * 4.184) (s_wT e * 4.184) (s_wP e * 4.184) (s_wTT e * 4.184) (s_wTP e * 4.184) (s_wPP e * 4.184).
Proof.
  intros HP. cbv zeta. unfold speciesElectroPropsHKF, speciesElectroStateHKF, solute_SI. cbn [k_charge k_wref]. unfold Proton_ok in HP.
  assert (EE : eta = eta_cal * 4.184) by (unfold eta, eta_cal; lra). rewrite EE.
  assert (E0 : eta_cal <> 0) by (unfold eta_cal; lra). assert (C0 : 4.184 <> 0) by lra. assert (D0 : 3.082 <> 0) by lra.
  set (k := 4.184) in *. set (e := eta_cal) in *. set (d := 3.082) in *.
  destruct (Req_EM_T (so_charge p) 0) as [Z|Z]; [cbn [s_w s_wT s_wP s_wTT s_wTP s_wPP]; rewrite !Rmult_0_l; reflexivity|].
  destruct (named_H (so_name p)) eqn:HH; cbv zeta; cbn [s_w s_wT s_wP s_wTT s_wTP s_wPP].
  - destruct (HP eq_refl) as [-> ->]. rewrite Rabs_R1, !Rmult_1_l, Rabs_R1, !Rmult_0_l.
    replace (1 / (0 / (e * k) + 1 / d)) with d by (field; auto). set (q := d + g_ s).
    replace (1 / (q * q) - 1 / q ^ 2) with 0 by (unfold Rdiv; replace (q ^ 2) with (q * q) by ring; ring).
    replace (1 / (q * q * q) - 1 / q ^ 3) with 0 by (unfold Rdiv; replace (q ^ 3) with (q * q * q) by ring; ring).
    replace (1 / q - 1 / q) with 0 by ring. rewrite ?Rmult_0_r, ?Rmult_0_l, ?Rplus_0_r. reflexivity.
  - replace (so_wref p * k / (e * k)) with (so_wref p / e) by (field; auto).
    f_equal; ring.
Qed.
(* The energies and heat capacities are those of the library's own model with the
   same parameters in SI units.  The Born terms of the volume are 100000 times too
   small. *)
Theorem C124_solute_partial : forall p wts T P, Proton_ok p -> 0 <= P -> T <> 228 ->
  let r := supcrtSoluteProps p wts T P in
  let s := StandardThermoModelHKF (solute_SI p) wts T P in
  let w := waterElectroStateJohnsonNorton T P wts in
  let e := speciesElectroPropsHKF (gHKF T P wts) (solute_SI p) in
  G0 r = G0 s /\ H0 r = H0 s /\ Cp0 r = Cp0 s /\ Cv0 r = Cv0 s /\
  V0 r = V0 s + (1 - 1 / 100000) * (s_w e * e_bornQ w + (e_bornZ w + 1) * s_wP e).
Proof.
  intros p wts T P HP HP0 HT. cbv zeta. unfold supcrtSoluteProps, StandardThermoModelHKF, functionG. pose proof (electro_scale (gHKF T P wts) p HP) as ES. cbv zeta in ES.
  rewrite ES. clear ES. set (e := speciesElectroStateHKF (gHKF T P wts) p). set (w := waterElectroStateJohnsonNorton T P wts). clearbody e w.
  unfold supcrtSolute, stdHKF, solute_SI. cbv zeta. cbn [G0 H0 Cp0 Cv0 V0 s_w s_wT s_wP s_wTT k_Gf k_Hf k_Sr k_a1 k_a2 k_a3 k_a4 k_c1 k_c2 k_wref].
  unfold k_Tr, k_Pr, k_theta, k_psi, k_Zr, k_Yr, calorieToJoule, barToPascal.
  replace 1.0e-05 with (/ 100000) by lra. replace 1.0e+05 with 100000 by lra. replace 2600.0e+05 with (2600 * 100000) by lra. replace 2600.0 with 2600 by lra. replace 1.0 with 1 by lra.
  replace 228.0 with 228 by lra. replace 298.15 with (29815 / 100) by lra.
  replace ((2600 + P * / 100000) / (2600 + 1)) with ((2600 * 100000 + P) / (2600 * 100000 + 100000)) by field.
  set (L := ln ((2600 * 100000 + P) / (2600 * 100000 + 100000))). set (L1 := ln (T / (29815 / 100))). set (L2 := ln (29815 / 100 / T * (T - 228) / (29815 / 100 - 228))).
  set (k := 4.184). set (Zr := -1.278055636e-02). set (Yr := -5.795424563e-05). clearbody k Zr Yr L L1 L2.
  assert (T - 228 <> 0) by lra. assert (2600 * 100000 + P <> 0) by lra. assert (2600 + P * / 100000 <> 0) by lra.
  replace (2600 + P * / 100000) with ((2600 * 100000 + P) / 100000) by field.
  split; [|split; [|split; [|split]]]; field; repeat split; lra.
Qed.
Print Assumptions C124_solute_partial.

(* The derivative of the Gibbs energy with respect to pressure is not the volume. *)
Definition born_volume (p : Solute R) (wts : WaterThermoState) (T P : R) : R :=
  let w := waterElectroStateJohnsonNorton T P wts in
  let e := speciesElectroPropsHKF (gHKF T P wts) (solute_SI p) in
  s_w e * e_bornQ w + (e_bornZ w + 1) * s_wP e.
Theorem C124_volume_partial : forall p W T P, Proton_ok p -> 228 < T -> 0 < P -> water_regular W T P -> radii_nonzero (solute_SI p) (g_ (gHKF T P (W T P))) ->
  is_derive (fun y => G0 (supcrtSoluteProps p (W T y) T y)) P (V0 (supcrtSoluteProps p (W T P) T P) - (1 - 1 / 100000) * born_volume p (W T P) T P).
Proof.
  intros p W T P HP HT HP0 HW HR. destruct (C89_solute (solute_SI p) W T P HT ltac:(lra) HW HR) as [HG _ _]. apply jd_derive in HG. destruct HG as [_ HG]. cbv beta in HG.
  destruct (C124_solute_partial p (W T P) T P HP ltac:(lra) ltac:(lra)) as (_ & _ & _ & _ & EV). rewrite EV. fold (born_volume p (W T P) T P).
  replace (V0 (StandardThermoModelHKF (solute_SI p) (W T P) T P) + (1 - 1 / 100000) * born_volume p (W T P) T P - (1 - 1 / 100000) * born_volume p (W T P) T P)
    with (V0 (StandardThermoModelHKF (solute_SI p) (W T P) T P)) by ring.
  eapply is_derive_ext_loc; [|exact HG]. exists (mkposreal P HP0). intros y Hy. cbv beta.
  assert (0 < y). { unfold ball in Hy. cbn in Hy. unfold AbsRing_ball, abs, minus, plus, opp in Hy. cbn in Hy. apply Rabs_def2 in Hy. lra. }
  symmetry. apply (C124_solute_partial p (W T y) T y HP); lra.
Qed.
Print Assumptions C124_volume_partial.
Definition neutral_solute : Solute R := mkSolute $"SiO2(aq)" 0 0 0 0 0 0 0 0 0 0 1.
Theorem C124_volume_refuted : exists p W T P, Proton_ok p /\ 228 < T /\ 0 < P /\ water_regular W T P /\ radii_nonzero (solute_SI p) (g_ (gHKF T P (W T P))) /\
  ~ is_derive (fun y => G0 (supcrtSoluteProps p (W T y) T y)) P (V0 (supcrtSoluteProps p (W T P) T P)).
Proof.
  exists neutral_solute, (state_with ideal (fun T P => P / T)), 298.15, 29815.
  assert (HP : Proton_ok neutral_solute) by (intros H; vm_compute in H; discriminate H).
  assert (HR : forall g, radii_nonzero (solute_SI neutral_solute) g) by (intros g C; destruct C; reflexivity).
  destruct C89_nonvacuous as (H1 & _ & HW & _ & _). split; [exact HP|]. split; [exact H1|]. split; [lra|]. split; [exact HW|]. split; [apply HR|].
  intros D. pose proof (C124_volume_partial neutral_solute _ 298.15 29815 HP H1 ltac:(lra) HW (HR _)) as D'.
  pose proof (eq_trans (eq_sym (is_derive_unique _ _ _ D)) (is_derive_unique _ _ _ D')) as E. clear D D'.
  assert (B : born_volume neutral_solute (state_with ideal (fun T P => P / T) 298.15 29815) 298.15 29815 <> 0); [|lra].
  unfold born_volume, speciesElectroPropsHKF, solute_SI, neutral_solute. cbv zeta. cbn [k_charge k_wref so_charge so_wref]. destruct (Req_EM_T 0 0) as [_|N]; [|destruct (N eq_refl)]. cbn [s_w s_wP].
  rewrite Rmult_0_r, Rplus_0_r. apply Rmult_integral_contrapositive_currified; [lra|].
  destruct C88_nonvacuous as (_ & _ & HD & HdP & He). unfold electro, waterElectroStateJohnsonNorton in *. cbv zeta in *. cbn [e_epsilon e_bornQ] in *.
  apply Rmult_integral_contrapositive_currified; [|apply Rinv_neq_0_compat; apply Rmult_integral_contrapositive_currified; exact He].
  clear - HD HdP. cbn [fold_left]. unfold jn_step. cbn [epsP]. rewrite HD. set (d := w_densityP _) in *.
  unfold jn_k, M_Helmholtz.at_, jn_a. cbn [nth INR]. intros E. apply HdP. lra.
Qed.
Print Assumptions C124_volume_refuted.

(* ---- Minerals ---- *)
Lemma at_map {A B} (f : A -> B) l i : M_Thermo.at_ (map f l) i = omap f (M_Thermo.at_ l i).
Proof. unfold M_Thermo.at_. revert i. induction l as [|x l IH]; intros [|i]; cbn; auto. Qed.
Section Mineral.
Variable p : Mineral R.
Notation q := (sc_parameters p).
Notation s := (mineral_SI p).
Lemma abc_SI i : mi_abc s i = omap (fun '(a, b, c) => (a * 4.184, b * 4.184, c * 4.184)) (mi_abc q i).
Proof.
  unfold mi_abc, mineral_SI, sc_parameters. cbn [mi_a mi_b mi_c]. rewrite !at_map.
  destruct (M_Thermo.at_ (mn_a p) i); [|reflexivity..]. destruct (M_Thermo.at_ (mn_b p) i); [|reflexivity..]. destruct (M_Thermo.at_ (mn_c p) i); reflexivity.
Qed.
Lemma Cp_SI Ti T : forall i Cp, mi_Cp s i Ti T (Cp * 4.184) = omap (fun x => x * 4.184) (mi_Cp q i Ti T Cp).
Proof.
  induction Ti as [|T0 Ti IH]; intros i Cp; [reflexivity|]. destruct Ti as [|T1 Ti]; [reflexivity|]. cbn [mi_Cp] in *.
  destruct (Rle_dec T0 T); [|apply IH]. destruct (Rle_dec T T1); [|apply IH]. rewrite abc_SI. destruct (mi_abc q i) as [[[a b] c]| |]; [|reflexivity..]. cbn [omap bind].
  rewrite <- IH. replace (a * 4.184 + b * 4.184 * T + c * 4.184 / (T * T)) with ((a + b * T + c / (T * T)) * 4.184) by (unfold Rdiv; ring). reflexivity.
Qed.
Lemma integrals_step (m : MineralHKF) i T0 T1 Ti x y : mi_integrals m i (T0 :: T1 :: Ti) x y =
  bind (mi_abc m i) (fun '(a, b, c) => mi_integrals m (S i) (T1 :: Ti)
      (x + (a * (T1 - T0) + / 2 * b * (T1 * T1 - T0 * T0) - c * (1 / T1 - 1 / T0)))
      (y + (a * ln (T1 / T0) + b * (T1 - T0) - / 2 * c * (1 / (T1 * T1) - 1 / (T0 * T0))))).
Proof. reflexivity. Qed.
Lemma integrals_SI Ti : forall i x y, mi_integrals s i Ti (x * 4.184) (y * 4.184) = omap (fun '(x, y) => (x * 4.184, y * 4.184)) (mi_integrals q i Ti x y).
Proof.
  induction Ti as [|T0 Ti IH]; intros i x y; [reflexivity|]. destruct Ti as [|T1 Ti]; [reflexivity|]. rewrite !integrals_step.
  rewrite abc_SI. destruct (mi_abc q i) as [[[a b] c]| |]; [|reflexivity..]. cbn [omap bind]. rewrite <- IH. f_equal; ring.
Qed.
Lemma transitions_SI l T : forall i V x y, mi_transitions s i l T (V / 1000000) (x * 4.184) (y * 4.184) = omap (fun '(V, x, y) => (V / 1000000, x * 4.184, y * 4.184)) (mi_transitions q i l T V x y).
Proof.
  induction l as [|t l IH]; intros i V x y; [reflexivity|]. cbn [mi_transitions]. unfold mineral_SI at 1 2, sc_parameters at 1 2. cbn [mi_Htr mi_Vtr]. rewrite !at_map.
  destruct (M_Thermo.at_ (mn_Htr p) i); [|reflexivity..]. destruct (M_Thermo.at_ (mn_Vtr p) i); [|reflexivity..]. cbn [omap bind]. rewrite <- IH.
  match goal with |- mi_transitions _ _ _ _ ?a ?b ?c = mi_transitions _ _ _ _ ?a' ?b' ?c' => replace a with a' by (unfold Rdiv; ring); replace b with b' by (unfold Rdiv; ring); replace c with c' by ring end. reflexivity.
Qed.
Lemma pressures_SI T : mi_pressures s T = omap (map (fun x => x * 100000)) (sc_pressures p T).
Proof.
  unfold mi_pressures, sc_pressures. change (mi_ntr s) with (mn_nptrans p). change (mi_Ttr s) with (mn_Ttr p). change (mi_dPdTtr s) with (map (fun x => x * 100000) (mn_dPdTtr p)).
  set (l := seq 0 (mn_nptrans p)). clearbody l.
  match goal with |- omap _ (mapM ?f l) = omap _ (omap _ (mapM ?g l)) => assert (H : mapM f l = omap (map (map (fun x => x * 100000))) (mapM g l)) end.
  - induction l as [|i l IH]; [reflexivity|]. cbn [mapM]. rewrite IH, at_map. destruct (M_Thermo.at_ (mn_dPdTtr p) i) as [d| |]; [|reflexivity..]. cbn [omap bind].
    destruct (Req_EM_T (d * 100000) 0) as [E|E], (Req_EM_T d 0) as [F|F]; try lra.
    + cbn [bind omap]. match goal with |- omap _ (omap _ ?x) = _ => destruct x; reflexivity | |- bind (omap _ ?x) _ = _ => destruct x; reflexivity end.
    + destruct (M_Thermo.at_ (mn_Ttr p) i) as [t| |]; [|reflexivity..]. cbn [bind omap].
      replace (Pr + d * 100000 * (T - t)) with ((1.0 + d * (T - t)) * 100000) by (unfold Pr; lra).
      match goal with |- omap _ (omap _ ?x) = _ => destruct x; reflexivity | |- bind (omap _ ?x) _ = _ => destruct x; reflexivity end.
  - rewrite H. match goal with |- omap _ (omap _ ?x) = _ => destruct x as [x'| |]; [|reflexivity..] end. unfold omap, bind. rewrite concat_map. reflexivity.
Qed.
Lemma VdP_SI Pt P : forall i V X, mi_VdP s i (map (fun x => x * 100000) Pt) P (V / 1000000) X =
  omap (fun '(V, Y) => (V / 1000000, Y / (sc_factor * 10))) (sc_VdP p i Pt (P * 1.0e-5) V (X * (sc_factor * 10))).
Proof.
  assert (F0 : sc_factor <> 0) by (unfold sc_factor; lra).
  induction Pt as [|t Pt IH]; intros i V X; cbn [map mi_VdP sc_VdP].
  - cbn [omap bind]. replace (X * (sc_factor * 10) / (sc_factor * 10)) with X by (field; exact F0). reflexivity.
  - destruct (Rlt_dec 0 (t * 100000)) as [A|A], (Rlt_dec 0 t) as [B|B]; try lra; [|apply IH].
    destruct (Rlt_dec (t * 100000) P) as [C|C], (Rlt_dec t (P * 1.0e-5)) as [D|D]; try lra; [|apply IH].
    change (mi_Vtr s) with (map (fun x => x / 1000000) (mn_Vtr p)). rewrite at_map. destruct (M_Thermo.at_ (mn_Vtr p) i) as [v| |]; [|reflexivity..]. cbn [omap bind].
    replace (V / 1000000 - v / 1000000) with ((V - v) / 1000000) by field. rewrite IH.
    replace ((X - v / 1000000 * (P - t * 100000)) * (sc_factor * 10)) with (X * (sc_factor * 10) - sc_factor * v * (P * 1.0e-5 - t)) by (unfold sc_factor; lra). reflexivity.
Qed.
Lemma no_pressures T : (forall d, In d (mn_dPdTtr p) -> d = 0) -> forall l, sc_pressures p T = Ok l -> l = [].
Proof.
  intros H l. unfold sc_pressures. set (k := seq 0 (mn_nptrans p)). clearbody k.
  match goal with |- omap _ (mapM ?f k) = _ -> _ => assert (K : forall ll, mapM f k = Ok ll -> concat ll = []) end.
  - induction k as [|i k IH]; intros ll E; cbn [mapM] in E; [injection E as <-; reflexivity|]. destruct (M_Thermo.at_ (mn_dPdTtr p) i) as [d| |] eqn:Ed; cbn [bind] in E; try discriminate E.
    assert (d = 0) as ->. { apply H. unfold M_Thermo.at_ in Ed. destruct (nth_error (mn_dPdTtr p) i) eqn:N; [|discriminate Ed]. injection Ed as <-. exact (nth_error_In _ _ N). }
    destruct (Req_EM_T 0 0) as [_|N]; [|lra]. cbn [bind] in E. destruct (mapM _ k) as [m| |]; try discriminate E. cbn in E. injection E as <-. cbn. exact (IH m eq_refl).
  - intros E. destruct (mapM _ k) as [m| |]; try discriminate E. cbn [omap bind] in E. injection E as <-. exact (K m eq_refl).
Qed.
End Mineral.
(* The volume and the heat capacity are those of the library's own model with the
   same parameters in SI units; the pressure terms of both energies are too large
   by the same factor. *)
Definition factor_excess : R := 0.023901488 * 41.84 - 1.
Theorem C124_mineral_partial : forall p T P, 0 < T <= mn_Tmax p ->
  match supcrtMaierKellyHKF p T P, stdMineralHKF (mineral_SI p) T P with
  | Ok r, Ok s => V0 r = V0 s /\ Cp0 r = Cp0 s /\ Cv0 r = Cv0 s /\ exists I, G0 r = G0 s + factor_excess * I /\ H0 r = H0 s + factor_excess * I /\
      ((forall d, In d (mn_dPdTtr p) -> d = 0) -> I = V0 s * (P - 100000))
  | Err, Err | UB, UB => True
  | _, _ => False
  end.
Proof.
  intros p T P [H1 H2]. unfold supcrtMaierKellyHKF, checkTemperatureValidityHKF.
  destruct (Rle_dec T 0) as [C|_]; [lra|]. destruct (Rlt_dec (mn_Tmax p) T) as [C|_]; [lra|]. rewrite Rmin_left by exact H2. unfold stdMineralHKF.
  change (mi_points (mineral_SI p) T) with (mi_points (sc_parameters p) T). rewrite pressures_SI.
  destruct (mi_points (sc_parameters p) T) as [Ti| |]; cbn [bind]; [|exact I..].
  destruct (sc_pressures p T) as [Pt| |] eqn:EP; cbn [bind omap]; [|exact I..].
  pose proof (Cp_SI p Ti T 0 0) as E1. rewrite Rmult_0_l in E1. rewrite E1. destruct (mi_Cp (sc_parameters p) 0 Ti T 0) as [Cp| |]; cbn [bind omap]; [|exact I..].
  pose proof (integrals_SI p Ti 0 0 0) as E2. rewrite Rmult_0_l in E2. rewrite E2. destruct (mi_integrals (sc_parameters p) 0 Ti 0 0) as [[x y]| |]; cbn [bind omap]; [|exact I..].
  pose proof (transitions_SI p (removelast (tl Ti)) T 0 (mn_Vr p) 0 0) as E3. rewrite !Rmult_0_l in E3. change (mi_Vr (mineral_SI p)) with (mn_Vr p / 1000000). rewrite E3.
  destruct (mi_transitions (sc_parameters p) 0 (removelast (tl Ti)) T (mn_Vr p) 0 0) as [[[V g] h]| |]; cbn [bind omap]; [|exact I..].
  rewrite (VdP_SI p Pt P 0 V).
  assert (F0 : sc_factor <> 0) by (unfold sc_factor; lra).
  replace (V / 1000000 * (P - Pr) * (sc_factor * 10)) with (sc_factor * V * (P * 1.0e-5 - 1.0)) by (unfold Pr, sc_factor; lra).
  destruct (sc_VdP p 0 Pt (P * 1.0e-5) V (sc_factor * V * (P * 1.0e-5 - 1.0))) as [[V' Y]| |] eqn:EV; cbn [bind omap]; [|exact I..].
  cbn [V0 Cp0 Cv0 G0 H0]. unfold mineral_SI. cbn [mi_Gf mi_Hf mi_Sr]. unfold calorieToJoule, cubicCentimeterToCubicMeter.
  split; [lra|]. split; [reflexivity|]. split; [reflexivity|]. exists (Y / (sc_factor * 10)).
  assert (K : Y * 4.184 = Y / (sc_factor * 10) + factor_excess * (Y / (sc_factor * 10))).
  { replace factor_excess with (sc_factor * 10 * 4.184 - 1) by (unfold factor_excess, sc_factor; lra). field. exact F0. }
  split; [|split].
  - transitivity (mn_Gf p * 4.184 - mn_Sr p * 4.184 * (T - Tr) + x * 4.184 - T * (y * 4.184) + Y * 4.184 - g * 4.184); [ring|]. rewrite K. ring.
  - transitivity (mn_Hf p * 4.184 + x * 4.184 + Y * 4.184 + h * 4.184); [ring|]. rewrite K. ring.
  - intros HZ. rewrite (no_pressures p T HZ Pt EP) in EV. cbn [sc_VdP] in EV. injection EV as <- <-. unfold sc_factor. lra.
Qed.
Print Assumptions C124_mineral_partial.

(* A mineral of 22.688 cm3/mol: the Gibbs energy grows faster with pressure than by
   its volume. *)
Definition simple_mineral : Mineral R := mkMineral $"Quartz" 0 0 0 22.688 0 [0] [0] [0] [] [] [] [] 2000.
Theorem C124_mineral_refuted : exists (F : R -> StdProps) T P,
  (forall y, supcrtMaierKellyHKF simple_mineral T y = Ok (F y)) /\ is_derive (fun y => G0 (F y)) P ((1 + factor_excess) * V0 (F P)) /\ V0 (F P) = 22.688e-6 /\ 0 < factor_excess /\
  ~ is_derive (fun y => G0 (F y)) P (V0 (F P)).
Proof.
  assert (E : forall y, exists r, supcrtMaierKellyHKF simple_mineral 298.15 y = Ok r /\ G0 r = 22.688e-6 * (1 + factor_excess) * (y - 100000) /\ V0 r = 22.688e-6).
  { intros y. unfold supcrtMaierKellyHKF, checkTemperatureValidityHKF, simple_mineral. cbn [mn_Tmax].
    destruct (Rle_dec 298.15 0) as [C|_]; [lra|]. destruct (Rlt_dec 2000 298.15) as [C|_]; [lra|]. rewrite Rmin_left by lra.
    cbn -[Rle_dec Rlt_dec Req_EM_T IZR Q2R Rplus Rmult Rminus Rdiv Tr calorieToJoule cubicCentimeterToCubicMeter sc_factor].
    destruct (Rle_dec Tr 298.15) as [_|C]; [|unfold Tr in C; lra]. destruct (Rle_dec 298.15 298.15) as [_|C]; [|lra]. cbn [bind].
    eexists. split; [reflexivity|]. cbn [G0 V0]. unfold calorieToJoule, cubicCentimeterToCubicMeter, factor_excess, sc_factor. split; lra. }
  exists (fun y => match supcrtMaierKellyHKF simple_mineral 298.15 y with Ok r => r | _ => mkStdProps 0 0 0 0 0 end), 298.15, 1e6.
  split; [intros y; destruct (E y) as (r & -> & _); reflexivity|].
  assert (EV : V0 (match supcrtMaierKellyHKF simple_mineral 298.15 1e6 with Ok r => r | _ => mkStdProps 0 0 0 0 0 end) = 22.688e-6) by (destruct (E 1e6) as (r & -> & _ & ->); reflexivity).
  rewrite EV.
  assert (D : is_derive (fun y => G0 (match supcrtMaierKellyHKF simple_mineral 298.15 y with Ok r => r | _ => mkStdProps 0 0 0 0 0 end)) 1e6 ((1 + factor_excess) * 22.688e-6)).
  { apply is_derive_ext with (fun y => 22.688e-6 * (1 + factor_excess) * (y - 100000)); [intros y; destruct (E y) as (r & -> & -> & _); reflexivity|].
    auto_derive; [exact I|ring]. }
  assert (0 < factor_excess) by (unfold factor_excess; lra).
  split; [exact D|]. split; [reflexivity|]. split; [assumption|]. intros D'.
  pose proof (eq_trans (eq_sym (is_derive_unique _ _ _ D)) (is_derive_unique _ _ _ D')) as X. unfold factor_excess in *. lra.
Qed.
Print Assumptions C124_mineral_refuted.

(* C124, full statement: at a given temperature, the volume of every species is the
   derivative of its Gibbs energy. *)
Definition C124_statement : Prop :=
  (forall p W T P, Proton_ok p -> 228 < T -> 0 < P -> water_regular W T P -> radii_nonzero (solute_SI p) (g_ (gHKF T P (W T P))) ->
     is_derive (fun y => G0 (supcrtSoluteProps p (W T y) T y)) P (V0 (supcrtSoluteProps p (W T P) T P))) /\
  (forall p T P (F : R -> StdProps), (forall y, supcrtMaierKellyHKF p T y = Ok (F y)) -> 0 < P -> is_derive (fun y => G0 (F y)) P (V0 (F P))).
Theorem C124_refuted : ~ C124_statement.
Proof.
  intros [H _]. destruct C124_volume_refuted as (p & W & T & P & A & B & C & D & E & N). exact (N (H p W T P A B C D E)).
Qed.
Print Assumptions C124_refuted.

(* The parameters of Na+ of supcrt98.xml (lines 10810-10833) and of CO2(g), and
   temperatures and pressures that meet the hypotheses. *)
Definition sodium_supcrt : Solute R := mkSolute $"Na+" 1 (-62591.0) (-57433.0) 13.96 0.1839 (-228.5) 3.256 (-27260.0) 18.18 (-29810.0) 33060.0.
Definition proton_supcrt : Solute R := mkSolute $"H+" 1 0 0 0 0 0 0 0 0 0 0.
Example C124_nonvacuous : Proton_ok sodium_supcrt /\ named_H $"Na+" = false /\ Proton_ok proton_supcrt /\ named_H $"H+" = true /\ k_wref (solute_SI sodium_supcrt) = 138323.04 /\
  228 < 298.15 /\ 0 < 29815 /\ water_regular (state_with ideal (fun T P => P / T)) 298.15 29815 /\
  radii_nonzero (solute_SI sodium_supcrt) (g_ (gHKF 298.15 29815 (state_with ideal (fun T P => P / T) 298.15 29815))).
Proof.
  split; [intros H; vm_compute in H; discriminate H|]. split; [reflexivity|]. split; [intros _; split; reflexivity|]. split; [reflexivity|].
  split; [unfold solute_SI, sodium_supcrt; cbn [k_wref so_wref]; lra|]. split; [lra|]. split; [lra|]. destruct C89_nonvacuous as (_ & _ & HW & _). split; [exact HW|].
  destruct C88_nonvacuous as (_ & _ & HD & _). intros _. unfold gHKF. cbv zeta. rewrite HD. rewrite (above_false 100 1000), (above_true 350 100) by lra. cbn [orb g_].
  unfold radius, sodium_supcrt, solute_SI, eta. cbn [k_charge k_wref so_charge so_wref]. rewrite Rabs_R1. split; [|lra].
  assert (0 < 1 ^ 2 / (33060.0 * 4.184 / 6.94656968e+05 + 1 / 3.082)) by (apply Rdiv_lt_0_compat; lra). lra.
Qed.
Example C124_gas_nonvacuous : exists r, supcrtMaierKelly (mkMaierKelly $"CO2(g)" (-94254) (-94051) 51.085 10.57 0.0021 (-206000) 2500) 298.15 100000 = Ok r /\ V0 r = 0.02478956875115 /\ Cv0 r > 0.
Proof.
  destruct (C124_gas_partial (mkMaierKelly $"CO2(g)" (-94254) (-94051) 51.085 10.57 0.0021 (-206000) 2500) 298.15 100000) as (r & E & _ & _ & _ & C & V & _); [cbn [ga_Tmax]; lra|].
  exists r. split; [exact E|]. split; [rewrite V; lra|]. rewrite C. unfold stdMaierKelley, gas_SI. cbn [Cv0 ga_a ga_b ga_c]. destruct (Req_EM_T 0 0) as [_|N]; [|lra].
  unfold universalGasConstant. lra.
Qed.
Example C124_mineral_nonvacuous : 0 < 298.15 <= mn_Tmax simple_mineral /\ forall d, In d (mn_dPdTtr simple_mineral) -> d = 0.
Proof. split; [cbn; lra|intros d []]. Qed.
