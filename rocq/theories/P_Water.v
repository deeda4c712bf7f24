(* Proofs about the thermodynamic state of water: differentials of a function
   defined implicitly, and of what is computed from it. *)
From Coq Require Import Reals List ZArith Lia Lra.
From Coquelicot Require Import Coquelicot.
Import ListNotations.
From Verif Require Import Base M_Helmholtz M_Water S_Water P_Helmholtz.
Local Open Scope R_scope.

Lemma implicit_JD (F rho : R -> R -> R) (T0 P0 FT FD : R) :
  JD F T0 (rho T0 P0) FT FD -> FD <> 0 -> continuity_2d_pt rho T0 P0 ->
  locally_2d (fun T P => F T (rho T P) = P) T0 P0 ->
  JD rho T0 P0 (- FT / FD) (1 / FD).
Proof.
  intros HF HFD Hc He eps. set (r0 := rho T0 P0) in *. set (a := Rabs FD).
  assert (Ha : 0 < a) by (apply Rabs_pos_lt; exact HFD).
  set (C := 2 * ((Rabs FT + 1) / a + 1 / 2)).
  assert (HFT : 0 <= Rabs FT) by apply Rabs_pos.
  assert (HC : 0 < C). { unfold C. assert (0 < (Rabs FT + 1) / a) by (apply Rdiv_lt_0_compat; lra). lra. }
  pose proof (cond_pos eps) as Heps. set (e := pos eps) in *.
  assert (Hq : 0 < e * a / (1 + C)) by (apply Rdiv_lt_0_compat; [apply Rmult_lt_0_compat; assumption|lra]).
  set (eta := Rmin (a / 2) (e * a / (1 + C))).
  assert (Heta : 0 < eta) by (unfold eta; apply Rmin_pos; lra).
  destruct (HF (mkposreal eta Heta)) as [d1 Hd1].
  destruct (Hc d1) as [d2 Hd2]. destruct He as [d3 Hd3].
  assert (E0 : F T0 r0 = P0).
  { apply Hd3; rewrite Rminus_eq_0, Rabs_R0; apply cond_pos. }
  assert (Hd : 0 < Rmin d1 (Rmin d2 d3)) by (repeat apply Rmin_pos; apply cond_pos).
  exists (mkposreal _ Hd). intros T P HT HP. cbn [pos] in HT, HP.
  pose proof (Rmin_l d1 (Rmin d2 d3)). pose proof (Rmin_r d1 (Rmin d2 d3)).
  pose proof (Rmin_l d2 d3). pose proof (Rmin_r d2 d3).
  assert (Hr : Rabs (rho T P - r0) < d1) by (apply Hd2; lra).
  assert (HE : F T (rho T P) = P) by (apply Hd3; lra).
  specialize (Hd1 T (rho T P) ltac:(lra) Hr). cbn [pos] in Hd1. rewrite HE, E0 in Hd1.
  set (x := T - T0) in *. set (p := P - P0) in *. set (y := rho T P - r0) in *.
  set (m := Rmax (Rabs x) (Rabs p)).
  pose proof (Rmax_l (Rabs x) (Rabs p)). pose proof (Rmax_r (Rabs x) (Rabs p)). fold m in H3, H4.
  pose proof (Rabs_pos x). pose proof (Rabs_pos p). pose proof (Rabs_pos y).
  assert (HM : Rmax (Rabs x) (Rabs y) <= m + Rabs y) by (apply Rmax_lub; lra).
  set (err := p - (FT * x + FD * y)) in *.
  assert (Hy : y - (- FT / FD * x + 1 / FD * p) = - err / FD) by (unfold err; field; exact HFD).
  assert (Hyb : Rabs (- err / FD) <= eta / a * (m + Rabs y)).
  { unfold Rdiv. rewrite Rabs_mult, Rabs_Ropp, Rabs_inv. fold a.
    replace (eta * / a * (m + Rabs y)) with (eta * (m + Rabs y) * / a) by ring.
    apply Rmult_le_compat_r; [left; apply Rinv_0_lt_compat, Ha|].
    eapply Rle_trans; [exact Hd1|]. apply Rmult_le_compat_l; [lra|exact HM]. }
  assert (He2 : eta / a <= 1 / 2).
  { apply (Rmult_le_reg_r a _ _ Ha). unfold Rdiv at 1. rewrite Rmult_assoc, Rinv_l by lra. pose proof (Rmin_l (a / 2) (e * a / (1 + C))). fold eta in H8. lra. }
  assert (He3 : eta / a * (1 + C) <= e).
  { pose proof (Rmin_r (a / 2) (e * a / (1 + C))) as H8. fold eta in H8.
    apply (Rmult_le_compat_r ((1 + C) / a)) in H8; [|left; apply Rdiv_lt_0_compat; lra].
    replace (e * a / (1 + C) * ((1 + C) / a)) with e in H8 by (field; lra).
    replace (eta / a * (1 + C)) with (eta * ((1 + C) / a)) by (field; lra). exact H8. }
  assert (Hlin : Rabs (- FT / FD * x + 1 / FD * p) <= (Rabs FT + 1) / a * m).
  { eapply Rle_trans; [apply Rabs_triang|]. rewrite !Rabs_mult. unfold Rdiv. rewrite !Rabs_mult, Rabs_Ropp, Rabs_inv, Rabs_R1. fold a.
    assert (0 < / a) by (apply Rinv_0_lt_compat, Ha).
    replace ((Rabs FT + 1) * / a * m) with (Rabs FT * / a * m + 1 * / a * m) by ring.
    apply Rplus_le_compat; apply Rmult_le_compat_l; try assumption; [apply Rmult_le_pos; lra|lra]. }
  assert (Hyc : Rabs y <= C * m).
  { replace y with ((- FT / FD * x + 1 / FD * p) + - err / FD) at 1 by lra.
    assert (B : Rabs (- FT / FD * x + 1 / FD * p + - err / FD) <= (Rabs FT + 1) / a * m + 1 / 2 * (m + Rabs y)).
    { eapply Rle_trans; [apply Rabs_triang|]. apply Rplus_le_compat; [exact Hlin|]. eapply Rle_trans; [exact Hyb|].
      apply Rmult_le_compat_r; lra. }
    assert (B' : Rabs y <= (Rabs FT + 1) / a * m + 1 / 2 * (m + Rabs y)) by (replace y with ((- FT / FD * x + 1 / FD * p) + - err / FD) at 1 by lra; exact B).
    eapply Rle_trans; [exact B|]. unfold C. lra. }
  rewrite Hy. eapply Rle_trans; [exact Hyb|].
  apply Rle_trans with (eta / a * (1 + C) * m).
  - replace (eta / a * (1 + C) * m) with (eta / a * (m + C * m)) by ring. apply Rmult_le_compat_l; [|lra].
    left; apply Rdiv_lt_0_compat; assumption.
  - apply Rmult_le_compat_r; lra.
Qed.

(* ---- The state of water at given temperature and pressure ---- *)
Section WaterState.
Variables (S : R -> R -> HelmholtzState) (rho : R -> R -> R) (T0 P0 : R).
Let r0 := rho T0 P0.
Hypothesis HS : Derivs S T0 r0.
Hypothesis Hc : continuity_2d_pt rho T0 P0.
Hypothesis He : locally_2d (fun T P => 0 < P /\ 0 < rho T P /\ rho T P * rho T P * helmholtzD (S T (rho T P)) = P) T0 P0.
Let W (T P : R) : WaterThermoState := waterThermoState T P (S T (rho T P)).
Let pD := 2 * r0 * helmholtzD (S T0 r0) + r0 * r0 * helmholtzDD (S T0 r0).
Hypothesis HpD : pD <> 0.

Lemma point : 0 < P0 /\ 0 < r0 /\ r0 * r0 * helmholtzD (S T0 r0) = P0.
Proof. destruct He as [d Hd]. apply Hd; rewrite Rminus_eq_0, Rabs_R0; apply cond_pos. Qed.
Lemma density_of h P r : 0 < P -> 0 < r -> r * r * helmholtzD h = P -> sqrt (P / helmholtzD h) = r.
Proof.
  intros HP Hr E. assert (helmholtzD h <> 0) by (intros Z; rewrite Z in E; lra).
  replace (P / helmholtzD h) with (r * r) by (rewrite <- E; field; assumption). apply sqrt_square. lra.
Qed.
Lemma density_rho : locally_2d (fun T P => w_density (W T P) = rho T P) T0 P0.
Proof.
  eapply locally_2d_impl; [|exact He]. apply locally_2d_forall. intros T P (HP & Hr & E).
  unfold W, waterThermoState; cbn [w_density]. apply density_of; assumption.
Qed.
Let rT := - (r0 * r0 * helmholtzTD (S T0 r0)) / pD.
Let rP := 1 / pD.
Lemma rho_JD : JD rho T0 P0 rT rP.
Proof.
  apply (implicit_JD (fun T D => D * D * helmholtzD (S T D))); [|exact HpD|exact Hc|].
  - fold r0. destruct HS as [_ _ A _ _ _]. jj; unfold pD; ring.
  - eapply locally_2d_impl; [|exact He]. apply locally_2d_forall. tauto.
Qed.
(* A field of the Helmholtz state along the density. *)
Lemma along (f : HelmholtzState -> R) u v : JD (fun T D => f (S T D)) T0 r0 u v ->
  JD (fun T P => f (S T (rho T P))) T0 P0 (u + v * rT) (v * rP).
Proof.
  intros H. eapply j_val.
  - apply (differentiable_pt_lim_comp (fun T D => f (S T D)) (fun T _ => T) rho T0 P0 u v 1 0 rT rP); [exact H|apply j_fst|exact rho_JD].
  - ring.
  - ring.
Qed.
(* The state in terms of the density. *)
Definition wstate (T P r : R) (h : HelmholtzState) : WaterThermoState :=
  let pressure := r * r * helmholtzD h in
  let pressureD := 2 * r * helmholtzD h + r * r * helmholtzDD h in
  let pressureT := r * r * helmholtzTD h in
  let pressureDD := 2 * helmholtzD h + 4 * r * helmholtzDD h + r * r * helmholtzDDD h in
  let pressureTD := 2 * r * helmholtzTD h + r * r * helmholtzTDD h in
  let pressureTT := r * r * helmholtzTTD h in
  let densityT := - pressureT / pressureD in
  let densityP := 1 / pressureD in
  mkW T (1 / r) (- helmholtzT h) (helmholtz h) (helmholtz h + T * - helmholtzT h)
      (helmholtz h + T * - helmholtzT h + P / r) (helmholtz h + T * - helmholtzT h + P / r - T * - helmholtzT h)
      (- T * helmholtzTT h) (- T * helmholtzTT h + T / (r * r) * pressureT * pressureT / pressureD)
      r densityT densityP
      (- densityT * densityP * (densityT * pressureDD + 2 * pressureTD + pressureTT / densityT))
      (- densityP * densityP * (densityT * pressureDD + pressureTD))
      (- densityP * densityP * densityP * pressureDD)
      pressure pressureT pressureD pressureTT pressureTD pressureDD.
Lemma W_wstate : locally_2d (fun T P => W T P = wstate T P (rho T P) (S T (rho T P))) T0 P0.
Proof.
  eapply locally_2d_impl; [|exact He]. apply locally_2d_forall. intros T P (HP & Hr & E).
  unfold W, waterThermoState. cbv zeta. rewrite (density_of _ _ _ HP Hr E). reflexivity.
Qed.
Lemma W_at : W T0 P0 = wstate T0 P0 r0 (S T0 r0).
Proof. destruct W_wstate as [d Hd]. apply Hd; rewrite Rminus_eq_0, Rabs_R0; apply cond_pos. Qed.
Lemma W_JD (f : WaterThermoState -> R) a b :
  JD (fun T P => f (wstate T P (rho T P) (S T (rho T P)))) T0 P0 a b -> JD (fun T P => f (W T P)) T0 P0 a b.
Proof.
  apply differentiable_pt_lim_ext. eapply locally_2d_impl; [|exact W_wstate]. apply locally_2d_forall. intros T P E. rewrite E. reflexivity.
Qed.
Ltac wproj := cbn [w_temperature w_volume w_entropy w_helmholtz w_internal_energy w_enthalpy w_gibbs w_cv w_cp
  w_density w_densityT w_densityP w_densityTT w_densityTP w_densityPP w_pressure w_pressureT w_pressureD w_pressureTT w_pressureTD w_pressureDD].

Record Thermo : Prop := {
  th_density : w_density (W T0 P0) = rho T0 P0;
  th_pressure : w_pressure (W T0 P0) = P0;
  th_volume : w_volume (W T0 P0) * w_density (W T0 P0) = 1;
  th_helm : w_helmholtz (W T0 P0) = w_internal_energy (W T0 P0) - T0 * w_entropy (W T0 P0);
  th_enth : w_enthalpy (W T0 P0) = w_internal_energy (W T0 P0) + P0 * w_volume (W T0 P0);
  th_gibbs : w_gibbs (W T0 P0) = w_enthalpy (W T0 P0) - T0 * w_entropy (W T0 P0);
  th_drho : JD (fun T P => w_density (W T P)) T0 P0 (w_densityT (W T0 P0)) (w_densityP (W T0 P0));
  th_drhoT : w_densityT (W T0 P0) <> 0 ->
    JD (fun T P => w_densityT (W T P)) T0 P0 (w_densityTT (W T0 P0)) (w_densityTP (W T0 P0));
  th_drhoP : JD (fun T P => w_densityP (W T P)) T0 P0 (w_densityTP (W T0 P0)) (w_densityPP (W T0 P0));
  th_dgibbs : JD (fun T P => w_gibbs (W T P)) T0 P0 (- w_entropy (W T0 P0)) (w_volume (W T0 P0));
  th_denth : exists HP : R, JD (fun T P => w_enthalpy (W T P)) T0 P0 (w_cp (W T0 P0)) HP;
  th_dvolume : exists VT VP : R, JD (fun T P => w_volume (W T P)) T0 P0 VT VP /\
     JD (fun T P => w_entropy (W T P)) T0 P0 (w_cp (W T0 P0) / T0) (- VT);
  th_cv : is_derive (fun T => helmholtz (S T r0) + T * - helmholtzT (S T r0)) T0 (w_cv (W T0 P0)) }.

Lemma jd_fst (f : R -> R -> R) (x y a b : R) : JD f x y a b -> is_derive (fun u => f u y) x a.
Proof.
  intros H. apply is_derive_Reals. replace a with (a * 1 + b * 0) by ring.
  apply (derivable_pt_lim_comp_2d f (fun u => u) (fun _ => y)); [exact H|apply derivable_pt_lim_id|apply (derivable_pt_lim_const y)].
Qed.

Lemma thermo : T0 <> 0 -> Thermo.
Proof.
  intros HT. destruct point as (HP & Hr & E). pose proof rho_JD as Hrho.
  destruct HS as [A1 A2 A3 A4 A5 A6].
  pose proof (along helmholtz _ _ A1) as B1. pose proof (along helmholtzT _ _ A2) as B2. pose proof (along helmholtzD _ _ A3) as B3.
  pose proof (along helmholtzTT _ _ A4) as B4. pose proof (along helmholtzTD _ _ A5) as B5. pose proof (along helmholtzDD _ _ A6) as B6.
  assert (Hr' : r0 <> 0) by lra.
  split.
  - rewrite W_at; reflexivity.
  - rewrite W_at; unfold wstate; cbv zeta; wproj. exact E.
  - rewrite W_at; unfold wstate; cbv zeta; wproj. field. exact Hr'.
  - rewrite W_at; unfold wstate; cbv zeta; wproj. ring.
  - rewrite W_at; unfold wstate; cbv zeta; wproj. field. exact Hr'.
  - rewrite W_at; unfold wstate; cbv zeta; wproj. ring.
  - rewrite W_at. apply (W_JD w_density). unfold wstate; cbv zeta; wproj. exact Hrho.
  - rewrite W_at. intros Hn. apply (W_JD w_densityT). unfold wstate in *; cbv zeta in *; revert Hn; wproj. intros Hn. fold pD in Hn |- *.
    jj; try exact HpD.
    + fold r0. fold pD. unfold rT. set (q := helmholtzTD (S T0 r0)) in *. assert (q <> 0) by (intros Z; apply Hn; rewrite Z; unfold Rdiv; ring).
      field. repeat split; assumption.
    + fold r0. fold pD. unfold rT, rP. field. assumption.
  - rewrite W_at. apply (W_JD w_densityP). unfold wstate; cbv zeta; wproj. fold pD. jj; try exact HpD.
    + fold r0; fold pD. unfold rT. field. exact HpD.
    + fold r0; fold pD. unfold rP. field. exact HpD.
  - rewrite W_at. apply (W_JD w_gibbs). unfold wstate; cbv zeta; wproj. fold pD. jj; try exact Hr'; fold r0.
    + rewrite <- E at 1. unfold rT. field. auto.
    + rewrite <- E at 1. unfold rP. field. auto.
  - eexists. rewrite W_at. apply (W_JD w_enthalpy). unfold wstate; cbv zeta; wproj. fold pD. jj; try exact Hr'; fold r0.
    + rewrite <- E at 1. unfold rT. field. auto.
    + reflexivity.
  - exists (- rT / (r0 * r0)), (- rP / (r0 * r0)). rewrite W_at. split.
    + apply (W_JD w_volume). unfold wstate; cbv zeta; wproj. jj; try exact Hr'; fold r0; field; exact Hr'.
    + apply (W_JD w_entropy). unfold wstate; cbv zeta; wproj. fold pD. jj; unfold rT, rP; field; auto.
  - rewrite W_at. unfold wstate; cbv zeta; wproj.
    apply (jd_fst (fun T D => helmholtz (S T D) + T * - helmholtzT (S T D)) T0 r0 _ (helmholtzD (S T0 r0) - T0 * helmholtzTD (S T0 r0))).
    jj; ring.
Qed.
End WaterState.
