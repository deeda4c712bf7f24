(* C86 and C87: the fields of the Helmholtz states of water are the partial
   derivatives of the Helmholtz function. *)
From Coq Require Import Reals List ZArith Lia Lra.
From Coquelicot Require Import Coquelicot.
Import ListNotations.
From Verif Require Import Base M_Helmholtz S_Water P_Helmholtz P_Wagner P_Helmholtz2.
Local Open Scope R_scope.

(* The ten fields of a Helmholtz state are what their names say. *)
Definition fields_are_derivatives (S : R -> R -> HelmholtzState) (T D : R) : Prop :=
  Differentials (fun T D => helmholtz (S T D))
    (fun T D => helmholtzT (S T D)) (fun T D => helmholtzD (S T D))
    (fun T D => helmholtzTT (S T D)) (fun T D => helmholtzTD (S T D)) (fun T D => helmholtzDD (S T D))
    (fun T D => helmholtzTTT (S T D)) (fun T D => helmholtzTTD (S T D))
    (fun T D => helmholtzTDD (S T D)) (fun T D => helmholtzDDD (S T D)) T D.

Lemma jd_derive (f : R -> R -> R) (x y a b : R) : differentiable_pt_lim f x y a b ->
  is_derive (fun u => f u y) x a /\ is_derive (fun v => f x v) y b.
Proof.
  intros H. split; apply is_derive_Reals.
  - replace a with (a * 1 + b * 0) by ring.
    apply (derivable_pt_lim_comp_2d f (fun u => u) (fun _ => y)); [exact H|apply derivable_pt_lim_id|apply (derivable_pt_lim_const y)].
  - replace b with (a * 0 + b * 1) by ring.
    apply (derivable_pt_lim_comp_2d f (fun _ => x) (fun v => v)); [exact H|apply (derivable_pt_lim_const x)|apply derivable_pt_lim_id].
Qed.

(* ---- C87: Wagner and Pruss ---- *)
Theorem C87_wagner_pruss (T D : R) : 0 < T -> 0 < D -> D <> 322 ->
  fields_are_derivatives waterHelmholtzStateWagnerPruss T D.
Proof. intros HT HD HDc. exact (Derivs_WagnerPruss T D HT HD HDc). Qed.
Print Assumptions C87_wagner_pruss.

(* The same in terms of one variable at a time: the derivatives with the other
   variable held fixed. *)
Theorem C87_partial_derivatives (T D : R) : 0 < T -> 0 < D -> D <> 322 ->
  let S := waterHelmholtzStateWagnerPruss in
  is_derive (fun x => helmholtz (S x D)) T (helmholtzT (S T D)) /\
  is_derive (fun y => helmholtz (S T y)) D (helmholtzD (S T D)) /\
  is_derive (fun x => helmholtzT (S x D)) T (helmholtzTT (S T D)) /\
  is_derive (fun y => helmholtzT (S T y)) D (helmholtzTD (S T D)) /\
  is_derive (fun x => helmholtzD (S x D)) T (helmholtzTD (S T D)) /\
  is_derive (fun y => helmholtzD (S T y)) D (helmholtzDD (S T D)) /\
  is_derive (fun x => helmholtzTT (S x D)) T (helmholtzTTT (S T D)) /\
  is_derive (fun y => helmholtzTT (S T y)) D (helmholtzTTD (S T D)) /\
  is_derive (fun x => helmholtzTD (S x D)) T (helmholtzTTD (S T D)) /\
  is_derive (fun y => helmholtzTD (S T y)) D (helmholtzTDD (S T D)) /\
  is_derive (fun x => helmholtzDD (S x D)) T (helmholtzTDD (S T D)) /\
  is_derive (fun y => helmholtzDD (S T y)) D (helmholtzDDD (S T D)).
Proof.
  intros HT HD HDc S. destruct (C87_wagner_pruss T D HT HD HDc) as [A B C E F G]. fold S in A, B, C, E, F, G.
  apply jd_derive in A, B, C, E, F, G. tauto.
Qed.
Print Assumptions C87_partial_derivatives.
(* Liquid water at room temperature. *)
Example C87_nonvacuous : (0 < 298.15 /\ 0 < 997 /\ 997 <> 322) /\
  fields_are_derivatives waterHelmholtzStateWagnerPruss 298.15 997.
Proof. split; [repeat split; lra|apply C87_wagner_pruss; lra]. Qed.

(* ---- C86: Haar, Gallagher and Kell ---- *)
(* Where the equations make sense: positive temperature and density, a density
   at which the hard-sphere terms do not blow up (reduced covolume below one),
   and not one of the two reduced densities at which the code divides by zero. *)
Definition hgk_domain (T D : R) : Prop :=
  let t := T / 647.27 in let d := D / 317.763 in
  0 < T /\ 0 < D /\
  d * (0.059402227 - 0.028128238 * ln t + 0.00056826674 / t ^ 3 - 0.00027987451 / t ^ 5) < 1 /\
  d <> 1.0038928 /\ d <> 4.8778492.

Definition C86_statement : Prop := forall T D, hgk_domain T D -> fields_are_derivatives waterHelmholtzStateHGK T D.

Lemma hgk_domain_ok T D : hgk_domain T D ->
  0 < T /\ 0 < D /\ b_y (T / referenceTemperature) (D / referenceDensity) < 1 /\ regular (D / referenceDensity).
Proof.
  intros (HT & HD & Hy & H1 & H2). repeat split; try assumption.
  - unfold referenceTemperature, referenceDensity, b_y, at_, hgk_yc; cbn [nth].
    assert (Ht : 0 < T / 647.27) by (apply Rdiv_lt_0_compat; lra).
    replace (powerRZ (T / 647.27) (-3)) with (/ (T / 647.27) ^ 3) by reflexivity.
    replace (powerRZ (T / 647.27) (-5)) with (/ (T / 647.27) ^ 5) by reflexivity.
    eapply Rle_lt_trans; [|exact Hy]. right. apply f_equal2; [reflexivity|]. unfold Rdiv at 3 4. lra.
  - intros i Hi. do 4 (destruct i as [|i]; [unfold at_, hgk_ri, referenceDensity; cbn [nth]; assumption|]). lia.
Qed.

(* All fields but two are what they should be: with two other functions in the
   place of those two, the fields are the derivatives of one another. *)
Theorem C86_partial (T D : R) : hgk_domain T D ->
  let S := waterHelmholtzStateHGK in
  exists fTTT fTDD : R -> R -> R,
  Differentials (fun T D => helmholtz (S T D))
    (fun T D => helmholtzT (S T D)) (fun T D => helmholtzD (S T D))
    (fun T D => helmholtzTT (S T D)) (fun T D => helmholtzTD (S T D)) (fun T D => helmholtzDD (S T D))
    fTTT (fun T D => helmholtzTTD (S T D)) fTDD (fun T D => helmholtzDDD (S T D)) T D /\
  (* by how much helmholtzTTT is wrong: three times the base function *)
  helmholtzTTT (S T D) - fTTT T D = - 3 * 69595.89 * helmholtz (hgk2 (T / 647.27) (D / 317.763)) / T ^ 3.
Proof.
  intros Hdom S. destruct (hgk_domain_ok T D Hdom) as (HT & HD & Hy & Hr).
  pose proof (Derivs_hgk_true T D HT HD Hy Hr) as [A B C E F G].
  exists (fun T D => helmholtzTTT (hgk_true T D)), (fun T D => helmholtzTDD (hgk_true T D)).
  assert (HS : helmholtz (S T D) = helmholtz (hgk_true T D) /\ helmholtzT (S T D) = helmholtzT (hgk_true T D) /\
    helmholtzD (S T D) = helmholtzD (hgk_true T D) /\ helmholtzTT (S T D) = helmholtzTT (hgk_true T D) /\
    helmholtzTD (S T D) = helmholtzTD (hgk_true T D) /\ helmholtzDD (S T D) = helmholtzDD (hgk_true T D) /\
    helmholtzTTD (S T D) = helmholtzTTD (hgk_true T D) /\ helmholtzDDD (S T D) = helmholtzDDD (hgk_true T D)).
  { unfold S. rewrite hgk_eq by lra. unfold shift; proj. tauto. }
  destruct HS as (_ & S2 & S3 & S4 & S5 & S6 & S7 & S8). split.
  - split.
    all: rewrite ?S2, ?S3, ?S4, ?S5, ?S6, ?S7, ?S8.
    + eapply differentiable_pt_lim_ext; [|exact A]; eapply locally_2d_impl; [|exact (locally_2d_pos _ _ HT HD)]; apply locally_2d_forall; intros u v [Hu _]; unfold S; rewrite hgk_eq by lra; reflexivity.
    + eapply differentiable_pt_lim_ext; [|exact B]; eapply locally_2d_impl; [|exact (locally_2d_pos _ _ HT HD)]; apply locally_2d_forall; intros u v [Hu _]; unfold S; rewrite hgk_eq by lra; reflexivity.
    + eapply differentiable_pt_lim_ext; [|exact C]; eapply locally_2d_impl; [|exact (locally_2d_pos _ _ HT HD)]; apply locally_2d_forall; intros u v [Hu _]; unfold S; rewrite hgk_eq by lra; reflexivity.
    + eapply differentiable_pt_lim_ext; [|exact E]; eapply locally_2d_impl; [|exact (locally_2d_pos _ _ HT HD)]; apply locally_2d_forall; intros u v [Hu _]; unfold S; rewrite hgk_eq by lra; reflexivity.
    + eapply differentiable_pt_lim_ext; [|exact F]; eapply locally_2d_impl; [|exact (locally_2d_pos _ _ HT HD)]; apply locally_2d_forall; intros u v [Hu _]; unfold S; rewrite hgk_eq by lra; reflexivity.
    + eapply differentiable_pt_lim_ext; [|exact G]; eapply locally_2d_impl; [|exact (locally_2d_pos _ _ HT HD)]; apply locally_2d_forall; intros u v [Hu _]; unfold S; rewrite hgk_eq by lra; reflexivity.
  - unfold S. rewrite hgk_eq by lra. unfold shift at 1; proj. unfold hgk_errTTT, err2_TTT. cbv zeta.
    rewrite hgk2_eq by (apply Rmult_integral_contrapositive_currified; [lra|apply Rinv_neq_0_compat; lra]).
    unfold shift, b_hgk2; proj. unfold referenceTemperature, referenceDensity, referenceHelmholtz.
    generalize (b_h (T / 647.27) (D / 317.763)); intros h. field. lra.
Qed.
Print Assumptions C86_partial.

(* What the two wrong fields differ by. *)
Lemma field_TTT_wrong T D : hgk_domain T D -> hgk_errTTT T D <> 0 ->
  ~ differentiable_pt_lim (fun T D => helmholtzTT (waterHelmholtzStateHGK T D)) T D
      (helmholtzTTT (waterHelmholtzStateHGK T D)) (helmholtzTTD (waterHelmholtzStateHGK T D)).
Proof.
  intros Hdom He H. destruct (hgk_domain_ok T D Hdom) as (HT & HD & Hy & Hr).
  pose proof (Derivs_hgk_true T D HT HD Hy Hr) as [_ _ _ E _ _].
  assert (H' : JD (fun T D => helmholtzTT (hgk_true T D)) T D (helmholtzTTT (waterHelmholtzStateHGK T D)) (helmholtzTTD (waterHelmholtzStateHGK T D))).
  { eapply differentiable_pt_lim_ext; [|exact H]; eapply locally_2d_impl; [|exact (locally_2d_pos _ _ HT HD)]; apply locally_2d_forall; intros u v [Hu _]; rewrite hgk_eq by lra; reflexivity. }
  apply jd_derive in E, H'. destruct E as [E _], H' as [H' _].
  apply is_derive_unique in E. apply is_derive_unique in H'. rewrite E in H'. rewrite hgk_eq in H' by lra.
  unfold shift in H'; cbn [helmholtzTTT] in H'. lra.
Qed.
Lemma field_TDD_wrong T D : hgk_domain T D -> hgk_errTDD T D <> 0 ->
  ~ differentiable_pt_lim (fun T D => helmholtzDD (waterHelmholtzStateHGK T D)) T D
      (helmholtzTDD (waterHelmholtzStateHGK T D)) (helmholtzDDD (waterHelmholtzStateHGK T D)).
Proof.
  intros Hdom He H. destruct (hgk_domain_ok T D Hdom) as (HT & HD & Hy & Hr).
  pose proof (Derivs_hgk_true T D HT HD Hy Hr) as [_ _ _ _ _ E].
  assert (H' : JD (fun T D => helmholtzDD (hgk_true T D)) T D (helmholtzTDD (waterHelmholtzStateHGK T D)) (helmholtzDDD (waterHelmholtzStateHGK T D))).
  { eapply differentiable_pt_lim_ext; [|exact H]; eapply locally_2d_impl; [|exact (locally_2d_pos _ _ HT HD)]; apply locally_2d_forall; intros u v [Hu _]; rewrite hgk_eq by lra; reflexivity. }
  apply jd_derive in E, H'. destruct E as [E _], H' as [H' _].
  apply is_derive_unique in E. apply is_derive_unique in H'. rewrite E in H'. rewrite hgk_eq in H' by lra.
  unfold shift in H'; cbn [helmholtzTDD] in H'. lra.
Qed.

(* The point T = 647.27 K and D = 3177.63 kg/m3, where t = 1 and d = 10. *)
Lemma exp_small X : 0 < X -> exp (- X) <= (4 / X) ^ 4.
Proof.
  intros HX. assert (H1 : X / 4 <= exp (X / 4)) by (pose proof (exp_ineq1_le (X / 4)); lra).
  assert (E : exp (- X) = (/ exp (X / 4)) ^ 4).
  { rewrite <- exp_Ropp. cbn [pow]. rewrite Rmult_1_r, <- !exp_plus. f_equal. lra. }
  rewrite E. apply pow_incr. split; [left; apply Rinv_0_lt_compat, exp_pos|].
  replace (4 / X) with (/ (X / 4)) by (field; lra). apply Rinv_le_contravar; lra.
Qed.
Lemma witness_domain : hgk_domain 647.27 3177.63.
Proof.
  unfold hgk_domain; cbv zeta. replace (647.27 / 647.27) with 1 by lra. replace (3177.63 / 317.763) with 10 by lra.
  rewrite ln_1. repeat split; lra.
Qed.
Lemma witness_y : b_y 1 10 = 0.5969061923.
Proof. unfold b_y, at_, hgk_yc; cbn [nth]. rewrite ln_1. replace (powerRZ 1 (-3)) with 1 by (unfold powerRZ; rewrite pow1, Rinv_1; reflexivity). replace (powerRZ 1 (-5)) with 1 by (unfold powerRZ; rewrite pow1, Rinv_1; reflexivity). lra. Qed.
Ltac unfold4 := unfold hgk4_err, the_err, the_r, the_t, psi, psi_r, the, de, ta, at_, int_at, hgk_A4, hgk_ri, hgk_ti, hgk_alpha, hgk_beta, hgk_mi, hgk_ni;
  cbn [nth INR].
Lemma small_term X Y : 1000 <= X -> 0 <= Y -> 0 < exp (- X - Y) <= 256 / 10 ^ 12.
Proof.
  intros HX HY. split; [apply exp_pos|].
  eapply Rle_trans; [|eapply Rle_trans; [apply (exp_small 1000); lra|]].
  - assert (E : - X - Y <= - (1000)) by lra. destruct (Rle_lt_or_eq_dec _ _ E) as [L|L]; [left; apply exp_increasing, L|rewrite L; right; reflexivity].
  - lra.
Qed.
Ltac small4 := unfold4;
  match goal with |- context [exp (- ?a * ?b - ?c * ?e * ?f)] =>
    pose proof (small_term (a * b) (c * e * f) ltac:(lra) ltac:(lra)) as H;
    replace (- a * b - c * e * f) with (- (a * b) - c * e * f) by ring;
    set (E := exp (- (a * b) - c * e * f)) in * end;
  apply Rabs_def1; lra.
Lemma err4_small : Rabs (err4_TDD 1 10) < 1.
Proof.
  unfold err4_TDD.
  assert (H0 : Rabs (hgk4_err 1 10 0) < 0.1) by small4.
  assert (H1 : Rabs (hgk4_err 1 10 1) < 0.1) by small4.
  assert (H2 : Rabs (hgk4_err 1 10 2) < 0.1) by small4.
  assert (H3 : Rabs (hgk4_err 1 10 3) < 0.1) by small4.
  apply Rabs_def2 in H0, H1, H2, H3. apply Rabs_def1; lra.
Qed.
Lemma err2_large : 1 < Rabs (err2_TDD 1 10).
Proof.
  unfold err2_TDD, b_y_rt, b_x_r, b_y_r. rewrite witness_y. unfold b_x. rewrite witness_y.
  unfold b_y_t, at_, hgk_yc, hgk_A20; cbn [nth].
  replace (powerRZ 1 (-3)) with 1 by (unfold powerRZ; rewrite pow1, Rinv_1; reflexivity).
  replace (powerRZ 1 (-5)) with 1 by (unfold powerRZ; rewrite pow1, Rinv_1; reflexivity).
  match goal with |- 1 < Rabs ?x => assert (H : 1 < x \/ x < -1) end.
  { first [left; lra|right; lra]. }
  destruct H; [rewrite Rabs_pos_eq by lra; assumption|rewrite Rabs_left by lra; lra].
Qed.
Theorem C86_TDD_refuted : exists T D, hgk_domain T D /\
  ~ differentiable_pt_lim (fun T D => helmholtzDD (waterHelmholtzStateHGK T D)) T D
      (helmholtzTDD (waterHelmholtzStateHGK T D)) (helmholtzDDD (waterHelmholtzStateHGK T D)).
Proof.
  exists 647.27, 3177.63. split; [exact witness_domain|]. apply field_TDD_wrong; [exact witness_domain|].
  unfold hgk_errTDD, referenceTemperature, referenceDensity, referenceHelmholtz. cbv zeta.
  replace (647.27 / 647.27) with 1 by lra. replace (3177.63 / 317.763) with 10 by lra.
  apply Rmult_integral_contrapositive_currified; [|lra].
  pose proof err4_small. pose proof err2_large. intros E.
  assert (E' : err2_TDD 1 10 = - err4_TDD 1 10) by lra. rewrite E', Rabs_Ropp in H0. lra.
Qed.
Print Assumptions C86_TDD_refuted.
Theorem C86_TTT_refuted : exists T D, hgk_domain T D /\
  ~ differentiable_pt_lim (fun T D => helmholtzTT (waterHelmholtzStateHGK T D)) T D
      (helmholtzTTT (waterHelmholtzStateHGK T D)) (helmholtzTTD (waterHelmholtzStateHGK T D)).
Proof.
  exists 647.27, 3177.63. split; [exact witness_domain|]. apply field_TTT_wrong; [exact witness_domain|].
  unfold hgk_errTTT, referenceTemperature, referenceDensity, referenceHelmholtz. cbv zeta.
  replace (647.27 / 647.27) with 1 by lra. replace (3177.63 / 317.763) with 10 by lra.
  apply Rmult_integral_contrapositive_currified; [|lra].
  unfold err2_TTT, b_h, b_u, b_x. rewrite witness_y.
  assert (L : 0 < ln (10 * (1 / (1 - 0.5969061923)))) by (rewrite <- ln_1; apply ln_increasing; lra).
  set (l := ln _) in *. unfold hgk_A20. intros E. lra.
Qed.
Print Assumptions C86_TTT_refuted.
Theorem C86_refuted : ~ C86_statement.
Proof.
  intros H. destruct C86_TDD_refuted as (T & D & Hd & Hn). apply Hn. destruct (H T D Hd). assumption.
Qed.
Print Assumptions C86_refuted.
(* A state away from the witness. *)
Example C86_nonvacuous : hgk_domain 647.27 997.
Proof. unfold hgk_domain; cbv zeta. replace (647.27 / 647.27) with 1 by lra. rewrite ln_1. repeat split; lra. Qed.
