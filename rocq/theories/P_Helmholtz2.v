(* From dimensionless to dimensioned Helmholtz states. *)
From Coq Require Import Reals List ZArith Lia Lra.
From Coquelicot Require Import Coquelicot.
Import ListNotations.
From Verif Require Import Base M_Helmholtz S_Water P_Helmholtz P_Wagner.
Local Open Scope R_scope.

(* ---- Wagner and Pruss ---- *)
Definition Phi (t d : R) : HelmholtzState := addH (phio t d) (phir t d).
Lemma Derivs_Phi t d : 0 < t -> 0 < d -> d <> 1 -> Derivs Phi t d.
Proof. intros. apply Derivs_add; [apply Derivs_phio|apply Derivs_phir]; assumption. Qed.

Definition dimensioned (S : R -> R -> HelmholtzState) (Tcr Dcr K T D : R) : HelmholtzState :=
  let phi := S (Tcr / T) (D / Dcr) in
  let tT := - Tcr / (T * T) in
  let tTT := 2 * Tcr / (T * T * T) in
  let tTTT := - 6 * Tcr / (T * T * T * T) in
  let dD := 1 / Dcr in
  let phiT := helmholtzT phi * tT in
  let phiD := helmholtzD phi * dD in
  let phiTT := helmholtzTT phi * tT * tT + helmholtzT phi * tTT in
  let phiTD := helmholtzTD phi * tT * dD in
  let phiDD := helmholtzDD phi * dD * dD in
  let phiTTT := helmholtzTTT phi * tT * tT * tT + 3 * helmholtzTT phi * tT * tTT + helmholtzT phi * tTTT in
  let phiTTD := helmholtzTTD phi * tT * tT * dD + helmholtzTD phi * tTT * dD in
  let phiTDD := helmholtzTDD phi * tT * dD * dD in
  let phiDDD := helmholtzDDD phi * dD * dD * dD in
  mkH (K * T * helmholtz phi) (K * T * phiT + K * helmholtz phi) (K * T * phiD)
      (K * T * phiTT + 2 * K * phiT) (K * T * phiTD + K * phiD) (K * T * phiDD)
      (K * T * phiTTT + 3 * K * phiTT) (K * T * phiTTD + 2 * K * phiTD)
      (K * T * phiTDD + K * phiDD) (K * T * phiDDD).

Section Compose.
Variables (S : R -> R -> HelmholtzState) (g k : R -> R) (T D g' k' : R).
Hypotheses (Hg : is_derive g T g') (Hk : is_derive k D k').
Lemma compose_JD (f : HelmholtzState -> R) u v : JD (fun x y => f (S x y)) (g T) (k D) u v ->
  JD (fun x y => f (S (g x) (k y))) T D (u * g') (v * k').
Proof.
  intros H.
  assert (G : JD (fun x _ => g x) T D g' 0) by (eapply j_val; [apply (j_comp g (fun x _ => x)); [exact Hg|apply j_fst]|ring|ring]).
  assert (K : JD (fun _ y => k y) T D 0 k') by (eapply j_val; [apply (j_comp k (fun _ y => y)); [exact Hk|apply j_snd]|ring|ring]).
  eapply j_val; [exact (differentiable_pt_lim_comp (fun x y => f (S x y)) (fun x _ => g x) (fun _ y => k y) T D _ _ _ _ _ _ H G K)|ring|ring].
Qed.
End Compose.
Lemma inv_T Tcr T : T <> 0 -> is_derive (fun x => Tcr / x) T (- Tcr / (T * T)).
Proof. intros H. apply (d_val _ _ _ _ (d_div (fun _ => Tcr) (fun x => x) T _ _ (d_const _ _) (d_id _) H)). field; exact H. Qed.
Lemma lin_D Dcr D : Dcr <> 0 -> is_derive (fun x => x / Dcr) D (1 / Dcr).
Proof. intros H. apply (d_val _ _ _ _ (d_div (fun x => x) (fun _ => Dcr) D _ _ (d_id _) (d_const _ _) H)). field; exact H. Qed.

Lemma Derivs_dimensioned S Tcr Dcr K T D : T <> 0 -> Dcr <> 0 ->
  Derivs S (Tcr / T) (D / Dcr) -> Derivs (dimensioned S Tcr Dcr K) T D.
Proof.
  intros HT HDc [A1 A2 A3 A4 A5 A6].
  pose proof (inv_T Tcr T HT) as Hg. pose proof (lin_D Dcr D HDc) as Hk.
  pose proof (fun f u v => compose_JD S (fun x => Tcr / x) (fun y => y / Dcr) T D _ _ Hg Hk f u v) as C; cbv beta in C.
  apply C in A1, A2, A3, A4, A5, A6. clear C Hg Hk.
  assert (T * T <> 0) by nz. assert (T * T * T <> 0) by nz. assert (T * T * T * T <> 0) by nz.
  split; unfold dimensioned; cbv zeta; proj; jj; try assumption; field; auto.
Qed.

Lemma Derivs_WagnerPruss T D : 0 < T -> 0 < D -> D <> waterCriticalDensity -> Derivs waterHelmholtzStateWagnerPruss T D.
Proof.
  intros HT HD HDc. change waterHelmholtzStateWagnerPruss with (dimensioned Phi waterCriticalTemperature waterCriticalDensity wp_R).
  assert (0 < waterCriticalTemperature) by (unfold waterCriticalTemperature; lra).
  assert (0 < waterCriticalDensity) by (unfold waterCriticalDensity; lra).
  apply Derivs_dimensioned; try lra. apply Derivs_Phi.
  - apply Rdiv_lt_0_compat; assumption.
  - apply Rdiv_lt_0_compat; assumption.
  - intros E. apply HDc. replace D with (D / waterCriticalDensity * waterCriticalDensity) by (field; lra). rewrite E. ring.
Qed.

(* ---- Haar, Gallagher and Kell ---- *)
Definition scaled (S : R -> R -> HelmholtzState) (Tr Dr K T D : R) : HelmholtzState :=
  let res := S (T / Tr) (D / Dr) in
  mkH (helmholtz res * K) (helmholtzT res * (K / Tr)) (helmholtzD res * (K / Dr))
      (helmholtzTT res * (K / Tr / Tr)) (helmholtzTD res * (K / Dr / Tr)) (helmholtzDD res * (K / Dr / Dr))
      (helmholtzTTT res * (K / Tr / Tr / Tr)) (helmholtzTTD res * (K / Dr / Tr / Tr))
      (helmholtzTDD res * (K / Dr / Dr / Tr)) (helmholtzDDD res * (K / Dr / Dr / Dr)).
Lemma Derivs_scaled S Tr Dr K T D : Tr <> 0 -> Dr <> 0 ->
  Derivs S (T / Tr) (D / Dr) -> Derivs (scaled S Tr Dr K) T D.
Proof.
  intros HTr HDr [A1 A2 A3 A4 A5 A6].
  pose proof (lin_D Tr T HTr) as Hg. pose proof (lin_D Dr D HDr) as Hk.
  pose proof (fun f u v => compose_JD S (fun x => x / Tr) (fun y => y / Dr) T D _ _ Hg Hk f u v) as C; cbv beta in C.
  apply C in A1, A2, A3, A4, A5, A6. clear C Hg Hk.
  split; unfold scaled; cbv zeta; proj; jj; try assumption; field; auto.
Qed.

Definition hgk_sum (t d : R) : HelmholtzState :=
  addH (addH (addH (addH (hgk0 t d) (hgk1 t d)) (b_hgk2 t d)) (hgk3 t d)) (b_hgk4 t d).
Lemma Derivs_hgk_sum t d : 0 < t -> 0 < d -> b_y t d < 1 -> regular d -> Derivs hgk_sum t d.
Proof.
  intros. unfold hgk_sum.
  apply (Derivs_add (fun t d => addH (addH (addH (hgk0 t d) (hgk1 t d)) (b_hgk2 t d)) (hgk3 t d)) b_hgk4); [|apply Derivs_b_hgk4; assumption].
  apply (Derivs_add (fun t d => addH (addH (hgk0 t d) (hgk1 t d)) (b_hgk2 t d)) hgk3); [|apply Derivs_hgk3; assumption].
  apply (Derivs_add (fun t d => addH (hgk0 t d) (hgk1 t d)) b_hgk2); [|apply Derivs_b_hgk2; assumption].
  apply (Derivs_add hgk0 hgk1); [apply Derivs_hgk0|apply Derivs_hgk1]; assumption.
Qed.
Definition hgk_true (T D : R) : HelmholtzState := scaled hgk_sum referenceTemperature referenceDensity referenceHelmholtz T D.
(* What the code adds to the true third derivatives. *)
Definition hgk_errTDD (T D : R) : R :=
  let t := T / referenceTemperature in let d := D / referenceDensity in
  (err2_TDD t d + err4_TDD t d) * (referenceHelmholtz / referenceDensity / referenceDensity / referenceTemperature).
Definition hgk_errTTT (T D : R) : R :=
  let t := T / referenceTemperature in let d := D / referenceDensity in
  err2_TTT t d * (referenceHelmholtz / referenceTemperature / referenceTemperature / referenceTemperature).
Lemma hgk_eq T D : T <> 0 ->
  waterHelmholtzStateHGK T D = shift (hgk_true T D) (hgk_errTDD T D) (hgk_errTTT T D).
Proof.
  intros HT. unfold waterHelmholtzStateHGK. cbv zeta.
  assert (Ht : T / referenceTemperature <> 0).
  { apply Rmult_integral_contrapositive_currified; [exact HT|apply Rinv_neq_0_compat; unfold referenceTemperature; lra]. }
  rewrite (hgk2_eq _ _ Ht), hgk4_eq.
  unfold hgk_true, scaled, hgk_sum, shift, hgk_errTDD, hgk_errTTT; cbv zeta.
  generalize (hgk0 (T / referenceTemperature) (D / referenceDensity)) (hgk1 (T / referenceTemperature) (D / referenceDensity))
    (b_hgk2 (T / referenceTemperature) (D / referenceDensity)) (hgk3 (T / referenceTemperature) (D / referenceDensity))
    (b_hgk4 (T / referenceTemperature) (D / referenceDensity)).
  intros s0 s1 s2 s3 s4. unfold addH; proj. apply mkH_eq; ring.
Qed.
Lemma Derivs_hgk_true T D : 0 < T -> 0 < D ->
  b_y (T / referenceTemperature) (D / referenceDensity) < 1 -> regular (D / referenceDensity) -> Derivs hgk_true T D.
Proof.
  intros HT HD Hy Hr. unfold hgk_true.
  assert (0 < referenceTemperature) by (unfold referenceTemperature; lra).
  assert (0 < referenceDensity) by (unfold referenceDensity; lra).
  apply Derivs_scaled; try lra. apply Derivs_hgk_sum; try assumption; apply Rdiv_lt_0_compat; assumption.
Qed.
