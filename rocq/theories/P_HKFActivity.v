(* The HKF activity model: closed form and the Gibbs-Duhem equation. *)
From Coq Require Import Reals Qreals List Bool Lia Lra.
From Coquelicot Require Import Coquelicot.
Import ListNotations.
From Verif Require Import Base M_Strings M_Chem M_System M_Registry M_CubicEOS P_Helmholtz P_CubicEOS M_Aqueous S_Activity P_Aqueous P_Activity P_DebyeHuckel.
Local Open Scope R_scope.

Lemma ln10_pos : 0 < ln 10. Proof. rewrite <- ln_1. apply ln_increasing; lra. Qed.
(* The loop over ions, all present, in a solution that is not pure water. *)
Lemma hkf_loop mx st h radius xw g0 phi0 : NoDup (mx_charged mx) -> xw <> 1 ->
  (forall j, (j < length (mx_charged mx))%nat -> st_ms st j <> 0) -> forall n, (n <= length (mx_charged mx))%nat ->
  let r := fold_left (hkf_ion mx st h radius xw) (seq 0 n) (g0, phi0) in
  (forall j, (j < n)%nat -> fst r (nth j (mx_charged mx) O) = hkf_log10_g h (charge_at (mx_species mx) (nth j (mx_charged mx) O)) (nth j radius 0) (st_Is st) xw * ln 10) /\
  snd r = phi0 + Sum n (fun j => st_ms st j * hkf_psi h (charge_at (mx_species mx) (nth j (mx_charged mx) O)) (nth j radius 0) (st_Is st) xw) /\
  (forall k, ~ In k (mx_charged mx) -> fst r k = g0 k).
Proof.
  intros Nd Hx Hms. induction n as [|n IH]; intros Hn; [cbn; split; [intros; lia|split; [ring|reflexivity]]|].
  specialize (IH ltac:(lia)). rewrite seq_S, fold_left_app. cbn [fold_left]. cbn zeta in IH |- *. destruct (fold_left _ (seq 0 n) _) as [g phi]. cbn [fst snd] in IH. destruct IH as (I1 & I2 & I3).
  rewrite Nat.add_0_l. unfold hkf_ion. destruct (Req_EM_T (st_ms st n) 0) as [Z|_]; [exfalso; exact (Hms n ltac:(lia) Z)|]. cbn [fst snd]. destruct (Req_EM_T xw 1) as [|_]; [contradiction|].
  split; [|split].
  - intros j Hj. destruct (Nat.eq_dec j n) as [->|N]; [apply set_at_same|]. rewrite set_at_other; [apply I1; lia|]. intros E. apply N. eapply NoDup_nth; [exact Nd|lia|lia|exact E].
  - rewrite I2. cbn [Sum]. ring.
  - intros k Hk. rewrite set_at_other; [apply I3; exact Hk|]. intros ->. apply Hk, nth_In. lia.
Qed.

Lemma hkf_size_pos z r : 0 < r -> 0 < hkf_size z r.
Proof. intros H. pose proof (Rabs_pos z). unfold hkf_size. destruct (Rlt_dec z 0); apply Rdiv_lt_0_compat; lra. Qed.

(* One ion: coefficient without the term of the mole fraction of water, and the
   ion's part in the activity of water without that term. *)
Definition hk_beta (h : HKFParams) (z r : R) : R := hkf_eta * (z * z) / r * hk_bNaCl h + hk_bNapClm h - 0.19 * (Rabs z - 1).
Lemma d_hkf_g h z r I0 t : 0 < I0 -> 0 < t -> 0 < r -> 0 < hk_B h ->
  is_derive (fun s => - (hk_A h * (z * z) * sqrt (s * I0)) / (1 + hkf_size z r * hk_B h * sqrt (s * I0)) + hk_beta h z r * (s * I0)) t
    (- (hk_A h * (z * z) * (I0 / (2 * sqrt (t * I0)))) / (1 + hkf_size z r * hk_B h * sqrt (t * I0)) ^ 2 + hk_beta h z r * I0).
Proof.
  intros H Ht Hr HB. pose proof (hkf_size_pos z r Hr) as Hs. assert (Hk : 0 < hkf_size z r * hk_B h) by (apply Rmult_lt_0_compat; assumption).
  assert (Hi : 0 < t * I0) by (apply Rmult_lt_0_compat; assumption). pose proof (sqrt_lt_R0 _ Hi) as Hu.
  assert (HL : 0 < hkf_size z r * hk_B h * sqrt (t * I0)) by (apply Rmult_lt_0_compat; assumption).
  eapply d_val; [apply d_add; [apply d_div; [apply d_opp; apply d_mul; [apply d_const|apply d_root; assumption]|apply d_add; [apply d_const|apply d_mul; [apply d_const|apply d_root; assumption]]|lra]|apply d_mul; [apply d_const|apply d_mul; [apply d_id|apply d_const]]]|].
  cbv beta. field. split; lra.
Qed.
Lemma d_hkf_psi h z r I0 t : 0 < I0 -> 0 < t -> 0 < r -> 0 < hk_B h ->
  is_derive (fun s => s * (hk_A h * (z * z) * sqrt (s * I0) * (3 / (hkf_size z r * hk_B h * sqrt (s * I0)) ^ 3 *
      (1 + hkf_size z r * hk_B h * sqrt (s * I0) - 1 / (1 + hkf_size z r * hk_B h * sqrt (s * I0)) - 2 * ln (1 + hkf_size z r * hk_B h * sqrt (s * I0)))) / 3)) t
    (t * (hk_A h * (z * z) * (I0 / (2 * sqrt (t * I0)))) / (1 + hkf_size z r * hk_B h * sqrt (t * I0)) ^ 2).
Proof.
  intros H Ht Hr HB. pose proof (hkf_size_pos z r Hr) as Hs. set (k := hkf_size z r * hk_B h). assert (Hk : 0 < k) by (apply Rmult_lt_0_compat; assumption).
  assert (Hi : 0 < t * I0) by (apply Rmult_lt_0_compat; assumption). pose proof (sqrt_lt_R0 _ Hi) as Hu. pose proof (sq_root I0 t H Ht) as Hsq.
  assert (HL : 0 < k * sqrt (t * I0)) by (apply Rmult_lt_0_compat; assumption).
  apply (is_derive_ext_loc (fun s => hk_A h * (z * z) / (I0 * k ^ 3) * (1 + k * sqrt (s * I0) - 1 / (1 + k * sqrt (s * I0)) - 2 * ln (1 + k * sqrt (s * I0))))).
  { apply (filter_imp (fun s => 0 < s)); [|exact (open_gt 0 t Ht)]. intros s Hs'. assert (0 < s * I0) as Hi' by (apply Rmult_lt_0_compat; assumption).
    pose proof (sqrt_lt_R0 _ Hi') as Hu'. pose proof (sq_root I0 s H Hs') as Hq. set (u := sqrt (s * I0)) in *. assert (Es : s = u * u / I0) by (rewrite Hq; field; lra). clearbody u. rewrite Es.
    match goal with |- @eq _ ?x ?y => change (@eq R x y) end. assert (0 < k * u) by (apply Rmult_lt_0_compat; assumption). field. repeat split; lra. }
  eapply d_val; [apply d_mul; [apply d_const|apply d_sub; [apply d_sub; [apply d_add; [apply d_const|apply d_mul; [apply d_const|apply d_root; assumption]]|apply d_div; [apply d_const|apply d_add; [apply d_const|apply d_mul; [apply d_const|apply d_root; assumption]]|lra]]|
    apply d_mul; [apply d_const|apply d_ln; [apply d_add; [apply d_const|apply d_mul; [apply d_const|apply d_root; assumption]]|lra]]]]|].
  cbv beta. set (u := sqrt (t * I0)) in *. assert (Et : t = u * u / I0) by (rewrite Hsq; field; lra). clearbody u. rewrite Et. field. repeat split; lra.
Qed.

Section HKFResidual.
Variables (reactions : list Dissociation) (rho eps : R -> R -> R) (l : list Species) (mx : Mixture).
Hypothesis Hmx : mkAqueousMixture reactions rho eps l = Ok mx.
Hypothesis Hneutral : mx_neutral mx = [].
Variables (params : R -> R -> HKFParams) (radius : list R) (m : nat -> R) (T P : R) (p : Props * Extra).
Let w := mx_water mx.
Let nc := length (mx_charged mx).
Let h := params T P.
Lemma hkf_residual t : (0 < nc)%nat -> (forall i, (i < length l)%nat -> i <> w -> 0 < m i) -> 0 < t -> 0 < hk_B h ->
  (forall j, (j < nc)%nat -> 0 < nth j radius 0) ->
  duhem_residual (hkf_fn params mx radius) (length l) T P p (dilution (length l) w m) t
    (water_fraction (length l) w m t * (ln 10 * Mw * (hkf_omegaH * hk_bNaCl h * (t * ion_I l mx m) * Sum nc (fun j => ion_z l mx j * ion_m mx m j)))).
Proof.
  intros Hnc Hm Ht HB Hr. set (I0 := ion_I l mx m). assert (HI : 0 < I0) by (exact (ion_I_pos _ _ _ _ _ Hmx m Hm O Hnc)).
  pose proof ln10_pos as HL. pose proof Mw_pos as HM.
  set (z := ion_z l mx). set (mm := ion_m mx m). set (r := fun j => nth j radius 0). set (xw := water_fraction (length l) w m). set (S0 := Sum nc mm).
  assert (HS : 0 < S0) by (apply (Sum_pos nc _ O); [intros k Hk; apply Rlt_le, (ion_m_pos _ _ _ _ _ Hmx m Hm); exact Hk|exact Hnc|apply (ion_m_pos _ _ _ _ _ Hmx m Hm); exact Hnc]).
  set (g := fun j s => - (hk_A h * (z j * z j) * sqrt (s * I0)) / (1 + hkf_size (z j) (r j) * hk_B h * sqrt (s * I0)) + hk_beta h (z j) (r j) * (s * I0)).
  set (g' := fun j => - (hk_A h * (z j * z j) * (I0 / (2 * sqrt (t * I0)))) / (1 + hkf_size (z j) (r j) * hk_B h * sqrt (t * I0)) ^ 2 + hk_beta h (z j) (r j) * I0).
  set (v := fun j s => ln 10 * g j s + ln (xw s)).
  set (v' := fun j => ln 10 * g' j + - Mw * S0 * xw t).
  set (e := fun j s => s * (hk_A h * (z j * z j) * sqrt (s * I0) * (3 / (hkf_size (z j) (r j) * hk_B h * sqrt (s * I0)) ^ 3 *
      (1 + hkf_size (z j) (r j) * hk_B h * sqrt (s * I0) - 1 / (1 + hkf_size (z j) (r j) * hk_B h * sqrt (s * I0)) - 2 * ln (1 + hkf_size (z j) (r j) * hk_B h * sqrt (s * I0)))) / 3)).
  set (e' := fun j => t * (hk_A h * (z j * z j) * (I0 / (2 * sqrt (t * I0)))) / (1 + hkf_size (z j) (r j) * hk_B h * sqrt (t * I0)) ^ 2).
  set (W := fun s => ln (xw s) + ln 10 * Mw * Sum nc (fun j => mm j * e j s - mm j * (0.5 * (hk_beta h (z j) (r j) - z j * hkf_omegaH * hk_bNaCl h)) * (s * (s * I0)))).
  set (W' := - Mw * S0 * xw t + ln 10 * Mw * Sum nc (fun j => mm j * e' j - mm j * (0.5 * (hk_beta h (z j) (r j) - z j * hkf_omegaH * hk_bNaCl h)) * (2 * t * I0))).
  assert (Tot : Sum (length l) (solutes w m) = S0) by exact (total_solutes _ _ _ _ _ Hmx Hneutral m).
  assert (Dx : is_derive (fun s => ln (xw s)) t (- Mw * S0 * xw t)).
  { rewrite <- Tot. apply d_water_fraction. apply (water_fraction_pos (length l) w m t); [intros; apply Rlt_le, Hm; assumption|exact Ht]. }
  assert (Dv : forall j, (j < nc)%nat -> is_derive (v j) t (v' j)).
  { intros j Hj. unfold v. eapply d_val; [apply d_add; [apply d_mul; [apply d_const|apply d_hkf_g; [exact HI|exact Ht|apply Hr; exact Hj|exact HB]]|exact Dx]|]. cbv beta. unfold v', g'. ring. }
  assert (DW : is_derive W t W').
  { unfold W. eapply d_val; [apply d_add; [exact Dx|apply d_mul; [apply d_const|apply (d_Sum nc (fun j s => mm j * e j s - mm j * (0.5 * (hk_beta h (z j) (r j) - z j * hkf_omegaH * hk_bNaCl h)) * (s * (s * I0))) (fun j => mm j * e' j - mm j * (0.5 * (hk_beta h (z j) (r j) - z j * hkf_omegaH * hk_bNaCl h)) * (2 * t * I0)))]]|].
    - intros j Hj. eapply d_val; [apply d_sub; [apply d_mul; [apply d_const|apply d_hkf_psi; [exact HI|exact Ht|apply Hr; exact Hj|exact HB]]|apply d_mul; [apply d_const|apply d_mul; [apply d_id|apply d_mul; [apply d_id|apply d_const]]]]|]. cbv beta. unfold e', r. ring.
    - cbv beta. unfold W'. ring. }
  pose proof (ionic_residual _ _ _ _ _ Hmx Hneutral m Hm (hkf_fn params mx radius) T P p v v' W W' t Ht) as R0.
  match goal with |- duhem_residual _ _ _ _ _ _ _ ?g => match type of R0 with _ -> _ -> _ -> duhem_residual _ _ _ _ _ _ _ ?r => replace g with r end end.
  - apply R0; [|exact Dv|exact DW]. intros s Hs. destruct (ion_state _ _ _ _ _ Hmx Hneutral m Hm T P s Hs) as [S1 S2]. fold w in S1, S2. fold nc in S1. fold I0 in S2.
    destruct (xw_ratio _ _ _ _ _ Hmx Hneutral m Hm s Hs) as [Hx Hq]. fold w in Hx, Hq. fold nc mm in Hq. fold S0 in Hq. fold xw in Hx, Hq.
    assert (Hx1 : xw s <> 1). { intros E. rewrite E in Hq. assert (0 < Mw * (s * S0)) by (apply Rmult_lt_0_compat; [exact HM|apply Rmult_lt_0_compat; assumption]). lra. }
    destruct (mx_inv _ _ _ _ _ Hmx) as (_ & Es & _).
    unfold hkf_fn. fold w. set (st := mixtureState mx T P (dilution (length l) w m s)) in *. fold h. rewrite Hneutral. cbn [length seq fold_left]. rewrite dilution_water. fold xw.
    assert (Hms : forall j, (j < length (mx_charged mx))%nat -> st_ms st j <> 0).
    { intros j Hj. destruct (S1 j Hj) as [_ ->]. apply Rgt_not_eq, Rmult_lt_0_compat; [exact Hs|apply (ion_m_pos _ _ _ _ _ Hmx m Hm); exact Hj]. }
    pose proof (hkf_loop mx st h radius (xw s) (ln_g (fst p)) 0 (charged_nodup _ _ _ _ _ Hmx) Hx1 Hms nc (le_n _)) as L. cbn zeta in L. fold nc in L |- *.
    destruct (fold_left (hkf_ion mx st h radius (xw s)) (seq 0 nc) (ln_g (fst p), 0)) as [gg phi]. cbn [fst snd] in L. destruct L as (L1 & L2 & _). rewrite Es, S2 in L1, L2.
    destruct (Req_EM_T (xw s) 1) as [|_]; [contradiction|]. eexists _, _. split; [reflexivity|]. cbn [ln_a with_a]. split.
    + intros j Hj. rewrite set_at_other by (apply (charged_neq _ _ _ _ _ Hmx), nth_In; exact Hj). destruct (S1 j Hj) as [-> _]. rewrite L1 by exact Hj. f_equal. unfold v, g, hkf_log10_g, log10, hk_beta. fold z r. change (charge_at l (nth j (mx_charged mx) O)) with (z j). change (nth j radius 0) with (r j). field.
      assert (0 < hkf_size (z j) (r j) * hk_B h * sqrt (s * I0)). { apply Rmult_lt_0_compat; [apply Rmult_lt_0_compat; [apply hkf_size_pos, Hr; exact Hj|exact HB]|apply sqrt_lt_R0, Rmult_lt_0_compat; assumption]. }
      specialize (Hr j Hj). fold (r j) in Hr. repeat split; lra.
    + rewrite set_at_same, L2. unfold W. rewrite Mw_eq.
      transitivity (ln 10 * Mw * (Sum nc (fun j => s * (xw s / (1 - xw s) * log10 (xw s)) * mm j) + Sum nc (fun j => mm j * e j s - mm j * (0.5 * (hk_beta h (z j) (r j) - z j * hkf_omegaH * hk_bNaCl h)) * (s * (s * I0))))).
      * f_equal. rewrite Rplus_0_l, <- Sum_add. apply Sum_ext. intros j Hj. destruct (S1 j Hj) as [_ ->]. change (charge_at l (nth j (mx_charged mx) O)) with (z j). change (nth j radius 0) with (r j). fold mm. unfold hkf_psi, e, hk_beta, Rdiv. ring.
      * rewrite Sum_scal. fold S0. rewrite Rmult_plus_distr_l. f_equal. assert (E1 : 1 - xw s = Mw * (s * S0) * xw s) by (rewrite <- Hq; field; lra). rewrite E1. unfold log10. field. repeat split; lra.
  - fold w nc xw mm. unfold W'. f_equal.
    assert (Ev : Sum nc (fun j => mm j * (1 + t * v' j)) = (1 + t * (- Mw * S0 * xw t)) * S0 + t * ln 10 * Sum nc (fun j => mm j * g' j)).
    { transitivity (Sum nc (fun j => (1 + t * (- Mw * S0 * xw t)) * mm j + t * ln 10 * (mm j * g' j))).
      - apply Sum_ext. intros j Hj. unfold v'. ring.
      - rewrite Sum_add, !Sum_scal. reflexivity. }
    rewrite Ev.
    assert (Hw : (1 + t * (- Mw * S0 * xw t)) = xw t). { destruct (xw_ratio _ _ _ _ _ Hmx Hneutral m Hm t Ht) as [Hx Hq]. fold w in Hx, Hq. fold nc mm in Hq. fold S0 in Hq. fold xw in Hx, Hq. assert (1 - xw t = Mw * (t * S0) * xw t) by (rewrite <- Hq; field; lra). lra. }
    rewrite Hw.
    assert (Ec : Sum nc (fun j => mm j * e' j - mm j * (0.5 * (hk_beta h (z j) (r j) - z j * hkf_omegaH * hk_bNaCl h)) * (2 * t * I0)) = - t * Sum nc (fun j => mm j * g' j) + hkf_omegaH * hk_bNaCl h * (t * I0) * Sum nc (fun j => z j * mm j)).
    { transitivity (Sum nc (fun j => - t * (mm j * g' j) + hkf_omegaH * hk_bNaCl h * (t * I0) * (z j * mm j))).
      - apply Sum_ext. intros j Hj. unfold g', e', Rdiv. lra.
      - rewrite Sum_add, !Sum_scal. reflexivity. }
    rewrite Ec. ring.
Qed.
End HKFResidual.
