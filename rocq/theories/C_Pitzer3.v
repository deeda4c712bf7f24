(* C112-C114: the Pitzer activity model at infinite dilution, and its parameters. *)
From Coq Require Import Reals Qreals List Bool Lia Lra Permutation.
From Coquelicot Require Import Coquelicot.
Import ListNotations.
From Verif Require Import Base M_Strings M_Formula M_Chem M_System M_Registry M_CubicEOS P_Helmholtz P_CubicEOS M_Aqueous S_Activity P_Aqueous P_Activity C_Aqueous C_Activity M_Pitzer P_PitzerSum P_Pitzer P_PitzerFn P_PitzerDuhem P_PitzerJ P_PitzerMix P_PitzerEval P_PitzerJump P_PitzerDilute C_Pitzer C_Pitzer2.
Local Open Scope R_scope.

(* ---- C112: infinite dilution ---- *)
Definition coefficient (f : ActivityFn) (T P : R) (p : Props * Extra) (x : nat -> R) (i : nat) : R := match f T P x p with Ok (q, _) => ln_g q i | _ => 0 end.
Lemma lim_sqrt f L : (exists K d, 0 < d /\ 0 <= K /\ forall s, 0 < s < d -> Rabs (f s - L) <= K * sqrt s) -> filterlim f (at_right 0) (locally L).
Proof.
  intros (K & d & Hd & HK & H). apply filterlim_locally. intros e. assert (Q : 0 < e / (K + 1)) by (apply Rdiv_lt_0_compat; [apply cond_pos|lra]).
  assert (exists v, v = (e / (K + 1)) ^ 2) as [v V] by (eexists; reflexivity). assert (D : 0 < Rmin d v) by (rewrite V; apply Rmin_pos; [exact Hd|apply pow_lt, Q]). exists (mkposreal _ D). intros s B S0.
  unfold ball in B. cbn in B. unfold AbsRing_ball, abs, minus, plus, opp in B. cbn in B. rewrite Ropp_0, Rplus_0_r, Rabs_pos_eq in B by lra. pose proof (Rmin_l d v). pose proof (Rmin_r d v).
  assert (sqrt s < e / (K + 1)). { rewrite <- (sqrt_pow2 (e / (K + 1))) by lra. rewrite <- V. apply sqrt_lt_1; lra. }
  unfold ball. cbn. unfold AbsRing_ball, abs, minus, plus, opp. cbn. change (f s + - L) with (f s - L). apply (Rle_lt_trans _ (K * sqrt s)); [apply H; lra|].
  pose proof (sqrt_pos s). assert (K * sqrt s <= (K + 1) * sqrt s) by (apply Rmult_le_compat_r; lra). assert ((K + 1) * sqrt s < (K + 1) * (e / (K + 1))) by (apply Rmult_lt_compat_l; lra). replace ((K + 1) * (e / (K + 1))) with (pos e) in * by (field; lra). lra.
Qed.
Lemma charges_bounded (l : list Species) : exists K, 0 <= K /\ forall s, In s l -> Q2R (sp_charge s) * Q2R (sp_charge s) <= K.
Proof.
  induction l as [|a l (K & K0 & IH)]; [exists 0; split; [lra|intros s []]|]. exists (K + Q2R (sp_charge a) * Q2R (sp_charge a)). pose proof (Rle_0_sqr (Q2R (sp_charge a))) as Q. unfold Rsqr in Q. split; [lra|].
  intros s [<-|H]; [lra|]. specialize (IH s H). lra.
Qed.
Lemma theta_zero A I zi zj : 0 <= A -> 0 < zi * zj -> 6 * (zi * zi) * A * sqrt I < 0.01 -> 6 * (zj * zj) * A * sqrt I < 0.01 -> thetaE A I zi zj = Ok 0 /\ thetaE_prime A I zi zj = Ok 0.
Proof.
  intros HA Hz Hi Hj. destruct (Req_EM_T zi zj) as [->|N]; [apply theta_same|]. pose proof (sqrt_pos I) as Q. assert (AQ : 0 <= A * sqrt I) by (apply Rmult_le_pos; assumption).
  assert (G : forall z, 0 <= z -> 0 <= z * (A * sqrt I)) by (intros; apply Rmult_le_pos; assumption). pose proof (Rle_0_sqr zi). pose proof (Rle_0_sqr zj). unfold Rsqr in *.
  pose proof (G _ (Rle_0_sqr (zi - zj))) as GD. unfold Rsqr in GD. pose proof (G (zi * zj) ltac:(lra)). pose proof (G (zi * zi) ltac:(lra)). pose proof (G (zj * zj) ltac:(lra)).
  destruct (J_first (6 * zi * zj * A * sqrt I)) as [E1 F1]; [lra|]. destruct (J_first (6 * zi * zi * A * sqrt I)) as [E2 F2]; [lra|]. destruct (J_first (6 * zj * zj * A * sqrt I)) as [E3 F3]; [lra|].
  destruct (theta_value A I zi zj _ _ _ _ _ _ E1 E2 E3 F1 F2 F3 N) as [E F]. rewrite E, F. split; f_equal; unfold Rdiv; ring.
Qed.
Section Dilute.
Variables (reactions : list Dissociation) (rho eps : R -> R -> R) (l : list Species) (mx : Mixture) (pz : PitzerParams) (Aphi : R -> R -> outcome R) (T P A : R) (p : Props * Extra) (m : nat -> R).
Hypotheses (Hmx : mkAqueousMixture reactions rho eps l = Ok mx) (Hpz : pitzerParams hmw mx = Ok pz) (HA : Aphi T P = Ok A) (A0 : 0 <= A) (Hi : has_ions l).
Let n := length l. Let w := mx_water mx. Let nc := length (pz_cations pz). Let na := length (pz_anions pz). Let nn := length (pz_neutrals pz).
Hypotheses (Hm : forall i, (i < n)%nat -> i <> w -> 0 < m i).
Let path := dilution n w m.
Let St := strength1 pz m.
Lemma covered i : (i < n)%nat -> i <> w -> (exists k, (k < nc)%nat /\ nth k (pz_cations pz) O = i) \/ (exists k, (k < na)%nat /\ nth k (pz_anions pz) O = i) \/ (exists k, (k < nn)%nat /\ nth k (pz_neutrals pz) O = i /\ Q2R (sp_charge (nth i l noSpecies)) = 0).
Proof.
  intros Li N. unfold nc, na, nn. destruct (pitzerParams_inv _ _ _ Hpz) as (-> & _ & -> & -> & _). destruct (mx_inv _ _ _ _ _ Hmx) as (_ & _ & -> & _ & -> & -> & _).
  destruct (nth_error l i) as [s|] eqn:E; [|apply nth_error_None in E; unfold n in Li; lia]. assert (Nw : Nat.eqb i w = false) by (apply Nat.eqb_neq, N).
  destruct (Qeq_bool (sp_charge s) 0) eqn:Z.
  - right. right. destruct (In_nth (pick (is_neutral (mx_water mx)) 0 l) i O) as (k & Hk & Ek); [|exists k; split; [exact Hk|split; [exact Ek|]]].
    + apply pick_in. split; [lia|]. exists s. rewrite Nat.sub_0_r. split; [exact E|]. unfold is_neutral. fold w. rewrite Nw, Z. reflexivity.
    + rewrite (nth_error_nth _ _ _ E). rewrite <- RMicromega.Q2R_0. apply Qeq_eqR, Qeq_bool_eq, Z.
  - destruct (Qltb 0 (sp_charge s)) eqn:Q; [left|right; left].
    + apply In_nth. apply pick_in. split; [lia|]. exists s. rewrite Nat.sub_0_r. split; [exact E|]. unfold P_Aqueous.is_cation. fold w. rewrite Nw, Z, Q. reflexivity.
    + apply In_nth. apply pick_in. split; [lia|]. exists s. rewrite Nat.sub_0_r. split; [exact E|]. unfold P_Aqueous.is_anion. fold w. rewrite Nw, Z, Q. reflexivity.
Qed.
Lemma St_pos : 0 < St.
Proof.
  destruct (some_ions _ _ _ _ _ _ Hmx Hpz Hi) as [Hc Ha]. destruct (dilution_path _ _ _ _ _ Hmx m 1 Hm Rlt_0_1) as [path' C].
  pose proof (xI_pos reactions rho eps l mx pz Hmx Hpz (path 1)) as X. pose proof (rI_dilution _ _ _ _ _ _ Hmx Hpz m Hm 1 Rlt_0_1) as R1. rewrite Rmult_1_l in R1. unfold St. rewrite <- R1. apply X; [apply C|exact Hc].
Qed.
Lemma no_thetas : exists d, 0 < d /\ forall s, 0 < s < d -> forall i j,
  ((i < nc)%nat -> (j < nc)%nat -> thetaE A (rI mx pz path s) (z_c pz i) (z_c pz j) = Ok 0 /\ thetaE_prime A (rI mx pz path s) (z_c pz i) (z_c pz j) = Ok 0) /\
  ((i < na)%nat -> (j < na)%nat -> thetaE A (rI mx pz path s) (z_a pz i) (z_a pz j) = Ok 0 /\ thetaE_prime A (rI mx pz path s) (z_a pz i) (z_a pz j) = Ok 0).
Proof.
  destruct (charges_bounded l) as (K & K0 & HK). pose proof St_pos as S0. assert (KA : 0 <= 6 * K * A) by (apply Rmult_le_pos; lra). set (r := 0.01 / (6 * K * A + 1)).
  assert (R0 : 0 < r) by (apply Rdiv_lt_0_compat; lra). exists (r ^ 2 / St). split; [apply Rdiv_lt_0_compat; [apply pow_lt, R0|exact S0]|]. intros s Hs.
  assert (ER : rI mx pz path s = s * St) by (apply (rI_dilution _ _ _ _ _ _ Hmx Hpz m Hm); lra). rewrite ER.
  assert (B : forall z, z * z <= K -> 6 * (z * z) * A * sqrt (s * St) < 0.01).
  { intros z Hz. assert (sqrt (s * St) < r).
    { rewrite <- (sqrt_pow2 r) by lra. assert (0 < s * St) by (apply Rmult_lt_0_compat; lra). apply sqrt_lt_1; [lra|apply pow2_ge_0|]. replace (r ^ 2) with (r ^ 2 / St * St) by (field; lra). apply Rmult_lt_compat_r; lra. }
    pose proof (sqrt_pos (s * St)). assert ((6 * K * A + 1) * r = 0.01) by (unfold r; field; lra). assert (6 * (z * z) * A <= 6 * K * A) by (apply Rmult_le_compat_r; lra).
    assert (6 * (z * z) * A * sqrt (s * St) <= 6 * K * A * sqrt (s * St)) by (apply Rmult_le_compat_r; lra). assert ((6 * K * A + 1) * sqrt (s * St) < (6 * K * A + 1) * r) by (apply Rmult_lt_compat_l; lra). lra. }
  destruct (ions_sign _ _ _ _ _ _ Hmx Hpz) as [Sc Sa]. intros i j. split; intros Li Lj.
  - destruct (cation_is _ _ _ _ _ _ Hmx Hpz i Li) as (a & Ia & _ & Ea & _). destruct (cation_is _ _ _ _ _ _ Hmx Hpz j Lj) as (b & Ib & _ & Eb & _).
    apply theta_zero; [exact A0|apply Rmult_lt_0_compat; apply Sc; assumption|rewrite Ea; apply B, HK, Ia|rewrite Eb; apply B, HK, Ib].
  - destruct (anion_is _ _ _ _ _ _ Hmx Hpz i Li) as (a & Ia & _ & Ea & _). destruct (anion_is _ _ _ _ _ _ Hmx Hpz j Lj) as (b & Ib & _ & Eb & _). pose proof (Sa i Li). pose proof (Sa j Lj).
    apply theta_zero; [exact A0| |rewrite Ea; apply B, HK, Ia|rewrite Eb; apply B, HK, Ib]. replace (z_a pz i * z_a pz j) with (- z_a pz i * - z_a pz j) by ring. apply Rmult_lt_0_compat; lra.
Qed.
Lemma rI_s s : 0 < s -> rI mx pz path s = s * St. Proof. exact (rI_dilution _ _ _ _ _ _ Hmx Hpz m Hm s). Qed.
Lemma mol_s s i : 0 < s -> i <> w -> mol mx path s i = s * m i. Proof. exact (mol_dilution l mx m Hm s i). Qed.
Lemma root s : 0 < s -> sqrt (rI mx pz path s) = sqrt s * sqrt St /\ 0 < sqrt s /\ 0 < sqrt St.
Proof.
  intros Hs. pose proof St_pos as S0. rewrite (rI_s s Hs). split; [apply sqrt_mult; lra|]. split; apply sqrt_lt_R0; assumption.
Qed.
Lemma tame_mc i : (i < nc)%nat -> tame 1 (fun s => m_c pz (mol mx path s) i).
Proof.
  intros Li. destruct (ionic _ _ _ _ _ _ Hmx Hpz i Li) as [_ N]. apply (tame_ext 1 1 _ (fun s => s * m_c pz m i)); [lra| |apply (tame_mul10 (fun s => s)); [apply tame_id|apply tame_const]].
  intros s Hs. unfold m_c. apply (mol_dilution l mx m Hm); [lra|exact N].
Qed.
Lemma tame_ma i : (i < na)%nat -> tame 1 (fun s => m_a pz (mol mx path s) i).
Proof.
  intros Li. destruct (anionic _ _ _ _ _ _ Hmx Hpz i Li) as [_ N]. apply (tame_ext 1 1 _ (fun s => s * m_a pz m i)); [lra| |apply (tame_mul10 (fun s => s)); [apply tame_id|apply tame_const]].
  intros s Hs. unfold m_a. apply (mol_dilution l mx m Hm); [lra|exact N].
Qed.
Lemma tame_mn i : (i < nn)%nat -> tame 1 (fun s => m_n pz (mol mx path s) i).
Proof.
  intros Li. destruct (indices _ _ _ _ _ _ Hmx Hpz) as (_ & _ & In_). destruct (In_ i Li) as [_ N]. apply (tame_ext 1 1 _ (fun s => s * m_n pz m i)); [lra| |apply (tame_mul10 (fun s => s)); [apply tame_id|apply tame_const]].
  intros s Hs. unfold m_n. apply (mol_dilution l mx m Hm); [lra|exact N].
Qed.
Lemma tame_Z : tame 1 (fun s => computeZ pz (mol mx path s)).
Proof.
  pose proof tame_mc as Hc. pose proof tame_ma as Ha.
  apply (tame_ext 1 1 _ (fun s => wZ nc na (fun c => m_c pz (mol mx path s) c) (fun a => m_a pz (mol mx path s) a) (z_c pz) (z_a pz))); [lra|intros s _; exact (Z_value _ _ _ _ _ _ Hmx Hpz path s)|].
  unfold wZ. revert Hc Ha. generalize (fun s => m_c pz (mol mx path s)) (fun s => m_a pz (mol mx path s)). intros f g Hc Ha. tm.
Qed.
Lemma tame_G (G : R -> R) a : 0 < a -> (forall x, 0 < x < 1 -> Rabs (G x) <= 2) -> tame 0 (fun s => G (a * sqrt (rI mx pz path s))).
Proof.
  intros Ha HG. pose proof St_pos as S0. exists 2, ((/ a) ^ 2 / St). assert (Ia : 0 < / a) by (apply Rinv_0_lt_compat, Ha).
  split; [apply Rdiv_lt_0_compat; [apply pow_lt, Ia|exact S0]|]. split; [lra|]. intros s Hs. rewrite Rmult_1_r. apply HG. rewrite (rI_s s) by lra.
  assert (0 < s * St) by (apply Rmult_lt_0_compat; lra). split; [apply Rmult_lt_0_compat; [exact Ha|apply sqrt_lt_R0; lra]|].
  assert (sqrt (s * St) < / a). { rewrite <- (sqrt_pow2 (/ a)) by lra. apply sqrt_lt_1; [lra|apply pow2_ge_0|]. replace ((/ a) ^ 2) with ((/ a) ^ 2 / St * St) by (field; lra). apply Rmult_lt_compat_r; lra. }
  replace 1 with (a * / a) by (field; lra). apply Rmult_lt_compat_l; assumption.
Qed.
Lemma exp_bound x : 0 < x < 1 -> Rabs (exp (- x)) <= 2.
Proof. intros Hx. destruct (exp_bounds x) as [_ U]; [lra|]. pose proof (exp_pos (- x)). rewrite Rabs_pos_eq by lra. assert (0 < exp (- x) * x) by (apply Rmult_lt_0_compat; lra). lra. Qed.
Lemma tame_B i j : tame 0 (fun s => B_ca pz (rI mx pz path s) T i j) /\ tame 0 (fun s => Bphi_ca pz (rI mx pz path s) T i j).
Proof.
  assert (G : forall a, 0 < a -> tame 0 (fun s => pz_g (a * sqrt (rI mx pz path s)))) by (intros a Ha; apply (tame_G pz_g a Ha); intros; apply g_bound; lra).
  assert (E : forall a, 0 < a -> tame 0 (fun s => exp (- a * sqrt (rI mx pz path s)))).
  { intros a Ha. apply (tame_ext 0 1 _ (fun s => exp (- (a * sqrt (rI mx pz path s))))); [lra|intros; f_equal; ring|]. apply (tame_G (fun x => exp (- x)) a Ha). exact exp_bound. }
  pose proof (G pz_alpha ltac:(unfold pz_alpha; lra)) as G0. pose proof (G pz_alpha1 ltac:(unfold pz_alpha1; lra)) as G1. pose proof (G pz_alpha2 ltac:(unfold pz_alpha2; lra)) as G2.
  pose proof (E pz_alpha ltac:(unfold pz_alpha; lra)) as E0. pose proof (E pz_alpha1 ltac:(unfold pz_alpha1; lra)) as E1. pose proof (E pz_alpha2 ltac:(unfold pz_alpha2; lra)) as E2.
  unfold B_ca, Bphi_ca, B_, B_phi. destruct (both_two (z_c pz i) (z_a pz j)); split; tm.
Qed.
Lemma tame_Bp i j : (i < nc)%nat -> (j < na)%nat -> tame 1 (fun s => m_c pz (mol mx path s) i * m_a pz (mol mx path s) j * Bprime_ca pz (rI mx pz path s) T i j).
Proof.
  intros Li Lj. assert (G : forall a, 0 < a -> tame 0 (fun s => pz_gprime (a * sqrt (rI mx pz path s)))) by (intros a Ha; apply (tame_G pz_gprime a Ha); exact gprime_bound).
  pose proof (G pz_alpha ltac:(unfold pz_alpha; lra)) as G0. pose proof (G pz_alpha1 ltac:(unfold pz_alpha1; lra)) as G1. pose proof (G pz_alpha2 ltac:(unfold pz_alpha2; lra)) as G2.
  destruct (ionic _ _ _ _ _ _ Hmx Hpz i Li) as [_ N]. destruct (anionic _ _ _ _ _ _ Hmx Hpz j Lj) as [_ N']. pose proof St_pos as S0. pose proof tame_id as HI.
  unfold Bprime_ca, B_prime. destruct (both_two (z_c pz i) (z_a pz j)).
  - apply (tame_ext 1 1 _ (fun s => s * (m_c pz m i * m_a pz m j / St) * (pz_beta1 pz i j T * pz_gprime (pz_alpha1 * sqrt (rI mx pz path s)) + pz_beta2 pz i j T * pz_gprime (pz_alpha2 * sqrt (rI mx pz path s))))); [lra| |tm].
    intros s Hs. generalize (pz_gprime (pz_alpha1 * sqrt (rI mx pz path s))) (pz_gprime (pz_alpha2 * sqrt (rI mx pz path s))). intros u v. unfold m_c, m_a. rewrite !mol_s by (try lra; assumption).
    rewrite (rI_s s) by lra. field. lra.
  - apply (tame_ext 1 1 _ (fun s => s * (m_c pz m i * m_a pz m j / St) * (pz_beta1 pz i j T * pz_gprime (pz_alpha * sqrt (rI mx pz path s))))); [lra| |tm].
    intros s Hs. generalize (pz_gprime (pz_alpha * sqrt (rI mx pz path s))). intros u. unfold m_c, m_a. rewrite !mol_s by (try lra; assumption).
    rewrite (rI_s s) by lra. field. lra.
Qed.
Let vtC s := tC mx pz (path s) A. Let vuC s := uC mx pz (path s) A. Let vtA s := tA mx pz (path s) A. Let vuA s := uA mx pz (path s) A.
Lemma tame_t i j : ((i < nc)%nat -> (j < nc)%nat -> tame 0 (fun s => vtC s i j) /\ tame 0 (fun s => vuC s i j)) /\ ((i < na)%nat -> (j < na)%nat -> tame 0 (fun s => vtA s i j) /\ tame 0 (fun s => vuA s i j)).
Proof.
  destruct no_thetas as (d & Hd & H). split; intros Li Lj; split; (apply (tame_ext 0 d _ (fun _ => 0)); [exact Hd| |apply tame_zero]); intros s Hs; destruct (H s Hs i j) as [H1 H2].
  - destruct (H1 Li Lj) as [E _]. unfold vtC, tC. change (xI mx pz (path s)) with (rI mx pz path s). rewrite E. reflexivity.
  - destruct (H1 Li Lj) as [_ E]. unfold vuC, uC. change (xI mx pz (path s)) with (rI mx pz path s). rewrite E. reflexivity.
  - destruct (H2 Li Lj) as [E _]. unfold vtA, tA. change (xI mx pz (path s)) with (rI mx pz path s). rewrite E. reflexivity.
  - destruct (H2 Li Lj) as [_ E]. unfold vuA, uA. change (xI mx pz (path s)) with (rI mx pz path s). rewrite E. reflexivity.
Qed.
Lemma tame_sum a f g h : tame 0 f -> tame 0 g -> tame 1 h -> tame 0 (fun s => a + f s + h s * g s). Proof. intros Hf Hg Hh. tm. Qed.
Lemma tame_cation c : (c < nc)%nat -> tame 1 (fun s => cation_value pz A (rI mx pz path s) T (mol mx path s) (vtC s) (vuC s) (vuA s) c - z_c pz c * z_c pz c * F_limit A (rI mx pz path s)).
Proof.
  intros Lc. unfold cation_value. fold nc na nn.
  refine (tame_vC nc na nn (fun c s => m_c pz (mol mx path s) c) (fun a s => m_a pz (mol mx path s) a) (fun k s => m_n pz (mol mx path s) k) (z_c pz)
    (fun i j s => B_ca pz (rI mx pz path s) T i j) (fun i j s => Bprime_ca pz (rI mx pz path s) T i j) (C_ca pz T) (fun i j s => pz_theta_cc pz i j + vtC s i j) (fun i j s => vuC s i j) (fun i j s => vuA s i j)
    (pz_psi_cca pz) (pz_psi_aac pz) (pz_lambda_nc pz) (fun s => F_limit A (rI mx pz path s)) (fun s => computeZ pz (mol mx path s)) tame_mc tame_ma tame_mn tame_Z _ tame_Bp _ _ _ c Lc).
  - intros i j _ _. apply tame_B.
  - intros i j Li Lj. destruct (tame_t i j) as [H _]. destruct (H Li Lj) as [H1 _]. exact (tame_add 0 (fun _ => pz_theta_cc pz i j) (fun s => vtC s i j) (tame_const _) H1).
  - intros i j Li Lj. destruct (tame_t i j) as [H _]. apply (H Li Lj).
  - intros i j Li Lj. destruct (tame_t i j) as [_ H]. apply (H Li Lj).
Qed.
Lemma tame_anion c : (c < na)%nat -> tame 1 (fun s => anion_value pz A (rI mx pz path s) T (mol mx path s) (vuC s) (vtA s) (vuA s) c - z_a pz c * z_a pz c * F_limit A (rI mx pz path s)).
Proof.
  intros Lc. unfold anion_value. fold nc na nn.
  refine (tame_vA nc na nn (fun c s => m_c pz (mol mx path s) c) (fun a s => m_a pz (mol mx path s) a) (fun k s => m_n pz (mol mx path s) k) (z_a pz)
    (fun i j s => B_ca pz (rI mx pz path s) T i j) (fun i j s => Bprime_ca pz (rI mx pz path s) T i j) (C_ca pz T) (fun i j s => vuC s i j) (fun i j s => pz_theta_aa pz i j + vtA s i j) (fun i j s => vuA s i j)
    (pz_psi_cca pz) (pz_psi_aac pz) (pz_lambda_na pz) (fun s => F_limit A (rI mx pz path s)) (fun s => computeZ pz (mol mx path s)) tame_mc tame_ma tame_mn tame_Z _ tame_Bp _ _ _ c Lc).
  - intros i j _ _. apply tame_B.
  - intros i j Li Lj. destruct (tame_t i j) as [H _]. apply (H Li Lj).
  - intros i j Li Lj. destruct (tame_t i j) as [_ H]. destruct (H Li Lj) as [H1 _]. exact (tame_add 0 (fun _ => pz_theta_aa pz i j) (fun s => vtA s i j) (tame_const _) H1).
  - intros i j Li Lj. destruct (tame_t i j) as [_ H]. apply (H Li Lj).
Qed.
Lemma tame_neutral k : tame 1 (fun s => neutral_value pz (mol mx path s) k).
Proof. exact (tame_vN nc na (fun c s => m_c pz (mol mx path s) c) (fun a s => m_a pz (mol mx path s) a) (pz_lambda_nc pz) (pz_lambda_na pz) (pz_zeta pz) tame_mc tame_ma k). Qed.
Lemma tame_I : tame 1 (fun s => rI mx pz path s).
Proof. apply (tame_ext 1 1 _ (fun s => s * St)); [lra|intros s Hs; apply rI_s; lra|]. apply (tame_mul10 (fun s => s)); [apply tame_id|apply tame_const]. Qed.
Lemma tame_osmotic : tame 2 (fun s => osmotic_value pz A (rI mx pz path s) T (mol mx path s) (vtC s) (vuC s) (vtA s) (vuA s) - (- A * rI mx pz path s * sqrt (rI mx pz path s) / (1 + 1.2 * sqrt (rI mx pz path s)))).
Proof.
  unfold osmotic_value. fold nc na nn.
  refine (tame_vS nc na nn (fun c s => m_c pz (mol mx path s) c) (fun a s => m_a pz (mol mx path s) a) (fun k s => m_n pz (mol mx path s) k)
    (fun i j s => Bphi_ca pz (rI mx pz path s) T i j) (C_ca pz T) (fun i j s => pz_theta_cc pz i j + vtC s i j + rI mx pz path s * vuC s i j) (fun i j s => pz_theta_aa pz i j + vtA s i j + rI mx pz path s * vuA s i j)
    (pz_psi_cca pz) (pz_psi_aac pz) (pz_lambda_nc pz) (pz_lambda_na pz) (pz_zeta pz) (fun s => - A * rI mx pz path s * sqrt (rI mx pz path s) / (1 + 1.2 * sqrt (rI mx pz path s))) (fun s => computeZ pz (mol mx path s)) tame_mc tame_ma tame_mn tame_Z _ _ _).
  - intros i j _ _. apply tame_B.
  - intros i j Li Lj. destruct (tame_t i j) as [H _]. destruct (H Li Lj) as [H1 H2]. exact (tame_sum (pz_theta_cc pz i j) (fun s => vtC s i j) (fun s => vuC s i j) (fun s => rI mx pz path s) H1 H2 tame_I).
  - intros i j Li Lj. destruct (tame_t i j) as [_ H]. destruct (H Li Lj) as [H1 H2]. exact (tame_sum (pz_theta_aa pz i j) (fun s => vtA s i j) (fun s => vuA s i j) (fun s => rI mx pz path s) H1 H2 tame_I).
Qed.
Lemma dilute_value : exists d, 0 < d /\ forall s, 0 < s < d -> exists q e, pitzer_fn Aphi mx pz T P (path s) p = Ok (q, e) /\
  (forall c, (c < nc)%nat -> ln_g q (nth c (pz_cations pz) O) = cation_value pz A (rI mx pz path s) T (mol mx path s) (vtC s) (vuC s) (vuA s) c) /\
  (forall a, (a < na)%nat -> ln_g q (nth a (pz_anions pz) O) = anion_value pz A (rI mx pz path s) T (mol mx path s) (vuC s) (vtA s) (vuA s) a) /\
  (forall k, (k < nn)%nat -> ln_g q (nth k (pz_neutrals pz) O) = neutral_value pz (mol mx path s) k) /\
  ln_a q w = - Mw * ((Sum n (mol mx path s) - mol mx path s w) + 2 * osmotic_value pz A (rI mx pz path s) T (mol mx path s) (vtC s) (vuC s) (vtA s) (vuA s)).
Proof.
  destruct no_thetas as (d & Hd & H). exists d. split; [exact Hd|]. intros s Hs. destruct (some_ions _ _ _ _ _ _ Hmx Hpz Hi) as [Hc Ha].
  destruct (dilution_path _ _ _ _ _ Hmx m s Hm ltac:(lra)) as [path' C].
  destruct (at_value _ _ _ _ _ _ Hmx Hpz (path s) Aphi T P A p (proj1 C) HA Hc Ha) as (q & E & V1 & V2 & V3 & _ & V4 & _).
  - intros i j Li Lj. destruct (H s Hs i j) as [H1 _]. destruct (H1 Li Lj) as [E1 E2]. split; eexists; [exact E1|exact E2].
  - intros i j Li Lj. destruct (H s Hs i j) as [_ H1]. destruct (H1 Li Lj) as [E1 E2]. split; eexists; [exact E1|exact E2].
  - exists q, (Some (mx, mixtureState mx T P (path s))). split; [exact E|]. split; [exact V1|]. split; [exact V2|]. split; [exact V3|exact V4].
Qed.
(* An excess of the order of s divided by the root of the ionic strength. *)
Lemma over_root z g (v : R -> R) : tame 1 (fun s => v s - z * z * F_limit A (rI mx pz path s)) -> (exists d, 0 < d /\ forall s, 0 < s < d -> g s = v s) ->
  filterlim (fun s => g s / sqrt (rI mx pz path s)) (at_right 0) (locally (- 3 * A * z ^ 2)).
Proof.
  intros (K & d & Hd & HK & H) (d' & Hd' & E). apply lim_sqrt. pose proof St_pos as S0. assert (R0 : 0 < sqrt St) by apply sqrt_lt_R0, S0.
  exists (z * z * (3.6 * A * sqrt St) + K / sqrt St), (Rmin d d'). split; [apply Rmin_pos; assumption|].
  pose proof (Rle_0_sqr z) as Z. unfold Rsqr in Z. assert (Z' : 0 <= z * z * (3.6 * A * sqrt St)) by (apply Rmult_le_pos; [exact Z|apply Rmult_le_pos; lra]).
  assert (K' : 0 <= K / sqrt St) by (apply Rmult_le_pos; [exact HK|apply Rlt_le, Rinv_0_lt_compat, R0]). split; [lra|].
  intros s Hs. pose proof (Rmin_l d d'). pose proof (Rmin_r d d'). specialize (H s ltac:(lra)). rewrite E by lra. destruct (root s ltac:(lra)) as (ER & Rs & _).
  assert (Q : sqrt s * sqrt s = s) by (apply sqrt_sqrt; lra). pose proof (limit_bound A (sqrt (rI mx pz path s)) A0) as LB.
  change (- A * (sqrt (rI mx pz path s) / (1 + 1.2 * sqrt (rI mx pz path s)) + 2 / 1.2 * ln (1 + 1.2 * sqrt (rI mx pz path s)))) with (F_limit A (rI mx pz path s)) in LB.
  revert LB H. generalize (F_limit A (rI mx pz path s)) (v s). rewrite ER. intros F u LB H. assert (P0 : 0 < sqrt s * sqrt St) by (apply Rmult_lt_0_compat; assumption). specialize (LB P0).
  replace (u / (sqrt s * sqrt St) - - 3 * A * z ^ 2) with (z * z * (F / (sqrt s * sqrt St) + 3 * A) + (u - z * z * F) / (sqrt s * sqrt St)) by (field; lra).
  pose proof (Rabs_triang (z * z * (F / (sqrt s * sqrt St) + 3 * A)) ((u - z * z * F) / (sqrt s * sqrt St))) as TR. rewrite Rabs_mult, (Rabs_pos_eq (z * z)) in TR by exact Z.
  assert (B1 : z * z * Rabs (F / (sqrt s * sqrt St) + 3 * A) <= z * z * (3.6 * A * (sqrt s * sqrt St))) by (apply Rmult_le_compat_l; assumption).
  assert (B2 : Rabs ((u - z * z * F) / (sqrt s * sqrt St)) <= K / sqrt St * sqrt s).
  { unfold Rdiv at 1. rewrite Rabs_mult, (Rabs_pos_eq (/ _)) by (apply Rlt_le, Rinv_0_lt_compat, P0). apply (Rle_trans _ (K * s ^ 1 * / (sqrt s * sqrt St))); [apply Rmult_le_compat_r; [apply Rlt_le, Rinv_0_lt_compat, P0|exact H]|].
    right. rewrite <- Q at 1. cbn [pow]. field. lra. }
  lra.
Qed.
Lemma total_s s : 0 < s -> Sum n (mol mx path s) - mol mx path s w = s * Sum n (solutes w m).
Proof.
  intros Hs. pose proof (w_lt _ _ _ _ _ Hmx) as Lw. fold w n in Lw. rewrite <- Sum_scal. rewrite (Sum_ext n (mol mx path s) (fun i => s * solutes w m i + one_at w i * mol mx path s w)).
  - rewrite Sum_add. rewrite (Sum_one n w (mol mx path s w) Lw). ring.
  - intros i _. unfold solutes, one_at. destruct (Nat.eqb_spec i w) as [->|N]; [ring|]. rewrite mol_s by assumption. ring.
Qed.
Lemma solutes_pos : 0 < Sum n (solutes w m).
Proof.
  destruct (some_ions _ _ _ _ _ _ Hmx Hpz Hi) as [Hc _]. destruct (ionic _ _ _ _ _ _ Hmx Hpz O Hc) as [L N]. apply (Sum_pos n _ (nth 0 (pz_cations pz) O)); [|exact L|].
  - intros k Hk. unfold solutes. destruct (Nat.eqb_spec k w) as [_|N']; [lra|apply Rlt_le, Hm; assumption].
  - unfold solutes. destruct (Nat.eqb_spec (nth 0 (pz_cations pz) O) w) as [E|_]; [contradiction|apply Hm; assumption].
Qed.
Lemma osmotic_limit g : (exists d, 0 < d /\ forall s, 0 < s < d -> g s = - Mw * ((Sum n (mol mx path s) - mol mx path s w) + 2 * osmotic_value pz A (rI mx pz path s) T (mol mx path s) (vtC s) (vuC s) (vtA s) (vuA s))) ->
  filterlim (fun s => g s / (- Mw * (s * Sum n (solutes w m)))) (at_right 0) (locally 1).
Proof.
  intros (d' & Hd' & E). destruct tame_osmotic as (K & d & Hd & HK & H). apply lim_sqrt. pose proof St_pos as S0. pose proof solutes_pos as M0. pose proof Mw_pos as W0. assert (R0 : 0 < sqrt St) by apply sqrt_lt_R0, S0.
  set (M := Sum n (solutes w m)) in *. exists (2 * (A * St * sqrt St + K) / M), (Rmin (Rmin d d') 1).
  assert (AS : 0 <= A * St * sqrt St) by (apply Rmult_le_pos; [apply Rmult_le_pos|]; lra).
  split; [apply Rmin_pos; [apply Rmin_pos; assumption|lra]|]. split; [apply Rmult_le_pos; [lra|apply Rlt_le, Rinv_0_lt_compat, M0]|].
  intros s Hs. pose proof (Rmin_l d d'). pose proof (Rmin_r d d'). pose proof (Rmin_l (Rmin d d') 1). pose proof (Rmin_r (Rmin d d') 1). specialize (H s ltac:(lra)). rewrite E by lra. rewrite total_s by lra. fold M.
  destruct (root s ltac:(lra)) as (ER & Rs & _). assert (Q : sqrt s * sqrt s = s) by (apply sqrt_sqrt; lra). assert (S1 : s <= sqrt s). { assert (sqrt s <= 1) by (rewrite <- sqrt_1; apply sqrt_le_1; lra). assert (sqrt s * sqrt s <= sqrt s * 1) by (apply Rmult_le_compat_l; lra). lra. }
  revert H. generalize (osmotic_value pz A (rI mx pz path s) T (mol mx path s) (vtC s) (vuC s) (vtA s) (vuA s)). intros o H.
  assert (B : Rabs (- A * rI mx pz path s * sqrt (rI mx pz path s) / (1 + 1.2 * sqrt (rI mx pz path s))) <= A * St * sqrt St * (s * sqrt s)).
  { assert (P0 : 0 < sqrt s * sqrt St) by (apply Rmult_lt_0_compat; assumption). rewrite ER, (rI_s s) by lra. unfold Rdiv. rewrite Rabs_mult, (Rabs_pos_eq (/ _)) by (apply Rlt_le, Rinv_0_lt_compat; lra).
    replace (Rabs (- A * (s * St) * (sqrt s * sqrt St))) with (A * St * sqrt St * (s * sqrt s)).
    - assert (0 <= A * St * sqrt St * (s * sqrt s)) by (apply Rmult_le_pos; [exact AS|apply Rmult_le_pos; lra]). assert (/ (1 + 1.2 * (sqrt s * sqrt St)) <= 1) by (rewrite <- Rinv_1; apply Rinv_le_contravar; lra).
      rewrite <- (Rmult_1_r (A * St * sqrt St * (s * sqrt s))) at 2. apply Rmult_le_compat_l; assumption.
    - replace (- A * (s * St) * (sqrt s * sqrt St)) with (- (A * St * sqrt St * (s * sqrt s))) by ring. rewrite Rabs_Ropp, Rabs_pos_eq; [reflexivity|]. apply Rmult_le_pos; [exact AS|apply Rmult_le_pos; lra]. }
  set (o0 := - A * rI mx pz path s * sqrt (rI mx pz path s) / (1 + 1.2 * sqrt (rI mx pz path s))) in *.
  assert (O : Rabs o <= (A * St * sqrt St + K) * (s * sqrt s)).
  { replace o with (o0 + (o - o0)) by ring. pose proof (Rabs_triang o0 (o - o0)) as TR. assert (K * s ^ 2 <= K * (s * sqrt s)) by (apply Rmult_le_compat_l; [exact HK|]; cbn [pow]; rewrite Rmult_1_r; apply Rmult_le_compat_l; lra). lra. }
  replace (- Mw * (s * M + 2 * o) / (- Mw * (s * M)) - 1) with (2 * / (s * M) * o) by (field; repeat split; lra). assert (SM : 0 < s * M) by (apply Rmult_lt_0_compat; lra).
  rewrite Rabs_mult, (Rabs_pos_eq (2 * / (s * M))) by (apply Rmult_le_pos; [lra|apply Rlt_le, Rinv_0_lt_compat, SM]).
  apply (Rle_trans _ (2 * / (s * M) * ((A * St * sqrt St + K) * (s * sqrt s)))); [apply Rmult_le_compat_l; [apply Rmult_le_pos; [lra|apply Rlt_le, Rinv_0_lt_compat, SM]|exact O]|]. right. field. lra.
Qed.
End Dilute.
Theorem C112_limiting_law : forall reactions rho eps Aphi l f T P A p w m, pitzer Aphi hmw (mkAqueousMixture reactions rho eps) l = Ok f -> Aphi T P = Ok A -> 0 <= A ->
  has_ions l -> indexWithFormula l $"H2O" = Ok w -> (forall i, (i < length l)%nat -> i <> w -> 0 < m i) ->
  let path := dilution (length l) w m in
  at_right 0 (fun s => exists q e, f T P (path s) p = Ok (q, e)) /\
  (forall i, (i < length l)%nat -> i <> w ->
     filterlim (fun s => coefficient f T P p (path s) i / sqrt (ionic_strength l w (path s))) (at_right 0) (locally (- 3 * A * Q2R (sp_charge (nth i l noSpecies)) ^ 2))) /\
  filterlim (fun s => activity f T P p (path s) w / (- 0.018015268 * Sum (length l) (solutes w (fun i => s * m i)))) (at_right 0) (locally 1).
Proof.
  intros reactions rho eps Aphi l f T P A p w m Hf HA A0 Hi Hw Hm path. destruct (pitzer_inv _ _ _ _ _ _ _ Hf) as (mx & pz & Hmx & Hpz & ->).
  assert (Ew : mx_water mx = w) by (destruct (mx_inv _ _ _ _ _ Hmx) as (W & _); congruence). subst w. pose proof (dilute_value _ _ _ _ _ _ Aphi T P A p m Hmx Hpz HA A0 Hi Hm) as (d & Hd & V). fold path in V.
  assert (ES : forall s, ionic_strength l (mx_water mx) (path s) = rI mx pz path s) by (intros s; symmetry; exact (strength_value _ _ _ _ _ _ (path s) Hmx Hpz)).
  assert (EZ : forall i, pz_z pz i = Q2R (sp_charge (nth i l noSpecies))). { intros i. destruct (pitzerParams_inv _ _ _ Hpz) as (_ & _ & _ & _ & ->). destruct (mx_inv _ _ _ _ _ Hmx) as (_ & -> & _). reflexivity. }
  split; [|split].
  - exists (mkposreal d Hd). intros s B S0. unfold ball in B. cbn in B. unfold AbsRing_ball, abs, minus, plus, opp in B. cbn in B. rewrite Ropp_0, Rplus_0_r, Rabs_pos_eq in B by lra. destruct (V s ltac:(lra)) as (q & e & E & _). eauto.
  - intros i Li N. apply (filterlim_ext (fun s => coefficient (pitzer_fn Aphi mx pz) T P p (path s) i / sqrt (rI mx pz path s))); [intros s; rewrite ES; reflexivity|].
    destruct (covered _ _ _ _ _ _ m Hmx Hpz Hm i Li N) as [(k & Hk & <-)|[(k & Hk & <-)|(k & Hk & <- & Z)]].
    + pose proof (EZ (nth k (pz_cations pz) O)) as E. rewrite <- E. change (pz_z pz (nth k (pz_cations pz) O)) with (z_c pz k).
      refine (over_root _ _ _ _ _ _ A m Hmx Hpz A0 Hi Hm (z_c pz k) _ _ (tame_cation _ _ _ _ _ _ T A m Hmx Hpz A0 Hi Hm k Hk) _). exists d. split; [exact Hd|]. intros s Hs. destruct (V s Hs) as (q & e & E' & V1 & _). unfold coefficient. fold path. rewrite E'. apply V1, Hk.
    + pose proof (EZ (nth k (pz_anions pz) O)) as E. rewrite <- E. change (pz_z pz (nth k (pz_anions pz) O)) with (z_a pz k).
      refine (over_root _ _ _ _ _ _ A m Hmx Hpz A0 Hi Hm (z_a pz k) _ _ (tame_anion _ _ _ _ _ _ T A m Hmx Hpz A0 Hi Hm k Hk) _). exists d. split; [exact Hd|]. intros s Hs. destruct (V s Hs) as (q & e & E' & _ & V1 & _). unfold coefficient. fold path. rewrite E'. apply V1, Hk.
    + rewrite Z. refine (over_root _ _ _ _ _ _ A m Hmx Hpz A0 Hi Hm 0 _ (fun s => neutral_value pz (mol mx path s) k) _ _).
      * apply (tame_ext 1 1 _ (fun s => neutral_value pz (mol mx path s) k)); [lra|intros; ring|]. exact (tame_neutral _ _ _ _ _ _ m Hmx Hpz Hm k).
      * exists d. split; [exact Hd|]. intros s Hs. destruct (V s Hs) as (q & e & E' & _ & _ & V1 & _). unfold coefficient. fold path. rewrite E'. apply V1, Hk.
  - apply (filterlim_ext (fun s => activity (pitzer_fn Aphi mx pz) T P p (path s) (mx_water mx) / (- Mw * (s * Sum (length l) (solutes (mx_water mx) m))))).
    + intros s. rewrite (solutes_scal (length l)). replace (- Mw) with (-0.018015268) by (unfold Mw; lra). reflexivity.
    + refine (osmotic_limit _ _ _ _ _ _ T A m Hmx Hpz A0 Hi Hm _ _). exists d. split; [exact Hd|]. intros s Hs. destruct (V s Hs) as (q & e & E' & _ & _ & _ & V1). unfold activity. fold path. rewrite E'. exact V1.
Qed.
Print Assumptions C112_limiting_law.
Example C112_nonvacuous : exists f, pitzer (fun _ _ => Ok 0.39147278) hmw (mkAqueousMixture [] (fun _ _ => 1) (fun _ _ => 1)) hard = Ok f /\ has_ions hard /\ indexWithFormula hard $"H2O" = Ok 0%nat /\
  (forall i, (i < length hard)%nat -> i <> 0%nat -> 0 < hard_molality i) /\ sp_charge (nth 2 hard noSpecies) = 2%Q.
Proof.
  destruct (pitzer_ok [] (fun _ _ => 1) (fun _ _ => 1) (fun _ _ => Ok 0.39147278) hard 0) as [f Hf]; [vm_compute; reflexivity|]. exists f. split; [exact Hf|].
  split; [split; [exists aNa|exists aCl]; (split; [cbn; auto|reflexivity])|]. split; [vm_compute; reflexivity|]. split; [exact hard_pos|reflexivity].
Qed.
