(* Jumps of the Pitzer model at the points of the tables. *)
From Coq Require Import Reals Qreals List Bool Lia Lra Permutation.
From Coquelicot Require Import Coquelicot.
Import ListNotations.
From Verif Require Import Base M_Strings M_Formula M_Chem M_System M_Registry M_CubicEOS P_Helmholtz P_CubicEOS M_Aqueous S_Activity P_Aqueous P_Activity M_Pitzer P_PitzerSum P_Pitzer P_PitzerFn P_PitzerDuhem P_PitzerJ P_PitzerMix P_PitzerEval.
Local Open Scope R_scope.

Lemma osmotic_ext pz A I T m eC dC eA dA eC' dC' eA' dA' :
  (forall i j, (i < j)%nat -> (j < length (pz_cations pz))%nat -> eC i j + I * dC i j = eC' i j + I * dC' i j) ->
  (forall i j, (i < j)%nat -> (j < length (pz_anions pz))%nat -> eA i j + I * dA i j = eA' i j + I * dA' i j) ->
  osmotic_value pz A I T m eC dC eA dA = osmotic_value pz A I T m eC' dC' eA' dA'.
Proof.
  intros H K. unfold osmotic_value, vS. do 4 f_equal.
  - f_equal. apply Pairs_ext. intros i j Hi Hj. specialize (H i j Hi Hj). f_equal. lra.
  - apply Pairs_ext. intros i j Hi Hj. specialize (K i j Hi Hj). f_equal. lra.
Qed.

(* The sums are differentiable when what they are made of is. *)
Lemma exd_vS nc na nn (mc ma mn : nat -> R -> R) (Bf PCf PAf : nat -> nat -> R -> R) C sC sA lC lA zt (S0 Z : R -> R) t :
  (forall i, (i < nc)%nat -> ex_derive (mc i) t) -> (forall i, (i < na)%nat -> ex_derive (ma i) t) -> (forall i, (i < nn)%nat -> ex_derive (mn i) t) ->
  (forall i j, (i < nc)%nat -> (j < na)%nat -> ex_derive (Bf i j) t) -> (forall i j, (i < nc)%nat -> (j < nc)%nat -> ex_derive (PCf i j) t) -> (forall i j, (i < na)%nat -> (j < na)%nat -> ex_derive (PAf i j) t) ->
  ex_derive S0 t -> ex_derive Z t ->
  ex_derive (fun s => vS nc na nn (fun i => mc i s) (fun i => ma i s) (fun i => mn i s) (fun i j => Bf i j s) C (fun i j => PCf i j s) (fun i j => PAf i j s) sC sA lC lA zt (S0 s) (Z s)) t.
Proof.
  intros Hc Ha Hn HB HC HA HS HZ. unfold vS. exd; lazymatch goal with
  | |- ex_derive (mc ?i) _ => apply Hc; lia
  | |- ex_derive (ma ?i) _ => apply Ha; lia
  | |- ex_derive (mn ?i) _ => apply Hn; lia
  | |- ex_derive (Bf ?i ?j) _ => apply HB; lia
  | |- ex_derive (PCf ?i ?j) _ => apply HC; lia
  | |- ex_derive (PAf ?i ?j) _ => apply HA; lia
  | |- ex_derive S0 _ => exact HS
  | |- ex_derive Z _ => exact HZ
  end.
Qed.
Lemma exd_wZ nc na (mc ma : nat -> R -> R) zc za t :
  (forall i, (i < nc)%nat -> ex_derive (mc i) t) -> (forall i, (i < na)%nat -> ex_derive (ma i) t) -> ex_derive (fun s => wZ nc na (fun i => mc i s) (fun i => ma i s) zc za) t.
Proof. intros Hc Ha. unfold wZ. exd; lazymatch goal with |- ex_derive (mc ?i) _ => apply Hc; lia | |- ex_derive (ma ?i) _ => apply Ha; lia end. Qed.

Section Smooth.
Variables (reactions : list Dissociation) (rho eps : R -> R -> R) (l : list Species) (mx : Mixture) (pz : PitzerParams).
Hypotheses (Hmx : mkAqueousMixture reactions rho eps l = Ok mx) (Hpz : pitzerParams hmw mx = Ok pz).
Variables (path : R -> nat -> R) (path' : nat -> R) (t T A : R).
Hypotheses (Hpath : composition_path (length l) path path' t).
Let n := length l. Let w := mx_water mx.
Let nc := length (pz_cations pz). Let na := length (pz_anions pz). Let nn := length (pz_neutrals pz).
Hypotheses (Hnc : (0 < nc)%nat) (Hna : (0 < na)%nat).
Variables (eC dC eA dA : nat -> nat -> R -> R).
Hypotheses (EC : forall i j, (i < nc)%nat -> (j < nc)%nat -> ex_derive (eC i j) t) (DC : forall i j, (i < nc)%nat -> (j < nc)%nat -> ex_derive (dC i j) t).
Hypotheses (EA : forall i j, (i < na)%nat -> (j < na)%nat -> ex_derive (eA i j) t) (DA : forall i j, (i < na)%nat -> (j < na)%nat -> ex_derive (dA i j) t).
Let I := rI mx pz path. Let m := mol mx path.
Lemma smooth_osmotic : ex_derive (fun s => osmotic_value pz A (I s) T (m s) (fun i j => eC i j s) (fun i j => dC i j s) (fun i j => eA i j s) (fun i j => dA i j s)) t.
Proof.
  destruct (indices reactions rho eps l mx pz Hmx Hpz) as (Ic & Ia & In_). pose proof (rI_pos reactions rho eps l mx pz Hmx Hpz path path' t Hpath Hnc) as Ip. pose proof (d_rI reactions rho eps l mx pz Hmx Hpz path path' t Hpath) as DI. fold I in Ip, DI.
  assert (Xm : forall i, (i < n)%nat -> ex_derive (fun s => m s i) t) by (intros i Hi; eexists; apply (d_mol reactions rho eps l mx Hmx path path' t Hpath i Hi)).
  assert (XC : forall i, (i < nc)%nat -> ex_derive (fun s => m_c pz (m s) i) t) by (intros i Hi; apply Xm, Ic, Hi).
  assert (XA : forall i, (i < na)%nat -> ex_derive (fun s => m_a pz (m s) i) t) by (intros i Hi; apply Xm, Ia, Hi).
  assert (XN : forall i, (i < nn)%nat -> ex_derive (fun s => m_n pz (m s) i) t) by (intros i Hi; apply Xm, In_, Hi).
  assert (XI : ex_derive I t) by (eexists; exact DI).
  assert (XB : forall c b, ex_derive (fun s => Bphi_ca pz (I s) T c b) t).
  { intros c b. destruct (d_B I t _ DI Ip (z_c pz c) (z_a pz b) (pz_beta0 pz c b T) (pz_beta1 pz c b T) (pz_beta2 pz c b T)) as [D1 [d2 D2]].
    eexists. apply (is_derive_ext_loc (fun s => B_ca pz (I s) T c b + I s * Bprime_ca pz (I s) T c b)).
    - assert (C : continuous I t) by (apply (ex_derive_continuous (V := R_NormedModule)); exact XI).
      apply (filter_imp (fun s => 0 < I s)); [|exact (C (fun y => 0 < y) (open_gt 0 _ Ip))]. intros s Hs. symmetry. apply B_sum, Hs.
    - apply d_add; [exact D1|apply d_mul; [exact DI|exact D2]]. }
  assert (XL : ex_derive (fun s => - A * I s * sqrt (I s) / (1 + 1.2 * sqrt (I s))) t) by (eexists; apply (d_limit I t _ DI Ip A)).
  assert (XZ : ex_derive (fun s => computeZ pz (m s)) t).
  { apply (ex_derive_ext (fun s => wZ nc na (fun c => m_c pz (m s) c) (fun a => m_a pz (m s) a) (z_c pz) (z_a pz))).
    - intros s. symmetry. apply (Z_value reactions rho eps l mx pz Hmx Hpz path s).
    - exact (exd_wZ nc na (fun i s => m_c pz (m s) i) (fun i s => m_a pz (m s) i) (z_c pz) (z_a pz) t XC XA). }
  apply (exd_vS nc na nn (fun i s => m_c pz (m s) i) (fun i s => m_a pz (m s) i) (fun i s => m_n pz (m s) i) (fun c b s => Bphi_ca pz (I s) T c b)
    (fun i j s => pz_theta_cc pz i j + eC i j s + I s * dC i j s) (fun i j s => pz_theta_aa pz i j + eA i j s + I s * dA i j s) (C_ca pz T)
    (pz_psi_cca pz) (pz_psi_aac pz) (pz_lambda_nc pz) (pz_lambda_na pz) (pz_zeta pz) (fun s => - A * I s * sqrt (I s) / (1 + 1.2 * sqrt (I s))) (fun s => computeZ pz (m s)) t XC XA XN).
  - intros i j _ _. apply XB.
  - intros i j Hi Hj. apply (exd_add (fun s => pz_theta_cc pz i j + eC i j s) (fun s => I s * dC i j s)); [apply (exd_add (fun _ => pz_theta_cc pz i j) (eC i j)); [apply exd_const|apply EC; assumption]|apply (exd_mul I (dC i j)); [exact XI|apply DC; assumption]].
  - intros i j Hi Hj. apply (exd_add (fun s => pz_theta_aa pz i j + eA i j s) (fun s => I s * dA i j s)); [apply (exd_add (fun _ => pz_theta_aa pz i j) (eA i j)); [apply exd_const|apply EA; assumption]|apply (exd_mul I (dA i j)); [exact XI|apply DA; assumption]].
  - exact XL.
  - exact XZ.
Qed.
Lemma smooth_total : ex_derive (fun s => Sum n (m s) - m s w) t.
Proof.
  eexists. apply d_sub; [apply (d_Sum n (fun i s => m s i)); intros; apply (d_mol reactions rho eps l mx Hmx path path' t Hpath); assumption|apply (d_mol reactions rho eps l mx Hmx path path' t Hpath), (w_lt _ _ _ _ _ Hmx)].
Qed.
End Smooth.
(* A function that agrees with a continuous one below a point. *)
Lemma left_limit (g h : R -> R) t : continuous g t -> continuous h t -> (exists d, 0 < d /\ forall s, t - d < s < t -> g s = h s) -> g t = h t.
Proof.
  intros Cg Ch (d & Hd & E). assert (C : continuous (fun s => g s - h s) t) by (apply (continuous_minus g h t Cg Ch)).
  destruct (Req_dec (g t - h t) 0) as [Z|Z]; [lra|]. exfalso.
  assert (L : locally t (fun s => g s - h s <> 0)).
  { apply (C (fun y => y <> 0)). destruct (Rlt_le_dec (g t - h t) 0) as [Q|Q].
    - apply (filter_imp (fun y => y < 0)); [intros; lra|apply open_lt, Q].
    - apply (filter_imp (fun y => 0 < y)); [intros; lra|apply open_gt; lra]. }
  destruct L as [e He]. set (s := t - Rmin d e / 2). pose proof (cond_pos e). assert (0 < Rmin d e) by (apply Rmin_glb_lt; assumption). pose proof (Rmin_l d e). pose proof (Rmin_r d e).
  apply (He s). { unfold ball. cbn. unfold AbsRing_ball, abs, minus, plus, opp. cbn. unfold s. rewrite Rabs_left; lra. }
  rewrite E; [ring|]. unfold s. lra.
Qed.
