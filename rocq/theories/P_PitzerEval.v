(* Evaluation of the Pitzer model at one composition. *)
From Coq Require Import Reals Qreals List Bool Lia Lra Permutation.
From Coquelicot Require Import Coquelicot.
Import ListNotations.
From Verif Require Import Base M_Strings M_Formula M_Chem M_System M_Registry M_CubicEOS P_Helmholtz P_CubicEOS M_Aqueous S_Activity P_Aqueous P_Activity M_Pitzer P_PitzerSum P_Pitzer P_PitzerFn P_PitzerDuhem P_PitzerJ P_PitzerMix.
Local Open Scope R_scope.

Section At.
Variables (reactions : list Dissociation) (rho eps : R -> R -> R) (l : list Species) (mx : Mixture) (pz : PitzerParams).
Hypotheses (Hmx : mkAqueousMixture reactions rho eps l = Ok mx) (Hpz : pitzerParams hmw mx = Ok pz).
Variables (x : nat -> R) (Aphi : R -> R -> outcome R) (T P A : R) (p : Props * Extra).
Let n := length l. Let w := mx_water mx.
Let nc := length (pz_cations pz). Let na := length (pz_anions pz). Let nn := length (pz_neutrals pz).
Hypotheses (Hx : forall i, (i < n)%nat -> 0 < x i) (HA : Aphi T P = Ok A) (Hnc : (0 < nc)%nat) (Hna : (0 < na)%nat).
Definition xm (i : nat) : R := x i / (waterMolarMass * x w).
Definition xI : R := wI nc na (m_c pz xm) (m_a pz xm) (z_c pz) (z_a pz).
Definition tC (i j : nat) : R := val (thetaE A xI (z_c pz i) (z_c pz j)).
Definition uC (i j : nat) : R := val (thetaE_prime A xI (z_c pz i) (z_c pz j)).
Definition tA (i j : nat) : R := val (thetaE A xI (z_a pz i) (z_a pz j)).
Definition uA (i j : nat) : R := val (thetaE_prime A xI (z_a pz i) (z_a pz j)).
Definition pair_defined (zi zj : R) : Prop := (exists v, thetaE A xI zi zj = Ok v) /\ (exists v, thetaE_prime A xI zi zj = Ok v).
Lemma xm_pos i : (i < n)%nat -> 0 < xm i.
Proof. intros Hi. unfold xm. apply Rdiv_lt_0_compat; [apply Hx, Hi|]. apply Rmult_lt_0_compat; [exact Mw_pos|]. apply Hx, (w_lt _ _ _ _ _ Hmx). Qed.
Lemma state_m : st_m (mixtureState mx T P x) = xm.
Proof. cbn. unfold molalities. fold w. assert (0 < x w) by apply Hx, (w_lt _ _ _ _ _ Hmx). destruct (Req_EM_T (x w) 0); [lra|]. reflexivity. Qed.
Lemma state_I : st_Ie (mixtureState mx T P x) = xI.
Proof. pose proof state_m as Em. cbn in Em |- *. rewrite Em. exact (rI_strength reactions rho eps l mx pz Hmx Hpz (fun _ => x) 0). Qed.
Lemma xI_pos : 0 < xI.
Proof.
  destruct (indices reactions rho eps l mx pz Hmx Hpz) as (Ic & Ia & _). unfold xI, wI.
  assert (0 < Sum nc (fun c => m_c pz xm c * (z_c pz c * z_c pz c))).
  { apply (Sum_pos nc _ 0%nat); [| exact Hnc|].
    - intros k Hk. apply Rmult_le_pos; [apply Rlt_le, xm_pos, Ic, Hk|apply Rle_0_sqr].
    - apply Rmult_lt_0_compat; [apply xm_pos, Ic, Hnc|apply Rsqr_pos_lt, (charged_ne reactions rho eps l mx pz Hmx Hpz), Hnc]. }
  assert (0 <= Sum na (fun c => m_a pz xm c * (z_a pz c * z_a pz c))).
  { apply Sum_nonneg. intros k Hk. apply Rmult_le_pos; [apply Rlt_le, xm_pos, Ia, Hk|apply Rle_0_sqr]. }
  lra.
Qed.
Lemma total_pos : 0 < Sum n xm - xm w.
Proof.
  destruct (indices reactions rho eps l mx pz Hmx Hpz) as (Ic & Ia & In_). unfold n, w. rewrite (sum_species reactions rho eps l mx pz Hmx Hpz). fold w nn nc na.
  assert (0 <= Sum nn (fun k => xm (nth k (pz_neutrals pz) O))) by (apply Sum_nonneg; intros; apply Rlt_le, xm_pos, In_; assumption).
  assert (0 <= Sum na (fun k => xm (nth k (pz_anions pz) O))) by (apply Sum_nonneg; intros; apply Rlt_le, xm_pos, Ia; assumption).
  assert (0 < Sum nc (fun k => xm (nth k (pz_cations pz) O))) by (apply (Sum_pos nc _ 0%nat); [intros; apply Rlt_le, xm_pos, Ic; assumption|exact Hnc|apply xm_pos, Ic, Hnc]). lra.
Qed.
Hypotheses (Dc : forall i j, (i < nc)%nat -> (j < nc)%nat -> pair_defined (z_c pz i) (z_c pz j)) (Da : forall i j, (i < na)%nat -> (j < na)%nat -> pair_defined (z_a pz i) (z_a pz j)).
Lemma at_value : exists q, pitzer_fn Aphi mx pz T P x p = Ok (q, Some (mx, mixtureState mx T P x)) /\
  (forall c, (c < nc)%nat -> ln_g q (nth c (pz_cations pz) O) = cation_value pz A xI T xm tC uC uA c) /\
  (forall a, (a < na)%nat -> ln_g q (nth a (pz_anions pz) O) = anion_value pz A xI T xm uC tA uA a) /\
  (forall k, (k < nn)%nat -> ln_g q (nth k (pz_neutrals pz) O) = neutral_value pz xm k) /\
  (forall i, i <> w -> ln_a q i = ln_g q i + ln (xm i)) /\
  ln_a q w = - Mw * ((Sum n xm - xm w) + 2 * osmotic_value pz A xI T xm tC uC tA uA) /\ ln_g q w = ln_a q w - ln (x w).
Proof.
  destruct (pitzerParams_inv _ _ _ Hpz) as (En & _ & Ec & Ea & _).
  pose proof (pitzer_value reactions rho eps l mx pz hmw Hmx Hpz Aphi T P x p A tC uC tA uA) as V.
  cbv zeta in V. rewrite state_m, state_I in V. rewrite <- Ec, <- Ea, <- En in V. fold nc na nn n w in V. pose proof total_pos as Tp.
  apply V; [exact HA|exact Hnc|exact Hna| | |lra].
  - intros i j Hi Hj. destruct (Dc i j Hi Hj) as [[v Ev] [u Eu]]. unfold tC, uC. rewrite Ev, Eu. split; reflexivity.
  - intros i j Hi Hj. destruct (Da i j Hi Hj) as [[v Ev] [u Eu]]. unfold tA, uA. rewrite Ev, Eu. split; reflexivity.
Qed.
End At.
