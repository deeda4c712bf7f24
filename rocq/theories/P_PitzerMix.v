(* The residual of the Gibbs-Duhem equation in the Pitzer model away from the
   points of the tables of J0 and J1. *)
From Coq Require Import Reals Qreals List Bool Lia Lra Permutation.
From Coquelicot Require Import Coquelicot.
Import ListNotations.
From Verif Require Import Base M_Strings M_Formula M_Chem M_System M_Registry M_CubicEOS P_Helmholtz P_CubicEOS M_Aqueous S_Activity P_Aqueous P_Activity M_Pitzer P_PitzerSum P_Pitzer P_PitzerFn P_PitzerDuhem P_PitzerJ.
Local Open Scope R_scope.

Definition val (o : outcome R) : R := match o with Ok v => v | _ => 0 end.
(* The combination of J0, or of J1, that enters the mixing of two ions. *)
Definition mix (J : R -> outcome R) (A I zi zj : R) : R :=
  if Req_EM_T zi zj then 0 else val (J (6 * zi * zj * A * sqrt I)) - 0.5 * val (J (6 * zi * zi * A * sqrt I)) - 0.5 * val (J (6 * zj * zj * A * sqrt I)).
Lemma mix_sym J A I zi zj : mix J A I zi zj = mix J A I zj zi.
Proof.
  unfold mix. destruct (Req_EM_T zi zj) as [->|N]; destruct (Req_EM_T _ _) as [E|N']; try lra; try congruence.
  replace (6 * zi * zj * A * sqrt I) with (6 * zj * zi * A * sqrt I) by ring. ring.
Qed.
Lemma mix_same J A I z : mix J A I z z = 0.
Proof. unfold mix. destruct (Req_EM_T z z); [reflexivity|contradiction]. Qed.
Definition off_pair (A I zi zj : R) : Prop := zi <> zj ->
  off_grid (6 * zi * zj * A * sqrt I) /\ off_grid (6 * zi * zi * A * sqrt I) /\ off_grid (6 * zj * zj * A * sqrt I).
Lemma theta_local (I : R -> R) t I' A zi zj : is_derive I t I' -> 0 < I t -> off_pair A (I t) zi zj ->
  locally t (fun s => thetaE A (I s) zi zj = Ok (zi * zj / (4 * I s) * mix J0 A (I t) zi zj) /\
    thetaE_prime A (I s) zi zj = Ok (zi * zj / (8 * I s * I s) * mix J1 A (I t) zi zj - zi * zj / (4 * I s) * mix J0 A (I t) zi zj / I s)).
Proof.
  intros D Ip Off. unfold mix. destruct (Req_EM_T zi zj) as [->|N].
  - apply filter_forall. intros s. destruct (theta_same A (I s) zj) as [-> ->]. split; f_equal; unfold Rdiv; ring.
  - destruct (Off N) as (O1 & O2 & O3). assert (C : forall c, continuous (fun s => c * A * sqrt (I s)) t).
    { intros c. apply (ex_derive_continuous (V := R_NormedModule)). eexists. apply d_mul; [apply d_const|exact (d_sqrt I t I' D Ip)]. }
    assert (L : forall x, off_grid (x * A * sqrt (I t)) -> locally t (fun s => (J0 (x * A * sqrt (I s)) = Ok (val (J0 (x * A * sqrt (I t)))) /\ J1 (x * A * sqrt (I s)) = Ok (val (J1 (x * A * sqrt (I t))))))).
    { intros x Ox. destruct (off_grid_local _ Ox) as [Lx B]. destruct (J_defined _ B) as [[v Ev] [u Eu]].
      apply (filter_imp (fun s => J0 (x * A * sqrt (I s)) = J0 (x * A * sqrt (I t)) /\ J1 (x * A * sqrt (I s)) = J1 (x * A * sqrt (I t)))).
      - intros s [-> ->]. rewrite Ev, Eu. split; reflexivity.
      - exact (C x _ Lx). }
    pose proof (filter_and _ _ (L _ O1) (filter_and _ _ (L _ O2) (L _ O3))) as LL. revert LL. apply filter_imp. intros s ((A1 & B1) & (A2 & B2) & (A3 & B3)).
    exact (theta_value A (I s) zi zj _ _ _ _ _ _ A1 A2 A3 B1 B2 B3 N).
Qed.
Lemma d_theta (I : R -> R) t I' z k0 k1 : is_derive I t I' -> 0 < I t ->
  is_derive (fun s => z / (4 * I s) * k0) t (- z / (4 * I t ^ 2) * k0 * I') /\
  exists d, is_derive (fun s => z / (8 * I s * I s) * k1 - z / (4 * I s) * k0 / I s) t d.
Proof.
  intros D Ip. split.
  - eapply d_val; [apply d_mul; [apply d_div; [apply d_const|apply d_mul; [apply d_const|exact D]|lra]|apply d_const]|]. cbv beta. field. lra.
  - eexists. apply d_sub; [apply d_mul; [apply d_div; [apply d_const|apply d_mul; [apply d_mul; [apply d_const|exact D]|exact D]|]|apply d_const]|apply d_div; [apply d_mul; [apply d_div; [apply d_const|apply d_mul; [apply d_const|exact D]|]|apply d_const]|exact D|]]; repeat apply Rmult_integral_contrapositive_currified; lra.
Qed.

Section Mix.
Variables (reactions : list Dissociation) (rho eps : R -> R -> R) (l : list Species) (mx : Mixture) (pz : PitzerParams).
Hypotheses (Hmx : mkAqueousMixture reactions rho eps l = Ok mx) (Hpz : pitzerParams hmw mx = Ok pz).
Variables (path : R -> nat -> R) (path' : nat -> R) (t : R) (Aphi : R -> R -> outcome R) (T P A : R) (p : Props * Extra).
Hypotheses (Hpath : composition_path (length l) path path' t) (HA : Aphi T P = Ok A).
Let nc := length (pz_cations pz). Let na := length (pz_anions pz). Let nn := length (pz_neutrals pz).
Hypotheses (Hnc : (0 < nc)%nat) (Hna : (0 < na)%nat).
Let I := rI mx pz path.
Let m := mol mx path t.
Let m' := mol' mx path path' t.
Hypothesis Off : (forall i j, (i < nc)%nat -> (j < nc)%nat -> off_pair A (I t) (z_c pz i) (z_c pz j)) /\ (forall i j, (i < na)%nat -> (j < na)%nat -> off_pair A (I t) (z_a pz i) (z_a pz j)).
Definition mixing : R :=
  - rI' mx pz path path' t / (4 * I t ^ 2) * (Pairs nc (fun i j => m_c pz m i * m_c pz m j * (z_c pz i * z_c pz j) * mix J1 A (I t) (z_c pz i) (z_c pz j)) + Pairs na (fun i j => m_a pz m i * m_a pz m j * (z_a pz i * z_a pz j) * mix J1 A (I t) (z_a pz i) (z_a pz j)))
  - Sum nn (fun n => Sum nc (fun c => Sum na (fun a => pz_zeta pz n c a * (m_n pz m n * (m_c pz m' c * m_a pz m a + m_c pz m c * m_a pz m' a) + 2 * (m_n pz m' n * m_c pz m c * m_a pz m a))))).
Lemma mixing_residual : duhem_residual (pitzer_fn Aphi mx pz) (length l) T P p path t (path t (mx_water mx) * Mw * mixing).
Proof.
  pose proof (d_rI _ _ _ _ _ _ Hmx Hpz _ _ _ Hpath) as DI. pose proof (rI_pos _ _ _ _ _ _ Hmx Hpz _ _ _ Hpath Hnc) as Ip.
  destruct Off as [Oc Oa].
  set (eC := fun i j s => z_c pz i * z_c pz j / (4 * I s) * mix J0 A (I t) (z_c pz i) (z_c pz j)).
  set (dC := fun i j s => z_c pz i * z_c pz j / (8 * I s * I s) * mix J1 A (I t) (z_c pz i) (z_c pz j) - z_c pz i * z_c pz j / (4 * I s) * mix J0 A (I t) (z_c pz i) (z_c pz j) / I s).
  set (eA := fun i j s => z_a pz i * z_a pz j / (4 * I s) * mix J0 A (I t) (z_a pz i) (z_a pz j)).
  set (dA := fun i j s => z_a pz i * z_a pz j / (8 * I s * I s) * mix J1 A (I t) (z_a pz i) (z_a pz j) - z_a pz i * z_a pz j / (4 * I s) * mix J0 A (I t) (z_a pz i) (z_a pz j) / I s).
  set (eC' := fun i j => - (z_c pz i * z_c pz j) / (4 * I t ^ 2) * mix J0 A (I t) (z_c pz i) (z_c pz j) * rI' mx pz path path' t).
  set (eA' := fun i j => - (z_a pz i * z_a pz j) / (4 * I t ^ 2) * mix J0 A (I t) (z_a pz i) (z_a pz j) * rI' mx pz path path' t).
  pose proof (pitzer_residual reactions rho eps l mx pz Hmx Hpz path path' t Aphi T P A p Hpath HA Hnc Hna eC dC eA dA eC' (fun i j => Derive (dC i j) t) eA' (fun i j => Derive (dA i j) t)) as Res.
  assert (E : residual mx pz path path' t dC dA eC' eA' = mixing).
  { unfold residual, excess, mixing. fold nc na nn m m'. f_equal.
    rewrite Rmult_plus_distr_l, <- !Pairs_scal. f_equal; apply Pairs_ext; intros i j _ _.
    - change (pI' nc na (m_c pz m') (m_a pz m') (z_c pz) (z_a pz)) with (rI' mx pz path path' t). unfold eC', dC. unfold I in *. field. lra.
    - change (pI' nc na (m_c pz m') (m_a pz m') (z_c pz) (z_a pz)) with (rI' mx pz path path' t). unfold eA', dA. unfold I in *. field. lra. }
  rewrite <- E. apply Res; clear Res E.
  - intros i j Hi Hj. destruct (d_theta I t _ (z_c pz i * z_c pz j) (mix J0 A (I t) (z_c pz i) (z_c pz j)) (mix J1 A (I t) (z_c pz i) (z_c pz j)) DI Ip) as [D1 [d2 D2]].
    split; [exact (theta_local I t _ A _ _ DI Ip (Oc i j Hi Hj))|]. split; [exact D1|]. split; [apply Derive_correct; eexists; exact D2|].
    intros s. unfold eC. rewrite (mix_sym J0 A (I t) (z_c pz i)), (Rmult_comm (z_c pz i)). reflexivity.
  - intros i s Hi. unfold eC. rewrite mix_same. ring.
  - intros i j Hi Hj. destruct (d_theta I t _ (z_a pz i * z_a pz j) (mix J0 A (I t) (z_a pz i) (z_a pz j)) (mix J1 A (I t) (z_a pz i) (z_a pz j)) DI Ip) as [D1 [d2 D2]].
    split; [exact (theta_local I t _ A _ _ DI Ip (Oa i j Hi Hj))|]. split; [exact D1|]. split; [apply Derive_correct; eexists; exact D2|].
    intros s. unfold eA. rewrite (mix_sym J0 A (I t) (z_a pz i)), (Rmult_comm (z_a pz i)). reflexivity.
  - intros i s Hi. unfold eA. rewrite mix_same. ring.
Qed.
End Mix.
