(* The residual of the Gibbs-Duhem equation in the Pitzer model. *)
From Coq Require Import Reals Qreals List Bool Lia Lra Permutation.
From Coquelicot Require Import Coquelicot.
Import ListNotations.
From Verif Require Import Base M_Strings M_Formula M_Chem M_System M_Registry M_CubicEOS P_Helmholtz P_CubicEOS M_Aqueous S_Activity P_Aqueous P_Activity M_Pitzer P_PitzerSum P_Pitzer P_PitzerFn.
Local Open Scope R_scope.

Section Residual.
Variables (reactions : list Dissociation) (rho eps : R -> R -> R) (l : list Species) (mx : Mixture) (pz : PitzerParams).
Hypotheses (Hmx : mkAqueousMixture reactions rho eps l = Ok mx) (Hpz : pitzerParams hmw mx = Ok pz).
Variables (path : R -> nat -> R) (path' : nat -> R) (t : R) (Aphi : R -> R -> outcome R) (T P A : R) (p : Props * Extra).
Hypotheses (Hpath : composition_path (length l) path path' t) (HA : Aphi T P = Ok A).
Let n := length l. Let w := mx_water mx.
Let nc := length (pz_cations pz). Let na := length (pz_anions pz). Let nn := length (pz_neutrals pz).
Hypotheses (Hnc : (0 < nc)%nat) (Hna : (0 < na)%nat).
Definition mol (s : R) (i : nat) : R := path s i / (waterMolarMass * path s w).
Definition mol' (i : nat) : R := (path' i * (waterMolarMass * path t w) - path t i * (waterMolarMass * path' w)) / (waterMolarMass * path t w) ^ 2.
Let mc (c : nat) (s : R) := m_c pz (mol s) c. Let ma (a : nat) (s : R) := m_a pz (mol s) a. Let mn (k : nat) (s : R) := m_n pz (mol s) k.
Definition rI (s : R) : R := pI nc na mc ma (z_c pz) (z_a pz) s.
Definition rI' : R := pI' nc na (m_c pz mol') (m_a pz mol') (z_c pz) (z_a pz).
Variables (eC dC eA dA : nat -> nat -> R -> R) (eC' dC' eA' dA' : nat -> nat -> R).
Hypothesis HC : forall i j, (i < nc)%nat -> (j < nc)%nat -> locally t (fun s => thetaE A (rI s) (z_c pz i) (z_c pz j) = Ok (eC i j s) /\ thetaE_prime A (rI s) (z_c pz i) (z_c pz j) = Ok (dC i j s)) /\
  is_derive (eC i j) t (eC' i j) /\ is_derive (dC i j) t (dC' i j) /\ (forall s, eC i j s = eC j i s).
Hypothesis HC0 : forall i s, (i < nc)%nat -> eC i i s = 0.
Hypothesis HA' : forall i j, (i < na)%nat -> (j < na)%nat -> locally t (fun s => thetaE A (rI s) (z_a pz i) (z_a pz j) = Ok (eA i j s) /\ thetaE_prime A (rI s) (z_a pz i) (z_a pz j) = Ok (dA i j s)) /\
  is_derive (eA i j) t (eA' i j) /\ is_derive (dA i j) t (dA' i j) /\ (forall s, eA i j s = eA j i s).
Hypothesis HA0 : forall i s, (i < na)%nat -> eA i i s = 0.

Lemma sum_species f : Sum n f = f w + Sum nn (fun k => f (nth k (pz_neutrals pz) O)) + Sum nc (fun k => f (nth k (pz_cations pz) O)) + Sum na (fun k => f (nth k (pz_anions pz) O)).
Proof.
  unfold n, w, nn, nc, na. destruct (pitzerParams_inv _ _ _ Hpz) as (-> & _ & -> & -> & _). rewrite (Sum_mixture _ _ _ _ _ f Hmx), !Sum_nth.
  rewrite (Total_perm _ _ (Permutation_map f (proj2 (mx_partition _ _ _ _ _ Hmx)))), map_app, Total_app. ring.
Qed.
Lemma wpos : 0 < path t w. Proof. destruct Hpath as (H & _). apply H, (w_lt _ _ _ _ _ Hmx). Qed.
Lemma wmm : 0 < waterMolarMass. Proof. exact Mw_pos. Qed.
Lemma d_mol i : (i < n)%nat -> is_derive (fun s => mol s i) t (mol' i).
Proof.
  intros Hi. destruct Hpath as (_ & D & _). unfold mol, mol'. pose proof wpos. pose proof wmm. eapply d_val; [apply d_div; [apply D, Hi|apply d_mul; [apply d_const|apply D, (w_lt _ _ _ _ _ Hmx)]|apply Rmult_integral_contrapositive_currified; lra]|].
  cbv beta. fold w. field. lra.
Qed.
Lemma mol_pos i : (i < n)%nat -> 0 < mol t i.
Proof. intros Hi. destruct Hpath as (H & _). apply Rdiv_lt_0_compat; [apply H, Hi|apply Rmult_lt_0_compat; [exact wmm|exact wpos]]. Qed.
Lemma indices : (forall c, (c < nc)%nat -> (nth c (pz_cations pz) O < n)%nat /\ nth c (pz_cations pz) O <> w) /\ (forall c, (c < na)%nat -> (nth c (pz_anions pz) O < n)%nat /\ nth c (pz_anions pz) O <> w) /\
  (forall c, (c < nn)%nat -> (nth c (pz_neutrals pz) O < n)%nat /\ nth c (pz_neutrals pz) O <> w).
Proof.
  unfold nc, na, nn. destruct (pitzerParams_inv _ _ _ Hpz) as (-> & _ & -> & -> & _). destruct (cations_anions _ _ _ _ _ Hmx) as (_ & _ & _ & Dw & Dn). split; [|split]; intros c Hc.
  - destruct (Dw (nth c (mx_cations mx) O)) as (? & _ & ?); [apply in_app_iff; left; apply nth_In, Hc|split; assumption].
  - destruct (Dw (nth c (mx_anions mx) O)) as (? & _ & ?); [apply in_app_iff; right; apply nth_In, Hc|split; assumption].
  - destruct (Dn (nth c (mx_neutral mx) O)) as (? & ?); [apply nth_In, Hc|split; assumption].
Qed.
Lemma d_rI : is_derive rI t rI'.
Proof.
  unfold rI, rI', pI, pI', wI. destruct indices as (Ic & Ia & _).
  eapply d_val; [apply d_mul; [apply d_const|apply d_add]|].
  - apply (d_Sum nc (fun c s => mc c s * (z_c pz c * z_c pz c)) (fun c => m_c pz mol' c * (z_c pz c * z_c pz c))). intros c Hc. eapply d_val; [apply d_mul; [apply d_mol, Ic, Hc|apply d_const]|cbv beta; unfold m_c; ring].
  - apply (d_Sum na (fun c s => ma c s * (z_a pz c * z_a pz c)) (fun c => m_a pz mol' c * (z_a pz c * z_a pz c))). intros c Hc. eapply d_val; [apply d_mul; [apply d_mol, Ia, Hc|apply d_const]|cbv beta; unfold m_a; ring].
  - cbv beta. ring.
Qed.
Lemma charged_ne c : (c < nc)%nat -> z_c pz c <> 0.
Proof.
  unfold nc, z_c. destruct (pitzerParams_inv _ _ _ Hpz) as (_ & _ & -> & _ & ->). intros Hc. destruct (mx_inv _ _ _ _ _ Hmx) as (_ & -> & _).
  apply (charged_neq _ _ _ _ _ Hmx). apply (Permutation_in _ (Permutation_sym (proj2 (mx_partition _ _ _ _ _ Hmx)))), in_app_iff. left. apply nth_In, Hc.
Qed.
Lemma rI_pos : 0 < rI t.
Proof.
  unfold rI, pI, wI. destruct indices as (Ic & Ia & _).
  assert (0 < Sum nc (fun c => mc c t * (z_c pz c * z_c pz c))).
  { apply (Sum_pos nc _ 0%nat); [| exact Hnc|].
    - intros k Hk. apply Rmult_le_pos; [apply Rlt_le, mol_pos, Ic, Hk|apply Rle_0_sqr].
    - apply Rmult_lt_0_compat; [apply mol_pos, Ic, Hnc|apply Rsqr_pos_lt, charged_ne, Hnc]. }
  assert (0 <= Sum na (fun c => ma c t * (z_a pz c * z_a pz c))).
  { apply Sum_nonneg. intros k Hk. apply Rmult_le_pos; [apply Rlt_le, mol_pos, Ia, Hk|apply Rle_0_sqr]. }
  lra.
Qed.
Lemma rI_strength s : effectiveIonicStrength mx (mol s) = rI s.
Proof.
  unfold effectiveIonicStrength, rI, pI, wI. destruct (mx_inv _ _ _ _ _ Hmx) as (_ & -> & _). fold n. rewrite sum_species, half.
  rewrite (Sum_0 nn). 2: { intros k. unfold nn. destruct (pitzerParams_inv _ _ _ Hpz) as (-> & _). intros Hk. destruct (neutral_eq _ _ _ _ _ Hmx (nth k (mx_neutral mx) O)) as (_ & -> & _); [apply nth_In, Hk|ring]. }
  unfold w at 1 2. rewrite (water_uncharged _ _ _ _ _ Hmx). rewrite Rmult_0_l, Rmult_0_l, !Rplus_0_l. f_equal.
  unfold z_c, z_a, mc, ma, m_c, m_a. destruct (pitzerParams_inv _ _ _ Hpz) as (_ & _ & _ & _ & ->). destruct (mx_inv _ _ _ _ _ Hmx) as (_ & -> & _).
  f_equal; apply Sum_ext; intros; ring.
Qed.
Lemma Z_value s : computeZ pz (mol s) = wZ nc na (fun c => mc c s) (fun a => ma a s) (z_c pz) (z_a pz).
Proof.
  unfold computeZ, wZ, mc, ma, m_c, m_a, z_c, z_a, nc, na. rewrite (Sum_nth (pz_charged pz) (fun k => mol s k * Rabs (pz_z pz k))), (Sum_nth (pz_cations pz) (fun k => mol s k * Rabs (pz_z pz k))), (Sum_nth (pz_anions pz) (fun k => mol s k * Rabs (pz_z pz k))).
  destruct (pitzerParams_inv _ _ _ Hpz) as (_ & -> & -> & -> & _). rewrite (Total_perm _ _ (Permutation_map _ (proj2 (mx_partition _ _ _ _ _ Hmx)))), map_app, Total_app. reflexivity.
Qed.
Definition residual : R := excess nc na nn mc ma mn (m_c pz mol') (m_a pz mol') (m_n pz mol') t (z_c pz) (z_a pz) dC dA (pz_zeta pz) eC' eA'.
Let a (s : R) (i : nat) : R := match pitzer_fn Aphi mx pz T P (path s) p with Ok (q, _) => ln_a q i | _ => 0 end.
Let gC (M : nat) (s : R) := cation_value pz A (rI s) T (mol s) (fun i j => eC i j s) (fun i j => dC i j s) (fun i j => dA i j s) M.
Let gA (M : nat) (s : R) := anion_value pz A (rI s) T (mol s) (fun i j => dC i j s) (fun i j => eA i j s) (fun i j => dA i j s) M.
Let gN (M : nat) (s : R) := neutral_value pz (mol s) M.
Let gS (s : R) := osmotic_value pz A (rI s) T (mol s) (fun i j => eC i j s) (fun i j => dC i j s) (fun i j => eA i j s) (fun i j => dA i j s).
Lemma locally_below k (Q : nat -> R -> Prop) : (forall i, (i < k)%nat -> locally t (Q i)) -> locally t (fun s => forall i, (i < k)%nat -> Q i s).
Proof.
  induction k as [|k IH]; intros H; [apply filter_forall; lia|].
  apply (filter_imp (fun s => (forall i, (i < k)%nat -> Q i s) /\ Q k s)).
  - intros s [H1 H2] i Hi. destruct (Nat.eq_dec i k) as [->|N]; [exact H2|apply H1; lia].
  - apply filter_and; [apply IH; intros; apply H; lia|apply H; lia].
Qed.
Lemma values : locally t (fun s => gives (pitzer_fn Aphi mx pz) T P p (path s) (a s) /\
  (forall k, (k < nc)%nat -> a s (nth k (pz_cations pz) O) = gC k s + ln (mol s (nth k (pz_cations pz) O))) /\
  (forall k, (k < na)%nat -> a s (nth k (pz_anions pz) O) = gA k s + ln (mol s (nth k (pz_anions pz) O))) /\
  (forall k, (k < nn)%nat -> a s (nth k (pz_neutrals pz) O) = gN k s + ln (mol s (nth k (pz_neutrals pz) O))) /\
  a s w = - Mw * ((Sum n (mol s) - mol s w) + 2 * gS s)).
Proof.
  assert (L1 : locally t (fun s => 0 < path s w)).
  { destruct Hpath as (_ & D & _). pose proof wpos as W. assert (C : continuous (fun s => path s w) t) by (apply (ex_derive_continuous (V := R_NormedModule)); eexists; apply D, (w_lt _ _ _ _ _ Hmx)).
    exact (C (fun y => 0 < y) (open_gt 0 _ W)). }
  assert (L2 : locally t (fun s => 0 < Sum n (mol s) - mol s w)).
  { assert (D : is_derive (fun s => Sum n (mol s) - mol s w) t (Sum n mol' - mol' w)).
    { apply d_sub; [apply (d_Sum n (fun i s => mol s i)); intros; apply d_mol; assumption|apply d_mol, (w_lt _ _ _ _ _ Hmx)]. }
    assert (W : 0 < Sum n (mol t) - mol t w).
    { rewrite sum_species. destruct indices as (Ic & Ia & In_).
      assert (0 <= Sum nn (fun k => mol t (nth k (pz_neutrals pz) O))) by (apply Sum_nonneg; intros; apply Rlt_le, mol_pos, In_; assumption).
      assert (0 <= Sum na (fun k => mol t (nth k (pz_anions pz) O))) by (apply Sum_nonneg; intros; apply Rlt_le, mol_pos, Ia; assumption).
      assert (0 < Sum nc (fun k => mol t (nth k (pz_cations pz) O))) by (apply (Sum_pos nc _ 0%nat); [intros; apply Rlt_le, mol_pos, Ic; assumption|exact Hnc|apply mol_pos, Ic, Hnc]). lra. }
    assert (C : continuous (fun s => Sum n (mol s) - mol s w) t) by (apply (ex_derive_continuous (V := R_NormedModule)); eexists; exact D).
    exact (C (fun y => 0 < y) (open_gt 0 _ W)). }
  assert (L3 : locally t (fun s => forall i, (i < nc)%nat -> forall j, (j < nc)%nat -> thetaE A (rI s) (z_c pz i) (z_c pz j) = Ok (eC i j s) /\ thetaE_prime A (rI s) (z_c pz i) (z_c pz j) = Ok (dC i j s))).
  { apply (locally_below nc (fun i s => forall j, (j < nc)%nat -> _ /\ _)). intros i Hi. apply (locally_below nc (fun j s => _ /\ _)). intros j Hj. apply (HC i j Hi Hj). }
  assert (L4 : locally t (fun s => forall i, (i < na)%nat -> forall j, (j < na)%nat -> thetaE A (rI s) (z_a pz i) (z_a pz j) = Ok (eA i j s) /\ thetaE_prime A (rI s) (z_a pz i) (z_a pz j) = Ok (dA i j s))).
  { apply (locally_below na (fun i s => forall j, (j < na)%nat -> _ /\ _)). intros i Hi. apply (locally_below na (fun j s => _ /\ _)). intros j Hj. apply (HA' i j Hi Hj). }
  apply (filter_imp (fun s => (0 < path s w /\ 0 < Sum n (mol s) - mol s w) /\
    ((forall i, (i < nc)%nat -> forall j, (j < nc)%nat -> thetaE A (rI s) (z_c pz i) (z_c pz j) = Ok (eC i j s) /\ thetaE_prime A (rI s) (z_c pz i) (z_c pz j) = Ok (dC i j s)) /\
     (forall i, (i < na)%nat -> forall j, (j < na)%nat -> thetaE A (rI s) (z_a pz i) (z_a pz j) = Ok (eA i j s) /\ thetaE_prime A (rI s) (z_a pz i) (z_a pz j) = Ok (dA i j s))))).
  2: { apply filter_and; apply filter_and; assumption. }
  intros s ((Hw & Ht) & H3 & H4). destruct (pitzerParams_inv _ _ _ Hpz) as (En & _ & Ec & Ea & _).
  assert (Em : st_m (mixtureState mx T P (path s)) = mol s).
  { cbn. unfold molalities. fold w. destruct (Req_EM_T (path s w) 0); [lra|]. reflexivity. }
  assert (EI : st_Ie (mixtureState mx T P (path s)) = rI s).
  { rewrite <- rI_strength. cbn in Em |- *. rewrite Em. reflexivity. }
  pose proof (pitzer_value reactions rho eps l mx pz hmw Hmx Hpz Aphi T P (path s) p A (fun i j => eC i j s) (fun i j => dC i j s) (fun i j => eA i j s) (fun i j => dA i j s)) as V.
  cbv zeta in V. rewrite Em, EI in V. rewrite <- Ec, <- Ea, <- En in V.
  destruct V as (q & E & VC & VA & VN & Va & Vw & _); [exact HA|exact Hnc|exact Hna|intros; apply H3; assumption|intros; apply H4; assumption|fold n w; lra|].
  assert (Ea' : forall i, a s i = ln_a q i) by (intros i; unfold a; rewrite E; reflexivity). destruct indices as (Ic & Ia & In_).
  split; [exists q, (Some (mx, mixtureState mx T P (path s))); split; [exact E|intros i; symmetry; apply Ea']|]. rewrite Ea'. split; [|split; [|split]].
  - intros k Hk. rewrite Ea', Va by (apply Ic, Hk). rewrite VC by exact Hk. reflexivity.
  - intros k Hk. rewrite Ea', Va by (apply Ia, Hk). rewrite VA by exact Hk. reflexivity.
  - intros k Hk. rewrite Ea', Va by (apply In_, Hk). rewrite VN by exact Hk. reflexivity.
  - exact Vw.
Qed.
Lemma pitzer_residual : duhem_residual (pitzer_fn Aphi mx pz) n T P p path t (path t w * Mw * residual).
Proof.
  destruct indices as (Ic & Ia & In_). pose proof rI_pos as Ip. pose proof d_rI as DI. pose proof wpos as W. pose proof wmm as WM.
  destruct (pitzerParams_tables _ _ _ Hpz) as (Tcc & Taa & Pcca & Paac & _). cbv zeta in *.
  destruct (duhem_path nc na nn mc ma mn (m_c pz mol') (m_a pz mol') (m_n pz mol') t (z_c pz) (z_a pz)
    (fun c a s => B_ca pz (rI s) T c a) (fun c a s => Bprime_ca pz (rI s) T c a) (fun c a s => Bphi_ca pz (rI s) T c a) (C_ca pz T)
    (fun i j s => pz_theta_cc pz i j + eC i j s) dC (fun i j s => pz_theta_cc pz i j + eC i j s + rI s * dC i j s)
    (fun i j s => pz_theta_aa pz i j + eA i j s) dA (fun i j s => pz_theta_aa pz i j + eA i j s + rI s * dA i j s)
    (pz_psi_cca pz) (pz_psi_aac pz) (pz_lambda_nc pz) (pz_lambda_na pz) (pz_zeta pz) (fun s => F_limit A (rI s)) (fun s => - A * rI s * sqrt (rI s) / (1 + 1.2 * sqrt (rI s))) (fun s => computeZ pz (mol s))
    (fun c a => Derive (fun s => Bprime_ca pz (rI s) T c a) t) eC' dC' eA' dA' (- A * (3 + 2.4 * sqrt (rI t)) / (2 * sqrt (rI t) * (1 + 1.2 * sqrt (rI t)) ^ 2) * rI'))
    as (dc & da & dn & dS & HDc & HDa & HDn & HDS & Hsum).
  - intros c Hc. apply d_mol, Ic, Hc.
  - intros c Hc. apply d_mol, Ia, Hc.
  - intros c Hc. apply d_mol, In_, Hc.
  - intros c b Lc Lb. destruct (d_B rI t rI' DI Ip (z_c pz c) (z_a pz b) (pz_beta0 pz c b T) (pz_beta1 pz c b T) (pz_beta2 pz c b T)) as [D1 [d2 D2]].
    split; [exact D1|]. split; [apply Derive_correct; exists d2; exact D2|]. change (pI nc na mc ma (z_c pz) (z_a pz) t) with (rI t). change (pI' nc na (m_c pz mol') (m_a pz mol') (z_c pz) (z_a pz)) with rI'.
    assert (E2 : Derive (fun s => Bprime_ca pz (rI s) T c b) t = d2) by (apply is_derive_unique; exact D2). rewrite E2. split; [|apply B_sum, Ip].
    apply (is_derive_ext_loc (fun s => B_ca pz (rI s) T c b + rI s * Bprime_ca pz (rI s) T c b)).
    + assert (C : continuous rI t) by (apply (ex_derive_continuous (V := R_NormedModule)); eexists; exact DI).
      apply (filter_imp (fun s => 0 < rI s)); [|exact (C (fun y => 0 < y) (open_gt 0 _ Ip))]. intros s Hs. symmetry. apply B_sum, Hs.
    + eapply d_val; [apply d_add; [exact D1|apply d_mul; [exact DI|exact D2]]|]. unfold Bprime_ca. ring.
  - intros i j Hi Hj. destruct (HC i j Hi Hj) as (_ & D1 & D2 & _). change (pI nc na mc ma (z_c pz) (z_a pz) t) with (rI t). change (pI' nc na (m_c pz mol') (m_a pz mol') (z_c pz) (z_a pz)) with rI'.
    split; [|split; [exact D2|split; [|reflexivity]]].
    + eapply d_val; [apply d_add; [apply d_const|exact D1]|ring].
    + eapply d_val; [apply d_add; [apply d_add; [apply d_const|exact D1]|apply d_mul; [exact DI|exact D2]]|ring].
  - intros i j Hi Hj. destruct (HA' i j Hi Hj) as (_ & D1 & D2 & _). change (pI nc na mc ma (z_c pz) (z_a pz) t) with (rI t). change (pI' nc na (m_c pz mol') (m_a pz mol') (z_c pz) (z_a pz)) with rI'.
    split; [|split; [exact D2|split; [|reflexivity]]].
    + eapply d_val; [apply d_add; [apply d_const|exact D1]|ring].
    + eapply d_val; [apply d_add; [apply d_add; [apply d_const|exact D1]|apply d_mul; [exact DI|exact D2]]|ring].
  - intros s i j Hi Hj. rewrite !Tcc, pairParam_sym. destruct (HC i j Hi Hj) as (_ & _ & _ & E). rewrite E. reflexivity.
  - intros s i Hi. rewrite Tcc, pairParam_diag by exact theta_distinct. rewrite HC0 by exact Hi. ring.
  - intros s i j Hi Hj. rewrite !Taa, pairParam_sym. destruct (HA' i j Hi Hj) as (_ & _ & _ & E). rewrite E. reflexivity.
  - intros s i Hi. rewrite Taa, pairParam_diag by exact theta_distinct. rewrite HA0 by exact Hi. ring.
  - intros i j k. rewrite !Pcca. apply tripletParam_sym.
  - intros i k. rewrite Pcca. apply tripletParam_diag, psi_distinct.
  - intros i j k. rewrite !Paac. apply tripletParam_sym.
  - intros i k. rewrite Paac. apply tripletParam_diag, psi_distinct.
  - apply (d_limit rI t rI' DI Ip A).
  - apply (d_limit rI t rI' DI Ip A).
  - exact Z_value.
  - fold residual in Hsum.
    assert (VL := values).
    assert (DC : forall k, (k < nc)%nat -> is_derive (fun s => a s (nth k (pz_cations pz) O)) t (dc k + mol' (nth k (pz_cations pz) O) / mol t (nth k (pz_cations pz) O))).
    { intros k Hk. apply (is_derive_ext_loc (fun s => gC k s + ln (mol s (nth k (pz_cations pz) O)))).
      - apply (filter_imp _ _ (fun s V => eq_sym (proj1 (proj2 V) k Hk)) VL).
      - eapply d_val; [apply d_add; [exact (HDc k Hk)|apply d_ln; [apply d_mol, Ic, Hk|apply mol_pos, Ic, Hk]]|]. cbv beta. field. apply Rgt_not_eq, mol_pos, Ic, Hk. }
    assert (DA : forall k, (k < na)%nat -> is_derive (fun s => a s (nth k (pz_anions pz) O)) t (da k + mol' (nth k (pz_anions pz) O) / mol t (nth k (pz_anions pz) O))).
    { intros k Hk. apply (is_derive_ext_loc (fun s => gA k s + ln (mol s (nth k (pz_anions pz) O)))).
      - apply (filter_imp _ _ (fun s V => eq_sym (proj1 (proj2 (proj2 V)) k Hk)) VL).
      - eapply d_val; [apply d_add; [exact (HDa k Hk)|apply d_ln; [apply d_mol, Ia, Hk|apply mol_pos, Ia, Hk]]|]. cbv beta. field. apply Rgt_not_eq, mol_pos, Ia, Hk. }
    assert (DN : forall k, (k < nn)%nat -> is_derive (fun s => a s (nth k (pz_neutrals pz) O)) t (dn k + mol' (nth k (pz_neutrals pz) O) / mol t (nth k (pz_neutrals pz) O))).
    { intros k Hk. apply (is_derive_ext_loc (fun s => gN k s + ln (mol s (nth k (pz_neutrals pz) O)))).
      - apply (filter_imp _ _ (fun s V => eq_sym (proj1 (proj2 (proj2 (proj2 V))) k Hk)) VL).
      - eapply d_val; [apply d_add; [exact (HDn k Hk)|apply d_ln; [apply d_mol, In_, Hk|apply mol_pos, In_, Hk]]|]. cbv beta. field. apply Rgt_not_eq, mol_pos, In_, Hk. }
    assert (DW : is_derive (fun s => a s w) t (- Mw * ((Sum n mol' - mol' w) + 2 * dS))).
    { apply (is_derive_ext_loc (fun s => - Mw * ((Sum n (mol s) - mol s w) + 2 * gS s))).
      - apply (filter_imp _ _ (fun s V => eq_sym (proj2 (proj2 (proj2 (proj2 V))))) VL).
      - eapply d_val; [apply d_mul; [apply d_const|apply d_add; [apply d_sub; [apply (d_Sum n (fun i s => mol s i) mol'); intros; apply d_mol; assumption|apply d_mol, (w_lt _ _ _ _ _ Hmx)]|apply d_mul; [apply d_const|exact HDS]]]|]. cbv beta. ring. }
    exists a, (fun i => Derive (fun s => a s i) t). split; [apply (filter_imp _ _ (fun s V => proj1 V) VL)|]. split.
    + intros i Hi. apply Derive_correct. assert (In i (w :: pz_neutrals pz ++ pz_cations pz ++ pz_anions pz)) as Hin.
      { destruct (pitzerParams_inv _ _ _ Hpz) as (-> & _ & -> & -> & _). assert (In i (seq 0 n)) as S by (apply in_seq; lia). apply (Permutation_in _ (proj1 (mx_partition _ _ _ _ _ Hmx))) in S. destruct S as [S|S]; [left; exact S|right].
        rewrite in_app_iff in S |- *. destruct S as [S|S]; [left; exact S|right]. exact (Permutation_in _ (proj2 (mx_partition _ _ _ _ _ Hmx)) S). }
      destruct Hin as [<-|Hin]; [eexists; exact DW|]. rewrite !in_app_iff in Hin. destruct Hin as [H|[H|H]]; destruct (In_nth _ _ O H) as (k & Hk & <-).
      * eexists. apply DN, Hk. * eexists. apply DC, Hk. * eexists. apply DA, Hk.
    + rewrite sum_species. assert (UW : Derive (fun s => a s w) t = - Mw * ((Sum n mol' - mol' w) + 2 * dS)) by exact (is_derive_unique _ _ _ DW).
      assert (UN : forall k, (k < nn)%nat -> Derive (fun s => a s (nth k (pz_neutrals pz) O)) t = dn k + mol' (nth k (pz_neutrals pz) O) / mol t (nth k (pz_neutrals pz) O)) by (intros k Hk; exact (is_derive_unique _ _ _ (DN k Hk))).
      assert (UC : forall k, (k < nc)%nat -> Derive (fun s => a s (nth k (pz_cations pz) O)) t = dc k + mol' (nth k (pz_cations pz) O) / mol t (nth k (pz_cations pz) O)) by (intros k Hk; exact (is_derive_unique _ _ _ (DC k Hk))).
      assert (UA : forall k, (k < na)%nat -> Derive (fun s => a s (nth k (pz_anions pz) O)) t = da k + mol' (nth k (pz_anions pz) O) / mol t (nth k (pz_anions pz) O)) by (intros k Hk; exact (is_derive_unique _ _ _ (DA k Hk))).
      rewrite UW.
      assert (PM : forall i, path t i = path t w * Mw * mol t i) by (intros i; unfold mol; change waterMolarMass with Mw in *; field; pose proof Mw_pos; lra).
      rewrite (Sum_ext nn _ (fun k => path t w * Mw * (mn k t * dn k + mol' (nth k (pz_neutrals pz) O)))).
      2: { intros k Hk. rewrite UN by exact Hk. rewrite PM. unfold mn, m_n. field. apply Rgt_not_eq, mol_pos, In_, Hk. }
      rewrite (Sum_ext nc _ (fun k => path t w * Mw * (mc k t * dc k + mol' (nth k (pz_cations pz) O)))).
      2: { intros k Hk. rewrite UC by exact Hk. rewrite PM. unfold mc, m_c. field. apply Rgt_not_eq, mol_pos, Ic, Hk. }
      rewrite (Sum_ext na _ (fun k => path t w * Mw * (ma k t * da k + mol' (nth k (pz_anions pz) O)))).
      2: { intros k Hk. rewrite UA by exact Hk. rewrite PM. unfold ma, m_a. field. apply Rgt_not_eq, mol_pos, Ia, Hk. }
      rewrite !Sum_scal, !Sum_add, sum_species. rewrite <- Hsum. ring.
Qed.
End Residual.
