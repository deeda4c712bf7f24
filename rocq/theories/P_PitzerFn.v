(* The Pitzer model: functions of the ionic strength, parameters, closed form. *)
From Coq Require Import Reals Qreals List Bool Lia Lra Permutation.
From Coquelicot Require Import Coquelicot.
Import ListNotations.
From Verif Require Import Base M_Strings M_Formula M_Chem M_System M_Registry P_Chem M_CubicEOS P_Helmholtz P_CubicEOS M_Aqueous S_Activity P_Aqueous P_Activity M_Pitzer P_PitzerSum.
Local Open Scope R_scope.

(* ---- Functions of the ionic strength ---- *)
Lemma half : 0.5 = / 2. Proof. lra. Qed.
Lemma d_g x : x <> 0 -> is_derive pz_g x (2 / x * pz_gprime x).
Proof.
  intros H. unfold pz_g, pz_gprime. eapply d_val.
  - apply d_div; [apply d_mul; [apply d_const|apply d_sub; [apply d_const|apply d_mul; [apply d_add; [apply d_const|apply d_id]|apply d_exp, d_opp, d_id]]]|apply d_mul; apply d_id|apply Rmult_integral_contrapositive_currified; exact H].
  - cbv beta. rewrite half. field. exact H.
Qed.
Lemma d_gprime x : x <> 0 -> exists d, is_derive pz_gprime x d.
Proof.
  intros H. unfold pz_gprime. eexists. apply d_div; [|apply d_mul; apply d_id|apply Rmult_integral_contrapositive_currified; exact H].
  apply d_mul; [apply d_const|apply d_sub; [apply d_const|apply d_mul; [|apply d_exp, d_opp, d_id]]].
  apply d_add; [apply d_add; [apply d_const|apply d_id]|apply d_mul; [apply d_mul; [apply d_const|apply d_id]|apply d_id]].
Qed.
Lemma g_sum x : x <> 0 -> pz_g x + pz_gprime x = exp (- x).
Proof. intros H. unfold pz_g, pz_gprime. rewrite half. field. exact H. Qed.
Section Strength.
Variables (I : R -> R) (t I' : R).
Hypotheses (HI : is_derive I t I') (Ip : 0 < I t).
Lemma root_pos : 0 < sqrt (I t). Proof. apply sqrt_lt_R0, Ip. Qed.
Lemma root_square : sqrt (I t) * sqrt (I t) = I t. Proof. apply sqrt_sqrt. lra. Qed.
Lemma d_g_strength a : 0 < a -> is_derive (fun s => pz_g (a * sqrt (I s))) t (pz_gprime (a * sqrt (I t)) / I t * I') /\
  exists d, is_derive (fun s => pz_gprime (a * sqrt (I s))) t d.
Proof.
  intros Ha. pose proof root_pos as Rp. pose proof root_square as Rs. assert (N : a * sqrt (I t) <> 0) by (apply Rmult_integral_contrapositive_currified; lra).
  assert (D : is_derive (fun s => a * sqrt (I s)) t (0 * sqrt (I t) + a * (I' / (2 * sqrt (I t))))) by exact (d_mul (fun _ => a) (fun s => sqrt (I s)) t 0 _ (d_const a t) (d_sqrt I t I' HI Ip)). split.
  - eapply d_val; [apply (d_comp pz_g (fun s => a * sqrt (I s))); [apply d_g; exact N|exact D]|]. transitivity (pz_gprime (a * sqrt (I t)) / (sqrt (I t) * sqrt (I t)) * I'); [field; lra|rewrite Rs; reflexivity].
  - destruct (d_gprime _ N) as [d Dd]. eexists. apply (d_comp pz_gprime (fun s => a * sqrt (I s))); [exact Dd|exact D].
Qed.
Lemma d_B zc za b0 b1 b2 : is_derive (fun s => B_ (I s) zc za b0 b1 b2) t (B_prime (I t) zc za b1 b2 * I') /\
  exists d, is_derive (fun s => B_prime (I s) zc za b1 b2) t d.
Proof.
  unfold B_, B_prime, pz_alpha, pz_alpha1, pz_alpha2. destruct (d_g_strength 2 ltac:(lra)) as [D1 [d1 E1]]. destruct (d_g_strength 1.4 ltac:(lra)) as [D2 [d2 E2]]. destruct (d_g_strength 12 ltac:(lra)) as [D3 [d3 E3]].
  destruct (both_two zc za); split.
  - eapply d_val; [apply d_add; [apply d_add; [apply d_const|apply d_mul; [apply d_const|exact D2]]|apply d_mul; [apply d_const|exact D3]]|]. cbv beta. field. lra.
  - eexists. apply d_add; (apply d_div; [apply d_mul; [apply d_const|eassumption]|exact HI|lra]).
  - eapply d_val; [apply d_add; [apply d_const|apply d_mul; [apply d_const|exact D1]]|]. cbv beta. field. lra.
  - eexists. apply d_div; [apply d_mul; [apply d_const|eassumption]|exact HI|lra].
Qed.
Lemma d_limit A : is_derive (fun s => F_limit A (I s)) t (- A * (3 + 2.4 * sqrt (I t)) / (2 * sqrt (I t) * (1 + 1.2 * sqrt (I t)) ^ 2) * I') /\
  is_derive (fun s => - A * I s * sqrt (I s) / (1 + 1.2 * sqrt (I s))) t (I t * (- A * (3 + 2.4 * sqrt (I t)) / (2 * sqrt (I t) * (1 + 1.2 * sqrt (I t)) ^ 2) * I')).
Proof.
  pose proof root_pos as Rp. pose proof root_square as Rs.
  assert (D : is_derive (fun s => sqrt (I s)) t (I' / (2 * sqrt (I t)))) by exact (d_sqrt I t I' HI Ip).
  assert (D2 : is_derive (fun s => 1 + 1.2 * sqrt (I s)) t (0 + (0 * sqrt (I t) + 1.2 * (I' / (2 * sqrt (I t)))))) by exact (d_add (fun _ => 1) (fun s => 1.2 * sqrt (I s)) t 0 _ (d_const 1 t) (d_mul (fun _ => 1.2) (fun s => sqrt (I s)) t 0 _ (d_const 1.2 t) D)).
  split.
  - unfold F_limit. eapply d_val; [apply d_mul; [apply d_const|apply d_add; [apply d_div; [exact D|exact D2|lra]|apply d_mul; [apply d_const|apply d_ln; [exact D2|lra]]]]|].
    cbv beta. set (q := sqrt (I t)) in *. clearbody q. replace 1.2 with (6 / 5) by lra. replace 2.4 with (12 / 5) by lra. field. lra.
  - eapply d_val; [apply d_div; [apply d_mul; [apply d_mul; [apply d_const|exact HI]|exact D]|exact D2|lra]|].
    cbv beta. rewrite <- Rs. rewrite !(sqrt_square (sqrt (I t))) by lra. set (q := sqrt (I t)) in *. clearbody q. replace 1.2 with (6 / 5) by lra. replace 2.4 with (12 / 5) by lra. field. lra.
Qed.
End Strength.
Lemma B_sum I zc za b0 b1 b2 : 0 < I -> B_phi I zc za b0 b1 b2 = B_ I zc za b0 b1 b2 + I * B_prime I zc za b1 b2.
Proof.
  intros HI. assert (0 < sqrt I) by (apply sqrt_lt_R0, HI). unfold B_phi, B_, B_prime, pz_alpha, pz_alpha1, pz_alpha2. rewrite !Ropp_mult_distr_l_reverse.
  destruct (both_two zc za).
  - rewrite <- (g_sum (1.4 * sqrt I)), <- (g_sum (12 * sqrt I)) by lra. field. lra.
  - rewrite <- (g_sum (2 * sqrt I)) by lra. field. lra.
Qed.

(* ---- Parameters ---- *)
Lemma saltParam_ok data : forallb (fun r => is_ok (mkChemicalFormula (fst (fst r))) && is_ok (mkChemicalFormula (snd (fst r))) && is_ok (saltFunction (snd r))) data = true ->
  forall c a, is_ok (saltParam data c a) = true.
Proof.
  induction data as [|[[x y] co] rest IH]; intros H c a; [reflexivity|]. cbn [forallb fst snd] in H. rewrite !andb_true_iff in H. destruct H as [[[Hx Hy] Hc] H].
  cbn [saltParam]. destruct (mkChemicalFormula x); try discriminate. cbn [bind]. destruct (mkChemicalFormula y); try discriminate. cbn [bind].
  destruct (_ && _); [exact Hc|apply IH; exact H].
Qed.
Lemma mapM_ok {A B} (f : A -> outcome B) l : (forall x, is_ok (f x) = true) -> is_ok (mapM f l) = true.
Proof.
  intros H. induction l as [|x l IH]; [reflexivity|]. cbn [mapM]. specialize (H x). destruct (f x); try discriminate. cbn [bind]. destruct (mapM f l); try discriminate. reflexivity.
Qed.
Definition lines_ok (data : list (str * str * list Q)) : bool :=
  forallb (fun r => is_ok (mkChemicalFormula (fst (fst r))) && is_ok (mkChemicalFormula (snd (fst r))) && (Nat.eqb (length (snd r)) 1 || Nat.eqb (length (snd r)) 2 || Nat.eqb (length (snd r)) 5)) data.
Lemma saltTable_ok data cations anions : lines_ok data = true -> exists v, saltTable data cations anions = Ok v.
Proof.
  intros H. unfold saltTable. assert (E : is_ok (mapM (fun c => mapM (fun a => saltParam data c a) anions) cations) = true).
  { apply mapM_ok. intros c. apply mapM_ok. intros a. apply saltParam_ok. revert H. unfold lines_ok. rewrite !forallb_forall. intros H r Hr. specialize (H r Hr).
    rewrite !andb_true_iff in *. destruct H as [H L]. split; [exact H|]. unfold saltFunction.
    destruct (snd r) as [|c0 [|c1 [|c2 [|c3 [|c4 [|]]]]]]; try discriminate; reflexivity. }
  destruct (mapM _ cations); try discriminate. eexists. reflexivity.
Qed.
Lemma hmw_ok : lines_ok (d_beta0 hmw) && lines_ok (d_beta1 hmw) && lines_ok (d_beta2 hmw) && lines_ok (d_Cphi hmw) = true.
Proof. vm_compute. reflexivity. Qed.
Lemma pitzerParams_ok mx : exists pz, pitzerParams hmw mx = Ok pz.
Proof.
  pose proof hmw_ok as H. rewrite !andb_true_iff in H. destruct H as [[[H0 H1] H2] H3]. unfold pitzerParams.
  destruct (saltTable_ok _ (map (fun i => formula (species_at (mx_species mx) i)) (mx_cations mx)) (map (fun i => formula (species_at (mx_species mx) i)) (mx_anions mx)) H0) as [v0 ->].
  destruct (saltTable_ok _ (map (fun i => formula (species_at (mx_species mx) i)) (mx_cations mx)) (map (fun i => formula (species_at (mx_species mx) i)) (mx_anions mx)) H1) as [v1 ->].
  destruct (saltTable_ok _ (map (fun i => formula (species_at (mx_species mx) i)) (mx_cations mx)) (map (fun i => formula (species_at (mx_species mx) i)) (mx_anions mx)) H2) as [v2 ->].
  destruct (saltTable_ok _ (map (fun i => formula (species_at (mx_species mx) i)) (mx_cations mx)) (map (fun i => formula (species_at (mx_species mx) i)) (mx_anions mx)) H3) as [v3 ->].
  eexists. reflexivity.
Qed.
(* Formulas are compared as sets of texts. *)
Lemma contained_spec (a b : list str) : contained str_eqb a b = true <-> incl a b.
Proof.
  unfold contained. rewrite forallb_forall. split; intros H x Hx; specialize (H x Hx).
  - apply existsb_exists in H. destruct H as (y & Hy & E). apply str_eqb_eq in E. subst y. exact Hy.
  - apply existsb_exists. exists x. split; [exact H|]. apply str_eqb_eq. reflexivity.
Qed.
Lemma same_text_spec texts formulas : same_text texts formulas = true <-> incl (map cf_str formulas) texts /\ incl texts (map cf_str formulas).
Proof. unfold same_text, M_Chem.identical. rewrite andb_true_iff, !contained_spec. reflexivity. Qed.
Lemma same_text_incl texts f g : (forall x, In x (map cf_str f) <-> In x (map cf_str g)) -> same_text texts f = same_text texts g.
Proof.
  intros H. apply eq_true_iff_eq. rewrite !same_text_spec. unfold incl. split; intros [A B]; split; intros x Hx.
  - apply A, H, Hx. - apply H, B, Hx. - apply A, H, Hx. - apply H, B, Hx.
Qed.
Lemma pairParam_sym data f g : pairParam data f g = pairParam data g f.
Proof.
  induction data as [|[[x y] c] rest IH]; [reflexivity|]. cbn [pairParam]. rewrite IH, (same_text_incl [x; y] [f; g] [g; f]); [reflexivity|]. cbn. tauto.
Qed.
Lemma tripletParam_sym data f g h : tripletParam data f g h = tripletParam data g f h.
Proof.
  induction data as [|[[[x y] z] c] rest IH]; [reflexivity|]. cbn [tripletParam]. rewrite IH, (same_text_incl [x; y; z] [f; g; h] [g; f; h]); [reflexivity|]. cbn. tauto.
Qed.
Lemma pairParam_diag data f : forallb (fun r => negb (str_eqb (fst (fst r)) (snd (fst r)))) data = true -> pairParam data f f = 0.
Proof.
  induction data as [|[[x y] c] rest IH]; intros H; [reflexivity|]. cbn [forallb fst snd] in H. apply andb_prop in H. destruct H as [N H]. cbn [pairParam].
  destruct (same_text [x; y] [f; f]) eqn:E; [|apply IH, H]. apply same_text_spec in E. destruct E as [_ E]. exfalso.
  assert (x = cf_str f) by (specialize (E x (or_introl eq_refl)); cbn in E; intuition). assert (y = cf_str f) by (specialize (E y (or_intror (or_introl eq_refl))); cbn in E; intuition).
  apply negb_true_iff in N. rewrite (proj2 (str_eqb_eq x y)) in N by congruence. discriminate.
Qed.
Lemma tripletParam_diag data f h : forallb (fun r => negb (str_eqb (fst (fst (fst r))) (snd (fst (fst r)))) && negb (str_eqb (fst (fst (fst r))) (snd (fst r))) && negb (str_eqb (snd (fst (fst r))) (snd (fst r)))) data = true ->
  tripletParam data f f h = 0.
Proof.
  induction data as [|[[[x y] z] c] rest IH]; intros H; [reflexivity|]. cbn [forallb fst snd] in H. rewrite !andb_true_iff, !negb_true_iff in H. destruct H as [[[N1 N2] N3] H]. cbn [tripletParam].
  destruct (same_text [x; y; z] [f; f; h]) eqn:E; [|apply IH, H]. apply same_text_spec in E. destruct E as [_ E]. exfalso.
  assert (K : forall a b : str, str_eqb a b = false -> a <> b) by (intros a b F ->; rewrite (proj2 (str_eqb_eq b b) eq_refl) in F; discriminate). apply K in N1, N2, N3.
  pose proof (E x ltac:(cbn; auto)) as X. pose proof (E y ltac:(cbn; auto)) as Y. pose proof (E z ltac:(cbn; auto)) as Z. cbn in X, Y, Z. intuition congruence.
Qed.
Lemma theta_distinct : forallb (fun r => negb (str_eqb (fst (fst r)) (snd (fst r)))) (d_theta hmw) = true. Proof. vm_compute. reflexivity. Qed.
Lemma psi_distinct : forallb (fun r => negb (str_eqb (fst (fst (fst r))) (snd (fst (fst r)))) && negb (str_eqb (fst (fst (fst r))) (snd (fst r))) && negb (str_eqb (snd (fst (fst r))) (snd (fst r)))) (d_psi hmw) = true. Proof. vm_compute. reflexivity. Qed.
Lemma pitzerParams_inv data mx pz : pitzerParams data mx = Ok pz ->
  pz_neutrals pz = mx_neutral mx /\ pz_charged pz = mx_charged mx /\ pz_cations pz = mx_cations mx /\ pz_anions pz = mx_anions mx /\ pz_z pz = charge_at (mx_species mx).
Proof.
  unfold pitzerParams. destruct (saltTable (d_beta0 data) _ _); try discriminate. cbn [bind]. destruct (saltTable (d_beta1 data) _ _); try discriminate. cbn [bind].
  destruct (saltTable (d_beta2 data) _ _); try discriminate. cbn [bind]. destruct (saltTable (d_Cphi data) _ _); try discriminate. cbn [bind]. intros E. injection E as <-. cbn. auto.
Qed.
Lemma pitzerParams_tables data mx pz : pitzerParams data mx = Ok pz ->
  let name (idx : list nat) (i : nat) := nth i (map (fun i => formula (species_at (mx_species mx) i)) idx) (formula noSpecies) in
  (forall i j, pz_theta_cc pz i j = pairParam (d_theta data) (name (mx_cations mx) i) (name (mx_cations mx) j)) /\
  (forall i j, pz_theta_aa pz i j = pairParam (d_theta data) (name (mx_anions mx) i) (name (mx_anions mx) j)) /\
  (forall i j k, pz_psi_cca pz i j k = tripletParam (d_psi data) (name (mx_cations mx) i) (name (mx_cations mx) j) (name (mx_anions mx) k)) /\
  (forall i j k, pz_psi_aac pz i j k = tripletParam (d_psi data) (name (mx_anions mx) i) (name (mx_anions mx) j) (name (mx_cations mx) k)) /\
  (forall i j, pz_lambda_nc pz i j = pairParam (d_lambda data) (name (mx_neutral mx) i) (name (mx_cations mx) j)) /\
  (forall i j, pz_lambda_na pz i j = pairParam (d_lambda data) (name (mx_neutral mx) i) (name (mx_anions mx) j)) /\
  (forall i j k, pz_zeta pz i j k = tripletParam (d_zeta data) (name (mx_neutral mx) i) (name (mx_cations mx) j) (name (mx_anions mx) k)).
Proof.
  unfold pitzerParams. destruct (saltTable (d_beta0 data) _ _); try discriminate. cbn [bind]. destruct (saltTable (d_beta1 data) _ _); try discriminate. cbn [bind].
  destruct (saltTable (d_beta2 data) _ _); try discriminate. cbn [bind]. destruct (saltTable (d_Cphi data) _ _); try discriminate. cbn [bind]. intros E. injection E as <-. cbn zeta. repeat split.
Qed.

(* ---- Closed form ---- *)
Lemma setM_ok n idx f v g : NoDup idx -> (n <= length idx)%nat -> (forall k, (k < n)%nat -> f k = Ok (v k)) ->
  exists g', setM n idx f g = Ok g' /\ (forall k, (k < n)%nat -> g' (nth k idx O) = v k) /\ (forall i, ~ In i idx -> g' i = g i).
Proof.
  intros ND. induction n as [|n IH]; intros L H; [exists g; split; [reflexivity|]; split; [lia|reflexivity]|].
  destruct IH as (g' & E & G & O); [lia|intros; apply H; lia|]. cbn [setM]. rewrite E. cbn [bind]. rewrite H by lia. cbn [omap bind].
  exists (set_at g' (nth n idx 0%nat) (v n)). split; [reflexivity|]. split.
  - intros k Hk. destruct (Nat.eq_dec k n) as [->|N]; [apply set_at_same|]. rewrite set_at_other; [apply G; lia|]. intros F. apply N. apply (proj1 (NoDup_nth idx 0%nat) ND); [lia|lia|exact F].
  - intros i Hi. rewrite set_at_other; [apply O, Hi|]. intros ->. apply Hi, nth_In. lia.
Qed.
Section Closed.
Variables (pz : PitzerParams) (A I T : R) (m : nat -> R) (eC dC eA dA : nat -> nat -> R).
Let nc := length (pz_cations pz). Let na := length (pz_anions pz). Let nn := length (pz_neutrals pz).
Hypotheses (Hc : (0 < nc)%nat) (Ha : (0 < na)%nat).
Hypotheses (HeC : forall i j, (i < nc)%nat -> (j < nc)%nat -> thetaE A I (z_c pz i) (z_c pz j) = Ok (eC i j)).
Hypotheses (HdC : forall i j, (i < nc)%nat -> (j < nc)%nat -> thetaE_prime A I (z_c pz i) (z_c pz j) = Ok (dC i j)).
Hypotheses (HeA : forall i j, (i < na)%nat -> (j < na)%nat -> thetaE A I (z_a pz i) (z_a pz j) = Ok (eA i j)).
Hypotheses (HdA : forall i j, (i < na)%nat -> (j < na)%nat -> thetaE_prime A I (z_a pz i) (z_a pz j) = Ok (dA i j)).
Definition cation_value := vC nc na nn (m_c pz m) (m_a pz m) (m_n pz m) (z_c pz) (B_ca pz I T) (Bprime_ca pz I T) (C_ca pz T)
  (fun i j => pz_theta_cc pz i j + eC i j) dC dA (pz_psi_cca pz) (pz_psi_aac pz) (pz_lambda_nc pz) (F_limit A I) (computeZ pz m).
Definition anion_value := vA nc na nn (m_c pz m) (m_a pz m) (m_n pz m) (z_a pz) (B_ca pz I T) (Bprime_ca pz I T) (C_ca pz T)
  dC (fun i j => pz_theta_aa pz i j + eA i j) dA (pz_psi_cca pz) (pz_psi_aac pz) (pz_lambda_na pz) (F_limit A I) (computeZ pz m).
Definition neutral_value := vN nc na (m_c pz m) (m_a pz m) (pz_lambda_nc pz) (pz_lambda_na pz) (pz_zeta pz).
Definition osmotic_value := vS nc na nn (m_c pz m) (m_a pz m) (m_n pz m) (Bphi_ca pz I T) (C_ca pz T)
  (fun i j => pz_theta_cc pz i j + eC i j + I * dC i j) (fun i j => pz_theta_aa pz i j + eA i j + I * dA i j)
  (pz_psi_cca pz) (pz_psi_aac pz) (pz_lambda_nc pz) (pz_lambda_na pz) (pz_zeta pz) (- A * I * sqrt I / (1 + 1.2 * sqrt I)) (computeZ pz m).
Lemma computeF_value : computeF pz A I T m = Ok (vF nc na (m_c pz m) (m_a pz m) (Bprime_ca pz I T) dC dA (F_limit A I)).
Proof.
  unfold computeF. fold nc na. rewrite (pairsM_ok nc _ (fun i j => m_c pz m i * m_c pz m j * dC i j)); [|exact Hc|].
  2: { intros i j L1 L2. unfold Phi_prime_cc. rewrite HdC by lia. reflexivity. }
  cbn [bind]. rewrite (pairsM_ok na _ (fun i j => m_a pz m i * m_a pz m j * dA i j)); [|exact Ha|].
  2: { intros i j L1 L2. unfold Phi_prime_aa. rewrite HdA by lia. reflexivity. }
  reflexivity.
Qed.
Lemma lnCation_value M : (M < nc)%nat -> lnCation pz A I T m M = Ok (cation_value M).
Proof.
  intros LM. unfold lnCation. rewrite computeF_value. cbn [bind]. cbv zeta. fold nc na nn.
  rewrite (sumM_ok nc _ (fun c => m_c pz m c * (2 * (pz_theta_cc pz M c + eC M c) + Sum na (fun a => m_a pz m a * pz_psi_cca pz M c a)))).
  2: { intros c Lc. unfold Phi_cc. rewrite HeC by lia. reflexivity. }
  cbn [bind]. rewrite (pairsM_ok na _ (fun i j => m_a pz m i * m_a pz m j * pz_psi_aac pz i j M)); [|exact Ha|reflexivity]. reflexivity.
Qed.
Lemma lnAnion_value X : (X < na)%nat -> lnAnion pz A I T m X = Ok (anion_value X).
Proof.
  intros LX. unfold lnAnion. rewrite computeF_value. cbn [bind]. cbv zeta. fold nc na nn.
  rewrite (sumM_ok na _ (fun c => m_a pz m c * (2 * (pz_theta_aa pz X c + eA X c) + Sum nc (fun a => m_c pz m a * pz_psi_aac pz X c a)))).
  2: { intros c Lc. unfold Phi_aa. rewrite HeA by lia. reflexivity. }
  cbn [bind]. rewrite (pairsM_ok nc _ (fun i j => m_c pz m i * m_c pz m j * pz_psi_cca pz i j X)); [|exact Hc|reflexivity]. reflexivity.
Qed.
Lemma lnWater_value total : total <> 0 -> lnWater pz A I T m total = Ok (- Mw * (total + 2 * osmotic_value)).
Proof.
  intros H. unfold lnWater. cbv zeta. fold nc na nn.
  rewrite (pairsM_ok nc _ (fun i j => m_c pz m i * m_c pz m j * (pz_theta_cc pz i j + eC i j + I * dC i j + Sum na (fun a => m_a pz m a * pz_psi_cca pz i j a)))); [|exact Hc|].
  2: { intros i j L1 L2. unfold Phi_phi_cc. rewrite HeC, HdC by lia. reflexivity. }
  cbn [bind]. rewrite (pairsM_ok na _ (fun i j => m_a pz m i * m_a pz m j * (pz_theta_aa pz i j + eA i j + I * dA i j + Sum nc (fun a => m_c pz m a * pz_psi_aac pz i j a)))); [|exact Ha|].
  2: { intros i j L1 L2. unfold Phi_phi_aa. rewrite HeA, HdA by lia. reflexivity. }
  cbn [bind]. f_equal. rewrite Mw_eq. unfold osmotic_value, vS.
  match goal with |- - (1 + 2 / total * ?x) * total * Mw = - Mw * (total + 2 * ?y) => change y with x; set (S := x) end. clearbody S. field. exact H.
Qed.
End Closed.

Section Values.
Variables (reactions : list Dissociation) (rho eps : R -> R -> R) (l : list Species) (mx : Mixture) (pz : PitzerParams) (data : PitzerData).
Hypotheses (Hmx : mkAqueousMixture reactions rho eps l = Ok mx) (Hpz : pitzerParams data mx = Ok pz).
Lemma NoDup_parts {X} (a b : list X) : NoDup (a ++ b) -> NoDup a /\ NoDup b.
Proof.
  induction a as [|x a IH]; cbn; intros H; [split; [constructor|exact H]|]. inversion H as [|y k N H' E]. subst. destruct (IH H') as [H1 H2]. split; [|exact H2].
  constructor; [|exact H1]. intros F. apply N, in_app_iff. auto.
Qed.
Lemma cations_anions : NoDup (mx_cations mx) /\ NoDup (mx_anions mx) /\ (forall k, In k (mx_cations mx) -> In k (mx_anions mx) -> False) /\
  (forall k, In k (mx_cations mx ++ mx_anions mx) -> k <> mx_water mx /\ ~ In k (mx_neutral mx) /\ (k < length l)%nat) /\ (forall k, In k (mx_neutral mx) -> k <> mx_water mx /\ (k < length l)%nat).
Proof.
  destruct (mx_partition _ _ _ _ _ Hmx) as [_ P]. assert (ND : NoDup (mx_cations mx ++ mx_anions mx)) by (apply (Permutation_NoDup P), (charged_nodup _ _ _ _ _ Hmx)).
  split; [apply (NoDup_parts _ _ ND)|]. split; [apply (NoDup_parts _ _ ND)|]. split.
  - intros k H1 H2. apply in_split in H1. destruct H1 as (a & b & E). rewrite E, <- app_assoc in ND. cbn in ND. apply NoDup_remove_2 in ND. apply ND. rewrite !in_app_iff. auto.
  - split; [|intros k H; destruct (neutral_eq _ _ _ _ _ Hmx k H) as (N & _ & L); split; assumption].
    intros k H. apply (Permutation_in _ (Permutation_sym P)) in H. destruct (charged_neq _ _ _ _ _ Hmx k H) as (N & Q & L). split; [exact N|]. split; [|exact L]. intros F. destruct (neutral_eq _ _ _ _ _ Hmx k F) as (_ & Z & _). contradiction.
Qed.
(* What an evaluation writes. *)
Lemma pitzer_value Aphi T P x p A eC dC eA dA : let st := mixtureState mx T P x in let m := st_m st in let I := st_Ie st in
  Aphi T P = Ok A -> (0 < length (mx_cations mx))%nat -> (0 < length (mx_anions mx))%nat ->
  (forall i j, (i < length (mx_cations mx))%nat -> (j < length (mx_cations mx))%nat -> thetaE A I (z_c pz i) (z_c pz j) = Ok (eC i j) /\ thetaE_prime A I (z_c pz i) (z_c pz j) = Ok (dC i j)) ->
  (forall i j, (i < length (mx_anions mx))%nat -> (j < length (mx_anions mx))%nat -> thetaE A I (z_a pz i) (z_a pz j) = Ok (eA i j) /\ thetaE_prime A I (z_a pz i) (z_a pz j) = Ok (dA i j)) ->
  Sum (length l) m - m (mx_water mx) <> 0 ->
  exists q, pitzer_fn Aphi mx pz T P x p = Ok (q, Some (mx, st)) /\
    (forall c, (c < length (mx_cations mx))%nat -> ln_g q (nth c (mx_cations mx) O) = cation_value pz A I T m eC dC dA c) /\
    (forall a, (a < length (mx_anions mx))%nat -> ln_g q (nth a (mx_anions mx) O) = anion_value pz A I T m dC eA dA a) /\
    (forall n, (n < length (mx_neutral mx))%nat -> ln_g q (nth n (mx_neutral mx) O) = neutral_value pz m n) /\
    (forall i, i <> mx_water mx -> ln_a q i = ln_g q i + ln (m i)) /\
    ln_a q (mx_water mx) = - Mw * ((Sum (length l) m - m (mx_water mx)) + 2 * osmotic_value pz A I T m eC dC eA dA) /\
    ln_g q (mx_water mx) = ln_a q (mx_water mx) - ln (x (mx_water mx)).
Proof.
  intros st m I HA Hc Ha HC HA' Ht. destruct (pitzerParams_inv _ _ _ Hpz) as (En & Ech & Ec & Ea & Ez). destruct cations_anions as (Nc & Na & Dca & Dw & Dn).
  assert (Lx : mx_species mx = l) by apply (mx_inv _ _ _ _ _ Hmx).
  destruct (setM_ok (length (pz_cations pz)) (pz_cations pz) (lnCation pz A I T m) (cation_value pz A I T m eC dC dA) (ln_g (fst p))) as (g1 & E1 & V1 & O1); [rewrite Ec; exact Nc|lia| |].
  { intros k Hk. apply (lnCation_value pz A I T m eC dC eA dA); try exact Hk; try (rewrite ?Ec, ?Ea; assumption); intros i j; rewrite ?Ec, ?Ea; intros Hi Hj; first [apply (HC i j Hi Hj)|apply (HA' i j Hi Hj)]. }
  destruct (setM_ok (length (pz_anions pz)) (pz_anions pz) (lnAnion pz A I T m) (anion_value pz A I T m dC eA dA) g1) as (g2 & E2 & V2 & O2); [rewrite Ea; exact Na|lia| |].
  { intros k Hk. apply (lnAnion_value pz A I T m eC dC eA dA); try exact Hk; try (rewrite ?Ec, ?Ea; assumption); intros i j; rewrite ?Ec, ?Ea; intros Hi Hj; first [apply (HC i j Hi Hj)|apply (HA' i j Hi Hj)]. }
  destruct (setM_ok (length (pz_neutrals pz)) (pz_neutrals pz) (fun N => Ok (lnNeutral pz m N)) (neutral_value pz m) g2) as (g3 & E3 & V3 & O3); [rewrite En; apply (neutral_nodup _ _ _ _ _ Hmx)|lia|reflexivity|].
  pose proof (lnWater_value pz A I T m eC dC eA dA) as W. rewrite Ec, Ea in W. specialize (W Hc Ha (fun i j H1 H2 => proj1 (HC i j H1 H2)) (fun i j H1 H2 => proj2 (HC i j H1 H2)) (fun i j H1 H2 => proj1 (HA' i j H1 H2)) (fun i j H1 H2 => proj2 (HA' i j H1 H2)) _ Ht).
  exists (with_a (with_g (fst p) (set_at g3 (mx_water mx) (- Mw * ((Sum (length l) m - m (mx_water mx)) + 2 * osmotic_value pz A I T m eC dC eA dA) - ln (x (mx_water mx)))))
    (set_at (fun i => g3 i + ln (m i)) (mx_water mx) (- Mw * ((Sum (length l) m - m (mx_water mx)) + 2 * osmotic_value pz A I T m eC dC eA dA)))).
  split.
  { unfold pitzer_fn. cbv zeta. fold st m I. rewrite HA. cbn [bind]. rewrite E1. cbn [bind]. rewrite E2. cbn [bind]. rewrite E3. cbn [bind]. rewrite Lx, W. cbn [bind]. rewrite set_at_same || idtac. reflexivity. }
  rewrite Ec in V1, O1. rewrite Ea in V2, O2. rewrite En in V3, O3. cbn [ln_g ln_a with_a with_g].
  split; [|split; [|split; [|split; [|split]]]].
  - intros c Lc. pose proof (nth_In _ O Lc) as In1. destruct (Dw (nth c (mx_cations mx) O)) as (F1 & F2 & _); [apply in_app_iff; auto|]. rewrite set_at_other by exact F1. rewrite O3, O2; [apply V1, Lc| |exact F2]. intros F. exact (Dca _ In1 F).
  - intros c Lc. pose proof (nth_In _ O Lc) as In1. destruct (Dw (nth c (mx_anions mx) O)) as (F1 & F2 & _); [apply in_app_iff; auto|]. rewrite set_at_other by exact F1. rewrite O3; [apply V2, Lc|exact F2].
  - intros n Ln. pose proof (nth_In _ O Ln) as In1. destruct (Dn _ In1) as (F1 & _). rewrite set_at_other by exact F1. apply V3, Ln.
  - intros i Hi. rewrite !set_at_other by exact Hi. reflexivity.
  - apply set_at_same.
  - rewrite !set_at_same. reflexivity.
Qed.
End Values.
