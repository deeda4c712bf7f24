(* C110-C113: the Pitzer activity model, definedness, jumps, dilution, notation. *)
From Coq Require Import Reals Qreals List Bool Lia Lra Permutation.
From Coquelicot Require Import Coquelicot.
Import ListNotations.
From Verif Require Import Base M_Strings M_Formula M_Chem M_System M_Registry M_CubicEOS P_Helmholtz P_CubicEOS M_Aqueous S_Activity P_Aqueous P_Activity C_Aqueous C_Activity M_Pitzer P_PitzerSum P_Pitzer P_PitzerFn P_PitzerDuhem P_PitzerJ P_PitzerMix P_PitzerEval P_PitzerJump C_Pitzer.
Local Open Scope R_scope.

(* ---- C110: evaluations succeed ---- *)
(* The ionic strength of a solution in water, of index w. *)
Definition ionic_strength (l : list Species) (w : nat) (x : nat -> R) : R := half_z2m l (fun i => x i / (0.018015268 * x w)).
Definition C110_statement : Prop := forall reactions rho eps Aphi l f T P A p x, pitzer Aphi hmw (mkAqueousMixture reactions rho eps) l = Ok f -> Aphi T P = Ok A -> 0 < A ->
  (forall i, (i < length l)%nat -> 0 < x i) -> Sum (length l) x = 1 -> exists q e, f T P x p = Ok (q, e).
Lemma strength_value reactions rho eps l mx pz x : mkAqueousMixture reactions rho eps l = Ok mx -> pitzerParams hmw mx = Ok pz -> xI mx pz x = ionic_strength l (mx_water mx) x.
Proof.
  intros Hmx Hpz. assert (E : xI mx pz x = rI mx pz (fun _ => x) 0) by reflexivity. rewrite E, <- (rI_strength reactions rho eps l mx pz Hmx Hpz (fun _ => x) 0).
  unfold effectiveIonicStrength, ionic_strength, half_z2m. destruct (mx_inv _ _ _ _ _ Hmx) as (_ & -> & _). replace 0.5 with (/ 2) by lra. f_equal. apply Sum_ext. intros i Hi.
  unfold charge_at, species_at, mol. rewrite (nth_indep l noSpecies aH2O Hi), Mw_eq. unfold Mw. ring.
Qed.
Lemma ions_sign reactions rho eps l mx pz : mkAqueousMixture reactions rho eps l = Ok mx -> pitzerParams hmw mx = Ok pz ->
  (forall i, (i < length (pz_cations pz))%nat -> 0 < z_c pz i) /\ (forall i, (i < length (pz_anions pz))%nat -> z_a pz i < 0).
Proof.
  intros Hmx Hpz. split; intros i Hi.
  - destruct (cation_is _ _ _ _ _ _ Hmx Hpz i Hi) as (s & _ & C & -> & _). apply Qlt_Rlt in C. rewrite RMicromega.Q2R_0 in C. exact C.
  - destruct (anion_is _ _ _ _ _ _ Hmx Hpz i Hi) as (s & _ & C & -> & _). apply Qlt_Rlt in C. rewrite RMicromega.Q2R_0 in C. exact C.
Qed.
(* With a cation and an anion, and an ionic strength within the tables. *)
Theorem C110_ions_partial : forall reactions rho eps Aphi l f T P A p w x, pitzer Aphi hmw (mkAqueousMixture reactions rho eps) l = Ok f -> Aphi T P = Ok A -> 0 <= A ->
  has_ions l -> indexWithFormula l $"H2O" = Ok w -> (forall i, (i < length l)%nat -> 0 < x i) ->
  (forall s, In s l -> 6 * Q2R (sp_charge s) ^ 2 * A * sqrt (ionic_strength l w x) <= 10000) -> exists q e, f T P x p = Ok (q, e).
Proof.
  intros reactions rho eps Aphi l f T P A p w x Hf HA A0 Hi Hw Hx Hs. destruct (pitzer_inv _ _ _ _ _ _ _ Hf) as (mx & pz & Hmx & Hpz & ->).
  destruct (some_ions _ _ _ _ _ _ Hmx Hpz Hi) as [Hc Ha]. destruct (ions_sign _ _ _ _ _ _ Hmx Hpz) as [Sc Sa].
  assert (Ew : mx_water mx = w) by (destruct (mx_inv _ _ _ _ _ Hmx) as (W & _); congruence). pose proof (strength_value _ _ _ _ _ _ x Hmx Hpz) as EI. rewrite Ew in EI. rewrite <- EI in Hs.
  destruct (at_value _ _ _ _ _ _ Hmx Hpz x Aphi T P A p Hx HA Hc Ha) as (q & E & _).
  - intros i j Li Lj. pose proof (Sc i Li). pose proof (Sc j Lj). destruct (cation_is _ _ _ _ _ _ Hmx Hpz i Li) as (s & Is & _ & Es & _). destruct (cation_is _ _ _ _ _ _ Hmx Hpz j Lj) as (s' & Is' & _ & Es' & _).
    apply theta_defined; [exact A0|apply Rmult_lt_0_compat; assumption|rewrite Es; specialize (Hs s Is)|rewrite Es'; specialize (Hs s' Is')]; lra.
  - intros i j Li Lj. pose proof (Sa i Li). pose proof (Sa j Lj). destruct (anion_is _ _ _ _ _ _ Hmx Hpz i Li) as (s & Is & _ & Es & _). destruct (anion_is _ _ _ _ _ _ Hmx Hpz j Lj) as (s' & Is' & _ & Es' & _).
    apply theta_defined; [exact A0| |rewrite Es; specialize (Hs s Is)|rewrite Es'; specialize (Hs s' Is')]; [|lra|lra]. replace (z_a pz i * z_a pz j) with (- z_a pz i * - z_a pz j) by ring. apply Rmult_lt_0_compat; lra.
  - eauto.
Qed.
Print Assumptions C110_ions_partial.
Lemma no_ions reactions rho eps l mx pz : mkAqueousMixture reactions rho eps l = Ok mx -> pitzerParams hmw mx = Ok pz ->
  (~ (exists s, In s l /\ is_cation s) -> pz_cations pz = []) /\ (~ (exists s, In s l /\ is_anion s) -> pz_anions pz = []).
Proof.
  intros Hmx Hpz. split; intros N.
  - destruct (pz_cations pz) as [|c r] eqn:E; [reflexivity|]. exfalso. apply N. destruct (cation_is _ _ _ _ _ _ Hmx Hpz O) as (s & Is & C & _); [rewrite E; cbn; lia|]. eauto.
  - destruct (pz_anions pz) as [|c r] eqn:E; [reflexivity|]. exfalso. apply N. destruct (anion_is _ _ _ _ _ _ Hmx Hpz O) as (s & Is & C & _); [rewrite E; cbn; lia|]. eauto.
Qed.
(* Without cations the behaviour is undefined in every state, and without anions no
   evaluation succeeds. *)
Theorem C110_one_sign_refuted : forall reactions rho eps Aphi l f T P A p x, pitzer Aphi hmw (mkAqueousMixture reactions rho eps) l = Ok f -> Aphi T P = Ok A ->
  (~ (exists s, In s l /\ is_cation s) -> f T P x p = UB) /\ (~ (exists s, In s l /\ is_anion s) -> forall r, f T P x p <> Ok r).
Proof.
  intros reactions rho eps Aphi l f T P A p x Hf HA. destruct (pitzer_inv _ _ _ _ _ _ _ Hf) as (mx & pz & Hmx & Hpz & ->). destruct (no_ions _ _ _ _ _ _ Hmx Hpz) as [NC NA].
  split; intros N; unfold pitzer_fn; cbv zeta; rewrite HA; cbn [bind].
  - specialize (NC N). rewrite NC. cbn [length setM bind]. destruct (pz_anions pz) as [|a r] eqn:Ea.
    + cbn [length setM bind]. destruct (setM_ok (length (pz_neutrals pz)) (pz_neutrals pz) (fun N => Ok (lnNeutral pz (st_m (mixtureState mx T P x)) N)) (fun N => lnNeutral pz (st_m (mixtureState mx T P x)) N) (ln_g (fst p))) as (g & -> & _).
      * destruct (pitzerParams_inv _ _ _ Hpz) as (-> & _). apply (neutral_nodup _ _ _ _ _ Hmx).
      * lia.
      * reflexivity.
      * cbn [bind]. unfold lnWater. rewrite NC. reflexivity.
    + assert (Z : forall k g0, setM (S k) (a :: r) (lnAnion pz A (st_Ie (mixtureState mx T P x)) T (st_m (mixtureState mx T P x))) g0 = UB).
      { assert (L : forall X, lnAnion pz A (st_Ie (mixtureState mx T P x)) T (st_m (mixtureState mx T P x)) X = UB) by (intros X; unfold lnAnion, computeF; rewrite NC; reflexivity).
        induction k as [|k IH]; intros g0; [cbn [setM bind]; rewrite L; reflexivity|]. cbn [setM] in IH |- *. rewrite IH. reflexivity. }
      cbn [length]. rewrite Z. reflexivity.
  - specialize (NA N). intros q. destruct (pz_cations pz) as [|c r] eqn:Ec.
    + rewrite NA. cbn [length setM bind]. destruct (setM _ (pz_neutrals pz) _ _); try discriminate. cbn [bind]. unfold lnWater. rewrite Ec. discriminate.
    + assert (L : forall X v, lnCation pz A (st_Ie (mixtureState mx T P x)) T (st_m (mixtureState mx T P x)) X <> Ok v).
      { intros X v. unfold lnCation, computeF. rewrite NA. cbn [length pairsM]. destruct (pairsM _ _); discriminate. }
      assert (Z : forall k g0 v, setM (S k) (c :: r) (lnCation pz A (st_Ie (mixtureState mx T P x)) T (st_m (mixtureState mx T P x))) g0 <> Ok v).
      { intros k g0 v. cbn [setM]. destruct (setM k _ _ _); try discriminate. cbn [bind]. specialize (L k). destruct (lnCation _ _ _ _ _ k) as [u| |]; try discriminate. exfalso. exact (L u eq_refl). }
      cbn [length]. specialize (Z (length r) (ln_g (fst p))). destruct (setM (S (length r)) _ _ _) as [u| |]; try discriminate. exfalso. exact (Z u eq_refl).
Qed.
Print Assumptions C110_one_sign_refuted.
Definition soda : list Species := [aH2O; aCO2].
Theorem C110_refuted : ~ C110_statement.
Proof.
  intros H. destruct (pitzer_ok [] (fun _ _ => 1) (fun _ _ => 1) (fun _ _ => Ok 0.39147278) soda 0) as [f Hf]; [vm_compute; reflexivity|].
  destruct (H _ _ _ _ _ _ 298.15 100000 0.39147278 (constProps 0, None) (fun _ => / 2) Hf eq_refl) as (q & e & E); [lra|intros; lra|cbn; lra|].
  destruct (C110_one_sign_refuted _ _ _ _ _ _ 298.15 100000 0.39147278 (constProps 0, None) (fun _ => / 2) Hf eq_refl) as [U _]. rewrite U in E; [discriminate|].
  intros (s & Hs & C). destruct Hs as [<-|[<-|[]]]; discriminate C.
Qed.
Print Assumptions C110_refuted.
(* Sodium and calcium chloride: beyond the tables the evaluation throws. *)
Theorem C110_strong_refuted : forall reactions rho eps Aphi f T P A p x, pitzer Aphi hmw (mkAqueousMixture reactions rho eps) hard = Ok f -> Aphi T P = Ok A -> 0 < A ->
  (forall i, (i < 4)%nat -> 0 < x i) -> 10000 < 24 * A * sqrt (ionic_strength hard 0 x) -> f T P x p = Err.
Proof.
  intros reactions rho eps Aphi f T P A p x Hf HA A0 Hx Hs. destruct (pitzer_inv _ _ _ _ _ _ _ Hf) as (mx & pz & Hmx & Hpz & ->).
  destruct (hard_charges _ _ _ _ _ Hmx Hpz) as (Ew & Ec & Ea & En & Z0 & Z1 & Z2). pose proof (strength_value _ _ _ _ _ _ x Hmx Hpz) as EI. rewrite Ew in EI. rewrite <- EI in Hs.
  assert (Q : 0 <= A * sqrt (xI mx pz x)) by (apply Rmult_le_pos; [lra|apply sqrt_pos]).
  assert (N : forall y, J1 y = Err \/ exists v, J1 y = Ok v).
  { intros y. destruct (Rlt_dec y 0); [left; apply J_undefined; lra|]. destruct (Rlt_dec 10000 y); [left; apply J_undefined; lra|]. right. apply J_defined. lra. }
  assert (TP : thetaE_prime A (xI mx pz x) 1 2 = Err).
  { unfold thetaE_prime. destruct (Req_EM_T 1 2); [lra|]. cbv zeta. destruct (N (6 * 1 * 2 * A * sqrt (xI mx pz x))) as [-> |[v ->]]; [reflexivity|]. cbn [bind].
    destruct (N (6 * 1 * 1 * A * sqrt (xI mx pz x))) as [-> |[u ->]]; [reflexivity|]. cbn [bind]. destruct (J_undefined (6 * 2 * 2 * A * sqrt (xI mx pz x))) as [_ ->]; [right; lra|]. reflexivity. }
  unfold pitzer_fn. cbv zeta. rewrite HA. cbn [bind]. rewrite (state_I reactions rho eps hard mx pz Hmx Hpz x T P Hx), (state_m reactions rho eps hard mx Hmx x T P Hx).
  assert (F : computeF pz A (xI mx pz x) T (xm mx x) = Err).
  { unfold computeF. rewrite Ec. cbn [length pairsM sumM Nat.sub Nat.add bind]. unfold Phi_prime_cc. rewrite Z0, Z1, TP. reflexivity. }
  rewrite Ec. cbn [length setM bind]. unfold lnCation. rewrite F. reflexivity.
Qed.
Print Assumptions C110_strong_refuted.
Lemma hard_solution_pos : forall i, (i < 4)%nat -> 0 < dilution 4 0 hard_molality 1 i.
Proof.
  destruct (mixture_of [] (fun _ _ => 1) (fun _ _ => 1) hard 0) as (mx & E & W & _); [vm_compute; reflexivity|].
  destruct (dilution_path _ _ _ _ _ E hard_molality 1) as [path' C]; [rewrite W; exact hard_pos|lra|]. rewrite W in C. apply C.
Qed.
Lemma hard_ionic : ionic_strength hard 0 (dilution 4 0 hard_molality 1) = 1.
Proof.
  destruct (mixture_of [] (fun _ _ => 1) (fun _ _ => 1) hard 0) as (mx & E & W & _); [vm_compute; reflexivity|]. destruct (pitzerParams_ok mx) as [pz Hpz].
  pose proof (strength_value _ _ _ _ _ _ (dilution 4 0 hard_molality 1) E Hpz) as S. rewrite W in S. rewrite <- S.
  change (xI mx pz (dilution 4 0 hard_molality 1)) with (rI mx pz (fun s => dilution 4 0 hard_molality 1) 1).
  transitivity (rI mx pz (dilution 4 0 hard_molality) 1); [reflexivity|]. assert (Hm' : forall i, (i < length hard)%nat -> i <> mx_water mx -> 0 < hard_molality i) by (rewrite W; exact hard_pos).
  pose proof (rI_dilution _ _ _ hard mx pz E Hpz hard_molality Hm' 1 Rlt_0_1) as R1. rewrite W in R1. change (length hard) with 4%nat in R1. rewrite R1, (hard_strength _ _ _ _ _ E Hpz). lra.
Qed.
Example C110_nonvacuous : exists f, pitzer (fun _ _ => Ok 0.39147278) hmw (mkAqueousMixture [] (fun _ _ => 1) (fun _ _ => 1)) hard = Ok f /\ has_ions hard /\ indexWithFormula hard $"H2O" = Ok 0%nat /\
  (forall i, (i < length hard)%nat -> 0 < dilution 4 0 hard_molality 1 i) /\
  (forall s, In s hard -> 6 * Q2R (sp_charge s) ^ 2 * 0.39147278 * sqrt (ionic_strength hard 0 (dilution 4 0 hard_molality 1)) <= 10000).
Proof.
  destruct (pitzer_ok [] (fun _ _ => 1) (fun _ _ => 1) (fun _ _ => Ok 0.39147278) hard 0) as [f Hf]; [vm_compute; reflexivity|]. exists f. split; [exact Hf|].
  split; [split; [exists aNa|exists aCl]; (split; [cbn; auto|reflexivity])|]. split; [vm_compute; reflexivity|]. split; [exact hard_solution_pos|]. rewrite hard_ionic, sqrt_1.
  intros s Hs. destruct Hs as [<-|[<-|[<-|[<-|[]]]]]; cbn; unfold Q2R; cbn; lra.
Qed.

(* ---- C111: activities do not jump ---- *)
Definition activity (f : ActivityFn) (T P : R) (p : Props * Extra) (x : nat -> R) (i : nat) : R := match f T P x p with Ok (q, _) => ln_a q i | _ => 0 end.
Definition C111_statement : Prop := forall reactions rho eps Aphi l f T P p path path' t, pitzer Aphi hmw (mkAqueousMixture reactions rho eps) l = Ok f ->
  has_ions l -> composition_path (length l) path path' t -> locally t (fun s => exists q e, f T P (path s) p = Ok (q, e)) ->
  forall i, (i < length l)%nat -> continuous (fun s => activity f T P p (path s) i) t.
(* Between the points of the tables, in the arguments for two ions of one sign and
   different charges. *)
Definition between_points (l : list Species) (A I : R) : Prop := forall s s', In s l -> In s' l -> (is_cation s /\ is_cation s') \/ (is_anion s /\ is_anion s') ->
  let z := Q2R (sp_charge s) in let z' := Q2R (sp_charge s') in z <> z' -> off_grid (6 * z * z' * A * sqrt I) /\ off_grid (6 * z * z * A * sqrt I) /\ off_grid (6 * z' * z' * A * sqrt I).
Theorem C111_between_partial : forall reactions rho eps Aphi l f T P A p w path path' t, pitzer Aphi hmw (mkAqueousMixture reactions rho eps) l = Ok f -> Aphi T P = Ok A ->
  has_ions l -> indexWithFormula l $"H2O" = Ok w -> composition_path (length l) path path' t -> between_points l A (ionic_strength l w (path t)) ->
  forall i, (i < length l)%nat -> continuous (fun s => activity f T P p (path s) i) t.
Proof.
  intros reactions rho eps Aphi l f T P A p w path path' t Hf HA Hi Hw Hp Hb i Li. destruct (pitzer_inv _ _ _ _ _ _ _ Hf) as (mx & pz & Hmx & Hpz & ->).
  destruct (some_ions _ _ _ _ _ _ Hmx Hpz Hi) as [Hc Ha]. assert (Ew : mx_water mx = w) by (destruct (mx_inv _ _ _ _ _ Hmx) as (W & _); congruence).
  pose proof (strength_value _ _ _ _ _ _ (path t) Hmx Hpz) as EI. rewrite Ew in EI. change (xI mx pz (path t)) with (rI mx pz path t) in EI. rewrite <- EI in Hb.
  assert (Oc : forall i j, (i < length (pz_cations pz))%nat -> (j < length (pz_cations pz))%nat -> off_pair A (rI mx pz path t) (z_c pz i) (z_c pz j)).
  { intros a b La Lb. destruct (cation_is _ _ _ _ _ _ Hmx Hpz a La) as (s & Hs & C & -> & _). destruct (cation_is _ _ _ _ _ _ Hmx Hpz b Lb) as (s' & Hs' & C' & -> & _). exact (Hb s s' Hs Hs' (or_introl (conj C C'))). }
  assert (Oa : forall i j, (i < length (pz_anions pz))%nat -> (j < length (pz_anions pz))%nat -> off_pair A (rI mx pz path t) (z_a pz i) (z_a pz j)).
  { intros a b La Lb. destruct (anion_is _ _ _ _ _ _ Hmx Hpz a La) as (s & Hs & C & -> & _). destruct (anion_is _ _ _ _ _ _ Hmx Hpz b Lb) as (s' & Hs' & C' & -> & _). exact (Hb s s' Hs Hs' (or_intror (conj C C'))). }
  destruct (mixing_residual _ _ _ _ _ _ Hmx Hpz path path' t Aphi T P A p Hp HA Hc Ha (conj Oc Oa)) as (a & d & L & D & _).
  apply (continuous_ext_loc _ (fun s => a s i) t).
  - revert L. apply filter_imp. intros s (q & e & E & V). unfold activity. rewrite E. symmetry. apply V.
  - apply (ex_derive_continuous (V := R_NormedModule)). eexists. apply D, Li.
Qed.
Print Assumptions C111_between_partial.
(* In particular there are no jumps when the ions of one sign have one charge. *)
Theorem C111_equal_charges_partial : forall reactions rho eps Aphi l f T P A p path path' t, pitzer Aphi hmw (mkAqueousMixture reactions rho eps) l = Ok f -> Aphi T P = Ok A ->
  has_ions l -> composition_path (length l) path path' t -> equal_charges l ->
  forall i, (i < length l)%nat -> continuous (fun s => activity f T P p (path s) i) t.
Proof.
  intros reactions rho eps Aphi l f T P A p path path' t Hf HA Hi Hp He. destruct (pitzer_inv _ _ _ _ _ _ _ Hf) as (mx & pz & Hmx & _ & _).
  refine (C111_between_partial _ _ _ _ _ _ T P A p (mx_water mx) path path' t Hf HA Hi (proj1 (mx_inv _ _ _ _ _ Hmx)) Hp _).
  intros s s' Hs Hs' H z z' N. exfalso. apply N. apply Qeq_eqR, He; assumption.
Qed.
Print Assumptions C111_equal_charges_partial.

(* Sodium and calcium chloride at an ionic strength where 24 A sqrt(I) = 9.5. *)
Definition step (k : nat) : R := Q2R (nth 37 J1region2 0%Q) - 0.5 * Q2R (nth 13 J1region2 0%Q) - 0.5 * Q2R (nth k J1region2 0%Q).
Lemma hard_theta A I k : 0 < I -> (k = 84 \/ k = 85)%nat -> 1 + INR k / 10 <= 24 * A * sqrt I < 1 + INR (S k) / 10 ->
  exists e d, thetaE A I 1 2 = Ok e /\ thetaE_prime A I 1 2 = Ok d /\ e + I * d = 2 / (8 * I) * step k.
Proof.
  intros HI Hk Hy. assert (B : 9.4 <= 24 * A * sqrt I < 9.6 /\ (k < 90)%nat).
  { split; [|lia]. destruct Hk as [->| ->]; revert Hy; inrs; lra. }
  destruct B as [B Lk]. destruct (J_second (6 * 1 * 2 * A * sqrt I) 37) as [E1 F1]; [lia|lra|inrs; lra|]. destruct (J_second (6 * 1 * 1 * A * sqrt I) 13) as [E2 F2]; [lia|lra|inrs; lra|].
  destruct (J_second (6 * 2 * 2 * A * sqrt I) k) as [E3 F3]; [exact Lk|lra|lra|].
  destruct (theta_value A I 1 2 _ _ _ _ _ _ E1 E2 E3 F1 F2 F3) as [E F]; [lra|]. do 2 eexists. split; [exact E|]. split; [exact F|]. unfold step.
  generalize (Q2R (nth 37 J1region2 0%Q)) (Q2R (nth 13 J1region2 0%Q)) (Q2R (nth k J1region2 0%Q)) (Q2R (nth 37 J0region2 0%Q)) (Q2R (nth 13 J0region2 0%Q)) (Q2R (nth k J0region2 0%Q)). intros. field. lra.
Qed.
Section Jump.
Variables (reactions : list Dissociation) (rho eps : R -> R -> R) (mx : Mixture) (pz : PitzerParams) (Aphi : R -> R -> outcome R) (T P A : R) (p : Props * Extra).
Hypotheses (Hmx : mkAqueousMixture reactions rho eps hard = Ok mx) (Hpz : pitzerParams hmw mx = Ok pz) (HA : Aphi T P = Ok A) (A0 : 0 < A).
Let path := dilution 4 0 hard_molality.
Definition branch (c s : R) : R := - Mw * ((Sum 4 (mol mx path s) - mol mx path s 0) + 2 * osmotic_value pz A (rI mx pz path s) T (mol mx path s) (fun _ _ => 0) (fun _ _ => 2 / (8 * rI mx pz path s * rI mx pz path s) * c) (fun _ _ => 0) (fun _ _ => 0)).
Lemma hard_positive s : 0 < s -> (forall i, (i < 4)%nat -> 0 < path s i) /\ rI mx pz path s = s /\ (exists path', composition_path 4 path path' s) /\ (forall i, i <> 0%nat -> mol mx path s i = s * hard_molality i).
Proof.
  intros Hs. destruct (hard_charges _ _ _ _ _ Hmx Hpz) as (Ew & _). assert (Hm' : forall i, (i < length hard)%nat -> i <> mx_water mx -> 0 < hard_molality i) by (rewrite Ew; exact hard_pos).
  destruct (dilution_path _ _ _ _ _ Hmx hard_molality s Hm' Hs) as [path' C]. pose proof (rI_dilution _ _ _ hard mx pz Hmx Hpz hard_molality Hm' s Hs) as R1. pose proof (mol_dilution hard mx hard_molality Hm' s) as MD. rewrite Ew in C, R1, MD. change (length hard) with 4%nat in *.
  split; [apply C|]. split; [unfold path; rewrite R1, (hard_strength _ _ _ _ _ Hmx Hpz); ring|]. split; [exists path'; exact C|]. intros i Hi. apply MD; assumption.
Qed.
Lemma hard_water s k : 0 < s -> (k = 84 \/ k = 85)%nat -> 1 + INR k / 10 <= 24 * A * sqrt s < 1 + INR (S k) / 10 ->
  (exists q e, pitzer_fn Aphi mx pz T P (path s) p = Ok (q, e)) /\ activity (pitzer_fn Aphi mx pz) T P p (path s) 0 = branch (step k) s.
Proof.
  intros Hs Hk Hy. destruct (hard_positive s Hs) as (Hx & EI & _ & _). destruct (hard_charges _ _ _ _ _ Hmx Hpz) as (Ew & Ec & Ea & En & Z0 & Z1 & Z2). destruct (ions_sign _ _ _ _ _ _ Hmx Hpz) as [Sc Sa].
  assert (B : 24 * A * sqrt s < 9.6) by (destruct Hk as [->| ->]; revert Hy; inrs; lra). assert (Q : 0 <= A * sqrt s) by (apply Rmult_le_pos; [lra|apply sqrt_pos]).
  assert (EX : xI mx pz (path s) = s) by exact EI.
  destruct (at_value _ _ _ _ _ _ Hmx Hpz (path s) Aphi T P A p Hx HA) as (q & E & _ & _ & _ & _ & V & _).
  - rewrite Ec. cbn. lia.
  - rewrite Ea. cbn. lia.
  - rewrite Ec. cbn [length]. intros i j Hi Hj. unfold pair_defined. rewrite EX. apply theta_defined; destruct i as [|[|i]], j as [|[|j]]; try lia; rewrite ?Z0, ?Z1; lra.
  - rewrite Ea. cbn [length]. intros i j Hi Hj. unfold pair_defined. rewrite EX. apply theta_defined; destruct i as [|i], j as [|j]; try lia; rewrite ?Z2; lra.
  - split; [eauto|]. unfold activity. rewrite E. rewrite Ew in V. rewrite V. unfold branch. f_equal. f_equal. f_equal. change (xI mx pz (path s)) with (rI mx pz path s). change (xm mx (path s)) with (mol mx path s). apply osmotic_ext.
    + rewrite Ec. cbn [length]. intros i j Hi Hj. assert (i = 0%nat /\ j = 1%nat) as [-> ->] by lia. unfold tC, uC. rewrite EX, Z0, Z1, EI.
      destruct (hard_theta A s k Hs Hk Hy) as (e & d & -> & -> & Es). cbn [val]. rewrite Es. field. lra.
    + rewrite Ea. cbn [length]. intros i j Hi Hj. lia.
Qed.
Lemma branch_continuous c s : 0 < s -> continuous (branch c) s.
Proof.
  intros Hs. destruct (hard_positive s Hs) as (Hx & EI & (path' & C) & _). destruct (hard_charges _ _ _ _ _ Hmx Hpz) as (Ew & Ec & Ea & En & _).
  assert (Hc : (0 < length (pz_cations pz))%nat) by (rewrite Ec; cbn; lia). assert (Ha : (0 < length (pz_anions pz))%nat) by (rewrite Ea; cbn; lia).
  apply (ex_derive_continuous (V := R_NormedModule)). pose proof (smooth_total reactions rho eps hard mx Hmx path path' s C) as ST. rewrite Ew in ST. change (length hard) with 4%nat in ST.
  pose proof (d_rI reactions rho eps hard mx pz Hmx Hpz path path' s C) as DI.
  pose proof (smooth_osmotic reactions rho eps hard mx pz Hmx Hpz path path' s T A C Hc (fun _ _ _ => 0) (fun _ _ s => 2 / (8 * rI mx pz path s * rI mx pz path s) * c) (fun _ _ _ => 0) (fun _ _ _ => 0)) as SO.
  unfold branch. apply (exd_mul (fun _ => - Mw)); [apply exd_const|]. apply (exd_add (fun s => Sum 4 (mol mx path s) - mol mx path s 0)); [exact ST|]. apply (exd_mul (fun _ => 2)); [apply exd_const|].
  apply SO; intros; try apply exd_const. eexists. apply d_mul; [apply d_div; [apply d_const|apply d_mul; [apply d_mul; [apply d_const|exact DI]|exact DI]|]|apply d_const]. cbv beta. rewrite EI. repeat apply Rmult_integral_contrapositive_currified; lra.
Qed.
Lemma branch_differ c c' s : 0 < s -> branch c s = branch c' s -> c = c'.
Proof.
  intros Hs E. destruct (hard_positive s Hs) as (_ & EI & _ & Em). destruct (hard_charges _ _ _ _ _ Hmx Hpz) as (Ew & Ec & Ea & En & _). pose proof Mw_pos.
  assert (S : forall c, osmotic_value pz A (rI mx pz path s) T (mol mx path s) (fun _ _ => 0) (fun _ _ => 2 / (8 * rI mx pz path s * rI mx pz path s) * c) (fun _ _ => 0) (fun _ _ => 0) =
    osmotic_value pz A (rI mx pz path s) T (mol mx path s) (fun _ _ => 0) (fun _ _ => 0) (fun _ _ => 0) (fun _ _ => 0) + 0.02 * s * c).
  { intros k. unfold osmotic_value, vS. rewrite Ec, Ea, En. cbn [length Pairs Sum]. assert (M1 : m_c pz (mol mx path s) 0 = 0.4 * s) by (unfold m_c; rewrite Ec; cbn [nth]; rewrite Em by lia; cbn; ring). assert (M2 : m_c pz (mol mx path s) 1 = 0.2 * s) by (unfold m_c; rewrite Ec; cbn [nth]; rewrite Em by lia; cbn; ring).
    rewrite M1, M2, EI. replace 0.4 with (2 / 5) by lra. replace 0.2 with (1 / 5) by lra. replace 0.02 with (1 / 50) by lra. field. split; [|lra]. pose proof (sqrt_pos s). lra. }
  unfold branch in E. rewrite (S c), (S c') in E. assert (0.02 * s * c = 0.02 * s * c') as E'.
  { apply (Rmult_eq_reg_l (- Mw * 2)); [|lra]. lra. }
  apply (Rmult_eq_reg_l (0.02 * s)); [exact E'|lra].
Qed.
Lemma hard_jump t : t = (9.5 / (24 * A)) ^ 2 -> ~ continuous (fun s => activity (pitzer_fn Aphi mx pz) T P p (path s) 0) t /\ locally t (fun s => exists q e, pitzer_fn Aphi mx pz T P (path s) p = Ok (q, e)).
Proof.
  intros Et. assert (Rt : 0 < 9.5 / (24 * A)) by (apply Rdiv_lt_0_compat; lra). assert (Tp : 0 < t) by (rewrite Et; apply pow_lt, Rt).
  assert (Sq : sqrt t = 9.5 / (24 * A)) by (rewrite Et; apply sqrt_pow2; lra). assert (Y : 24 * A * sqrt t = 9.5) by (rewrite Sq; field; lra).
  assert (Cs : continuous (fun s => 24 * A * sqrt s) t) by (apply (ex_derive_continuous (V := R_NormedModule)); eexists; apply d_mul; [apply d_const|exact (d_sqrt (fun s => s) t 1 (d_id t) Tp)]).
  assert (N : locally t (fun s => 0 < s /\ 9.4 < 24 * A * sqrt s < 9.6)).
  { apply filter_and; [exact (open_gt 0 t Tp)|]. apply (Cs (fun y => 9.4 < y < 9.6)). rewrite Y. apply filter_and; [apply open_gt; lra|apply open_lt; lra]. }
  split.
  - intros C. destruct (hard_water t 85 Tp (or_intror eq_refl)) as [_ V]; [inrs; lra|].
    pose proof (left_limit _ (branch (step 84)) t C (branch_continuous (step 84) t Tp)) as L. cbv beta in L. rewrite V in L.
    assert (branch (step 85) t = branch (step 84) t) as E.
    { apply L. destruct N as [d Hd]. exists d. split; [apply cond_pos|]. intros s Hs. destruct (Hd s) as [S0 S1].
      { unfold ball. cbn. unfold AbsRing_ball, abs, minus, plus, opp. cbn. rewrite Rabs_left; lra. }
      apply hard_water; [exact S0|left; reflexivity|]. assert (sqrt s < sqrt t) by (apply sqrt_lt_1; lra). assert (24 * A * sqrt s < 24 * A * sqrt t) by (apply Rmult_lt_compat_l; lra). inrs. lra. }
    apply branch_differ in E; [|exact Tp]. revert E. unfold step. generalize (Q2R (nth 37 J1region2 0%Q)) (Q2R (nth 13 J1region2 0%Q)). intros a b. cbn. unfold Q2R. cbn. lra.
  - revert N. apply filter_imp. intros s [S0 S1]. destruct (Rlt_le_dec (24 * A * sqrt s) 9.5) as [H|H].
    + apply (hard_water s 84 S0 (or_introl eq_refl)). inrs. lra.
    + apply (hard_water s 85 S0 (or_intror eq_refl)). inrs. lra.
Qed.
End Jump.
Theorem C111_jump_refuted : forall reactions rho eps Aphi f T P A p, pitzer Aphi hmw (mkAqueousMixture reactions rho eps) hard = Ok f -> Aphi T P = Ok A -> 0 < A ->
  let t := (9.5 / (24 * A)) ^ 2 in let path := dilution 4 0 hard_molality in
  locally t (fun s => exists q e, f T P (path s) p = Ok (q, e)) /\ ~ continuous (fun s => activity f T P p (path s) 0) t.
Proof.
  intros reactions rho eps Aphi f T P A p Hf HA A0 t path. destruct (pitzer_inv _ _ _ _ _ _ _ Hf) as (mx & pz & Hmx & Hpz & ->).
  destruct (hard_jump _ _ _ mx pz Aphi T P A p Hmx Hpz HA A0 t eq_refl) as [C L]. split; assumption.
Qed.
Print Assumptions C111_jump_refuted.
Theorem C111_refuted : ~ C111_statement.
Proof.
  intros H. destruct (pitzer_ok [] (fun _ _ => 1) (fun _ _ => 1) (fun _ _ => Ok 1) hard 0) as [f Hf]; [vm_compute; reflexivity|].
  destruct (C111_jump_refuted _ _ _ _ _ 298.15 100000 1 (constProps 0, None) Hf eq_refl Rlt_0_1) as [L C]. cbv zeta in L, C. apply C.
  destruct (mixture_of [] (fun _ _ => 1) (fun _ _ => 1) hard 0) as (mx & E & W & _); [vm_compute; reflexivity|].
  destruct (dilution_path _ _ _ _ _ E hard_molality ((9.5 / (24 * 1)) ^ 2)) as [path' Cp]; [rewrite W; exact hard_pos|apply pow_lt; lra|]. rewrite W in Cp.
  refine (H _ _ _ _ _ _ 298.15 100000 _ _ path' _ Hf _ Cp L 0%nat _); [|cbn; lia].
  split; [exists aNa|exists aCl]; (split; [cbn; auto|reflexivity]).
Qed.
Print Assumptions C111_refuted.
Example C111_nonvacuous : exists f path', pitzer (fun _ _ => Ok 0.39147278) hmw (mkAqueousMixture [] (fun _ _ => 1) (fun _ _ => 1)) hard = Ok f /\ has_ions hard /\ indexWithFormula hard $"H2O" = Ok 0%nat /\
  composition_path 4 (dilution 4 0 hard_molality) path' 1 /\ between_points hard 0.39147278 (ionic_strength hard 0 (dilution 4 0 hard_molality 1)) /\ ~ equal_charges hard.
Proof.
  destruct (pitzer_ok [] (fun _ _ => 1) (fun _ _ => 1) (fun _ _ => Ok 0.39147278) hard 0) as [f Hf]; [vm_compute; reflexivity|].
  destruct (mixture_of [] (fun _ _ => 1) (fun _ _ => 1) hard 0) as (mx & E & W & _); [vm_compute; reflexivity|].
  destruct (dilution_path _ _ _ _ _ E hard_molality 1) as [path' C]; [rewrite W; exact hard_pos|lra|]. rewrite W in C.
  exists f, path'. split; [exact Hf|]. split; [split; [exists aNa|exists aCl]; (split; [cbn; auto|reflexivity])|]. split; [vm_compute; reflexivity|]. split; [exact C|]. split.
  - rewrite hard_ionic. intros s s' Hs Hs' H z z' N. rewrite sqrt_1.
    assert (G : forall k, (k = 23 \/ k = 46 \/ k = 93)%nat -> forall x, INR k < 10 * x < INR (S k) -> off_grid x).
    { intros k Hk x Hx. right. left. split; [destruct Hk as [->|[->| ->]]; revert Hx; inrs; lra|]. exact (between k _ Hx). }
    assert (Z1 : Q2R (sp_charge aNa) = 1) by (cbn; unfold Q2R; cbn; lra). assert (Z2 : Q2R (sp_charge aCa) = 2) by (cbn; unfold Q2R; cbn; lra).
    unfold is_cation, is_anion in H. unfold z, z' in *. destruct Hs as [<-|[<-|[<-|[<-|[]]]]], Hs' as [<-|[<-|[<-|[<-|[]]]]]; try (exfalso; apply N; reflexivity); try (exfalso; cbn in H; destruct H as [[H K]|[H K]]; first [discriminate H|discriminate K]).
    + rewrite Z1, Z2. split; [apply (G 46%nat); [auto|inrs; lra]|split; [apply (G 23%nat)|apply (G 93%nat)]; auto; inrs; lra].
    + rewrite Z1, Z2. split; [apply (G 46%nat); [auto|inrs; lra]|split; [apply (G 93%nat)|apply (G 23%nat)]; auto; inrs; lra].
  - intros H. assert (F : Qeq 1 2). { apply (H aNa aCa); [cbn; auto|cbn; auto|left; split; reflexivity]. } discriminate F.
Qed.
