(* C109: the Pitzer activity model. *)
From Coq Require Import Reals Qreals List Bool Lia Lra Permutation.
From Coquelicot Require Import Coquelicot.
Import ListNotations.
From Verif Require Import Base M_Strings M_Formula M_Chem M_System M_Registry M_CubicEOS P_Helmholtz P_CubicEOS M_Aqueous S_Activity P_Aqueous P_Activity M_Pitzer P_PitzerSum P_Pitzer P_PitzerFn P_PitzerDuhem P_PitzerJ P_PitzerMix C_Aqueous C_Activity.
Local Open Scope R_scope.

(* ---- What the properties are about ---- *)
Definition is_cation (s : Species) : Prop := Qlt 0 (sp_charge s).
Definition is_anion (s : Species) : Prop := Qlt (sp_charge s) 0.
Definition has_ions (l : list Species) : Prop := (exists s, In s l /\ is_cation s) /\ (exists s, In s l /\ is_anion s).
(* All cations have one charge and all anions have one charge. *)
Definition equal_charges (l : list Species) : Prop := forall s s', In s l -> In s' l ->
  (is_cation s /\ is_cation s') \/ (is_anion s /\ is_anion s') -> Qeq (sp_charge s) (sp_charge s').
(* The species among l with formula written x. *)
Definition written (l : list Species) (x : str) : Prop := exists s, In s l /\ cf_str (formula s) = x.
Definition triplets : list (str * str * str) := [($"B(OH)3", $"Cl-", $"H+"); ($"B(OH)3", $"Na+", $"SO4--"); ($"CO2", $"Na+", $"SO4--")].
Definition no_triplet (l : list Species) : Prop := forall x y z, In (x, y, z) triplets -> ~ (written l x /\ written l y /\ written l z).

(* ---- Lemmas ---- *)
Lemma pitzer_inv Aphi data reactions rho eps l f : pitzer Aphi data (mkAqueousMixture reactions rho eps) l = Ok f ->
  exists mx pz, mkAqueousMixture reactions rho eps l = Ok mx /\ pitzerParams data mx = Ok pz /\ f = pitzer_fn Aphi mx pz.
Proof.
  unfold pitzer. destruct (mkAqueousMixture reactions rho eps l) as [mx| |]; try discriminate. cbn [bind]. destruct (pitzerParams data mx) as [pz| |] eqn:Ep; try discriminate.
  cbn [omap bind]. intros E. injection E as <-. exists mx, pz. auto.
Qed.
Section Lists.
Variables (reactions : list Dissociation) (rho eps : R -> R -> R) (l : list Species) (mx : Mixture) (pz : PitzerParams).
Hypotheses (Hmx : mkAqueousMixture reactions rho eps l = Ok mx) (Hpz : pitzerParams hmw mx = Ok pz).
Lemma ion_not_water i s : nth_error l i = Some s -> ~ Qeq (sp_charge s) 0 -> i <> mx_water mx.
Proof.
  intros E N ->. apply N. pose proof (water_uncharged _ _ _ _ _ Hmx) as W. unfold charge_at, species_at in W. rewrite (nth_error_nth _ _ _ E) in W.
  rewrite <- RMicromega.Q2R_0 in W. apply eqR_Qeq, W.
Qed.
Lemma some_ions : has_ions l -> (0 < length (pz_cations pz))%nat /\ (0 < length (pz_anions pz))%nat.
Proof.
  intros [(s & Hs & C) (s' & Hs' & C')]. destruct (pitzerParams_inv _ _ _ Hpz) as (_ & _ & -> & -> & _). destruct (mx_inv _ _ _ _ _ Hmx) as (_ & _ & _ & _ & -> & -> & _). split.
  - destruct (In_nth_error _ _ Hs) as [i Ei]. assert (In i (pick (P_Aqueous.is_cation (mx_water mx)) 0 l)) as H.
    { apply pick_in. split; [lia|]. exists s. rewrite Nat.sub_0_r. split; [exact Ei|]. unfold P_Aqueous.is_cation. assert (Q : ~ Qeq (sp_charge s) 0) by (intros Z; unfold is_cation in C; rewrite Z in C; discriminate).
      destruct (Nat.eqb_spec i (mx_water mx)) as [E|_]; [exfalso; exact (ion_not_water _ _ Ei Q E)|]. cbn. 
      destruct (Qeq_bool (sp_charge s) 0) eqn:F; [apply Qeq_bool_eq in F; contradiction|]. cbn. unfold Qltb. apply negb_true_iff. destruct (Qle_bool _ _) eqn:G; [|reflexivity]. apply Qle_bool_iff in G. exfalso. exact (QArith_base.Qlt_not_le _ _ C G). }
    destruct (pick _ _ _); [destruct H|cbn; lia].
  - destruct (In_nth_error _ _ Hs') as [i Ei]. assert (In i (pick (P_Aqueous.is_anion (mx_water mx)) 0 l)) as H.
    { apply pick_in. split; [lia|]. exists s'. rewrite Nat.sub_0_r. split; [exact Ei|]. unfold P_Aqueous.is_anion. assert (Q : ~ Qeq (sp_charge s') 0) by (intros Z; unfold is_anion in C'; rewrite Z in C'; discriminate).
      destruct (Nat.eqb_spec i (mx_water mx)) as [E|_]; [exfalso; exact (ion_not_water _ _ Ei Q E)|]. cbn.
      destruct (Qeq_bool (sp_charge s') 0) eqn:F; [apply Qeq_bool_eq in F; contradiction|]. cbn. rewrite negb_true_iff. unfold Qltb. apply negb_false_iff. apply Qle_bool_iff. apply QArith_base.Qlt_le_weak, C'. }
    destruct (pick _ _ _); [destruct H|cbn; lia].
Qed.
Lemma cation_is i : (i < length (pz_cations pz))%nat -> exists s, In s l /\ is_cation s /\ z_c pz i = Q2R (sp_charge s) /\ nth i (map (fun i => formula (species_at (mx_species mx) i)) (mx_cations mx)) (formula noSpecies) = formula s.
Proof.
  unfold z_c. destruct (pitzerParams_inv _ _ _ Hpz) as (_ & _ & -> & _ & ->). destruct (mx_inv _ _ _ _ _ Hmx) as (_ & -> & _ & _ & Ec & _). intros Hi.
  pose proof (nth_In _ O Hi) as H. set (k := nth i (mx_cations mx) O) in *. rewrite Ec in H. apply pick_in in H. rewrite Nat.sub_0_r in H. destruct H as (_ & s & E & H). unfold P_Aqueous.is_cation in H. rewrite !andb_true_iff in H.
  exists s. split; [exact (nth_error_In _ _ E)|]. split; [|split].
  - destruct H as [_ H]. unfold Qltb in H. apply negb_true_iff in H. unfold is_cation. apply QArith_base.Qnot_le_lt. intros G. apply Qle_bool_iff in G. congruence.
  - unfold charge_at, species_at. rewrite (nth_error_nth _ _ _ E). reflexivity.
  - rewrite nth_indep with (d' := formula (species_at l O)) by (rewrite map_length; exact Hi). rewrite (map_nth (fun i => formula (species_at l i))). fold k. unfold species_at. rewrite (nth_error_nth _ _ _ E). reflexivity.
Qed.
Lemma anion_is i : (i < length (pz_anions pz))%nat -> exists s, In s l /\ is_anion s /\ z_a pz i = Q2R (sp_charge s) /\ nth i (map (fun i => formula (species_at (mx_species mx) i)) (mx_anions mx)) (formula noSpecies) = formula s.
Proof.
  unfold z_a. destruct (pitzerParams_inv _ _ _ Hpz) as (_ & _ & _ & -> & ->). destruct (mx_inv _ _ _ _ _ Hmx) as (_ & -> & _ & _ & _ & Ea & _). intros Hi.
  pose proof (nth_In _ O Hi) as H. set (k := nth i (mx_anions mx) O) in *. rewrite Ea in H. apply pick_in in H. rewrite Nat.sub_0_r in H. destruct H as (_ & s & E & H). unfold P_Aqueous.is_anion in H. rewrite !andb_true_iff in H.
  exists s. split; [exact (nth_error_In _ _ E)|]. split; [|split].
  - destruct H as [[_ N] H]. rewrite negb_true_iff in H, N. unfold Qltb in H. apply negb_false_iff in H. apply Qle_bool_iff in H. unfold is_anion. apply QArith_base.Qle_lteq in H. destruct H as [H|H]; [exact H|]. apply Qeq_bool_iff in H. congruence.
  - unfold charge_at, species_at. rewrite (nth_error_nth _ _ _ E). reflexivity.
  - rewrite nth_indep with (d' := formula (species_at l O)) by (rewrite map_length; exact Hi). rewrite (map_nth (fun i => formula (species_at l i))). fold k. unfold species_at. rewrite (nth_error_nth _ _ _ E). reflexivity.
Qed.
Lemma neutral_is i : (i < length (pz_neutrals pz))%nat -> exists s, In s l /\ nth i (map (fun i => formula (species_at (mx_species mx) i)) (mx_neutral mx)) (formula noSpecies) = formula s.
Proof.
  destruct (pitzerParams_inv _ _ _ Hpz) as (-> & _). destruct (mx_inv _ _ _ _ _ Hmx) as (_ & -> & En & _). intros Hi.
  pose proof (nth_In _ O Hi) as H. set (k := nth i (mx_neutral mx) O) in *. rewrite En in H. apply pick_in in H. rewrite Nat.sub_0_r in H. destruct H as (_ & s & E & _).
  exists s. split; [exact (nth_error_In _ _ E)|].
  rewrite nth_indep with (d' := formula (species_at l O)) by (rewrite map_length; exact Hi). rewrite (map_nth (fun i => formula (species_at l i))). fold k. unfold species_at. rewrite (nth_error_nth _ _ _ E). reflexivity.
Qed.
Lemma equal_off A I : equal_charges l -> (forall i j, (i < length (pz_cations pz))%nat -> (j < length (pz_cations pz))%nat -> off_pair A I (z_c pz i) (z_c pz j) /\ mix J1 A I (z_c pz i) (z_c pz j) = 0) /\
  (forall i j, (i < length (pz_anions pz))%nat -> (j < length (pz_anions pz))%nat -> off_pair A I (z_a pz i) (z_a pz j) /\ mix J1 A I (z_a pz i) (z_a pz j) = 0).
Proof.
  intros E. split; intros i j Hi Hj.
  - destruct (cation_is i Hi) as (s & Hs & C & -> & _). destruct (cation_is j Hj) as (s' & Hs' & C' & -> & _). rewrite (Qeq_eqR _ _ (E s s' Hs Hs' (or_introl (conj C C')))). split; [intros N; contradiction|apply mix_same].
  - destruct (anion_is i Hi) as (s & Hs & C & -> & _). destruct (anion_is j Hj) as (s' & Hs' & C' & -> & _). rewrite (Qeq_eqR _ _ (E s s' Hs Hs' (or_intror (conj C C')))). split; [intros N; contradiction|apply mix_same].
Qed.
Lemma no_zeta : no_triplet l -> forall n c a, (n < length (pz_neutrals pz))%nat -> (c < length (pz_cations pz))%nat -> (a < length (pz_anions pz))%nat -> pz_zeta pz n c a = 0.
Proof.
  intros NT n c a Hn Hc Ha. destruct (pitzerParams_tables _ _ _ Hpz) as (_ & _ & _ & _ & _ & _ & Z). cbv zeta in Z. rewrite Z.
  destruct (neutral_is n Hn) as (s1 & H1 & ->). destruct (cation_is c Hc) as (s2 & H2 & _ & _ & ->). destruct (anion_is a Ha) as (s3 & H3 & _ & _ & ->).
  assert (G : forall x y z, In (x, y, z) triplets -> same_text [x; y; z] [formula s1; formula s2; formula s3] = false).
  { intros x y z Hin. destruct (same_text _ _) eqn:E; [|reflexivity]. exfalso. apply same_text_spec in E. destruct E as [_ E]. apply (NT x y z Hin).
    assert (W : forall u, In u [x; y; z] -> written l u). { intros u Hu. apply E in Hu. cbn in Hu. destruct Hu as [<-|[<-|[<-|[]]]]; [exists s1|exists s2|exists s3]; auto. }
    split; [|split]; apply W; cbn; auto. }
  change (d_zeta hmw) with zeta_data. unfold zeta_data. cbn [tripletParam]. rewrite !G; [reflexivity| | |]; cbn; auto.
Qed.
End Lists.

(* ---- C109 ---- *)
(* Whenever the activities are differentiable along a path of compositions, they
   satisfy the Gibbs-Duhem equation. *)
Definition C109_statement : Prop := forall reactions rho eps Aphi l f T P A p path path' t r, pitzer Aphi hmw (mkAqueousMixture reactions rho eps) l = Ok f -> Aphi T P = Ok A ->
  has_ions l -> composition_path (length l) path path' t -> duhem_residual f (length l) T P p path t r -> r = 0.
Theorem C109_equal_charges_partial : forall reactions rho eps Aphi l f T P A p path path' t, pitzer Aphi hmw (mkAqueousMixture reactions rho eps) l = Ok f -> Aphi T P = Ok A ->
  has_ions l -> composition_path (length l) path path' t -> equal_charges l -> no_triplet l -> GibbsDuhem f (length l) T P p path t.
Proof.
  intros reactions rho eps Aphi l f T P A p path path' t Hf HA Hi Hp He Ht. destruct (pitzer_inv _ _ _ _ _ _ _ Hf) as (mx & pz & Hmx & Hpz & ->).
  destruct (some_ions _ _ _ _ _ _ Hmx Hpz Hi) as [Hc Ha]. destruct (equal_off _ _ _ _ _ _ Hmx Hpz A (rI mx pz path t) He) as [Oc Oa].
  pose proof (mixing_residual _ _ _ _ _ _ Hmx Hpz path path' t Aphi T P A p Hp HA Hc Ha (conj (fun i j H K => proj1 (Oc i j H K)) (fun i j H K => proj1 (Oa i j H K)))) as D.
  assert (E : mixing mx pz path path' t A = 0).
  { unfold mixing. rewrite !Pairs_0, !Sum_0; [ring| | |].
    - intros n Hn. apply Sum_0. intros c Lc. apply Sum_0. intros a La. rewrite (no_zeta _ _ _ _ _ _ Hmx Hpz Ht n c a Hn Lc La). ring.
    - intros i j Hij Hj. rewrite (proj2 (Oa i j ltac:(lia) Hj)). ring.
    - intros i j Hij Hj. rewrite (proj2 (Oc i j ltac:(lia) Hj)). ring. }
  rewrite E, Rmult_0_r in D. exact D.
Qed.
Print Assumptions C109_equal_charges_partial.
(* Solutions that are diluted. *)
Section Dilution.
Variables (reactions : list Dissociation) (rho eps : R -> R -> R) (l : list Species) (mx : Mixture) (pz : PitzerParams).
Hypotheses (Hmx : mkAqueousMixture reactions rho eps l = Ok mx) (Hpz : pitzerParams hmw mx = Ok pz).
Variables (m : nat -> R) (t : R).
Let n := length l. Let w := mx_water mx. Let path := dilution n w m.
Hypotheses (Hm : forall i, (i < n)%nat -> i <> w -> 0 < m i) (Ht : 0 < t).
Lemma dilution_path : exists path', composition_path n path path' t.
Proof.
  assert (Hm' : forall i, (i < n)%nat -> i <> w -> 0 <= m i) by (intros; apply Rlt_le, Hm; assumption). pose proof (w_lt _ _ _ _ _ Hmx) as Lw. fold w n in Lw.
  set (S := Sum n (solutes w m)). set (F := water_fraction n w m). pose proof Mw_pos.
  assert (FP : forall s, 0 < s -> 0 < F s /\ 0 < 1 + Mw * (s * S)) by (intros s Hs; exact (water_fraction_pos n w m s Hm' Hs)).
  destruct (FP t Ht) as [F0 F1].
  assert (DF : is_derive F t (- (Mw * S) * F t ^ 2)).
  { unfold F, water_fraction. fold S. eapply d_val; [apply d_div; [apply d_const|apply d_add; [apply d_const|apply d_mul; [apply d_const|apply d_mul; [apply d_id|apply d_const]]]|lra]|]. cbv beta. field. lra. }
  assert (FE : F t * (1 + Mw * (t * S)) = 1) by (unfold F, water_fraction; fold S; field; lra).
  exists (fun i => if Nat.eqb i w then - (Mw * S) * F t ^ 2 else Mw * m i * F t + Mw * (t * m i) * (- (Mw * S) * F t ^ 2)). split; [|split].
  - intros i Hi. destruct (Nat.eq_dec i w) as [->|N]; [unfold path; rewrite dilution_water; exact F0|].
    unfold path. rewrite dilution_solute by exact N. specialize (Hm i Hi N). apply Rmult_lt_0_compat; [|exact F0]. apply Rmult_lt_0_compat; [lra|]. apply Rmult_lt_0_compat; assumption.
  - intros i Hi. destruct (Nat.eqb_spec i w) as [->|N].
    + apply (is_derive_ext F); [intros s; unfold path; rewrite dilution_water; reflexivity|exact DF].
    + apply (is_derive_ext (fun s => Mw * (s * m i) * F s)); [intros s; unfold path; rewrite dilution_solute by exact N; reflexivity|].
      eapply d_val; [apply d_mul; [apply d_mul; [apply d_const|apply d_mul; [apply d_id|apply d_const]]|exact DF]|]. cbv beta. ring.
  - apply (filter_imp (fun s => 0 < s)); [|exact (open_gt 0 t Ht)]. intros s Hs. destruct (FP s Hs) as [_ F2].
    rewrite (Sum_ext n _ (fun i => one_at w i * F s + Mw * s * F s * solutes w m i)).
    + rewrite Sum_add, Sum_scal, Sum_one by exact Lw. fold S. unfold F, water_fraction. fold S. field. lra.
    + intros i Hi. unfold path, one_at, solutes. destruct (Nat.eqb_spec i w) as [->|N]; [rewrite dilution_water; fold F; ring|]. rewrite dilution_solute by exact N. fold F. ring.
Qed.
Lemma mol_dilution s i : 0 < s -> i <> w -> mol mx path s i = s * m i.
Proof.
  intros Hs N. assert (Hm' : forall i, (i < n)%nat -> i <> w -> 0 <= m i) by (intros; apply Rlt_le, Hm; assumption).
  pose proof (molalities_dilution n w m s i Hm' Hs N) as E. unfold molalities in E. fold path in E. destruct (Req_EM_T (path s w) 0) as [Z|_]; [|exact E].
  exfalso. unfold path in Z. rewrite dilution_water in Z. destruct (water_fraction_pos n w m s Hm' Hs). lra.
Qed.
Lemma mol'_dilution path' i : composition_path n path path' t -> (i < n)%nat -> i <> w -> mol' mx path path' t i = m i.
Proof.
  intros C Hi N. pose proof (d_mol _ _ _ _ _ Hmx path path' t C i Hi) as D. apply is_derive_unique in D. rewrite <- D. apply is_derive_unique.
  apply (is_derive_ext_loc (fun s => s * m i)); [apply (filter_imp (fun s => 0 < s)); [intros s Hs; symmetry; apply mol_dilution; assumption|exact (open_gt 0 t Ht)]|].
  eapply d_val; [apply d_mul; [apply d_id|apply d_const]|]. cbv beta. ring.
Qed.
Lemma ionic i : (i < length (pz_cations pz))%nat -> (nth i (pz_cations pz) O < n)%nat /\ nth i (pz_cations pz) O <> w.
Proof. apply (indices _ _ _ _ _ _ Hmx Hpz). Qed.
Lemma anionic i : (i < length (pz_anions pz))%nat -> (nth i (pz_anions pz) O < n)%nat /\ nth i (pz_anions pz) O <> w.
Proof. apply (indices _ _ _ _ _ _ Hmx Hpz). Qed.
Definition strength1 : R := wI (length (pz_cations pz)) (length (pz_anions pz)) (m_c pz m) (m_a pz m) (z_c pz) (z_a pz).
Lemma rI_dilution s : 0 < s -> rI mx pz path s = s * strength1.
Proof.
  intros Hs. unfold rI, pI, strength1, wI. rewrite (Sum_ext _ (fun c => m_c pz (mol mx path s) c * _) (fun c => s * (m_c pz m c * (z_c pz c * z_c pz c)))).
  2: { intros k Hk. unfold m_c. rewrite mol_dilution by (try exact Hs; apply ionic, Hk). ring. }
  rewrite (Sum_ext _ (fun c => m_a pz (mol mx path s) c * _) (fun c => s * (m_a pz m c * (z_a pz c * z_a pz c)))).
  2: { intros k Hk. unfold m_a. rewrite mol_dilution by (try exact Hs; apply anionic, Hk). ring. }
  rewrite !Sum_scal. ring.
Qed.
Lemma rI'_dilution path' : composition_path n path path' t -> rI' mx pz path path' t = strength1.
Proof.
  intros C. unfold rI', pI', strength1, wI. f_equal. f_equal; apply Sum_ext; intros k Hk.
  - unfold m_c at 1. rewrite (mol'_dilution path' _ C) by apply (ionic k Hk). reflexivity.
  - unfold m_a at 1. rewrite (mol'_dilution path' _ C) by apply (anionic k Hk). reflexivity.
Qed.
End Dilution.
Lemma mixture_of reactions rho eps l w : indexWithFormula l $"H2O" = Ok w -> exists mx, mkAqueousMixture reactions rho eps l = Ok mx /\ mx_water mx = w /\
  mx_cations mx = pick (P_Aqueous.is_cation w) 0 l /\ mx_anions mx = pick (P_Aqueous.is_anion w) 0 l /\ mx_neutral mx = pick (P_Aqueous.is_neutral w) 0 l.
Proof.
  intros W. assert (exists mx, mkAqueousMixture reactions rho eps l = Ok mx) as [mx E] by (unfold mkAqueousMixture; rewrite W; eexists; reflexivity).
  exists mx. split; [exact E|]. destruct (mx_inv _ _ _ _ _ E) as (W' & _ & En & _ & Ec & Ea & _). rewrite W in W'. injection W' as W'. rewrite <- W' in *. auto.
Qed.
(* Sodium sulfate and carbon dioxide: the interaction of three species enters the
   activities of carbon dioxide and water but not those of the ions. *)
Definition brine : list Species := [aH2O; aNa; aSO4; aCO2].
Theorem C109_triplet_refuted : forall reactions rho eps Aphi f T P A p m t, pitzer Aphi hmw (mkAqueousMixture reactions rho eps) brine = Ok f -> Aphi T P = Ok A ->
  (forall i, (i < 4)%nat -> i <> 0%nat -> 0 < m i) -> 0 < t ->
  exists r, duhem_residual f 4 T P p (dilution 4 0 m) t r /\ 0 < r /\ r = Mw * water_fraction 4 0 m t * (0.06 * (m 1%nat * m 2%nat * m 3%nat) * t ^ 2).
Proof.
  intros reactions rho eps Aphi f T P A p m t Hf HA Hm Ht. destruct (pitzer_inv _ _ _ _ _ _ _ Hf) as (mx & pz & Hmx & Hpz & ->).
  destruct (mixture_of reactions rho eps brine 0) as (mx' & E' & Ew & Ec & Ea & En); [vm_compute; reflexivity|]. rewrite Hmx in E'. injection E' as <-.
  change (pick (P_Aqueous.is_cation 0) 0 brine) with [1%nat] in Ec. change (pick (P_Aqueous.is_anion 0) 0 brine) with [2%nat] in Ea. change (pick (P_Aqueous.is_neutral 0) 0 brine) with [3%nat] in En.
  assert (Hm' : forall i, (i < length brine)%nat -> i <> mx_water mx -> 0 < m i) by (rewrite Ew; exact Hm).
  destruct (dilution_path _ _ _ _ _ Hmx m t Hm' Ht) as [path' C]. rewrite Ew in C. change (length brine) with 4%nat in *.
  assert (Hi : has_ions brine) by (split; [exists aNa|exists aSO4]; (split; [cbn; auto|reflexivity])).
  assert (He : equal_charges brine).
  { intros s s' Hs Hs' H. cbn in Hs, Hs'. unfold is_cation, is_anion in H. destruct Hs as [<-|[<-|[<-|[<-|[]]]]], Hs' as [<-|[<-|[<-|[<-|[]]]]]; try reflexivity; exfalso; cbn in H; destruct H as [[H K]|[H K]]; first [discriminate H|discriminate K]. }
  destruct (some_ions _ _ _ _ _ _ Hmx Hpz Hi) as [Hc Ha]. destruct (equal_off _ _ _ _ _ _ Hmx Hpz A (rI mx pz (dilution 4 0 m) t) He) as [Oc Oa].
  pose proof (mixing_residual _ _ _ _ _ _ Hmx Hpz (dilution 4 0 m) path' t Aphi T P A p C HA Hc Ha (conj (fun i j H K => proj1 (Oc i j H K)) (fun i j H K => proj1 (Oa i j H K)))) as D.
  rewrite Ew, dilution_water in D. change (length brine) with 4%nat in D. exists (water_fraction 4 0 m t * Mw * mixing mx pz (dilution 4 0 m) path' t A). split; [exact D|].
  assert (W : 0 < water_fraction 4 0 m t) by (apply water_fraction_pos; [intros; apply Rlt_le, Hm; assumption|exact Ht]). pose proof Mw_pos.
  pose proof (Hm 1%nat ltac:(lia) ltac:(lia)) as M1. pose proof (Hm 2%nat ltac:(lia) ltac:(lia)) as M2. pose proof (Hm 3%nat ltac:(lia) ltac:(lia)) as M3.
  assert (E : mixing mx pz (dilution 4 0 m) path' t A = 0.06 * (m 1%nat * m 2%nat * m 3%nat) * t ^ 2).
  { unfold mixing. rewrite !Pairs_0.
    2: { intros i j Hij Hj. rewrite (proj2 (Oa i j ltac:(lia) Hj)). ring. } 2: { intros i j Hij Hj. rewrite (proj2 (Oc i j ltac:(lia) Hj)). ring. }
    destruct (pitzerParams_tables _ _ _ Hpz) as (_ & _ & _ & _ & _ & _ & Z). cbv zeta in Z. unfold m_c, m_a, m_n.
    assert (L : mx_species mx = brine) by apply (mx_inv _ _ _ _ _ Hmx). rewrite L in Z.
    destruct (pitzerParams_inv _ _ _ Hpz) as (-> & _ & -> & -> & _). rewrite Ec, Ea, En. cbn [length Sum nth].
    rewrite Z, Ec, Ea, En. assert (Zv : tripletParam (d_zeta hmw) (formula aCO2) (formula aNa) (formula aSO4) = - 0.015) by (unfold tripletParam; cbn; unfold Q2R; cbn; lra).
    change (tripletParam (d_zeta hmw) _ _ _) with (tripletParam (d_zeta hmw) (formula aCO2) (formula aNa) (formula aSO4)). rewrite Zv.
    pose proof (mol_dilution brine mx m Hm') as MD. pose proof (mol'_dilution reactions rho eps brine mx Hmx m t Hm' Ht path') as MD'. rewrite Ew in MD, MD'. change (length brine) with 4%nat in *.
    rewrite !(MD t) by (try exact Ht; lia). rewrite !(fun i => MD' i C) by lia. generalize (- rI' mx pz (dilution 4 0 m) path' t / (4 * rI mx pz (dilution 4 0 m) t ^ 2)). intros q. replace (- 0.015) with (- (15 / 1000)) by lra. replace 0.06 with (60 / 1000) by lra. field. }
  rewrite E. split; [|ring].
  apply Rmult_lt_0_compat; [apply Rmult_lt_0_compat; assumption|]. apply Rmult_lt_0_compat; [|apply pow_lt, Ht]. apply Rmult_lt_0_compat; [lra|]. apply Rmult_lt_0_compat; [apply Rmult_lt_0_compat|]; assumption.
Qed.
Print Assumptions C109_triplet_refuted.
(* Sodium and calcium chloride: ions of the same sign with unequal charges. *)
Definition aCa : Species := aqua $"Ca++" [($"Ca", 1%Q)] 2.
Definition hard : list Species := [aH2O; aNa; aCa; aCl].
Definition hard_molality (i : nat) : R := nth i [0; 0.4; 0.2; 0.8] 0.
Lemma between a x : INR a < x < INR (S a) -> forall k, x <> INR k.
Proof. intros [H K] k ->. apply INR_lt in H. apply INR_lt in K. lia. Qed.
Ltac inrs := rewrite !INR_IZR_INZ; cbn [Z.of_nat Pos.of_succ_nat Pos.succ].
Lemma hard_charges reactions rho eps mx pz : mkAqueousMixture reactions rho eps hard = Ok mx -> pitzerParams hmw mx = Ok pz ->
  mx_water mx = 0%nat /\ pz_cations pz = [1%nat; 2%nat] /\ pz_anions pz = [3%nat] /\ pz_neutrals pz = [] /\ z_c pz 0 = 1 /\ z_c pz 1 = 2 /\ z_a pz 0 = -1.
Proof.
  intros Hmx Hpz. destruct (mixture_of reactions rho eps hard 0) as (mx' & E' & Ew & Ec & Ea & En); [vm_compute; reflexivity|]. rewrite Hmx in E'. injection E' as <-.
  change (pick (P_Aqueous.is_cation 0) 0 hard) with [1%nat; 2%nat] in Ec. change (pick (P_Aqueous.is_anion 0) 0 hard) with [3%nat] in Ea. change (pick (P_Aqueous.is_neutral 0) 0 hard) with (@nil nat) in En.
  assert (L : mx_species mx = hard) by apply (mx_inv _ _ _ _ _ Hmx).
  unfold z_c, z_a. destruct (pitzerParams_inv _ _ _ Hpz) as (-> & _ & -> & -> & ->). rewrite Ec, Ea, En, L. repeat split; try assumption; cbn; unfold charge_at, species_at, hard; cbn; unfold Q2R; cbn; lra.
Qed.
Lemma hard_pos : forall i, (i < 4)%nat -> i <> 0%nat -> 0 < hard_molality i.
Proof. intros i Hi N. destruct i as [|[|[|[|i]]]]; try lia; cbn; lra. Qed.
Lemma hard_strength reactions rho eps mx pz : mkAqueousMixture reactions rho eps hard = Ok mx -> pitzerParams hmw mx = Ok pz -> strength1 pz hard_molality = 1.
Proof.
  intros Hmx Hpz. destruct (hard_charges _ _ _ _ _ Hmx Hpz) as (_ & Ec & Ea & _ & Z0 & Z1 & Z2). unfold strength1, wI. unfold m_c, m_a. rewrite Ec, Ea. cbn [length Sum nth]. rewrite Z0, Z1, Z2. cbn. lra.
Qed.
Theorem C109_mixing_refuted : forall reactions rho eps Aphi f T P p, pitzer Aphi hmw (mkAqueousMixture reactions rho eps) hard = Ok f -> Aphi T P = Ok 0.39147278 ->
  exists r, duhem_residual f 4 T P p (dilution 4 0 hard_molality) 1 r /\ 0 < r /\ r = Mw * water_fraction 4 0 hard_molality 1 * 0.01223239948.
Proof.
  intros reactions rho eps Aphi f T P p Hf HA. destruct (pitzer_inv _ _ _ _ _ _ _ Hf) as (mx & pz & Hmx & Hpz & ->).
  destruct (hard_charges _ _ _ _ _ Hmx Hpz) as (Ew & Ec & Ea & En & Z0 & Z1 & Z2). pose proof (hard_strength _ _ _ _ _ Hmx Hpz) as K.
  assert (Hm' : forall i, (i < length hard)%nat -> i <> mx_water mx -> 0 < hard_molality i) by (rewrite Ew; exact hard_pos).
  destruct (dilution_path _ _ _ _ _ Hmx hard_molality 1 Hm' Rlt_0_1) as [path' C]. pose proof (rI_dilution reactions rho eps hard mx pz Hmx Hpz hard_molality Hm' 1 Rlt_0_1) as I1.
  pose proof (rI'_dilution reactions rho eps hard mx pz Hmx Hpz hard_molality 1 Hm' Rlt_0_1 path' C) as I2. pose proof (mol_dilution hard mx hard_molality Hm' 1) as MD. rewrite Ew, K in *. change (length hard) with 4%nat in *.
  assert (X : forall a b, 6 * a * b * 0.39147278 * sqrt (1 * 1) = a * b * 2.34883668) by (intros; rewrite Rmult_1_l, sqrt_1; lra).
  assert (J11 : off_grid (1 * 1 * 2.34883668) /\ J1 (1 * 1 * 2.34883668) = Ok 0.450697864).
  { split; [right; left; split; [lra|apply (between 23); inrs; lra]|]. destruct (J_second (1 * 1 * 2.34883668) 13) as [_ ->]; [lia|lra|inrs; lra|]. f_equal; unfold Q2R; cbn; lra. }
  assert (J12 : off_grid (1 * 2 * 2.34883668) /\ J1 (1 * 2 * 2.34883668) = Ok 1.00323399).
  { split; [right; left; split; [lra|apply (between 46); inrs; lra]|]. destruct (J_second (1 * 2 * 2.34883668) 36) as [_ ->]; [lia|lra|inrs; lra|]. f_equal; unfold Q2R; cbn; lra. }
  assert (J22 : off_grid (2 * 2 * 2.34883668) /\ J1 (2 * 2 * 2.34883668) = Ok 2.16739009).
  { split; [right; left; split; [lra|apply (between 93); inrs; lra]|]. destruct (J_second (2 * 2 * 2.34883668) 83) as [_ ->]; [lia|lra|inrs; lra|]. f_equal; unfold Q2R; cbn; lra. }
  assert (Oc : forall i j, (i < length (pz_cations pz))%nat -> (j < length (pz_cations pz))%nat -> off_pair 0.39147278 (rI mx pz (dilution 4 0 hard_molality) 1) (z_c pz i) (z_c pz j)).
  { rewrite Ec, I1. cbn [length]. intros i j Hi Hj N. rewrite !X. destruct i as [|[|i]], j as [|[|j]]; try lia; rewrite ?Z0, ?Z1 in *; try lra; [tauto|]. replace (2 * 1 * 2.34883668) with (1 * 2 * 2.34883668) by lra. tauto. }
  assert (Oa : forall i j, (i < length (pz_anions pz))%nat -> (j < length (pz_anions pz))%nat -> off_pair 0.39147278 (rI mx pz (dilution 4 0 hard_molality) 1) (z_a pz i) (z_a pz j)).
  { rewrite Ea. cbn [length]. intros i j Hi Hj N. destruct i, j; try lia. lra. }
  pose proof (mixing_residual _ _ _ _ _ _ Hmx Hpz (dilution 4 0 hard_molality) path' 1 Aphi T P 0.39147278 p C HA ltac:(rewrite Ec; cbn; lia) ltac:(rewrite Ea; cbn; lia) (conj Oc Oa)) as D.
  rewrite Ew, dilution_water in D. change (length hard) with 4%nat in D. eexists. split; [exact D|].
  assert (W : 0 < water_fraction 4 0 hard_molality 1) by (apply water_fraction_pos; [intros; apply Rlt_le, hard_pos; assumption|lra]). pose proof Mw_pos.
  assert (E : mixing mx pz (dilution 4 0 hard_molality) path' 1 0.39147278 = 0.01223239948).
  { unfold mixing. rewrite En, Ec, Ea, I1, I2. unfold m_c. rewrite Ec. cbn [length Sum Pairs nth]. rewrite !MD by (try lra; lia).
    rewrite Z0, Z1. unfold mix. destruct (Req_EM_T 1 2); [lra|]. rewrite !X, (proj2 J11), (proj2 J12), (proj2 J22). cbn [val]. cbn. lra. }
  rewrite E. split; [|ring]. apply Rmult_lt_0_compat; [apply Rmult_lt_0_compat; assumption|lra].
Qed.
Print Assumptions C109_mixing_refuted.
Lemma pitzer_ok reactions rho eps Aphi l w : indexWithFormula l $"H2O" = Ok w -> exists f, pitzer Aphi hmw (mkAqueousMixture reactions rho eps) l = Ok f.
Proof.
  intros W. destruct (mixture_of reactions rho eps l w W) as (mx & E & _). unfold pitzer. rewrite E. cbn [bind]. destruct (pitzerParams_ok mx) as [pz ->]. eexists. reflexivity.
Qed.
Theorem C109_refuted : ~ C109_statement.
Proof.
  intros H. destruct (pitzer_ok [] (fun _ _ => 1) (fun _ _ => 1) (fun _ _ => Ok 0.39147278) hard 0) as [f Hf]; [vm_compute; reflexivity|].
  destruct (C109_mixing_refuted _ _ _ _ _ 298.15 100000 (constProps 0, None) Hf eq_refl) as (r & D & Hr & _).
  assert (exists mx, mkAqueousMixture [] (fun _ _ => 1) (fun _ _ => 1) hard = Ok mx /\ mx_water mx = 0%nat) as (mx & Hmx & Ew).
  { destruct (mixture_of [] (fun _ _ => 1) (fun _ _ => 1) hard 0) as (mx & E & W & _); [vm_compute; reflexivity|]. eauto. }
  destruct (dilution_path _ _ _ _ _ Hmx hard_molality 1) as [path' C]; [rewrite Ew; exact hard_pos|lra|]. rewrite Ew in C.
  enough (r = 0) by lra. refine (H _ _ _ _ _ _ _ _ _ _ _ _ _ _ Hf _ _ C D); [reflexivity|].
  split; [exists aNa|exists aCl]; (split; [cbn; auto|reflexivity]).
Qed.
Print Assumptions C109_refuted.
Definition salt_molality (i : nat) : R := nth i [0; 1; 1] 0.
Example C109_nonvacuous : exists f path', pitzer (fun _ _ => Ok 0.39147278) hmw (mkAqueousMixture [] (fun _ _ => 1) (fun _ _ => 1)) salt = Ok f /\ has_ions salt /\ equal_charges salt /\ no_triplet salt /\
  composition_path 3 (dilution 3 0 salt_molality) path' 1.
Proof.
  destruct (pitzer_ok [] (fun _ _ => 1) (fun _ _ => 1) (fun _ _ => Ok 0.39147278) salt 0) as [f Hf]; [vm_compute; reflexivity|].
  destruct (mixture_of [] (fun _ _ => 1) (fun _ _ => 1) salt 0) as (mx & E & W & _); [vm_compute; reflexivity|].
  destruct (dilution_path _ _ _ _ _ E salt_molality 1) as [path' C]; [rewrite W; intros i Hi N; destruct i as [|[|[|i]]]; cbn in *; try lia; lra|lra|]. rewrite W in C.
  exists f, path'. split; [exact Hf|]. split; [split; [exists aNa|exists aCl]; (split; [cbn; auto|reflexivity])|]. split; [|split; [|exact C]].
  - intros s s' Hs Hs' H. cbn in Hs, Hs'. unfold is_cation, is_anion in H. destruct Hs as [<-|[<-|[<-|[]]]], Hs' as [<-|[<-|[<-|[]]]]; try reflexivity; exfalso; cbn in H; destruct H as [[H K]|[H K]]; first [discriminate H|discriminate K].
  - intros x y z H (W1 & _). unfold triplets in H. destruct H as [H|[H|[H|[]]]]; injection H as <- <- <-; destruct W1 as (s & Hs & E'); destruct Hs as [<-|[<-|[<-|[]]]]; vm_compute in E'; discriminate E'.
Qed.
