(* C113-C114: the parameters of the Pitzer activity model. *)
From Coq Require Import Reals Qreals List Bool Lia Lra Permutation FunctionalExtensionality.
From Coquelicot Require Import Coquelicot.
Import ListNotations.
From Verif Require Import Base M_Strings M_Formula M_Chem M_Algorithms M_System M_Registry M_CubicEOS P_Helmholtz P_CubicEOS M_Aqueous S_Activity P_Aqueous P_Activity C_Aqueous C_Activity M_Pitzer P_PitzerSum P_Pitzer P_PitzerFn P_PitzerDuhem P_PitzerJ P_PitzerMix P_PitzerEval P_PitzerJump C_Pitzer C_Pitzer2.
Local Open Scope R_scope.

(* ---- C113: how formulas are written ---- *)
(* The same species, with names and formulas that may be written differently. *)
Definition respelled (s s' : Species) : Prop := sp_elements s = sp_elements s' /\ sp_charge s = sp_charge s'.
Definition same_activities (f f' : ActivityFn) (n : nat) : Prop := forall T P p x,
  ((exists q e, f T P x p = Ok (q, e)) <-> (exists q e, f' T P x p = Ok (q, e))) /\ forall i, (i < n)%nat -> activity f T P p x i = activity f' T P p x i.
Definition C113_statement : Prop := forall reactions rho eps Aphi l l' f f', Forall2 respelled l l' -> has_ions l ->
  pitzer Aphi hmw (mkAqueousMixture reactions rho eps) l = Ok f -> pitzer Aphi hmw (mkAqueousMixture reactions rho eps) l' = Ok f' -> same_activities f f' (length l).

(* The texts in the tables of pairs and triplets. *)
Definition pair_texts (data : list (str * str * Q)) : list str := flat_map (fun r => [fst (fst r); snd (fst r)]) data.
Definition triplet_texts (data : list (str * str * str * Q)) : list str := flat_map (fun r => [fst (fst (fst r)); snd (fst (fst r)); snd (fst r)]) data.
Definition table_texts : list str := pair_texts theta_data ++ triplet_texts psi_data ++ pair_texts lambda_data ++ triplet_texts zeta_data.
(* Written the same, or in ways that none of the tables has. *)
Definition similar (s s' : Species) : Prop := sp_formula s = sp_formula s' \/ (~ In (sp_formula s) table_texts /\ ~ In (sp_formula s') table_texts).
Lemma pair_absent data f g : ~ In (cf_str f) (pair_texts data) \/ ~ In (cf_str g) (pair_texts data) -> pairParam data f g = 0.
Proof.
  induction data as [|[[x y] c] rest IH]; intros H; [reflexivity|]. cbn [pairParam]. destruct (same_text [x; y] [f; g]) eqn:E.
  - apply same_text_spec in E. destruct E as [E _]. pose proof (E (cf_str f) ltac:(cbn; auto)) as X. pose proof (E (cf_str g) ltac:(cbn; auto)) as Y. exfalso. cbn in H, X, Y. tauto.
  - apply IH. cbn in H. tauto.
Qed.
Lemma triplet_absent data f g h : ~ In (cf_str f) (triplet_texts data) \/ ~ In (cf_str g) (triplet_texts data) \/ ~ In (cf_str h) (triplet_texts data) -> tripletParam data f g h = 0.
Proof.
  induction data as [|[[[x y] z] c] rest IH]; intros H; [reflexivity|]. cbn [tripletParam]. destruct (same_text [x; y; z] [f; g; h]) eqn:E.
  - apply same_text_spec in E. destruct E as [E _]. pose proof (E (cf_str f) ltac:(cbn; auto)) as X. pose proof (E (cf_str g) ltac:(cbn; auto)) as Y. pose proof (E (cf_str h) ltac:(cbn; auto)) as Z. exfalso. cbn in H, X, Y, Z. tauto.
  - apply IH. cbn in H. tauto.
Qed.
Definition alike (texts : list str) (f f' : ChemicalFormula) : Prop := cf_str f = cf_str f' \/ (~ In (cf_str f) texts /\ ~ In (cf_str f') texts).
Lemma pair_alike data f f' g g' : alike (pair_texts data) f f' -> alike (pair_texts data) g g' -> pairParam data f g = pairParam data f' g'.
Proof.
  intros [E|[N N']] [F|[M M']]; try (rewrite !pair_absent by tauto; reflexivity). induction data as [|[[x y] c] rest IH]; [reflexivity|]. cbn [pairParam]. rewrite IH. unfold same_text. cbn [map]. rewrite E, F. reflexivity.
Qed.
Lemma triplet_alike data f f' g g' h h' : alike (triplet_texts data) f f' -> alike (triplet_texts data) g g' -> alike (triplet_texts data) h h' -> tripletParam data f g h = tripletParam data f' g' h'.
Proof.
  intros [E|[N N']] [F|[M M']] [G|[O O']]; try (rewrite !triplet_absent by tauto; reflexivity). induction data as [|[[[x y] z] c] rest IH]; [reflexivity|]. cbn [tripletParam]. rewrite IH. unfold same_text. cbn [map]. rewrite E, F, G. reflexivity.
Qed.
Lemma saltParam_eq data c c' a a' : cf_elements c = cf_elements c' -> cf_charge c = cf_charge c' -> cf_elements a = cf_elements a' -> cf_charge a = cf_charge a' -> saltParam data c a = saltParam data c' a'.
Proof.
  intros E1 E2 E3 E4. induction data as [|[[x y] co] rest IH]; [reflexivity|]. cbn [saltParam]. rewrite IH. unfold equivalent. rewrite E1, E2, E3, E4. reflexivity.
Qed.
Lemma mapM_map2 {X Y Z} (h h' : X -> Y) (f : Y -> outcome Z) (f' : Y -> outcome Z) idx : (forall i, f (h i) = f' (h' i)) -> mapM f (map h idx) = mapM f' (map h' idx).
Proof. intros H. induction idx as [|i idx IH]; [reflexivity|]. cbn [map mapM]. rewrite H, IH. reflexivity. Qed.
Lemma saltTable_eq data (h h' : nat -> ChemicalFormula) cs as_ : (forall i, cf_elements (h i) = cf_elements (h' i) /\ cf_charge (h i) = cf_charge (h' i)) ->
  saltTable data (map h cs) (map h as_) = saltTable data (map h' cs) (map h' as_).
Proof.
  intros H. unfold saltTable. f_equal. apply mapM_map2. intros c. apply mapM_map2. intros a. destruct (H c), (H a). apply saltParam_eq; assumption.
Qed.
Lemma Forall2_len {X Y} (r : X -> Y -> Prop) l l' : Forall2 r l l' -> length l = length l'.
Proof. intros H. induction H; cbn; congruence. Qed.
Lemma pick_respelled (p : nat -> Species -> bool) l l' : Forall2 respelled l l' -> (forall i s s', respelled s s' -> p i s = p i s') -> forall k, pick p k l = pick p k l'.
Proof. intros H Hp. induction H as [|s s' l l' Hs H IH]; intros k; [reflexivity|]. rewrite !pick_cons, (Hp k _ _ Hs), IH. reflexivity. Qed.
Lemma nth_respelled l l' i : Forall2 respelled l l' -> respelled (species_at l i) (species_at l' i).
Proof. intros H. revert i. unfold species_at. induction H as [|s s' l l' Hs H IH]; intros [|i]; cbn; try (split; reflexivity); [exact Hs|apply IH]. Qed.
Lemma indexfn_respelled (p : Species -> bool) l l' : Forall2 respelled l l' -> (forall s s', respelled s s' -> p s = p s') -> indexfn l p = indexfn l' p.
Proof. intros H Hp. induction H as [|s s' l l' Hs H IH]; [reflexivity|]. cbn. rewrite (Hp _ _ Hs), IH. reflexivity. Qed.
Section Respelled.
Variables (reactions : list Dissociation) (rho eps : R -> R -> R) (l l' : list Species) (mx mx' : Mixture) (pz pz' : PitzerParams).
Hypotheses (Hl : Forall2 respelled l l') (Hmx : mkAqueousMixture reactions rho eps l = Ok mx) (Hmx' : mkAqueousMixture reactions rho eps l' = Ok mx').
Lemma formula_respelled s s' : respelled s s' -> cf_elements (formula s) = cf_elements (formula s') /\ cf_charge (formula s) = cf_charge (formula s').
Proof. intros [E C]. cbn. rewrite E, C. split; reflexivity. Qed.
Lemma same_groups : mx_water mx = mx_water mx' /\ mx_neutral mx = mx_neutral mx' /\ mx_charged mx = mx_charged mx' /\ mx_cations mx = mx_cations mx' /\ mx_anions mx = mx_anions mx' /\ charge_at (mx_species mx) = charge_at (mx_species mx') /\ length (mx_species mx) = length (mx_species mx').
Proof.
  destruct (mx_inv _ _ _ _ _ Hmx) as (W & L & En & Eh & Ec & Ea & _). destruct (mx_inv _ _ _ _ _ Hmx') as (W' & L' & En' & Eh' & Ec' & Ea' & _).
  assert (Ew : mx_water mx = mx_water mx').
  { assert (indexWithFormula l $"H2O" = indexWithFormula l' $"H2O"); [|congruence]. unfold indexWithFormula. destruct (mkChemicalFormula $"H2O") as [f| |]; [|reflexivity|reflexivity]. cbn [bind]. unfold findWithFormula.
    rewrite (Forall2_len _ _ _ Hl), (indexfn_respelled (fun s => equivalent f (formula s)) l l' Hl); [reflexivity|]. intros s s' Hs. destruct (formula_respelled _ _ Hs) as [E C]. unfold equivalent. rewrite E, C. reflexivity. }
  split; [exact Ew|]. rewrite En, En', Eh, Eh', Ec, Ec', Ea, Ea', L, L', Ew.
  split; [|split; [|split; [|split; [|split; [|exact (Forall2_len _ _ _ Hl)]]]]]; try (apply (pick_respelled _ l l' Hl); intros i s s' [_ C]).
  - unfold is_neutral. rewrite C. reflexivity.
  - unfold is_charged. rewrite C. reflexivity.
  - unfold P_Aqueous.is_cation. rewrite C. reflexivity.
  - unfold P_Aqueous.is_anion. rewrite C. reflexivity.
  - apply functional_extensionality. intros i. unfold charge_at. destruct (nth_respelled l l' i Hl) as [_ ->]. reflexivity.
Qed.
(* Equal parameters give equal activities. *)
Lemma same_fn Aphi : pz = pz' -> same_activities (pitzer_fn Aphi mx pz) (pitzer_fn Aphi mx' pz') (length l).
Proof.
  intros <- T P p x. destruct same_groups as (Ew & _ & _ & _ & _ & Ez & El).
  assert (V : forall r, pitzer_fn Aphi mx pz T P x p = r -> match r with Ok (q, e) => exists e', pitzer_fn Aphi mx' pz T P x p = Ok (q, e') | Err => pitzer_fn Aphi mx' pz T P x p = Err | UB => pitzer_fn Aphi mx' pz T P x p = UB end).
  { intros r <-. unfold pitzer_fn. cbv zeta. cbn [st_m st_Ie mixtureState]. unfold effectiveIonicStrength. rewrite Ew, Ez, El.
    destruct (Aphi T P) as [A| |]; [|reflexivity|reflexivity]. cbn [bind]. destruct (setM _ (pz_cations pz) _ _) as [g1| |]; [|reflexivity|reflexivity]. cbn [bind]. destruct (setM _ (pz_anions pz) _ _) as [g2| |]; [|reflexivity|reflexivity]. cbn [bind].
    destruct (setM _ (pz_neutrals pz) _ _) as [g3| |]; [|reflexivity|reflexivity]. cbn [bind]. destruct (lnWater _ _ _ _ _ _) as [a| |]; [|reflexivity|reflexivity]. cbn [bind]. eexists. reflexivity. }
  specialize (V _ eq_refl). unfold activity. destruct (pitzer_fn Aphi mx pz T P x p) as [[q e]| |].
  - destruct V as [e' E]. rewrite E. split; [split; eauto|reflexivity].
  - rewrite V. split; [split; intros (q & e & E); discriminate|reflexivity].
  - rewrite V. split; [split; intros (q & e & E); discriminate|reflexivity].
Qed.
End Respelled.

(* Formulas of species alike, and an index past the end. *)
Lemma nth_names (h h' : nat -> ChemicalFormula) idx texts : (forall i, alike texts (h i) (h' i)) -> forall i, alike texts (nth i (map h idx) (formula noSpecies)) (nth i (map h' idx) (formula noSpecies)).
Proof. intros H. induction idx as [|k idx IH]; intros [|i]; cbn [map nth]; try (left; reflexivity); [apply H|apply IH]. Qed.
Lemma alike_incl a b f f' : incl b a -> alike a f f' -> alike b f f'.
Proof. intros H [E|[N M]]; [left; exact E|right]. split; intros X; [apply N|apply M]; apply H, X. Qed.
Lemma mkPitzer_eq n h c a z b0 b1 b2 C t1 t1' t2 t2' t3 t3' t4 t4' t5 t5' t6 t6' t7 t7' : (forall i j, t1 i j = t1' i j) -> (forall i j, t2 i j = t2' i j) -> (forall i j k, t3 i j k = t3' i j k) -> (forall i j k, t4 i j k = t4' i j k) ->
  (forall i j, t5 i j = t5' i j) -> (forall i j, t6 i j = t6' i j) -> (forall i j k, t7 i j k = t7' i j k) -> @Ok PitzerParams (mkPitzer n h c a z b0 b1 b2 C t1 t2 t3 t4 t5 t6 t7) = Ok (mkPitzer n h c a z b0 b1 b2 C t1' t2' t3' t4' t5' t6' t7').
Proof. intros H1 H2 H3 H4 H5 H6 H7. f_equal. f_equal; repeat (apply functional_extensionality; intros ?); auto. Qed.
Lemma params_eq reactions rho eps l l' mx mx' : mkAqueousMixture reactions rho eps l = Ok mx -> mkAqueousMixture reactions rho eps l' = Ok mx' -> Forall2 respelled l l' ->
  (let h i := formula (species_at l i) in let h' i := formula (species_at l' i) in let at_ h idx i := nth i (map h idx) (formula noSpecies) in
   let c := at_ h (mx_cations mx) in let a := at_ h (mx_anions mx) in let n := at_ h (mx_neutral mx) in let c' := at_ h' (mx_cations mx) in let a' := at_ h' (mx_anions mx) in let n' := at_ h' (mx_neutral mx) in
   (forall i j, pairParam theta_data (c i) (c j) = pairParam theta_data (c' i) (c' j)) /\ (forall i j, pairParam theta_data (a i) (a j) = pairParam theta_data (a' i) (a' j)) /\
   (forall i j k, tripletParam psi_data (c i) (c j) (a k) = tripletParam psi_data (c' i) (c' j) (a' k)) /\ (forall i j k, tripletParam psi_data (a i) (a j) (c k) = tripletParam psi_data (a' i) (a' j) (c' k)) /\
   (forall i j, pairParam lambda_data (n i) (c j) = pairParam lambda_data (n' i) (c' j)) /\ (forall i j, pairParam lambda_data (n i) (a j) = pairParam lambda_data (n' i) (a' j)) /\
   (forall i j k, tripletParam zeta_data (n i) (c j) (a k) = tripletParam zeta_data (n' i) (c' j) (a' k))) ->
  pitzerParams hmw mx = pitzerParams hmw mx'.
Proof.
  intros Hmx Hmx' Hl (H1 & H2 & H3 & H4 & H5 & H6 & H7). destruct (same_groups _ _ _ _ _ _ _ Hl Hmx Hmx') as (_ & En & Eh & Ec & Ea & Ez & _).
  assert (L : mx_species mx = l) by apply (mx_inv _ _ _ _ _ Hmx). assert (L' : mx_species mx' = l') by apply (mx_inv _ _ _ _ _ Hmx').
  unfold pitzerParams. cbv zeta. rewrite <- En, <- Eh, <- Ec, <- Ea, <- Ez, L, L'.
  assert (S : forall data, saltTable data (map (fun i => formula (species_at l i)) (mx_cations mx)) (map (fun i => formula (species_at l i)) (mx_anions mx)) = saltTable data (map (fun i => formula (species_at l' i)) (mx_cations mx)) (map (fun i => formula (species_at l' i)) (mx_anions mx))).
  { intros data. apply saltTable_eq. intros i. apply formula_respelled, nth_respelled, Hl. }
  rewrite !S. destruct (saltTable (d_beta0 hmw) _ _); [|reflexivity|reflexivity]. cbn [bind]. destruct (saltTable (d_beta1 hmw) _ _); [|reflexivity|reflexivity]. cbn [bind].
  destruct (saltTable (d_beta2 hmw) _ _); [|reflexivity|reflexivity]. cbn [bind]. destruct (saltTable (d_Cphi hmw) _ _); [|reflexivity|reflexivity]. cbn [bind].
  exact (mkPitzer_eq _ _ _ _ _ _ _ _ _ _ _ _ _ _ _ _ _ _ _ _ _ _ _ H1 H2 H3 H4 H5 H6 H7).
Qed.
(* Formulas written as in the tables, or foreign to them. *)
Theorem C113_tables_partial : forall reactions rho eps Aphi l l' f f', Forall2 respelled l l' -> Forall2 similar l l' ->
  pitzer Aphi hmw (mkAqueousMixture reactions rho eps) l = Ok f -> pitzer Aphi hmw (mkAqueousMixture reactions rho eps) l' = Ok f' -> same_activities f f' (length l).
Proof.
  intros reactions rho eps Aphi l l' f f' Hl Hs Hf Hf'. destruct (pitzer_inv _ _ _ _ _ _ _ Hf) as (mx & pz & Hmx & Hpz & ->). destruct (pitzer_inv _ _ _ _ _ _ _ Hf') as (mx' & pz' & Hmx' & Hpz' & ->).
  apply (same_fn reactions rho eps l l' mx mx' pz pz' Hl Hmx Hmx' Aphi).
  assert (E : pitzerParams hmw mx = pitzerParams hmw mx'); [|rewrite Hpz, Hpz' in E; injection E; auto].
  apply (params_eq reactions rho eps l l' mx mx' Hmx Hmx' Hl). cbv zeta.
  assert (N : forall i, alike table_texts (formula (species_at l i)) (formula (species_at l' i))).
  { clear - Hs. unfold species_at. induction Hs as [|s s' l l' H Hs IH]; intros [|i]; cbn [nth]; try (left; reflexivity); [exact H|apply IH]. }
  assert (K : forall texts, incl texts table_texts -> forall idx i, alike texts (nth i (map (fun i => formula (species_at l i)) idx) (formula noSpecies)) (nth i (map (fun i => formula (species_at l' i)) idx) (formula noSpecies))).
  { intros texts It idx i. apply nth_names. intros j. exact (alike_incl _ _ _ _ It (N j)). }
  assert (I1 : incl (pair_texts theta_data) table_texts) by (unfold table_texts; intros ? ?; apply in_or_app; auto).
  assert (I2 : incl (triplet_texts psi_data) table_texts) by (unfold table_texts; intros ? ?; apply in_or_app; right; apply in_or_app; auto).
  assert (I3 : incl (pair_texts lambda_data) table_texts) by (unfold table_texts; intros ? ?; apply in_or_app; right; apply in_or_app; right; apply in_or_app; auto).
  assert (I4 : incl (triplet_texts zeta_data) table_texts) by (unfold table_texts; intros ? ?; apply in_or_app; right; apply in_or_app; right; apply in_or_app; auto).
  split; [intros; apply pair_alike; apply K; assumption|]. split; [intros; apply pair_alike; apply K; assumption|].
  split; [intros; apply triplet_alike; apply K; assumption|]. split; [intros; apply triplet_alike; apply K; assumption|].
  split; [intros; apply pair_alike; apply K; assumption|]. split; [intros; apply pair_alike; apply K; assumption|]. intros; apply triplet_alike; apply K; assumption.
Qed.
Print Assumptions C113_tables_partial.
(* A single salt: no two species with charges of the same sign, water included. *)
Definition single_salt (l : list Species) : Prop := forall i j, (i < length l)%nat -> (j < length l)%nat ->
  (sp_charge (species_at l i) ?= 0)%Q = (sp_charge (species_at l j) ?= 0)%Q -> i = j.
Lemma blank_absent : ~ In (cf_str (formula noSpecies)) table_texts.
Proof. assert (H : existsb (str_eqb (cf_str (formula noSpecies))) table_texts = false) by (vm_compute; reflexivity). intros X. assert (existsb (str_eqb (cf_str (formula noSpecies))) table_texts = true); [|congruence]. apply existsb_exists. exists (cf_str (formula noSpecies)). split; [exact X|vm_compute; reflexivity]. Qed.

Lemma pick_le1 (keep : nat -> Species -> bool) l : (forall i j s s', nth_error l i = Some s -> nth_error l j = Some s' -> keep i s = true -> keep j s' = true -> i = j) -> (length (pick keep 0 l) <= 1)%nat.
Proof.
  intros H. pose proof (pick_sorted keep l 0) as S. destruct (pick keep 0 l) as [|a [|b r]] eqn:E; cbn; try lia. exfalso.
  inversion S as [|? ? _ F]; subst. inversion F as [|? ? L _]; subst.
  destruct (proj1 (pick_in keep l 0 a)) as (_ & s & Es & Ks); [rewrite E; cbn; auto|]. destruct (proj1 (pick_in keep l 0 b)) as (_ & s' & Es' & Ks'); [rewrite E; cbn; auto|].
  rewrite Nat.sub_0_r in Es, Es'. pose proof (H a b s s' Es Es' Ks Ks'). unfold Nat.lt in L. lia.
Qed.
Lemma nth_le1 (h : nat -> ChemicalFormula) idx : (length idx <= 1)%nat -> forall i j, nth i (map h idx) (formula noSpecies) = nth j (map h idx) (formula noSpecies) \/ nth i (map h idx) (formula noSpecies) = formula noSpecies \/ nth j (map h idx) (formula noSpecies) = formula noSpecies.
Proof. intros H i j. destruct idx as [|a [|b r]]; cbn in H; try lia; [destruct i, j; auto|]. destruct i as [|[|i]], j as [|[|j]]; cbn; auto. Qed.
Lemma table_parts : incl (pair_texts theta_data) table_texts /\ incl (triplet_texts psi_data) table_texts /\ incl (pair_texts lambda_data) table_texts /\ incl (triplet_texts zeta_data) table_texts.
Proof.
  unfold table_texts. split; [intros ? ?; apply in_or_app; auto|]. split; [intros ? ?; apply in_or_app; right; apply in_or_app; auto|].
  split; [intros ? ?; apply in_or_app; right; apply in_or_app; right; apply in_or_app; auto|intros ? ?; apply in_or_app; right; apply in_or_app; right; apply in_or_app; auto].
Qed.
Lemma salt_groups reactions rho eps l mx : mkAqueousMixture reactions rho eps l = Ok mx -> single_salt l -> (length (mx_cations mx) <= 1)%nat /\ (length (mx_anions mx) <= 1)%nat /\ mx_neutral mx = [].
Proof.
  intros Hmx Hs. destruct (mx_inv _ _ _ _ _ Hmx) as (_ & L & En & _ & Ec & Ea & _).
  assert (V : forall i s, nth_error l i = Some s -> (i < length l)%nat /\ species_at l i = s) by (intros i s E; split; [apply nth_error_Some; congruence|unfold species_at; apply nth_error_nth, E]).
  split; [|split].
  - rewrite Ec. apply pick_le1. intros i j s s' E E' K K'. destruct (V _ _ E) as [Li Vi], (V _ _ E') as [Lj Vj]. apply Hs; [exact Li|exact Lj|]. rewrite Vi, Vj.
    unfold P_Aqueous.is_cation in K, K'. apply andb_prop in K, K'. destruct K as [_ K], K' as [_ K']. unfold Qltb in K, K'.
    assert (P : forall q, negb (Qle_bool q 0) = true -> (q ?= 0)%Q = Gt). { intros q X. apply negb_true_iff in X. unfold Qle_bool in X. apply Z.leb_gt in X. apply Z.compare_gt_iff, X. }
    rewrite !P; auto.
  - rewrite Ea. apply pick_le1. intros i j s s' E E' K K'. destruct (V _ _ E) as [Li Vi], (V _ _ E') as [Lj Vj]. apply Hs; [exact Li|exact Lj|]. rewrite Vi, Vj.
    unfold P_Aqueous.is_anion in K, K'. apply andb_prop in K, K'. destruct K as [K0 K], K' as [K0' K']. apply andb_prop in K0, K0'. destruct K0 as [_ K0], K0' as [_ K0']. unfold Qltb in K, K'.
    assert (P : forall q, negb (Qeq_bool q 0) = true -> negb (negb (Qle_bool q 0)) = true -> (q ?= 0)%Q = Lt).
    { intros q X Y. rewrite negb_involutive in Y. apply Qle_bool_iff in Y. apply negb_true_iff, Qeq_bool_neq in X. apply Qlt_alt. apply Qle_lteq in Y. destruct Y as [Y|Y]; [exact Y|contradiction]. }
    rewrite !P; auto.
  - destruct (mx_neutral mx) as [|k r] eqn:E; [reflexivity|]. exfalso. assert (K' : In k (pick (is_neutral (mx_water mx)) 0 l)) by (rewrite <- En; cbn; auto).
    apply pick_in in K'. destruct K' as (_ & s & Es & Ks). rewrite Nat.sub_0_r in Es. destruct (V _ _ Es) as [Lk Vk]. unfold is_neutral in Ks. apply andb_prop in Ks. destruct Ks as [Nw Z].
    apply negb_true_iff, Nat.eqb_neq in Nw. apply Nw. apply Hs; [exact Lk|apply (w_lt _ _ _ _ _ Hmx)|]. rewrite Vk. pose proof (water_uncharged _ _ _ _ _ Hmx) as W. unfold charge_at in W.
    apply Qeq_bool_eq in Z. assert (W' : (sp_charge (species_at l (mx_water mx)) == 0)%Q) by (apply eqR_Qeq; rewrite W; unfold Q2R; cbn; lra).
    rewrite Z, W'. reflexivity.
Qed.
(* A solution of a single salt. *)
Theorem C113_salt_partial : forall reactions rho eps Aphi l l' f f', Forall2 respelled l l' -> single_salt l ->
  pitzer Aphi hmw (mkAqueousMixture reactions rho eps) l = Ok f -> pitzer Aphi hmw (mkAqueousMixture reactions rho eps) l' = Ok f' -> same_activities f f' (length l).
Proof.
  intros reactions rho eps Aphi l l' f f' Hl Hs Hf Hf'. destruct (pitzer_inv _ _ _ _ _ _ _ Hf) as (mx & pz & Hmx & Hpz & ->). destruct (pitzer_inv _ _ _ _ _ _ _ Hf') as (mx' & pz' & Hmx' & Hpz' & ->).
  apply (same_fn reactions rho eps l l' mx mx' pz pz' Hl Hmx Hmx' Aphi).
  assert (E : pitzerParams hmw mx = pitzerParams hmw mx'); [|rewrite Hpz, Hpz' in E; injection E; auto].
  apply (params_eq reactions rho eps l l' mx mx' Hmx Hmx' Hl). cbv zeta. destruct (salt_groups _ _ _ _ _ Hmx Hs) as (C1 & A1 & N0). rewrite N0. cbn [map].
  destruct table_parts as (I1 & I2 & I3 & I4). pose proof blank_absent as B.
  assert (T0 : forall (h : nat -> ChemicalFormula) idx, (length idx <= 1)%nat -> forall i j, pairParam theta_data (nth i (map h idx) (formula noSpecies)) (nth j (map h idx) (formula noSpecies)) = 0).
  { intros h idx H i j. destruct (nth_le1 h idx H i j) as [->|[->| ->]]; [apply pairParam_diag, theta_distinct| |]; apply pair_absent; [left|right]; intros X; apply B, I1, X. }
  assert (P0 : forall (h : nat -> ChemicalFormula) idx (h' : nat -> ChemicalFormula) idx', (length idx <= 1)%nat -> forall i j k, tripletParam psi_data (nth i (map h idx) (formula noSpecies)) (nth j (map h idx) (formula noSpecies)) (nth k (map h' idx') (formula noSpecies)) = 0).
  { intros h idx h' idx' H i j k. destruct (nth_le1 h idx H i j) as [->|[->| ->]]; [apply tripletParam_diag, psi_distinct| |]; apply triplet_absent; [left|right; left]; intros X; apply B, I2, X. }
  assert (L0 : forall i g, pairParam lambda_data (nth i [] (formula noSpecies)) g = 0) by (intros i g; apply pair_absent; left; destruct i; intros X; apply B, I3, X).
  assert (Z0 : forall i g h, tripletParam zeta_data (nth i [] (formula noSpecies)) g h = 0) by (intros i g h; apply triplet_absent; left; destruct i; intros X; apply B, I4, X).
  split; [intros; rewrite !T0 by assumption; reflexivity|]. split; [intros; rewrite !T0 by assumption; reflexivity|]. split; [intros; rewrite !P0 by assumption; reflexivity|]. split; [intros; rewrite !P0 by assumption; reflexivity|].
  split; [intros; rewrite !L0; reflexivity|]. split; [intros; rewrite !L0; reflexivity|]. intros. rewrite !Z0. reflexivity.
Qed.
Print Assumptions C113_salt_partial.

(* Sodium sulfate and carbon dioxide, with the sulfate ion written as given. *)
Definition sulfate (text : str) : Species := aqua text [($"S", 1%Q); ($"O", 4%Q)] (-2)%Q.
Definition sulfate_brine (text : str) : list Species := [aH2O; aNa; sulfate text; aCO2].
Definition molality (x : nat -> R) (i : nat) : R := x i / (0.018015268 * x 0%nat).
Lemma co2_value reactions rho eps Aphi text f T P A p x : pitzer Aphi hmw (mkAqueousMixture reactions rho eps) (sulfate_brine text) = Ok f -> Aphi T P = Ok A -> (forall i, (i < 4)%nat -> 0 < x i) ->
  activity f T P p x 3 = 0.17 * molality x 1 + 2 * molality x 2 * pairParam lambda_data (formula aCO2) (formula (sulfate text)) + molality x 1 * molality x 2 * tripletParam zeta_data (formula aCO2) (formula aNa) (formula (sulfate text)) + ln (molality x 3).
Proof.
  intros Hf HA Hx. destruct (pitzer_inv _ _ _ _ _ _ _ Hf) as (mx & pz & Hmx & Hpz & ->).
  destruct (mixture_of reactions rho eps (sulfate_brine text) 0) as (mx' & E' & Ew & Ec & Ea & En); [vm_compute; reflexivity|]. rewrite Hmx in E'. injection E' as <-.
  change (pick (P_Aqueous.is_cation 0) 0 (sulfate_brine text)) with [1%nat] in Ec. change (pick (P_Aqueous.is_anion 0) 0 (sulfate_brine text)) with [2%nat] in Ea. change (pick (P_Aqueous.is_neutral 0) 0 (sulfate_brine text)) with [3%nat] in En.
  destruct (pitzerParams_inv _ _ _ Hpz) as (Pn & _ & Pc & Pa & _). destruct (pitzerParams_tables _ _ _ Hpz) as (_ & _ & _ & _ & Lc & La & Z). cbv zeta in Lc, La, Z.
  assert (L : mx_species mx = sulfate_brine text) by apply (mx_inv _ _ _ _ _ Hmx). rewrite L, Ec, Ea, En in *.
  destruct (at_value _ _ _ _ _ _ Hmx Hpz x Aphi T P A p) as (q & E & _ & _ & Vn & Va & _).
  - exact Hx.
  - exact HA.
  - rewrite Pc. cbn. lia.
  - rewrite Pa. cbn. lia.
  - rewrite Pc. cbn [length]. intros i j Hi Hj. replace i with j by lia. unfold pair_defined. destruct (theta_same A (xI mx pz x) (z_c pz j)) as [-> ->]. split; eexists; reflexivity.
  - rewrite Pa. cbn [length]. intros i j Hi Hj. replace i with j by lia. unfold pair_defined. destruct (theta_same A (xI mx pz x) (z_a pz j)) as [-> ->]. split; eexists; reflexivity.
  - unfold activity. rewrite E. rewrite Va by (rewrite Ew; lia). pose proof (Vn 0%nat) as V. rewrite Pn in V. cbn [length nth] in V. rewrite V by lia. unfold neutral_value, vN, m_c, m_a. rewrite Pc, Pa. cbn [length Sum nth]. rewrite Lc, La, Z. cbn [nth map].
    assert (X : forall i, xm mx x i = molality x i) by (intros i; unfold xm, molality; rewrite Ew; reflexivity). rewrite !X.
    assert (Q : pairParam lambda_data (formula aCO2) (formula aNa) = 0.085) by (unfold pairParam; cbn; unfold Q2R; cbn; lra).
    change (pairParam (d_lambda hmw) (formula (species_at (sulfate_brine text) 3)) (formula (species_at (sulfate_brine text) 1))) with (pairParam lambda_data (formula aCO2) (formula aNa)). rewrite Q.
    change (d_lambda hmw) with lambda_data. change (d_zeta hmw) with zeta_data. change (species_at (sulfate_brine text) 3) with aCO2. change (species_at (sulfate_brine text) 2) with (sulfate text). change (species_at (sulfate_brine text) 1) with aNa.
    replace 0.17 with (17 / 100) by lra. replace 0.085 with (85 / 1000) by lra. field.
Qed.
(* With the charge of sulfate written -2 instead of --, the interaction of carbon
   dioxide with sulfate is lost. *)
Theorem C113_sulfate_refuted : forall reactions rho eps Aphi f f' T P A p x,
  pitzer Aphi hmw (mkAqueousMixture reactions rho eps) (sulfate_brine $"SO4--") = Ok f -> pitzer Aphi hmw (mkAqueousMixture reactions rho eps) (sulfate_brine $"SO4-2") = Ok f' -> Aphi T P = Ok A -> (forall i, (i < 4)%nat -> 0 < x i) ->
  activity f T P p x 3 - activity f' T P p x 3 = molality x 2 * (0.194 - 0.015 * molality x 1).
Proof.
  intros reactions rho eps Aphi f f' T P A p x Hf Hf' HA Hx. rewrite (co2_value _ _ _ _ _ _ _ _ _ p x Hf HA Hx), (co2_value _ _ _ _ _ _ _ _ _ p x Hf' HA Hx).
  assert (E1 : pairParam lambda_data (formula aCO2) (formula (sulfate $"SO4--")) = 0.097) by (unfold pairParam; cbn; unfold Q2R; cbn; lra).
  assert (E2 : pairParam lambda_data (formula aCO2) (formula (sulfate $"SO4-2")) = 0) by (unfold pairParam; cbn; lra).
  assert (E3 : tripletParam zeta_data (formula aCO2) (formula aNa) (formula (sulfate $"SO4--")) = - 0.015) by (unfold tripletParam; cbn; unfold Q2R; cbn; lra).
  assert (E4 : tripletParam zeta_data (formula aCO2) (formula aNa) (formula (sulfate $"SO4-2")) = 0) by (unfold tripletParam; cbn; lra).
  rewrite E1, E2, E3, E4. lra.
Qed.
Print Assumptions C113_sulfate_refuted.
Lemma sulfate_respelled t t' : Forall2 respelled (sulfate_brine t) (sulfate_brine t').
Proof. repeat (constructor; [split; reflexivity|]). constructor. Qed.
(* The texts are two readings of one formula. *)
Lemma sulfate_texts : exists g g', mkChemicalFormula $"SO4--" = Ok g /\ mkChemicalFormula $"SO4-2" = Ok g' /\ equivalent g g' = true /\ equivalent g (formula (sulfate $"SO4--")) = true /\ equivalent g' (formula (sulfate $"SO4-2")) = true.
Proof. eexists. eexists. split; [vm_compute; reflexivity|]. split; [vm_compute; reflexivity|]. vm_compute. auto. Qed.
Theorem C113_refuted : ~ C113_statement.
Proof.
  intros H. destruct (pitzer_ok [] (fun _ _ => 1) (fun _ _ => 1) (fun _ _ => Ok 0.39147278) (sulfate_brine $"SO4--") 0) as [f Hf]; [vm_compute; reflexivity|]. destruct (pitzer_ok [] (fun _ _ => 1) (fun _ _ => 1) (fun _ _ => Ok 0.39147278) (sulfate_brine $"SO4-2") 0) as [f' Hf']; [vm_compute; reflexivity|].
  pose proof (H _ _ _ _ _ _ f f' (sulfate_respelled $"SO4--" $"SO4-2") ltac:(split; [exists aNa|exists (sulfate $"SO4--")]; (split; [cbn; auto|reflexivity])) Hf Hf' 300 1e5 (constProps 0, None) (fun i => nth i [1; 0.018015268; 0.018015268; 0.018015268] 0)) as [_ S].
  specialize (S 3%nat ltac:(cbn; lia)). pose proof (C113_sulfate_refuted _ _ _ _ f f' 300 1e5 0.39147278 (constProps 0, None) (fun i => nth i [1; 0.018015268; 0.018015268; 0.018015268] 0) Hf Hf' eq_refl) as D.
  rewrite S, Rminus_diag_eq in D by reflexivity. unfold molality in D. cbn [nth] in D. assert (E : 0.018015268 / (0.018015268 * 1) = 1) by (rewrite Rmult_1_r; apply Rinv_r; lra). rewrite E in D. assert (0 = 1 * (0.194 - 0.015 * 1)); [|lra]. apply D. intros i Hi. destruct i as [|[|[|[|]]]]; cbn; try lra. lia.
Qed.
Print Assumptions C113_refuted.
Example C113_nonvacuous : Forall2 respelled (sulfate_brine $"SO4-2") (sulfate_brine $"O4S-2") /\ Forall2 similar (sulfate_brine $"SO4-2") (sulfate_brine $"O4S-2") /\ single_salt [aH2O; aNa; sulfate $"SO4--"] /\ Forall2 respelled [aH2O; aNa; sulfate $"SO4--"] [aH2O; aNa; sulfate $"SO4-2"] /\
  In $"SO4--" table_texts /\ indexWithFormula (sulfate_brine $"SO4-2") $"H2O" = Ok 0%nat /\ indexWithFormula [aH2O; aNa; sulfate $"SO4--"] $"H2O" = Ok 0%nat.
Proof.
  assert (A : forall t, existsb (str_eqb t) table_texts = false -> ~ In t table_texts). { intros t H X. assert (existsb (str_eqb t) table_texts = true); [|congruence]. apply existsb_exists. exists t. split; [exact X|]. apply str_eqb_eq. reflexivity. }
  split; [apply sulfate_respelled|]. split.
  { constructor; [left; reflexivity|]. constructor; [left; reflexivity|]. constructor; [right; split; apply A; vm_compute; reflexivity|]. constructor; [left; reflexivity|constructor]. }
  split. { intros i j Hi Hj. cbn in Hi, Hj. destruct i as [|[|[|]]], j as [|[|[|]]]; try lia; cbn; intros X; first [discriminate X|reflexivity]. }
  split. { repeat (constructor; [split; reflexivity|]). constructor. }
  split. { assert (existsb (str_eqb $"SO4--") table_texts = true) as X by (vm_compute; reflexivity). apply existsb_exists in X. destruct X as (y & Y & E). apply str_eqb_eq in E. rewrite E. exact Y. }
  split; vm_compute; reflexivity.
Qed.

(* ---- C114: each line of the tables matters ---- *)
(* The tables without line k of the second virial parameters beta2. *)
Definition with_beta2 (t : list (str * str * list Q)) : PitzerData := mkData beta0_data beta1_data t Cphi_data theta_data psi_data lambda_data zeta_data.
Definition without_line (k : nat) : PitzerData := with_beta2 (firstn k beta2_data ++ skipn (S k) beta2_data).
Definition line_matters (k : nat) : Prop := exists reactions rho eps Aphi l f f' T P p x i q e q' e',
  pitzer Aphi hmw (mkAqueousMixture reactions rho eps) l = Ok f /\ pitzer Aphi (without_line k) (mkAqueousMixture reactions rho eps) l = Ok f' /\
  f T P x p = Ok (q, e) /\ f' T P x p = Ok (q', e') /\ (i < length l)%nat /\ (forall j, (j < length l)%nat -> 0 < x j) /\ activity f T P p x i <> activity f' T P p x i.
Definition C114_statement : Prop := forall k, (k < length beta2_data)%nat -> line_matters k.

Lemma mapM_nth {X Y} (f : X -> outcome Y) l v d e : mapM f l = Ok v -> length v = length l /\ forall i, (i < length l)%nat -> f (nth i l d) = Ok (nth i v e).
Proof.
  revert v. induction l as [|a l IH]; intros v H; cbn in H; [injection H as <-; split; [reflexivity|cbn; lia]|].
  destruct (f a) as [b| |] eqn:Ea; try discriminate. cbn in H. destruct (mapM f l) as [bs| |]; try discriminate. cbn in H. injection H as <-. destruct (IH bs eq_refl) as [L V]. split; [cbn; lia|].
  intros [|i] Hi; cbn; [exact Ea|]. apply V. cbn in Hi. lia.
Qed.
Lemma saltTable_at data cs as_ v : saltTable data cs as_ = Ok v -> forall i j, ((i < length cs)%nat /\ (j < length as_)%nat /\ saltParam data (nth i cs (formula noSpecies)) (nth j as_ (formula noSpecies)) = Ok (v i j)) \/ (~ ((i < length cs)%nat /\ (j < length as_)%nat) /\ v i j = fun _ => 0).
Proof.
  unfold saltTable. destruct (mapM _ cs) as [rows| |] eqn:E; try discriminate. cbn. intros H i j. injection H as <-. destruct (mapM_nth _ _ _ (formula noSpecies) [] E) as [L V].
  destruct (Nat.lt_ge_cases i (length cs)) as [Hi|Hi].
  - specialize (V i Hi). destruct (mapM_nth _ _ _ (formula noSpecies) (fun _ => 0) V) as [L' V']. destruct (Nat.lt_ge_cases j (length as_)) as [Hj|Hj].
    + left. split; [exact Hi|]. split; [exact Hj|]. apply V', Hj.
    + right. split; [lia|]. apply nth_overflow. lia.
  - right. split; [lia|]. rewrite (nth_overflow rows) by lia. destruct j; reflexivity.
Qed.
Definition set_beta2 (pz : PitzerParams) (b : nat -> nat -> R -> R) : PitzerParams :=
  mkPitzer (pz_neutrals pz) (pz_charged pz) (pz_cations pz) (pz_anions pz) (pz_z pz) (pz_beta0 pz) (pz_beta1 pz) b (pz_Cphi pz) (pz_theta_cc pz) (pz_theta_aa pz) (pz_psi_cca pz) (pz_psi_aac pz) (pz_lambda_nc pz) (pz_lambda_na pz) (pz_zeta pz).
Lemma set_beta2_fn Aphi mx pz b : (forall i j, both_two (z_c pz i) (z_a pz j) = true -> pz_beta2 pz i j = b i j) -> forall T P x p, pitzer_fn Aphi mx (set_beta2 pz b) T P x p = pitzer_fn Aphi mx pz T P x p.
Proof.
  intros H T P x p.
  assert (E1 : forall I, B_ca (set_beta2 pz b) I T = B_ca pz I T). { intros I. apply functional_extensionality. intros c. apply functional_extensionality. intros a. unfold B_ca, B_. change (z_c (set_beta2 pz b)) with (z_c pz). change (z_a (set_beta2 pz b)) with (z_a pz). destruct (both_two (z_c pz c) (z_a pz a)) eqn:B; [|reflexivity]. cbn. rewrite (H c a B). reflexivity. }
  assert (E2 : forall I, Bphi_ca (set_beta2 pz b) I T = Bphi_ca pz I T). { intros I. apply functional_extensionality. intros c. apply functional_extensionality. intros a. unfold Bphi_ca, B_phi. change (z_c (set_beta2 pz b)) with (z_c pz). change (z_a (set_beta2 pz b)) with (z_a pz). destruct (both_two (z_c pz c) (z_a pz a)) eqn:B; [|reflexivity]. cbn. rewrite (H c a B). reflexivity. }
  assert (E3 : forall I, Bprime_ca (set_beta2 pz b) I T = Bprime_ca pz I T). { intros I. apply functional_extensionality. intros c. apply functional_extensionality. intros a. unfold Bprime_ca, B_prime. change (z_c (set_beta2 pz b)) with (z_c pz). change (z_a (set_beta2 pz b)) with (z_a pz). destruct (both_two (z_c pz c) (z_a pz a)) eqn:B; [|reflexivity]. cbn. rewrite (H c a B). reflexivity. }
  assert (F : forall A I m, computeF (set_beta2 pz b) A I T m = computeF pz A I T m) by (intros; unfold computeF; rewrite E3; reflexivity).
  assert (C : forall A I m, lnCation (set_beta2 pz b) A I T m = lnCation pz A I T m) by (intros; apply functional_extensionality; intros M; unfold lnCation; rewrite F, E1; reflexivity).
  assert (N : forall A I m, lnAnion (set_beta2 pz b) A I T m = lnAnion pz A I T m) by (intros; apply functional_extensionality; intros M; unfold lnAnion; rewrite F, E1; reflexivity).
  assert (W : forall A I m t, lnWater (set_beta2 pz b) A I T m t = lnWater pz A I T m t) by (intros; unfold lnWater; rewrite E2; reflexivity).
  unfold pitzer_fn. cbv zeta. destruct (Aphi T P) as [A| |]; [|reflexivity|reflexivity]. cbn [bind]. rewrite C, N.
  change (pz_cations (set_beta2 pz b)) with (pz_cations pz). change (pz_anions (set_beta2 pz b)) with (pz_anions pz). change (pz_neutrals (set_beta2 pz b)) with (pz_neutrals pz). change (lnNeutral (set_beta2 pz b)) with (lnNeutral pz).
  destruct (setM _ (pz_cations pz) _ _); [|reflexivity|reflexivity]. cbn [bind]. destruct (setM _ (pz_anions pz) _ _); [|reflexivity|reflexivity]. cbn [bind]. destruct (setM _ (pz_neutrals pz) _ _); [|reflexivity|reflexivity]. cbn [bind]. rewrite W. reflexivity.
Qed.
(* The parameters with other tables of beta2. *)
Lemma params_with t mx pz pz' : pitzerParams hmw mx = Ok pz -> pitzerParams (with_beta2 t) mx = Ok pz' -> pz' = set_beta2 pz (pz_beta2 pz') /\
  (let f := map (fun i => formula (species_at (mx_species mx) i)) in saltTable beta2_data (f (mx_cations mx)) (f (mx_anions mx)) = Ok (pz_beta2 pz) /\ saltTable t (f (mx_cations mx)) (f (mx_anions mx)) = Ok (pz_beta2 pz')).
Proof.
  unfold pitzerParams. cbv zeta. change (d_beta0 (with_beta2 t)) with (d_beta0 hmw). change (d_beta1 (with_beta2 t)) with (d_beta1 hmw). change (d_Cphi (with_beta2 t)) with (d_Cphi hmw). change (d_beta2 (with_beta2 t)) with t. change (d_beta2 hmw) with beta2_data.
  destruct (saltTable (d_beta0 hmw) _ _) as [b0| |]; try discriminate. cbn [bind]. destruct (saltTable (d_beta1 hmw) _ _) as [b1| |]; try discriminate. cbn [bind].
  destruct (saltTable beta2_data _ _) as [b2| |]; try discriminate. cbn [bind]. destruct (saltTable t _ _) as [b2'| |]; try discriminate. cbn [bind]. destruct (saltTable (d_Cphi hmw) _ _) as [C| |]; try discriminate. cbn [bind].
  intros E E'. injection E as <-. injection E' as <-. split; [reflexivity|]. cbn [pz_beta2]. auto.
Qed.
(* The line of calcium and hydroxide. *)
Lemma hydroxide_line c a v v' : saltParam beta2_data c a = Ok v -> saltParam (firstn 0 beta2_data ++ skipn 1 beta2_data) c a = Ok v' -> v = v' \/ (cf_charge a == -1)%Q.
Proof.
  intros H H'. change (firstn 0 beta2_data ++ skipn 1 beta2_data) with (skipn 1 beta2_data) in H'.
  change beta2_data with (($"Ca++", $"OH-", [(-572 # 100)%Q]) :: skipn 1 beta2_data) in H. remember (skipn 1 beta2_data) as rest. cbn [saltParam] in H.
  destruct (mkChemicalFormula $"Ca++") as [fc| |]; try discriminate. cbn [bind] in H. destruct (mkChemicalFormula $"OH-") as [fa| |] eqn:Ea; try discriminate. cbn [bind] in H.
  destruct (equivalent c fc && equivalent a fa) eqn:E; [right|left; congruence]. apply andb_prop in E. destruct E as [_ E]. unfold equivalent in E. apply andb_prop in E. destruct E as [_ E]. apply Qeq_bool_eq in E. rewrite E.
  vm_compute in Ea. injection Ea as <-. reflexivity.
Qed.
Theorem C114_hydroxide_refuted : forall reactions rho eps Aphi l f f', pitzer Aphi hmw (mkAqueousMixture reactions rho eps) l = Ok f -> pitzer Aphi (without_line 0) (mkAqueousMixture reactions rho eps) l = Ok f' ->
  forall T P x p, f' T P x p = f T P x p.
Proof.
  intros reactions rho eps Aphi l f f' Hf Hf'. destruct (pitzer_inv _ _ _ _ _ _ _ Hf) as (mx & pz & Hmx & Hpz & ->). destruct (pitzer_inv _ _ _ _ _ _ _ Hf') as (mx' & pz' & Hmx' & Hpz' & ->). rewrite Hmx in Hmx'. injection Hmx' as <-.
  destruct (params_with _ _ _ _ Hpz Hpz') as (E & T1 & T2). cbv zeta in T1, T2. rewrite E. apply set_beta2_fn. intros i j B.
  destruct (saltTable_at _ _ _ _ T1 i j) as [(Hi & Hj & V)|(N & V)], (saltTable_at _ _ _ _ T2 i j) as [(Hi' & Hj' & V')|(N' & V')]; try tauto; [|congruence].
  destruct (hydroxide_line _ _ _ _ V V') as [Q|Q]; [exact Q|]. exfalso. rewrite map_length in Hj. destruct (pitzerParams_inv _ _ _ Hpz) as (_ & _ & _ & Pa & _).
  destruct (anion_is _ _ _ _ _ _ Hmx Hpz j ltac:(rewrite Pa; exact Hj)) as (s & _ & _ & Z & F). rewrite F in Q. cbn [formula cf_charge] in Q. apply Qeq_eqR in Q. rewrite <- Z in Q.
  unfold both_two in B. destruct (Req_EM_T (Rabs (z_c pz i)) 2); [|discriminate]. destruct (Req_EM_T (Rabs (z_a pz j)) 2) as [A|]; [|discriminate]. rewrite Q in A. unfold Q2R in A. cbn in A.
  rewrite Rinv_1, Rmult_1_r, Rabs_left in A by lra. lra.
Qed.
Print Assumptions C114_hydroxide_refuted.
Theorem C114_refuted : ~ C114_statement.
Proof.
  intros H. destruct (H 0%nat ltac:(cbn; lia)) as (reactions & rho & eps & Aphi & l & f & f' & T & P & p & x & i & q & e & q' & e' & Hf & Hf' & E & E' & _ & _ & N). apply N. unfold activity. rewrite (C114_hydroxide_refuted _ _ _ _ _ _ _ Hf Hf'). reflexivity.
Qed.
Print Assumptions C114_refuted.
(* The coefficients of the line that is used. *)
Fixpoint find_line (data : list (str * str * list Q)) (cation anion : ChemicalFormula) : outcome (list Q) :=
  match data with
  | [] => Ok []
  | (x, y, coeffs) :: rest => bind (mkChemicalFormula x) (fun c => bind (mkChemicalFormula y) (fun a => if equivalent cation c && equivalent anion a then Ok coeffs else find_line rest cation anion))
  end.
Lemma find_line_none data c a : forallb (fun r => negb (Nat.eqb (length (snd r)) 0)) data = true -> find_line data c a = Ok [] -> saltParam data c a = Ok (fun _ => 0).
Proof.
  induction data as [|[[x y] co] rest IH]; intros W H; [reflexivity|]. cbn [forallb snd] in W. apply andb_prop in W. destruct W as [W1 W2]. cbn [find_line saltParam] in *. destruct (mkChemicalFormula x); try discriminate. cbn [bind] in *. destruct (mkChemicalFormula y); try discriminate. cbn [bind] in *.
  destruct (equivalent c _ && equivalent a _); [|apply IH; assumption]. injection H as ->. discriminate W1.
Qed.
Lemma find_line_some data c a q r : find_line data c a = Ok (q :: r) -> saltParam data c a = saltFunction (q :: r).
Proof.
  induction data as [|[[x y] co] rest IH]; intros H; [discriminate|]. cbn [find_line saltParam] in *. destruct (mkChemicalFormula x); try discriminate. cbn [bind] in *. destruct (mkChemicalFormula y); try discriminate. cbn [bind] in *.
  destruct (equivalent c _ && equivalent a _); [|apply IH; assumption]. injection H as ->. reflexivity.
Qed.
Lemma skipn_tail {X} k (l : list X) : skipn (S k) l = tl (skipn k l).
Proof. revert l. induction k as [|k IH]; intros [|a l]; try reflexivity. apply (IH l). Qed.
(* The value at the reference temperature. *)
Lemma saltFunction_ref q r v : (length r <= 1)%nat -> saltFunction (q :: r) = Ok v -> v 298.15 = Q2R q.
Proof. destruct r as [|q1 [|]]; cbn; intros L H; try lia; injection H as <-; [reflexivity|]. ring. Qed.

Definition metal (x : str) : Species := aqua (x ++ $"++") [(x, 1%Q)] 2.
Definition metal_brine (x : str) : list Species := [aH2O; metal x; aSO4].
Section Sulfates.
Variables (x : str) (k : nat) (q0 : Q) (r : list Q).
Hypotheses (H0 : find_line beta2_data (formula (metal x)) (formula aSO4) = Ok (q0 :: r)) (H1 : find_line (firstn k beta2_data ++ skipn (S k) beta2_data) (formula (metal x)) (formula aSO4) = Ok []).
Hypotheses (Hr : (length r <= 1)%nat) (Hq : Q2R q0 <> 0).
Let y (i : nat) : R := nth i [1; 0.018015268; 0.018015268] 0.
Lemma metal_matters : line_matters k.
Proof.
  set (Aphi := fun _ _ : R => Ok 0.39147278). set (l := metal_brine x).
  destruct (mixture_of [] (fun _ _ => 1) (fun _ _ => 1) l 0) as (mx & Hmx & Ew & Ec & Ea & En); [vm_compute; reflexivity|].
  change (pick (P_Aqueous.is_cation 0) 0 l) with [1%nat] in Ec. change (pick (P_Aqueous.is_anion 0) 0 l) with [2%nat] in Ea. change (pick (P_Aqueous.is_neutral 0) 0 l) with (@nil nat) in En.
  assert (L : mx_species mx = l) by apply (mx_inv _ _ _ _ _ Hmx).
  destruct (pitzerParams_ok mx) as [pz Hpz]. 
  assert (exists pz', pitzerParams (without_line k) mx = Ok pz') as [pz' Hpz'].
  { pose proof Hpz as E. unfold pitzerParams in E |- *. cbv zeta in E |- *. unfold without_line. change (d_beta0 (with_beta2 _)) with (d_beta0 hmw). change (d_beta1 (with_beta2 _)) with (d_beta1 hmw). change (d_Cphi (with_beta2 _)) with (d_Cphi hmw). change (d_beta2 (with_beta2 ?t)) with t.
    destruct (saltTable (d_beta0 hmw) _ _); try discriminate. cbn [bind] in *. destruct (saltTable (d_beta1 hmw) _ _); try discriminate. cbn [bind] in *. destruct (saltTable (d_beta2 hmw) _ _); try discriminate. cbn [bind] in *. destruct (saltTable (d_Cphi hmw) _ _); try discriminate. cbn [bind] in *.
    destruct (saltTable_ok (firstn k beta2_data ++ skipn (S k) beta2_data) (map (fun i => formula (species_at (mx_species mx) i)) (mx_cations mx)) (map (fun i => formula (species_at (mx_species mx) i)) (mx_anions mx))) as [v ->].
    { pose proof hmw_ok as O. apply andb_prop in O. destruct O as [O _]. apply andb_prop in O. destruct O as [_ O]. change (d_beta2 hmw) with beta2_data in O. unfold lines_ok in *. rewrite <- (firstn_skipn k beta2_data) in O at 1. rewrite forallb_app in O |- *. apply andb_prop in O. destruct O as [O1 O2]. rewrite O1. cbn [andb].
      destruct (skipn k beta2_data) as [|ln0 tl0] eqn:S; [|cbn [forallb] in O2; apply andb_prop in O2; destruct O2 as [_ O2]].
      - assert (skipn (Datatypes.S k) beta2_data = []) as ->; [|reflexivity]. apply length_zero_iff_nil. rewrite skipn_length. apply (f_equal (@length _)) in S. rewrite skipn_length in S. cbn [length] in S. lia.
      - assert (skipn (Datatypes.S k) beta2_data = tl0) as ->; [|exact O2]. rewrite skipn_tail, S. reflexivity. }
    cbn [bind]. eexists. reflexivity. }
  destruct (params_with _ _ _ _ Hpz Hpz') as (E & T1 & T2). cbv zeta in T1, T2. rewrite L, Ec, Ea in T1, T2.
  assert (V0 : pz_beta2 pz 0%nat 0%nat 298.15 = Q2R q0).
  { destruct (saltTable_at _ _ _ _ T1 0%nat 0%nat) as [(_ & _ & V)|(N & _)]; [|cbn in N; lia]. cbn [map nth] in V. change (species_at l 1) with (metal x) in V. change (species_at l 2) with aSO4 in V. rewrite (find_line_some _ _ _ _ _ H0) in V. exact (saltFunction_ref _ _ _ Hr V). }
  assert (V1 : pz_beta2 pz' 0%nat 0%nat 298.15 = 0).
  { destruct (saltTable_at _ _ _ _ T2 0%nat 0%nat) as [(_ & _ & V)|(N & _)]; [|cbn in N; lia]. cbn [map nth] in V. change (species_at l 1) with (metal x) in V. change (species_at l 2) with aSO4 in V. rewrite find_line_none in V; [injection V as <-; reflexivity| |exact H1].
    assert (O : forallb (fun r => negb (Nat.eqb (length (snd r)) 0)) beta2_data = true) by (vm_compute; reflexivity). apply forallb_forall. intros z Hz. rewrite forallb_forall in O. apply O. apply in_app_or in Hz. rewrite <- (firstn_skipn k beta2_data). apply in_or_app. destruct Hz as [Hz|Hz]; [left; exact Hz|right].
    rewrite skipn_tail in Hz. destruct (skipn k beta2_data); [destruct Hz|right; exact Hz]. }
  destruct (pitzerParams_inv _ _ _ Hpz) as (Pn & _ & Pc & Pa & Pz). destruct (pitzerParams_inv _ _ _ Hpz') as (Pn' & _ & Pc' & Pa' & Pz').
  assert (Zc : z_c pz 0 = 2 /\ z_a pz 0 = -2). { unfold z_c, z_a. rewrite Pc, Pa, Pz, L, Ec, Ea. cbn [nth]. unfold charge_at. cbn. unfold Q2R. cbn. lra. }
  assert (Y : forall j, (j < 3)%nat -> 0 < y j) by (intros [|[|[|]]] Hj; unfold y; cbn; try lra; lia).
  assert (Em : st_m (mixtureState mx 298.15 1e5 y) = fun i => y i / (0.018015268 * 1)). { cbn. unfold molalities. rewrite Ew. unfold y at 1. cbn [nth]. destruct (Req_EM_T 1 0); [lra|]. reflexivity. }
  assert (one : forall u : R, u <> 0 -> u / (u * 1) = 1) by (intros u Hu; field; exact Hu).
  assert (M1 : y 1%nat / (0.018015268 * 1) = 1) by (unfold y; cbn [nth]; apply one; lra). assert (M2 : y 2%nat / (0.018015268 * 1) = 1) by (unfold y; cbn [nth]; apply one; lra).
  assert (tot : Sum (length l) (fun i => y i / (0.018015268 * 1)) - y 0%nat / (0.018015268 * 1) = 2) by (cbn [length l metal_brine Sum]; rewrite M1, M2; ring).
  assert (D : forall pz data, pitzerParams data mx = Ok pz -> exists q, pitzer_fn Aphi mx pz 298.15 1e5 y (constProps 0, None) = Ok (q, Some (mx, mixtureState mx 298.15 1e5 y)) /\
    ln_a q 0%nat = - Mw * (2 + 2 * osmotic_value pz 0.39147278 (st_Ie (mixtureState mx 298.15 1e5 y)) 298.15 (fun i => y i / (0.018015268 * 1)) (fun _ _ => 0) (fun _ _ => 0) (fun _ _ => 0) (fun _ _ => 0))).
  { intros pz0 data Hp. pose proof (pitzer_value [] (fun _ _ => 1) (fun _ _ => 1) l mx pz0 data Hmx Hp Aphi 298.15 1e5 y (constProps 0, None) 0.39147278 (fun _ _ => 0) (fun _ _ => 0) (fun _ _ => 0) (fun _ _ => 0)) as V. cbv zeta in V. rewrite Em, Ew, Ec, Ea, tot in V.
    destruct V as (q & Eq & _ & _ & _ & _ & W & _); [reflexivity|cbn; lia|cbn; lia| | |lra|exists q; split; [exact Eq|exact W]].
    - cbn [length]. intros i j Hi Hj. replace i with j by lia. apply theta_same.
    - cbn [length]. intros i j Hi Hj. replace i with j by lia. apply theta_same. }
  destruct (D pz hmw Hpz) as (qa & Ea1 & Wa). destruct (D pz' (without_line k) Hpz') as (qb & Eb1 & Wb).
  exists [], (fun _ _ => 1), (fun _ _ => 1), Aphi, l, (pitzer_fn Aphi mx pz), (pitzer_fn Aphi mx pz'), 298.15, 1e5, (constProps 0, None), y, 0%nat, qa, (Some (mx, mixtureState mx 298.15 1e5 y)), qb, (Some (mx, mixtureState mx 298.15 1e5 y)).
  split; [unfold pitzer; rewrite Hmx; cbn [bind]; rewrite Hpz; reflexivity|]. split; [unfold pitzer; rewrite Hmx; cbn [bind]; rewrite Hpz'; reflexivity|]. split; [exact Ea1|]. split; [exact Eb1|]. split; [cbn; lia|]. split; [exact Y|].
  unfold activity. rewrite Ea1, Eb1, Wa, Wb. set (II := st_Ie _). intros C. pose proof Mw_pos.
  assert (C' : osmotic_value pz 0.39147278 II 298.15 (fun i => y i / (0.018015268 * 1)) (fun _ _ => 0) (fun _ _ => 0) (fun _ _ => 0) (fun _ _ => 0) = osmotic_value pz' 0.39147278 II 298.15 (fun i => y i / (0.018015268 * 1)) (fun _ _ => 0) (fun _ _ => 0) (fun _ _ => 0) (fun _ _ => 0)).
  { apply Ropp_eq_compat in C. rewrite !Ropp_mult_distr_l, !Ropp_involutive in C. apply Rmult_eq_reg_l in C; [lra|lra]. } clear C.
  rewrite E in C'. unfold osmotic_value, vS in C'. cbn [set_beta2 pz_neutrals pz_cations pz_anions pz_charged] in C'. unfold m_c, m_a in C'. cbn [set_beta2 pz_neutrals pz_cations pz_anions pz_charged] in C'. rewrite Pn, Pc, Pa, Ec, Ea, En in C'. cbn [length Sum Pairs nth] in C'.
  rewrite M1, M2 in C'. unfold Bphi_ca, B_phi in C'. change (z_c (set_beta2 pz (pz_beta2 pz'))) with (z_c pz) in C'. change (z_a (set_beta2 pz (pz_beta2 pz'))) with (z_a pz) in C'. destruct Zc as [Z1 Z2]. rewrite Z1, Z2 in C'.
  assert (B2 : both_two 2 (-2) = true). { unfold both_two. rewrite Rabs_pos_eq, Rabs_left by lra. destruct (Req_EM_T 2 2); [|lra]. destruct (Req_EM_T (- -2) 2); [reflexivity|lra]. }
  rewrite B2 in C'. cbn [set_beta2 pz_beta0 pz_beta1 pz_beta2] in C'. rewrite V0, V1 in C'.
  change (C_ca (set_beta2 pz (pz_beta2 pz'))) with (C_ca pz) in C'. change (computeZ (set_beta2 pz (pz_beta2 pz'))) with (computeZ pz) in C'.
  pose proof (exp_pos (- pz_alpha2 * sqrt II)) as P. apply Hq. assert (Q2R q0 * exp (- pz_alpha2 * sqrt II) = 0) as K by lra. apply Rmult_integral in K. destruct K as [K|K]; [exact K|lra].
Qed.
End Sulfates.
Theorem C114_sulfates_partial : forall k, (1 <= k < length beta2_data)%nat -> line_matters k.
Proof.
  intros k Hk. cbn [length beta2_data] in Hk.
  destruct k as [|[|[|[|[|[|k]]]]]]; try lia.
  - apply (metal_matters $"Ca" 1 (-5424 # 100) [(-516 # 1000)%Q]); [vm_compute; reflexivity|vm_compute; reflexivity|cbn; lia|unfold Q2R; cbn; lra].
  - apply (metal_matters $"Fe" 2 (-42) []); [vm_compute; reflexivity|vm_compute; reflexivity|cbn; lia|unfold Q2R; cbn; lra].
  - apply (metal_matters $"Mg" 3 (-3723 # 100) [(-253 # 1000)%Q]); [vm_compute; reflexivity|vm_compute; reflexivity|cbn; lia|unfold Q2R; cbn; lra].
  - apply (metal_matters $"Mn" 4 (-40) []); [vm_compute; reflexivity|vm_compute; reflexivity|cbn; lia|unfold Q2R; cbn; lra].
  - apply (metal_matters $"Sr" 5 (-5424 # 100) [(-42 # 100)%Q]); [vm_compute; reflexivity|vm_compute; reflexivity|cbn; lia|unfold Q2R; cbn; lra].
Qed.
Print Assumptions C114_sulfates_partial.
Example C114_nonvacuous : length beta2_data = 6%nat /\ nth 0 beta2_data ([], [], []) = ($"Ca++", $"OH-", [(-572 # 100)%Q]) /\ exists f f', let l := [aH2O; metal $"Ca"; aqua $"OH-" [($"O", 1%Q); ($"H", 1%Q)] (-1)%Q] in
  pitzer (fun _ _ => Ok 0.39147278) hmw (mkAqueousMixture [] (fun _ _ => 1) (fun _ _ => 1)) l = Ok f /\ pitzer (fun _ _ => Ok 0.39147278) (without_line 0) (mkAqueousMixture [] (fun _ _ => 1) (fun _ _ => 1)) l = Ok f' /\
  find_line beta2_data (formula (species_at l 1)) (formula (species_at l 2)) = Ok [(-572 # 100)%Q].
Proof.
  split; [reflexivity|]. split; [reflexivity|]. set (l := [aH2O; metal $"Ca"; aqua $"OH-" [($"O", 1%Q); ($"H", 1%Q)] (-1)%Q]).
  destruct (pitzer_ok [] (fun _ _ => 1) (fun _ _ => 1) (fun _ _ => Ok 0.39147278) l 0) as [f Hf]; [vm_compute; reflexivity|]. exists f.
  assert (exists f', pitzer (fun _ _ => Ok 0.39147278) (without_line 0) (mkAqueousMixture [] (fun _ _ => 1) (fun _ _ => 1)) l = Ok f') as [f' Hf'].
  { unfold pitzer in *. destruct (mkAqueousMixture _ _ _ l) as [mx| |]; try discriminate. cbn [bind] in *. unfold pitzerParams in *. cbv zeta in *. change (d_beta0 (without_line 0)) with (d_beta0 hmw). change (d_beta1 (without_line 0)) with (d_beta1 hmw). change (d_Cphi (without_line 0)) with (d_Cphi hmw).
    destruct (saltTable (d_beta0 hmw) _ _); try discriminate. cbn [bind omap] in *. destruct (saltTable (d_beta1 hmw) _ _); try discriminate. cbn [bind omap] in *. destruct (saltTable (d_beta2 hmw) _ _); try discriminate. cbn [bind omap] in *. destruct (saltTable (d_Cphi hmw) _ _); try discriminate. cbn [bind omap] in *.
    destruct (saltTable_ok (d_beta2 (without_line 0)) (map (fun i => formula (species_at (mx_species mx) i)) (mx_cations mx)) (map (fun i => formula (species_at (mx_species mx) i)) (mx_anions mx))) as [v ->]; [vm_compute; reflexivity|]. eexists. reflexivity. }
  exists f'. cbv zeta. split; [exact Hf|]. split; [exact Hf'|vm_compute; reflexivity].
Qed.
