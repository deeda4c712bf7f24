(* C105-C106: the parameters of the Debye-Hueckel model and chains of activity
   models. *)
From Coq Require Import Reals Qreals List Bool Lia Lra Permutation.
From Coquelicot Require Import Coquelicot.
Import ListNotations.
From Verif Require Import Base M_Strings M_Formula M_Chem M_Algorithms M_System M_Registry M_CubicEOS S_Chem P_Chem C_Chem P_Helmholtz P_CubicEOS M_Aqueous S_Activity P_Aqueous P_Activity P_DebyeHuckel P_HKFActivity C_Aqueous C_Activity.
Local Open Scope R_scope.

(* ---- C105 ---- *)
Lemma mapM_at {A B} (f : A -> outcome B) l r j a d : mapM f l = Ok r -> nth_error l j = Some a -> f a = Ok (nth j r d).
Proof.
  revert r j. induction l as [|b l IH]; intros r j E Hj; [destruct j; discriminate|]. cbn [mapM] in E. destruct (f b) as [v| |] eqn:Ev; try discriminate. cbn [bind] in E.
  destruct (mapM f l) as [r'| |]; try discriminate. cbn [bind] in E. injection E as <-. destruct j as [|j]; [injection Hj as <-; exact Ev|]. cbn [nth]. apply IH; [reflexivity|exact Hj].
Qed.
Lemma dh_parameters_at params d l idx vs j i s : dh_parameters params d l idx = Ok vs -> distinct_keys params -> nth_error idx j = Some i -> nth_error l i = Some s ->
  listed_once (cf_elements (formula s)) -> value_of (formula s) params d (nth j vs 0).
Proof.
  intros E D Hj Hi Hs. unfold dh_parameters in E. pose proof (mapM_at _ _ _ _ _ 0 E Hj) as Ev. cbn beta in Ev. unfold species_at in Ev. rewrite (nth_error_nth _ _ _ Hi) in Ev.
  destruct (C99_partial (formula s) d params Hs D) as (v & E' & Hv & _). rewrite E' in Ev. injection Ev as <-. exact Hv.
Qed.
(* In a solution of ionic strength I at density rho and dielectric constant eps,
   an ion of charge z with parameters a and b, and a neutral species with b. *)
Definition ion_coefficient_law (T rho eps a b z I : R) : R :=
  ln10 * (- (1.824829238e+6 * sqrt (rho / 1000) / (T * eps * sqrt (T * eps))) * z ^ 2 * sqrt I / (1 + a * (50.29158649 * sqrt (rho / 1000) / sqrt (T * eps)) * sqrt I) + b * I).
(* Every species has the coefficient of its own parameters, whatever its place in
   the list. *)
Theorem C105_parameters : forall params reactions rho eps l f T P x p i s,
  debyeHuckel params (mkAqueousMixture reactions rho eps) l = Ok f ->
  distinct_keys (dh_aions params) -> distinct_keys (dh_bions params) -> distinct_keys (dh_bneutrals params) ->
  nth_error l i = Some s -> listed_once (cf_elements (formula s)) -> ~ first_with l $"H2O" i ->
  exists q mx st, f T P x p = Ok (q, Some (mx, st)) /\ ln_a q i = ln_g q i + ln (st_m st i) /\
  (~ Qeq (sp_charge s) 0 -> exists a b, value_of (formula s) (dh_aions params) (dh_adefault params) a /\ value_of (formula s) (dh_bions params) (dh_bdefault params) b /\
     ln_g q i = ion_coefficient_law T (rho T P) (eps T P) a b (Q2R (sp_charge s)) (st_Is st)) /\
  (Qeq (sp_charge s) 0 -> exists b, value_of (formula s) (dh_bneutrals params) (dh_bndefault params) b /\ ln_g q i = ln10 * b * st_Is st).
Proof.
  intros params reactions rho eps l f T P x p i s Hf Da Db Dn Hi Hs Hw.
  destruct (debyeHuckel_inv _ _ _ _ _ _ Hf) as (mx & aions & bions & bneutral & Hmx & -> & Ea & Eb & En).
  destruct (dh_closed _ _ _ _ _ Hmx aions bions bneutral T P p x) as (q & E & Hc & Hn & _). exists q, mx, (mixtureState mx T P x). split; [exact E|].
  assert (Li : (i < length l)%nat) by (apply nth_error_Some; congruence).
  assert (W : i <> mx_water mx). { intros ->. apply Hw. apply index_first. apply (mx_inv _ _ _ _ _ Hmx). }
  destruct (mixture_cases _ _ _ _ _ i Hmx Li) as [->|[Hin|(j & Hj & Ej)]]; [contradiction| |].
  - destruct (neutral_eq _ _ _ _ _ Hmx i Hin) as (_ & Z & _). destruct (In_nth _ _ O Hin) as (j & Hj & Ej). destruct (Hn j Hj) as [G A]. rewrite Ej in G, A. split; [rewrite A, G; reflexivity|]. split.
    + intros N. exfalso. apply N. unfold charge_at, species_at in Z. rewrite (nth_error_nth _ _ _ Hi) in Z. apply eqR_Qeq. rewrite Z. unfold Q2R. cbn. lra.
    + intros _. exists (nth j bneutral 0). split; [|exact G]. apply (dh_parameters_at _ _ _ _ _ j i s En Dn); [rewrite <- Ej; apply nth_error_nth'; exact Hj|exact Hi|exact Hs].
  - assert (Hin : In i (mx_charged mx)) by (rewrite <- Ej; apply nth_In; exact Hj). destruct (charged_neq _ _ _ _ _ Hmx i Hin) as (_ & Z & _). destruct (Hc j Hj) as [G A]. rewrite Ej in G, A. split; [rewrite A, G; reflexivity|].
    assert (Ejn : nth_error (mx_charged mx) j = Some i) by (rewrite <- Ej; apply nth_error_nth'; exact Hj). split.
    + intros _. exists (nth j aions 0), (nth j bions 0). split; [|split].
      * apply (dh_parameters_at _ _ _ _ _ j i s Ea Da); assumption.
      * apply (dh_parameters_at _ _ _ _ _ j i s Eb Db); assumption.
      * rewrite G. unfold dh_lng, ion_coefficient_law, dh_Lambda, dh_A, dh_B, za. rewrite Ej. unfold charge_at, species_at. rewrite (nth_error_nth _ _ _ Hi). f_equal. f_equal. unfold Rdiv. ring.
    + intros H0. exfalso. apply Z. unfold charge_at, species_at. rewrite (nth_error_nth _ _ _ Hi). rewrite (Qeq_eqR _ _ H0). unfold Q2R. cbn. lra.
Qed.
Print Assumptions C105_parameters.
(* The limiting law: parameters of ions zero; neutral species keep the default
   0.1 of their parameter. *)
Theorem C105_limiting_law : forall reactions rho eps l f T P x p i s,
  debyeHuckel limitingLaw (mkAqueousMixture reactions rho eps) l = Ok f ->
  nth_error l i = Some s -> listed_once (cf_elements (formula s)) -> ~ first_with l $"H2O" i ->
  exists q mx st, f T P x p = Ok (q, Some (mx, st)) /\
  (~ Qeq (sp_charge s) 0 -> ln_g q i = - (ln10 * (1.824829238e+6 * sqrt (rho T P / 1000) / (T * eps T P * sqrt (T * eps T P))) * Q2R (sp_charge s) ^ 2 * sqrt (st_Is st))) /\
  (Qeq (sp_charge s) 0 -> ln_g q i = ln10 * (1 / 10) * st_Is st).
Proof.
  intros reactions rho eps l f T P x p i s Hf Hi Hs Hw.
  assert (D : distinct_keys []) by (split; [intros ? []|intros ? ? ? ? []]).
  destruct (C105_parameters limitingLaw reactions rho eps l f T P x p i s Hf D D D Hi Hs Hw) as (q & mx & st & E & _ & Hc & Hn). exists q, mx, st. split; [exact E|].
  assert (V : forall g d v, value_of g [] d v -> v = d) by (intros g d v [(? & ? & [] & _)|[H _]]; exact H). split.
  - intros Z. destruct (Hc Z) as (a & b & Ha & Hb & ->). apply V in Ha, Hb. cbn in Ha, Hb. subst a b. unfold ion_coefficient_law. rewrite !Rmult_0_l, !Rplus_0_r. unfold Rdiv. rewrite Rinv_1. ring.
  - intros Z. destruct (Hn Z) as (b & Hb & ->). apply V in Hb. cbn in Hb. subst b. replace (1 / 10) with 0.1 by lra. reflexivity.
Qed.
Print Assumptions C105_limiting_law.
(* Sodium and dissolved carbon dioxide with the table of Kielland. *)
Definition soda : list Species := [aCO2; aH2O; aCl; aNa].
Example C105_nonvacuous : exists f, debyeHuckel kielland (mkAqueousMixture [] nothing nothing) soda = Ok f /\ forall T P x p, exists q mx st, f T P x p = Ok (q, Some (mx, st)) /\
  ln_g q 3 = ion_coefficient_law T (nothing T P) (nothing T P) 4 0 1 (st_Is st) /\ ln_g q 0 = ln10 * 0.1 * st_Is st.
Proof.
  assert (exists mx, mkAqueousMixture [] nothing nothing soda = Ok mx) as [mx E] by (unfold mkAqueousMixture; assert (indexWithFormula soda $"H2O" = Ok 1%nat) as -> by (vm_compute; reflexivity); eexists; reflexivity).
  destruct (C99_builtin kielland) as (Da & Db & Dn); [cbn; tauto|].
  assert (L : forall s, In s soda -> listed_once (cf_elements (formula s))).
  { intros s Hs. assert (forallb (fun s => (fix go l := match l with [] => true | e :: r => negb (existsb (fun e' => if list_eq_dec Ascii.ascii_dec (fst e) (fst e') then true else false) r) && go r end) (cf_elements (formula s))) soda = true) as C by (vm_compute; reflexivity).
    rewrite forallb_forall in C. specialize (C s Hs). unfold listed_once. revert C. generalize (cf_elements (formula s)) as es. induction es as [|e es IH]; intros C; [constructor|]. apply andb_true_iff in C as [C1 C2]. cbn [map]. constructor; [|apply IH; exact C2].
    intros Hin. apply in_map_iff in Hin as (e' & E' & Hin). apply negb_true_iff in C1. apply not_true_iff_false in C1. apply C1. apply existsb_exists. exists e'. split; [exact Hin|]. destruct (list_eq_dec Ascii.ascii_dec _ _) as [|N]; [reflexivity|]. exfalso. apply N. symmetry. exact E'. }
  assert (exists f, debyeHuckel kielland (mkAqueousMixture [] nothing nothing) soda = Ok f) as [f Hf].
  { unfold debyeHuckel. rewrite E. cbn [bind].
    assert (G : forall params d idx, distinct_keys params -> (forall i, In i idx -> (i < 4)%nat) -> exists vs, dh_parameters params d soda idx = Ok vs).
    { intros params d idx D. unfold dh_parameters. induction idx as [|i idx IH]; intros Hb; [eexists; reflexivity|]. destruct IH as (vs & Ev); [intros; apply Hb; right; assumption|]. cbn [mapM]. destruct (C99_partial (formula (species_at soda i)) d params) as (v & E' & _); [apply L; apply nth_In; apply Hb; left; reflexivity|exact D|].
      rewrite E'. cbn [bind]. rewrite Ev. cbn [bind]. eexists. reflexivity. }
    assert (Bc : forall i, In i (mx_charged mx) -> (i < 4)%nat) by (intros i Hi; apply (charged_neq _ _ _ _ _ E i Hi)). assert (Bn : forall i, In i (mx_neutral mx) -> (i < 4)%nat) by (intros i Hi; apply (neutral_eq _ _ _ _ _ E i Hi)).
    destruct (G _ (dh_adefault kielland) _ Da Bc) as (u1 & ->). cbn [bind]. destruct (G _ (dh_bdefault kielland) _ Db Bc) as (u2 & ->). cbn [bind]. destruct (G _ (dh_bndefault kielland) _ Dn Bn) as (u3 & ->). eexists. reflexivity. }
  exists f. split; [exact Hf|]. intros T P x p.
  assert (W : forall i, i <> 1%nat -> ~ first_with soda $"H2O" i) by (intros i Hi H; apply index_first in H; assert (indexWithFormula soda $"H2O" = Ok 1%nat) as E1 by (vm_compute; reflexivity); congruence).
  destruct (C105_parameters kielland [] nothing nothing soda f T P x p 3 aNa Hf Da Db Dn eq_refl (L aNa ltac:(cbn; tauto)) (W 3%nat ltac:(lia))) as (q & m1 & st & E1 & _ & H1 & _).
  destruct (C105_parameters kielland [] nothing nothing soda f T P x p 0 aCO2 Hf Da Db Dn eq_refl (L aCO2 ltac:(cbn; tauto)) (W 0%nat ltac:(lia))) as (q' & m1' & st' & E2 & _ & _ & H2).
  rewrite E1 in E2. injection E2 as <- <- <-. exists q, m1, st. split; [exact E1|]. split.
  - destruct H1 as (a & b & Ha & Hb & ->); [discriminate|]. destruct (C99_partial (formula aNa) (dh_adefault kielland) _ (L aNa ltac:(cbn; tauto)) Da) as (v & _ & _ & U & _). pose proof (U _ Ha) as Ea. pose proof (U _ (C99_nonvacuous)) as E4. 
    destruct Hb as [(? & ? & [] & _)|[-> _]]. rewrite Ea, <- E4. f_equal; cbn; unfold Q2R; cbn; lra.
  - destruct H2 as (b & [(? & ? & [] & _)|[-> _]] & ->); [reflexivity|]. cbn. reflexivity.
Qed.

(* ---- C106 ---- *)
(* A chain with no model leaves everything as it is; a chain with one model more at
   the end evaluates that model on the results of the others.  A chain exists
   when each of its models does. *)
Theorem C106_order : forall (l : list Species),
  (exists f, chain [] l = Ok f /\ forall T P x p, f T P x p = Ok p) /\
  (forall models model f, chain (models ++ [model]) l = Ok f -> exists g h, chain models l = Ok g /\ model l = Ok h /\
     forall T P x p, f T P x p = match g T P x p with Ok p' => h T P x p' | Err => Err | UB => UB end) /\
  (forall models, (forall model, In model models -> exists g, model l = Ok g) -> exists f, chain models l = Ok f).
Proof.
  intros l. split; [eexists; split; [reflexivity|reflexivity]|]. split.
  - intros models model f. unfold chain. revert f. induction models as [|m models IH]; intros f Hf.
    + cbn [app mapM bind omap] in *. destruct (model l) as [h| |]; try discriminate. cbn in Hf. injection Hf as <-. eexists _, h. split; [reflexivity|]. split; [reflexivity|]. intros T P x p. cbn. destruct (h T P x p); reflexivity.
    + cbn [app mapM] in *. destruct (m l) as [hm| |]; try discriminate. cbn [bind] in *. destruct (mapM (fun model0 => model0 l) (models ++ [model])) as [fs| |]; try discriminate. cbn [bind omap] in Hf. injection Hf as <-.
      destruct (IH _ eq_refl) as (g & h & Eg & Eh & H). destruct (mapM (fun model0 => model0 l) models) as [gs| |]; try discriminate. cbn [bind omap] in Eg |- *. injection Eg as <-. eexists _, h. split; [reflexivity|]. split; [exact Eh|].
      intros T P x p. cbn. destruct (hm T P x p) as [p'| |]; cbn [bind]; try reflexivity. apply H.
  - intros models H. unfold chain. assert (exists fs, mapM (fun model => model l) models = Ok fs) as [fs ->]; [|eexists; reflexivity].
    induction models as [|m models IH]; [eexists; reflexivity|]. destruct (H m (or_introl eq_refl)) as (g & Eg). destruct IH as (fs & Ef); [intros; apply H; right; assumption|]. cbn [mapM]. rewrite Eg. cbn [bind]. rewrite Ef. eexists. reflexivity.
Qed.
Print Assumptions C106_order.
(* A model that exports the mixture, followed by one for a solute: the solute gets
   the value of the second, everything else, the activity of water included, is
   what the first gave.  In the other order there is an error, unless an earlier
   model has exported a mixture. *)
Theorem C106_solute : forall base formula_ b l f i, chain [base; setschenow formula_ b] l = Ok f -> first_with l formula_ i ->
  exists g, base l = Ok g /\
  (forall T P x p q mx st, g T P x p = Ok (q, Some (mx, st)) -> exists q', f T P x p = Ok (q', Some (mx, st)) /\ replaces i (ln10 * b * st_Is st) (st_m st i) q q') /\
  (forall T P x p q, g T P x p = Ok (q, None) -> f T P x p = Err) /\
  (exists f', chain [setschenow formula_ b; base] l = Ok f' /\ forall T P x p, f' T P x (p, None) = Err).
Proof.
  intros base fm b l f i Hf Hi. unfold chain in *. cbn [mapM] in *. destruct (base l) as [g| |]; try discriminate. cbn [bind] in *. destruct (setschenow fm b l) as [h| |] eqn:Eh; try discriminate. cbn [bind omap] in *. injection Hf as <-.
  exists g. split; [reflexivity|]. destruct (C100_solute fm b 0 0 0 0 0 l) as (S & _). destruct (S h Eh) as (i' & Hi' & S1 & S2). apply index_first in Hi, Hi'. rewrite Hi in Hi'. injection Hi' as <-. split; [|split].
  - intros T P x p q mx st E. cbn [run_chain]. rewrite E. cbn [bind]. destruct (S1 T P x q mx st) as (q' & E' & R). exists q'. rewrite E'. split; [reflexivity|exact R].
  - intros T P x p q E. cbn [run_chain]. rewrite E. cbn [bind]. rewrite S2. reflexivity.
  - eexists. split; [reflexivity|]. intros T P x p. cbn [run_chain]. rewrite S2. reflexivity.
Qed.
Print Assumptions C106_solute.
(* Of two models for the same solute the last decides; the first has no effect. *)
Theorem C106_last : forall base formula_ b b' l f f', chain [base; setschenow formula_ b; setschenow formula_ b'] l = Ok f -> chain [base; setschenow formula_ b'] l = Ok f' ->
  forall T P x p q e q' e', f T P x p = Ok (q, e) -> f' T P x p = Ok (q', e') -> same_props (length l) q q' /\ e = e'.
Proof.
  intros base fm b b' l f f' Hf Hf' T P x p q e q' e' E E'. unfold chain in *. cbn [mapM] in *. destruct (base l) as [g| |]; try discriminate. cbn [bind] in *. unfold setschenow in *. destruct (indexWithFormula l fm) as [i| |]; try discriminate. cbn [omap bind] in *. injection Hf as <-. injection Hf' as <-.
  cbn [run_chain] in E, E'. destruct (g T P x p) as [[r er]| |]; try discriminate. cbn [bind] in *. unfold solute in *. destruct er as [[mx st]|]; try discriminate. cbn [snd fst bind] in *. injection E as <- <-. injection E' as <- <-. split; [|reflexivity].
  unfold same_props, set_species. cbn. split; [reflexivity|]. intros j _. unfold set_at. destruct (Nat.eqb j i); auto.
Qed.
Print Assumptions C106_last.
(* Brine with dissolved carbon dioxide: HKF for the ions and water, Setschenow for
   carbon dioxide. *)
Example C106_nonvacuous : exists f, chain [activityHKF (fun _ _ => mkHKF 1.2 0.33 1e-7 0.1) (fun _ => None) (mkAqueousMixture [] nothing nothing); setschenow $"CO2" 0.2] soda = Ok f /\
  first_with soda $"CO2" 0 /\ forall T P x p, exists q mx st, f T P x p = Ok (q, Some (mx, st)) /\ ln_g q 0 = ln10 * 0.2 * st_Is st.
Proof.
  assert (exists mx, mkAqueousMixture [] nothing nothing soda = Ok mx) as [mx E] by (unfold mkAqueousMixture; assert (indexWithFormula soda $"H2O" = Ok 1%nat) as -> by (vm_compute; reflexivity); eexists; reflexivity).
  assert (Hi : first_with soda $"CO2" 0) by (apply index_first; vm_compute; reflexivity).
  set (base := activityHKF (fun _ _ => mkHKF 1.2 0.33 1e-7 0.1) (fun _ => None) (mkAqueousMixture [] nothing nothing)).
  assert (Eb : exists g, base soda = Ok g) by (unfold base, activityHKF; rewrite E; eexists; reflexivity).
  assert (Es : exists h, setschenow $"CO2" 0.2 soda = Ok h) by (apply (C100_solute $"CO2" 0.2 0 0 0 0 0 soda); exists 0%nat; exact Hi).
  destruct (C106_order soda) as (_ & _ & H). destruct (H [base; setschenow $"CO2" 0.2]) as (f & Hf); [intros m [<-|[<-|[]]]; assumption|].
  exists f. split; [exact Hf|]. split; [exact Hi|]. intros T P x p. destruct (C106_solute _ _ _ _ _ _ Hf Hi) as (g & Eg & S & _).
  unfold base, activityHKF in Eg. rewrite E in Eg. cbn [omap bind] in Eg. injection Eg as <-.
  assert (X : exists q, hkf_fn (fun _ _ => mkHKF 1.2 0.33 1e-7 0.1) mx (map (fun i => effectiveIonicRadius (fun _ => None) (species_at soda i)) (mx_charged mx)) T P x p = Ok (q, Some (mx, mixtureState mx T P x))).
  { unfold hkf_fn. destruct (fold_left (hkf_ion _ _ _ _ _) _ _). eexists. reflexivity. }
  destruct X as (q & Eq). destruct (S _ _ _ _ _ _ _ Eq) as (q' & E' & R & _). exists q', mx, (mixtureState mx T P x). split; [exact E'|exact R].
Qed.
