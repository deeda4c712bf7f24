(* Properties C55, C101, C102, C103. *)
From Coq Require Import Reals Qreals Lra.
From Verif Require Import Base M_Strings M_Formula M_Chem M_Algorithms M_System M_Units S_System S_Chem P_System P_Phases M_State S_State P_Algorithms P_State P_State2 P_State3 S_Props P_Props S_Equilibrium P_Setup M_AqueousProps P_AqueousProps.
Local Open Scope nat_scope.

Definition with_formula (f : str) (s : Species) : Prop := exists cf, mkChemicalFormula f = Ok cf /\ equivalent cf (formula s) = true.
(* Everything an object can become: it is made for a system and then updated. *)
Inductive Reached (echelon : list (list Q) -> list nat * list (list Q)) (sys : ChemicalSystem) : AqueousProps -> Prop :=
| reached_new a : newAqueousProps echelon sys = Ok a -> Reached echelon sys a
| reached_state std act st a a' r : Reached echelon sys a -> ap_update_state std act st a = (r, a') -> Reached echelon sys a'
| reached_props p a a' r : Reached echelon sys a -> shaped (total (sys_phases sys)) (length (sys_phases sys)) p -> ap_update_props p a = (r, a') -> Reached echelon sys a'.

(* What does not change, and the position of the aqueous phase. *)
Record Fixed (echelon : list (list Q) -> list nat * list (list Q)) (sys : ChemicalSystem) (a : AqueousProps) : Prop := {
  fx_sys : ap_sys a = sys;
  fx_phase : FirstAt (fun p => phaseAggregateState p = Ok Aqueous) (sys_phases sys) (ap_iphase a);
  fx_species : exists p, nth_error (sys_phases sys) (ap_iphase a) = Some p /\ ap_species a = ph_species p;
  fx_first : ap_first a = total (firstn (ap_iphase a) (sys_phases sys));
  fx_water : FirstAt (with_formula $"H2O") (ap_species a) (ap_iH2O a);
  fx_hydrogen : FirstAt (with_formula $"H+") (ap_species a) (ap_iH a);
  fx_A : ap_A a = map (fun row => segment row (ap_first a) (length (ap_species a))) (sys_matrix sys);
  fx_ib : ap_ib a = fst (echelon (ap_A a));
  fx_R : ap_R a = snd (echelon (ap_A a));
  fx_strengths : ap_Ie a = 0%Q /\ ap_Is a = 0%Q;
  fx_full : full (length (ap_species a)) (ap_data a) }.
Lemma first_formula l f i cf : mkChemicalFormula f = Ok cf -> FirstAt (fun s => equivalent cf (formula s) = true) l i -> FirstAt (with_formula f) l i.
Proof.
  intros E [(s & H1 & H2) N]. split; [exists s; split; [exact H1|exists cf; auto]|]. intros j s' L H (cf' & E' & H'). rewrite E in E'. injection E' as <-. exact (N j s' L H H').
Qed.
Lemma reached_fixed echelon sys a : Reached echelon sys a -> Fixed echelon sys a.
Proof.
  induction 1 as [a H|std act st a a' r H IH E|p a a' r H IH Sh E].
  - unfold newAqueousProps in H. destruct (indexAqueousPhase (sys_phases sys)) as [ip| |] eqn:Ei; try discriminate. cbn [bind] in H. destruct (nth_error (sys_phases sys) ip) as [ph|] eqn:Ep; [|discriminate].
    destruct (findSpeciesWithFormula (ph_species ph) $"H2O") as [iw| |] eqn:Ew; try discriminate. cbn [bind] in H. destruct (findSpeciesWithFormula (ph_species ph) $"H+") as [ih| |] eqn:Eh; try discriminate. cbn [bind] in H.
    destruct (length (ph_species ph) <=? iw) eqn:Lw; [discriminate|]. destruct (length (ph_species ph) <=? ih) eqn:Lh; [discriminate|].
    assert (Lp : ip < length (sys_phases sys)) by (apply nth_error_Some; congruence).
    rewrite numSpeciesUntil_spec in H by lia. cbn [bind] in H. injection H as <-.
    unfold indexAqueousPhase in Ei. destruct (mapM phaseAggregateState (sys_phases sys)); try discriminate. cbn [bind] in Ei. destruct (findPhaseWithState (sys_phases sys) Aqueous) as [ip'| |] eqn:Ef; try discriminate. cbn [bind] in Ei. destruct (length (sys_phases sys) <=? ip'); [discriminate|]. injection Ei as ->.
    destruct (findPhase_first _ _ _ Ef) as (_ & F1 & F2).
    destruct (mkChemicalFormula $"H2O") as [cw| |] eqn:Cw; [|vm_compute in Cw; discriminate|vm_compute in Cw; discriminate].
    destruct (mkChemicalFormula $"H+") as [ch| |] eqn:Ch; [|vm_compute in Ch; discriminate|vm_compute in Ch; discriminate].
    constructor; cbn [ap_sys ap_iphase ap_first ap_species ap_data ap_Ie ap_Is ap_iH2O ap_iH ap_A ap_ib ap_R]; auto.
    + split; [exists ph; split; [exact Ep|apply F2; exact Ep]|]. intros j p L Hp Hs. destruct (F1 j p L Hp) as (b & Eb & N). congruence.
    + exists ph. auto.
    + apply (first_formula _ _ _ cw Cw), (findFormula_first _ _ _ _ Cw Ew Lw).
    + apply (first_formula _ _ _ ch Ch), (findFormula_first _ _ _ _ Ch Eh Lh).
    + unfold full, newPhaseData. cbn. rewrite !repeat_length. auto 12.
  - unfold ap_update_state in E. destruct (length (st_n st) <? _); [injection E as <- <-; exact IH|]. destruct (phase_update _ _ _ _ _ _ _) as [r' d] eqn:U. injection E as <- <-.
    destruct IH. constructor; cbn [with_data ap_sys ap_iphase ap_first ap_species ap_data ap_Ie ap_Is ap_iH2O ap_iH ap_A ap_ib ap_R]; auto. eapply phase_update_full; eassumption.
  - unfold ap_update_props in E. destruct (phaseProps _ p (ap_iphase a)) as [d| |] eqn:D; injection E as <- <-; try exact IH.
    destruct IH. constructor; cbn [with_data ap_sys ap_iphase ap_first ap_species ap_data ap_Ie ap_Is ap_iH2O ap_iH ap_A ap_ib ap_R]; auto.
    destruct fx_species0 as (ph & Eph & Es). unfold phaseProps in D. rewrite fx_sys0, Eph in D. assert (Lp : ap_iphase a < length (sys_phases sys)) by (apply nth_error_Some; congruence). rewrite numSpeciesUntil_spec in D by lia. injection D as <-. rewrite Es.
    apply (view_full _ (length (sys_phases sys)) _ _ _ _ Sh). pose proof (nth_error_split _ _ Eph) as (l1 & l2 & E2 & L2). rewrite E2, <- L2, firstn_app, Nat.sub_diag, firstn_all. cbn [firstn]. rewrite app_nil_r, total_app, total_cons. lia.
Qed.
Lemma full_sized k d : full k d -> sized k d.
Proof. unfold full, sized. tauto. Qed.
(* A successful update with a state evaluates the phase at that state. *)
Lemma updated_ok echelon sys std act st a a' : Reached echelon sys a -> ap_update_state std act st a = (Ok tt, a') ->
  Reached echelon sys a' /\ ap_species a' = ap_species a /\ ap_first a' = ap_first a /\ ap_iH2O a' = ap_iH2O a /\ ap_iH a' = ap_iH a /\
  ap_first a + length (ap_species a) <= length (st_n st) /\
  PhaseOk std (ap_species a) act (st_T st) (st_P st) (segment (st_n st) (ap_first a) (length (ap_species a))) (ap_data a').
Proof.
  intros H E. split; [eapply reached_state; eassumption|]. pose proof (reached_fixed _ _ _ H) as F. unfold ap_update_state in E. destruct (Nat.ltb_spec (length (st_n st)) (ap_first a + length (ap_species a))) as [|L]; [discriminate|].
  destruct (phase_update _ _ _ _ _ _ _) as [r d] eqn:U. injection E as -> <-. cbn [with_data ap_species ap_first ap_iH2O ap_iH ap_data]. repeat (split; [reflexivity || exact L|]).
  apply (phase_update_ok _ _ _ _ _ _ _ _ U), full_sized, (fx_full _ _ _ F).
Qed.

(* ---- C55 ---- *)
(* The aqueous phase of the system of [a], evaluated at state [st]: d is the data of
   the phase, na the amounts of its species, w and h the positions of water and of
   the hydrogen ion. *)
Definition aqueous_at (sys : ChemicalSystem) std act (st : State) (sp : list Species) (na : list Q) (d : PhaseData) (w h : nat) : Prop :=
  exists pre ph post, sys_phases sys = pre ++ ph :: post /\ phaseAggregateState ph = Ok Aqueous /\ (forall p, In p pre -> phaseAggregateState p <> Ok Aqueous) /\
  ph_species ph = sp /\ Stands (st_n st) (total pre) na /\ length na = length sp /\
  PhaseOk std sp act (st_T st) (st_P st) na d /\ FirstAt (with_formula $"H2O") sp w /\ FirstAt (with_formula $"H+") sp h.
Lemma aqueous_is echelon sys std act st a a' : Reached echelon sys a -> ap_update_state std act st a = (Ok tt, a') ->
  aqueous_at sys std act st (ap_species a) (segment (st_n st) (ap_first a) (length (ap_species a))) (ap_data a') (ap_iH2O a) (ap_iH a).
Proof.
  intros H E. destruct (updated_ok _ _ _ _ _ _ _ H E) as (_ & _ & _ & _ & _ & L & O). pose proof (reached_fixed _ _ _ H) as F. destruct (fx_species _ _ _ F) as (ph & Ep & Es).
  destruct (nth_error_split _ _ Ep) as (pre & post & E1 & L1). exists pre, ph, post. split; [exact E1|]. destruct (fx_phase _ _ _ F) as [(p & Ep' & Ha) N]. rewrite Ep in Ep'. injection Ep' as <-.
  assert (T : ap_first a = total pre). { rewrite (fx_first _ _ _ F), E1, <- L1, firstn_app, Nat.sub_diag, firstn_all. cbn [firstn]. rewrite app_nil_r. reflexivity. }
  split; [exact Ha|]. split.
  { intros p Hp Hs. apply In_nth_error in Hp as (j & Hj). apply (N j p); [assert (j < length pre) by (apply nth_error_Some; congruence); lia| |exact Hs]. rewrite E1, nth_error_app1 by (apply nth_error_Some; congruence). exact Hj. }
  split; [symmetry; exact Es|]. split; [|split; [apply segment_length; exact L|split; [exact O|split; [apply (fx_water _ _ _ F)|apply (fx_hydrogen _ _ _ F)]]]].
  intros j x Hx. rewrite segment_nth in Hx. destruct (j <? length (ap_species a)); [|discriminate]. rewrite <- T. exact Hx.
Qed.
Lemma first_unique {A} (P : A -> Prop) l i j : FirstAt P l i -> FirstAt P l j -> i = j.
Proof.
  intros [(s & E & Hs) N] [(s' & E' & Hs') N']. destruct (Nat.lt_trichotomy i j) as [L|[L|L]]; [exfalso; exact (N' _ _ L E Hs)|exact L|exfalso; exact (N _ _ L E' Hs')].
Qed.
Lemma aqueous_same echelon sys std act st a sp na d w h : Reached echelon sys a -> aqueous_at sys std act st sp na d w h ->
  sp = ap_species a /\ na = segment (st_n st) (ap_first a) (length (ap_species a)) /\ w = ap_iH2O a /\ h = ap_iH a.
Proof.
  intros H (pre & ph & post & P1 & P2 & P3 & P4 & P5 & P6 & _ & P7 & P8). pose proof (reached_fixed _ _ _ H) as F.
  assert (Fp : FirstAt (fun p => phaseAggregateState p = Ok Aqueous) (sys_phases sys) (length pre)).
  { rewrite P1. split; [exists ph; rewrite nth_error_app2, Nat.sub_diag by lia; auto|]. intros j p L Hp. rewrite nth_error_app1 in Hp by exact L. apply P3. eapply nth_error_In; exact Hp. }
  pose proof (first_unique _ _ _ _ Fp (fx_phase _ _ _ F)) as Ei. destruct (fx_species _ _ _ F) as (p & Ep & Es). rewrite <- Ei, P1, nth_error_app2, Nat.sub_diag in Ep by lia. injection Ep as <-.
  assert (T : ap_first a = total pre). { rewrite (fx_first _ _ _ F), <- Ei, P1, firstn_app, Nat.sub_diag, firstn_all. cbn [firstn]. rewrite app_nil_r. reflexivity. }
  subst sp. rewrite <- Es. rewrite <- Es in P6, P7, P8. split; [reflexivity|]. split; [|split; [apply (first_unique _ _ _ _ P7 (fx_water _ _ _ F))|apply (first_unique _ _ _ _ P8 (fx_hydrogen _ _ _ F))]].
  apply list_ext. intro j. rewrite segment_nth, T. destruct (Nat.ltb_spec j (length (ap_species a))) as [L|L].
  - destruct (nth_error na j) as [x|] eqn:E; [symmetry; apply P5; exact E|apply nth_error_None in E; lia].
  - apply nth_error_None. lia.
Qed.
(* Half the sum of the squared charges times molalities. *)
Definition strength (sp : list Species) (na : list Q) (w : nat) : Q :=
  (1 # 2) * Qsum (map (fun p => sp_charge (fst p) * sp_charge (fst p) * (snd p / ((18015268 # 1000000000) * nth w na 0)))%Q (combine sp na)).
Definition C55_statement : Prop := forall echelon sys std act st a a' sp na d w h la, Reached echelon sys a -> ap_update_state std act st a = (Ok tt, a') ->
  aqueous_at sys std act st sp na d w h -> nth_error (d_ln_a d) h = Some la ->
  Q2R (pH a') = (- (Q2R la / ln 10))%R /\ (ionicStrength a' == strength sp na w)%Q.
(* An object always reports ionic strengths of zero. *)
Theorem C55_strength_partial : forall echelon sys a, Reached echelon sys a -> (ionicStrength a == 0)%Q /\ (ionicStrengthStoichiometric a == 0)%Q.
Proof. intros echelon sys a H. destruct (fx_strengths _ _ _ (reached_fixed _ _ _ H)) as [E1 E2]. unfold ionicStrength, ionicStrengthStoichiometric. rewrite E1, E2. split; reflexivity. Qed.
Print Assumptions C55_strength_partial.
(* The reported pH is the natural logarithm of the activity of the hydrogen ion; it
   is the pH only when the activity is one. *)
Theorem C55_pH_partial : forall echelon sys std act st a a', Reached echelon sys a -> ap_update_state std act st a = (Ok tt, a') ->
  exists sp na d w h la, aqueous_at sys std act st sp na d w h /\ nth_error (d_ln_a d) h = Some la /\ pH a' = la /\
  (Q2R (pH a') = (- (Q2R la / ln 10))%R <-> Qeq la 0).
Proof.
  intros echelon sys std act st a a' H E. pose proof (aqueous_is _ _ _ _ _ _ _ H E) as Aq. destruct (updated_ok _ _ _ _ _ _ _ H E) as (H' & _ & _ & _ & Eh & _ & O).
  assert (Hh : ap_iH a < length (d_ln_a (ap_data a'))). { pose proof (ok_lengths _ _ _ _ _ _ _ O) as Ls. destruct Ls as (_ & _ & _ & _ & _ & _ & -> & _). destruct (fx_hydrogen _ _ _ (reached_fixed _ _ _ H)) as [(s & Es & _) _]. apply nth_error_Some. congruence. }
  destruct (nth_error (d_ln_a (ap_data a')) (ap_iH a)) as [la|] eqn:El; [|apply nth_error_None in El; lia].
  eexists _, _, _, _, _, la. split; [exact Aq|]. split; [exact El|]. assert (Ep : pH a' = la) by (unfold pH; rewrite Eh; apply nth_error_nth; exact El). split; [exact Ep|]. rewrite Ep.
  assert (L10 : (1 < ln 10)%R). { rewrite <- (ln_exp 1). apply ln_increasing; [apply exp_pos|]. pose proof exp_le_3. lra. }
  split.
  - intros K. assert (Q2R la * (ln 10 + 1) = 0)%R. { rewrite Rmult_plus_distr_l. rewrite K at 1. field. lra. } apply Rmult_integral in H0 as [Z|Z]; [|exfalso; lra]. apply eqR_Qeq. rewrite Z, RMicromega.Q2R_0. reflexivity.
  - intros Z. apply Qeq_eqR in Z. rewrite Z, RMicromega.Q2R_0. lra.
Qed.
Print Assumptions C55_pH_partial.
(* Water with hydrogen and hydrogen ions. *)
Definition elH : Element := mkElem $"H" $"Hydrogen" (1 # 1000) [].
Definition elO : Element := mkElem $"O" $"Oxygen" (16 # 1000) [].
Definition spH2O : Species := mkSpecies $"H2O" $"H2O" $"H2O" [(elH, 2%Q); (elO, 1%Q)] 0 Aqueous [].
Definition spH : Species := mkSpecies $"H+" $"H+" $"H+" [(elH, 1%Q)] 1 Aqueous [].
Definition spH2 : Species := mkSpecies $"H2(aq)" $"H2" $"H2" [(elH, 2%Q)] 0 Aqueous [].
Definition spGas : Species := mkSpecies $"H2(g)" $"H2" $"H2" [(elH, 2%Q)] 0 Gas [].
Definition hydrogenous : ChemicalSystem := mkChemicalSystem [mkPhase $"Gas" [spGas]; mkPhase $"Water" [spH2O; spH; spH2]].
(* The inverse of the formula matrix of the three species. *)
Definition inverse3 (A : list (list Q)) : list nat * list (list Q) := ([0; 1; 2], [[0; 1; 0]; [0; 0; 1]; [1 # 2; -1; -1 # 2]]%Q).
Definition no_std (s : Species) (T P : Q) : outcome Std := Ok (mkStd 0 0 0 0 0).
Definition acid (T P : Q) (x : list Q) : outcome Act := Ok (mkAct 0 0 0 0 0 0 0 [0; 0; 0] [0; -16; -1])%Q.
Definition acid_state : State := mkState 300 100000 [1; 55; 1; 1]%Q.
Definition made : AqueousProps := match newAqueousProps inverse3 hydrogenous with Ok a => a | _ => mkAP hydrogenous 0 0 [] (newPhaseData 0) 0 0 0 0 [] [] [] end.
Lemma made_ok : newAqueousProps inverse3 hydrogenous = Ok made.
Proof. vm_compute. reflexivity. Qed.
Definition evaluated : AqueousProps := snd (ap_update_state no_std acid acid_state made).
Lemma evaluated_ok : ap_update_state no_std acid acid_state made = (Ok tt, evaluated).
Proof. vm_compute. reflexivity. Qed.
Theorem C55_refuted : ~ C55_statement.
Proof.
  intros H. pose proof (reached_new _ _ _ made_ok) as R. pose proof (aqueous_is _ _ _ _ _ _ _ R evaluated_ok) as Aq.
  destruct (H _ _ _ _ _ _ _ _ _ _ _ _ (-16)%Q R evaluated_ok Aq) as [_ E]; [vm_compute; reflexivity|]. vm_compute in E. discriminate.
Qed.
Print Assumptions C55_refuted.
(* Here the reported pH is -16 and the reported ionic strength zero. *)
Theorem C55_pH_refuted : exists sp na d w h, aqueous_at hydrogenous no_std acid acid_state sp na d w h /\ nth_error (d_ln_a d) h = Some (-16)%Q /\ pH evaluated = (-16)%Q /\ Q2R (pH evaluated) <> (- (Q2R (-16) / ln 10))%R.
Proof.
  pose proof (reached_new _ _ _ made_ok) as R. eexists _, _, _, _, _. split; [exact (aqueous_is _ _ _ _ _ _ _ R evaluated_ok)|]. split; [vm_compute; reflexivity|]. split; [vm_compute; reflexivity|].
  intros K. destruct (C55_pH_partial _ _ _ _ _ _ _ R evaluated_ok) as (sp & na & d & w & h & la & _ & _ & E & D). assert (L : la = (-16)%Q) by (rewrite <- E; vm_compute; reflexivity). subst la. rewrite L in D. apply D in K. vm_compute in K. discriminate.
Qed.
Print Assumptions C55_pH_refuted.

(* ---- C101 ---- *)
Lemma divide_spec a b q : divide a b = Ok q -> ~ (b == 0)%Q /\ (q * b == a)%Q.
Proof. unfold divide. destruct (Qeq_bool b 0) eqn:E; [discriminate|]. intros H. injection H as <-. assert (N : ~ (b == 0)%Q) by (intros K; apply Qeq_bool_iff in K; congruence). split; [exact N|]. field. exact N. Qed.
Lemma divide_ok a b : ~ (b == 0)%Q -> exists q, divide a b = Ok q.
Proof. intros N. unfold divide. destruct (Qeq_bool b 0) eqn:E; [apply Qeq_bool_iff in E; contradiction|]. eexists. reflexivity. Qed.
Lemma segment_map {A B} (f : A -> B) l b k : segment (map f l) b k = map f (segment l b k).
Proof. unfold segment. rewrite skipn_map, firstn_map. reflexivity. Qed.
Lemma segment_species pre ph post : segment (collectSpecies (pre ++ ph :: post)) (total pre) (length (ph_species ph)) = ph_species ph.
Proof. rewrite collectSpecies_eq, map_app, concat_app. cbn [map concat]. unfold segment, total. rewrite skipn_app, Nat.sub_diag, skipn_all. cbn [app skipn]. rewrite firstn_app, Nat.sub_diag, firstn_all. cbn [firstn]. apply app_nil_r. Qed.
Lemma fixPhase_species l : map ph_species (fixDuplicatePhaseNames l) = map ph_species l.
Proof. apply rename_proj. reflexivity. Qed.
Lemma collect_fixed l : collectSpecies (fixDuplicatePhaseNames l) = collectSpecies l.
Proof. rewrite !collectSpecies_eq, fixPhase_species. reflexivity. Qed.
(* Molalities are amounts per kilogram of water, in the first aqueous phase: of the
   first species with a given name, and of an element, summed over the species. *)
Theorem C101_species : forall echelon sys std act st a a' sp na d w h, Reached echelon sys a -> ap_update_state std act st a = (Ok tt, a') ->
  aqueous_at sys std act st sp na d w h -> ~ (nth w na 0 == 0)%Q ->
  (forall n i, FirstAt (fun s => name s = n) sp i -> exists m, speciesMolality a' n = Ok m /\ (m * ((18015268 # 1000000000) * nth w na 0) == nth i na 0)%Q) /\
  (forall n, (forall s, In s sp -> name s <> n) -> speciesMolality a' n = Err).
Proof.
  intros echelon sys std act st a a' sp na d w h H E Aq Hw. destruct (aqueous_same _ _ _ _ _ _ _ _ _ _ _ H Aq) as (-> & -> & -> & ->). destruct (updated_ok _ _ _ _ _ _ _ H E) as (H' & Es & Ef & Ew & Eh & L & O).
  unfold speciesMolality, findWithName. rewrite Es, Ew, (ok_n _ _ _ _ _ _ _ O). split; intros n.
  - intros i Hi. apply (indexfn_FirstAt (fun s => name s = n) (fun s => str_eqb (name s) n)) in Hi as [Hi Li]; [|intros; apply str_eqb_eq]. rewrite Hi. destruct (Nat.leb_spec (length (ap_species a)) i); [lia|].
    destruct (divide_ok (nth i (segment (st_n st) (ap_first a) (length (ap_species a))) 0%Q) (waterMolarMassQ * nth (ap_iH2O a) (segment (st_n st) (ap_first a) (length (ap_species a))) 0)%Q) as (m & Em).
    { intros Z. apply Qmult_integral in Z as [Z|Z]; [discriminate|contradiction]. }
    exists m. split; [exact Em|]. apply (divide_spec _ _ _ Em).
  - intros Hn. destruct (indexfn_split (ap_species a) (fun s => str_eqb (name s) n)) as [(l1 & x & l2 & Ex & Px & _)|[_ I]].
    + exfalso. apply (Hn x); [rewrite Ex; apply in_elt|apply str_eqb_eq; exact Px].
    + rewrite I, Nat.leb_refl. reflexivity.
Qed.
Print Assumptions C101_species.
Theorem C101_element : forall echelon phases std act st a a' sp na d w h, let sys := mkChemicalSystem phases in
  Reached echelon sys a -> ap_update_state std act st a = (Ok tt, a') -> aqueous_at sys std act st sp na d w h -> ~ (nth w na 0 == 0)%Q ->
  (forall s, In s sp -> listed_once (composition s)) ->
  (forall e, In e (sys_elements sys) -> exists m cs, elementMolality a' (el_symbol e) = Ok m /\ Forall2 (fun s c => Holds (composition s) (el_symbol e) c) sp cs /\
     (m * ((18015268 # 1000000000) * nth w na 0) == dotQ cs na)%Q) /\
  (forall symbol, (forall e, In e (sys_elements sys) -> el_symbol e <> symbol) -> elementMolality a' symbol = Err).
Proof.
  intros echelon phases std act st a a' sp na d w h sys H E Aq Hw Hl. destruct (aqueous_same _ _ _ _ _ _ _ _ _ _ _ H Aq) as (-> & -> & -> & ->). destruct (updated_ok _ _ _ _ _ _ _ H E) as (H' & Es & Ef & Ew & Eh & L & O).
  pose proof (reached_fixed _ _ _ H') as F. pose proof (reached_fixed _ _ _ H) as F0.
  unfold elementMolality. rewrite (fx_sys _ _ _ F), Ew, (ok_n _ _ _ _ _ _ _ O), (fx_A _ _ _ F), Es, Ef. split.
  - intros e He. destruct (indexfn_split (sys_elements sys) (fun x => str_eqb (el_symbol x) (el_symbol e))) as [(l1 & x & l2 & Ex & Px & _ & I)|[N _]].
    2: { specialize (N e He). rewrite str_eqb_refl in N. discriminate. }
    apply str_eqb_eq in Px. rewrite I. destruct (Nat.leb_spec (length (sys_elements sys)) (length l1)) as [Lx|_]; [rewrite Ex, app_length in Lx; cbn in Lx; lia|].
    set (cs := map (fun s => el_coefficient (sp_elements s) (el_symbol e)) (ap_species a)).
    assert (R : nth (length l1) (map (fun row => segment row (ap_first a) (length (ap_species a))) (sys_matrix sys)) [] = cs).
    { change (sys_matrix sys) with (formulaMatrix (collectSpecies phases) (sys_elements sys)). unfold formulaMatrix. rewrite Ex, !map_app, <- app_assoc. rewrite app_nth2 by (rewrite !map_length; lia). rewrite !map_length, Nat.sub_diag. cbn [app map nth].
      rewrite segment_map, Px. unfold cs. f_equal. rewrite (fx_first _ _ _ F0). destruct (fx_species _ _ _ F0) as (ph & Ep & ->). destruct (nth_error_split _ _ Ep) as (pre & post & E1 & L1).
      rewrite <- (collect_fixed phases). change (fixDuplicatePhaseNames phases) with (sys_phases sys). rewrite E1, <- L1, firstn_app, Nat.sub_diag, firstn_all. cbn [firstn]. rewrite app_nil_r. apply segment_species. }
    rewrite R. destruct (divide_ok (sumQ (zip_with Qmult cs (segment (st_n st) (ap_first a) (length (ap_species a))))) (waterMolarMassQ * nth (ap_iH2O a) (segment (st_n st) (ap_first a) (length (ap_species a))) 0)%Q) as (m & Em).
    { intros Z. apply Qmult_integral in Z as [Z|Z]; [discriminate|contradiction]. }
    exists m, cs. split; [exact Em|]. split.
    + unfold cs. clear - Hl. induction (ap_species a) as [|s l IH]; cbn [map]; constructor; [|apply IH; intros s' Hs'; apply Hl; right; exact Hs'].
      apply fcoef_Holds; [apply Hl; left; reflexivity|]. symmetry. apply el_fcoef.
    + rewrite (proj2 (divide_spec _ _ _ Em)). apply sum_zip.
  - intros symbol Hn. destruct (indexfn_split (sys_elements sys) (fun x => str_eqb (el_symbol x) symbol)) as [(l1 & x & l2 & Ex & Px & _)|[_ I]].
    + exfalso. apply (Hn x); [rewrite Ex; apply in_elt|apply str_eqb_eq; exact Px].
    + rewrite I, Nat.leb_refl. reflexivity.
Qed.
Print Assumptions C101_element.
Example C101_nonvacuous : exists m1 m2, speciesMolality evaluated $"H+" = Ok m1 /\ elementMolality evaluated $"O" = Ok m2 /\ (m1 * 55 == m2)%Q /\ ~ (m1 == 0)%Q.
Proof. eexists _, _. split; [vm_compute; reflexivity|]. split; [vm_compute; reflexivity|]. split; vm_compute; [reflexivity|discriminate]. Qed.

(* ---- C102 ---- *)
(* Updating with a state and updating with the properties of that state: the same
   object, whatever either held before. *)
Theorem C102_agree : forall echelon sys std acts st p p' a a1 b b1, Reached echelon sys a -> Reached echelon sys b ->
  shaped (total (sys_phases sys)) (length (sys_phases sys)) p ->
  props_update std (sys_phases sys) acts (st_T st) (st_P st) (st_n st) p = (Ok tt, p') ->
  ap_update_state std (acts (ap_iphase a)) st a = (Ok tt, a1) -> ap_update_props p' b = (Ok tt, b1) -> a1 = b1.
Proof.
  intros echelon sys std acts st p p' a a1 b b1 Ha Hb Sh Hp E1 E2. pose proof (reached_fixed _ _ _ Ha) as Fa. pose proof (reached_fixed _ _ _ Hb) as Fb.
  pose proof (first_unique _ _ _ _ (fx_phase _ _ _ Fa) (fx_phase _ _ _ Fb)) as Ei.
  destruct (fx_species _ _ _ Fa) as (ph & Ep & Es). destruct (fx_species _ _ _ Fb) as (ph' & Ep' & Es'). rewrite <- Ei, Ep in Ep'. injection Ep' as <-.
  assert (Ef : ap_first a = ap_first b) by (rewrite (fx_first _ _ _ Fa), (fx_first _ _ _ Fb), Ei; reflexivity).
  assert (Esp : ap_species a = ap_species b) by congruence.
  assert (EA : ap_A a = ap_A b) by (rewrite (fx_A _ _ _ Fa), (fx_A _ _ _ Fb), Ef, Esp; reflexivity).
  pose proof (fx_water _ _ _ Fa) as Wa. pose proof (fx_hydrogen _ _ _ Fa) as Ia. rewrite Esp in Wa, Ia. pose proof (first_unique _ _ _ _ Wa (fx_water _ _ _ Fb)) as Ew. pose proof (first_unique _ _ _ _ Ia (fx_hydrogen _ _ _ Fb)) as Eh.
  destruct (nth_error_split _ _ Ep) as (pre & post & Eps & Lp).
  assert (T : total (firstn (ap_iphase a) (sys_phases sys)) = total pre). { rewrite Eps, <- Lp, firstn_app, Nat.sub_diag, firstn_all. cbn [firstn]. rewrite app_nil_r. reflexivity. }
  unfold ap_update_state in E1. destruct (length (st_n st) <? _); [discriminate|]. destruct (phase_update _ _ _ _ _ _ _) as [r d] eqn:U. injection E1 as -> <-.
  unfold ap_update_props, phaseProps in E2. rewrite (fx_sys _ _ _ Fb), <- Ei, Ep in E2. assert (Ll : ap_iphase a < length (sys_phases sys)) by (apply nth_error_Some; congruence). rewrite numSpeciesUntil_spec in E2 by lia. injection E2 as <-.
  unfold props_update in Hp. change (update_loop std (sys_phases sys) (sys_phases sys) acts 0 0) with (update_loop std ([] ++ sys_phases sys) (sys_phases sys) acts (length (@nil Phase)) (total [])) in Hp.
  destruct (update_loop_view std acts _ _ _ _ [] _ _ Hp Sh pre ph post Eps) as (d0 & Sz & V). change (total []) with 0 in V. cbn [length Nat.add] in V.
  rewrite (fx_first _ _ _ Fa), T, Es, <- Lp in U. 
  assert (Ed : d = view p' (length pre) (total pre) (length (ph_species ph))). { apply (phase_update_determined _ _ _ _ _ _ _ _ _ _ U V); [|exact Sz]. rewrite <- Es. apply full_sized, (fx_full _ _ _ Fa). }
  rewrite T, <- Lp, <- Ed. unfold with_data. destruct (fx_strengths _ _ _ Fa) as [S1 S2], (fx_strengths _ _ _ Fb) as [S1' S2'].
  rewrite (fx_sys _ _ _ Fa), (fx_sys _ _ _ Fb), Ei, Ef, Esp, Ew, Eh, S1, S2, S1', S2', (fx_ib _ _ _ Fa), (fx_ib _ _ _ Fb), (fx_R _ _ _ Fa), (fx_R _ _ _ Fb), EA. reflexivity.
Qed.
Print Assumptions C102_agree.
Definition acids (i : nat) : Q -> Q -> list Q -> outcome Act := match i with O => fun T P x => Ok (mkAct 0 0 0 0 0 0 0 [0] [0])%Q | _ => acid end.
Example C102_nonvacuous : exists p' b1, props_update no_std (sys_phases hydrogenous) acids 300 100000 [1; 55; 1; 1]%Q (newProps (sys_phases hydrogenous)) = (Ok tt, p') /\
  ap_update_props p' made = (Ok tt, b1) /\ pH b1 = (-16)%Q.
Proof. eexists _, _. split; [vm_compute; reflexivity|]. split; [vm_compute; reflexivity|]. vm_compute. reflexivity. Qed.

(* ---- C103 ---- *)
(* An echelon form of a matrix with n columns: each column is the combination of
   the basic columns that R gives. *)
Definition entry (A : list (list Q)) (m i : nat) : Q := nth i (nth m A []) 0%Q.
Definition echelon_form (n : nat) (A : list (list Q)) (ib : list nat) (R : list (list Q)) : Prop :=
  Forall (fun i => i < n) ib /\ length R = length ib /\ Forall (fun row => length row = length A) R /\
  forall m i, m < length A -> i < n -> (entry A m i == dotQ (map (fun k => entry A m k) ib) (map (fun row => dotQ row (map (fun m' => entry A m' i) (seq 0 (length A)))) R))%Q.
(* A half reaction that produces one electron from the species: no elements, and
   charge -1. *)
Definition half_reaction (sp : list Species) (v : list Q) : Prop :=
  length v = length sp /\ (dotQ (map sp_charge sp) v == -1)%Q /\
  forall symbol, (dotQ (map (fun s => el_coefficient (sp_elements s) symbol) sp) v == 0)%Q.
(* Chemical equilibrium: the potentials are those of the elements and of charge. *)
Definition equilibrium (A : list (list Q)) (u : list Q) : Prop := exists y, length y = length A /\ forall i, i < length u -> (nth i u 0 == dotQ y (map (fun m => entry A m i) (seq 0 (length A))))%Q.
Lemma nth_map_seq (f : nat -> Q) n i : i < n -> nth i (map f (seq 0 n)) 0%Q = f i.
Proof. intros L. rewrite (nth_indep _ 0%Q (f 0)) by (rewrite map_length, seq_length; exact L). rewrite map_nth, seq_nth by exact L. reflexivity. Qed.
Lemma nth_mapQ {X} (f : X -> Q) l i d : i < length l -> nth i (map f l) 0%Q = f (nth i l d).
Proof. intros L. rewrite (nth_indep _ 0%Q (f d)) by (rewrite map_length; exact L). apply map_nth. Qed.
(* Whatever the half reaction, and whatever the echelon form: the number subtracted
   is the potential of the electron. *)
Lemma electron A ib R u v n : echelon_form n A ib R -> length u = n -> length v = n -> equilibrium A u -> 0 < length A ->
  (forall m, m < length A -> (dotQ (map (entry A m) (seq 0 n)) v == if Nat.eqb m (pred (length A)) then -1 else 0)%Q) ->
  (dotQ (map (fun row => nth (pred (length A)) row 0%Q) R) (map (fun i => nth i u 0%Q) ib) == - dotQ u v)%Q.
Proof.
  intros (Hb & LR & HR & HA) Lu Lv (y & Ly & Hy) HM Hv.
  rewrite !dotQ_QS by (rewrite ?map_length; congruence). rewrite map_length, Lu.
  pose proof (electron_core (length A) n (length R) (pred (length A)) (entry A) (fun j m => nth m (nth j R []) 0%Q) (fun j => nth j ib 0) (fun i => nth i u 0%Q) (fun m => nth m y 0%Q) (fun i => nth i v 0%Q)) as K.
  rewrite <- K; clear K.
  - apply QS_ext. intros j Hj. rewrite (nth_mapQ _ R j []) by exact Hj. rewrite (nth_mapQ _ ib j 0) by lia. reflexivity.
  - intros m i Hm Hi. rewrite HA by assumption. rewrite dotQ_QS by (rewrite !map_length; congruence). rewrite map_length, <- LR. apply QS_ext. intros j Hj.
    rewrite (nth_mapQ _ ib j 0) by lia. rewrite (nth_mapQ _ R j []) by exact Hj.
    assert (Lr : length (nth j R []) = length A) by (rewrite Forall_forall in HR; apply HR, nth_In; lia).
    rewrite dotQ_QS by (rewrite map_length, seq_length; exact Lr). rewrite Lr. apply Qmult_comp; [reflexivity|]. apply QS_ext. intros m' Hm'. rewrite nth_map_seq by exact Hm'. reflexivity.
  - intros i Hi. rewrite Hy by lia. rewrite dotQ_QS by (rewrite map_length, seq_length; exact Ly). rewrite Ly. apply QS_ext. intros m Hm. rewrite nth_map_seq by exact Hm. reflexivity.
  - intros j Hj. rewrite Forall_forall in Hb. apply Hb, nth_In. lia.
  - intros m Hm. rewrite <- Hv by exact Hm. rewrite dotQ_QS by (rewrite map_length, seq_length; congruence). rewrite map_length, seq_length. apply QS_ext. intros i Hi. rewrite nth_map_seq by exact Hi. reflexivity.
  - lia.
Qed.
(* The conservation matrix of some species: the rows of the elements, then charge. *)
Definition conservation (sp : list Species) (elements : list Element) : list (list Q) :=
  map (fun e => map (fun s => el_coefficient (sp_elements s) (el_symbol e)) sp) elements ++ [map sp_charge sp].
Lemma ap_matrix echelon phases a : Fixed echelon (mkChemicalSystem phases) a -> ap_A a = conservation (ap_species a) (sys_elements (mkChemicalSystem phases)).
Proof.
  intros F. rewrite (fx_A _ _ _ F). set (sys := mkChemicalSystem phases) in *. change (sys_matrix sys) with (formulaMatrix (collectSpecies phases) (sys_elements sys)).
  assert (K : segment (collectSpecies phases) (ap_first a) (length (ap_species a)) = ap_species a).
  { rewrite (fx_first _ _ _ F). destruct (fx_species _ _ _ F) as (ph & Ep & ->). destruct (nth_error_split _ _ Ep) as (pre & post & E1 & L1).
    rewrite <- (collect_fixed phases). change (fixDuplicatePhaseNames phases) with (sys_phases sys). rewrite E1, <- L1, firstn_app, Nat.sub_diag, firstn_all. cbn [firstn]. rewrite app_nil_r. apply segment_species. }
  unfold formulaMatrix, conservation. rewrite map_app, map_map. f_equal; [apply map_ext; intros e; rewrite segment_map, K; reflexivity|]. cbn [map]. rewrite segment_map, K. reflexivity.
Qed.
(* What a user expects: the electron has the potential that every half reaction
   gives it, pE is minus the decimal logarithm of its activity, and Eh the potential
   of the standard hydrogen electrode scale. *)
Definition electron_known echelon (sys : ChemicalSystem) (sp : list Species) (d : PhaseData) (v : list Q) : Prop :=
  let A := conservation sp (sys_elements sys) in
  echelon_form (length sp) A (fst (echelon A)) (snd (echelon A)) /\ half_reaction sp v /\ equilibrium A (d_u d) /\ ~ (d_T d == 0)%Q.
Definition C103_statement : Prop := forall echelon phases std act st a a', let sys := mkChemicalSystem phases in
  Reached echelon sys a -> ap_update_state std act st a = (Ok tt, a') ->
  forall sp na w h v, let d := ap_data a' in aqueous_at sys std act st sp na d w h -> electron_known echelon sys sp d v ->
    (exists e, pE a' = Ok e /\ (e * ((83144621 # 10000000) * d_T d * ln10Q) == - dotQ (d_u d) v)%Q) /\
    (exists e, Eh a' = Ok e /\ (e * (964853329 # 10000) == - dotQ (d_u d) v)%Q).
Theorem C103_reversed_partial : forall echelon phases std act st a a', let sys := mkChemicalSystem phases in
  Reached echelon sys a -> ap_update_state std act st a = (Ok tt, a') ->
  forall sp na w h v, let d := ap_data a' in aqueous_at sys std act st sp na d w h -> electron_known echelon sys sp d v ->
    (exists e, pE a' = Ok e /\ (e * ((83144621 # 10000000) * d_T d * ln10Q) == dotQ (d_u d) v)%Q) /\
    (exists e, Eh a' = Ok e /\ (e * (964853329 # 10000) == dotQ (d_u d) v)%Q).
Proof.
  intros echelon phases std act st a a' sys H E sp na w h v d Aq (HE & (Lv & Hc & Hs) & He & HT). destruct (aqueous_same _ _ _ _ _ _ _ _ _ _ _ H Aq) as (-> & _). destruct (updated_ok _ _ _ _ _ _ _ H E) as (H' & Es & Ef & Ew & Eh' & L & O).
  pose proof (reached_fixed _ _ _ H') as F. set (A := conservation (ap_species a) (sys_elements sys)) in *.
  assert (Lu : length (d_u d) = length (ap_species a)) by (pose proof (ok_lengths _ _ _ _ _ _ _ O) as Ls; decompose [and] Ls; assumption).
  assert (EA : ap_A a' = A) by (rewrite (ap_matrix _ _ _ F), Es; reflexivity).
  assert (LA : length A = S (length (sys_elements sys))) by (unfold A, conservation; rewrite app_length, map_length; cbn; lia).
  assert (Hv : forall m, m < length A -> (dotQ (map (entry A m) (seq 0 (length (ap_species a)))) v == if Nat.eqb m (pred (length A)) then -1 else 0)%Q).
  { intros m Hm. rewrite LA in *. cbn [pred]. assert (Em : map (entry A m) (seq 0 (length (ap_species a))) = nth m A []).
    { assert (Lr : length (nth m A []) = length (ap_species a)). { unfold A, conservation. destruct (Nat.ltb_spec m (length (sys_elements sys))) as [Lm|Lm].
        - rewrite app_nth1 by (rewrite map_length; exact Lm). assert (I : In (nth m (map (fun e => map (fun s => el_coefficient (sp_elements s) (el_symbol e)) (ap_species a)) (sys_elements sys)) []) (map (fun e => map (fun s => el_coefficient (sp_elements s) (el_symbol e)) (ap_species a)) (sys_elements sys))) by (apply nth_In; rewrite map_length; exact Lm). apply in_map_iff in I as (e & <- & _). apply map_length.
        - rewrite app_nth2 by (rewrite map_length; exact Lm). rewrite map_length. replace (m - length (sys_elements sys)) with 0 by lia. apply map_length. }
      apply (nth_ext _ _ 0%Q 0%Q); [rewrite map_length, seq_length; congruence|]. intros i Hi. rewrite map_length, seq_length in Hi. rewrite nth_map_seq by exact Hi. reflexivity. }
    rewrite Em. unfold A, conservation. destruct (Nat.eqb_spec m (length (sys_elements sys))) as [->|N].
    - rewrite app_nth2 by (rewrite map_length; lia). rewrite map_length, Nat.sub_diag. exact Hc.
    - rewrite app_nth1 by (rewrite map_length; lia). assert (I : In (nth m (map (fun e => map (fun s => el_coefficient (sp_elements s) (el_symbol e)) (ap_species a)) (sys_elements sys)) []) (map (fun e => map (fun s => el_coefficient (sp_elements s) (el_symbol e)) (ap_species a)) (sys_elements sys))) by (apply nth_In; rewrite map_length; lia). apply in_map_iff in I as (e & <- & _). apply Hs. }
  pose proof (electron A _ _ _ v _ HE Lu Lv He) as K. specialize (K ltac:(lia) Hv).
  assert (Z : exists z, lambdaZ a' = Ok z /\ (z == dotQ (d_u d) v)%Q).
  { unfold lambdaZ. rewrite (fx_ib _ _ _ F), (fx_R _ _ _ F), EA, (fx_sys _ _ _ F). fold d. destruct HE as (Hb & LR & _).
    assert (Eu : mapM (fun i => match nth_error (d_u d) i with Some u => Ok u | None => UB end) (fst (echelon A)) = Ok (map (fun i => nth i (d_u d) 0%Q) (fst (echelon A)))).
    { clear - Hb Lu. induction Hb as [|i l Hi Hl IH]; [reflexivity|]. cbn [mapM map]. rewrite <- Lu in Hi. destruct (nth_error (d_u d) i) as [x|] eqn:Ex; [|apply nth_error_None in Ex; lia]. cbn [bind]. rewrite IH. cbn [bind omap]. rewrite (nth_error_nth _ _ _ Ex). reflexivity. }
    rewrite Eu. cbn [bind]. rewrite map_length, LR, Nat.eqb_refl. eexists. split; [reflexivity|]. rewrite sum_zip. rewrite LA in K. cbn [pred] in K. rewrite K. ring. }
  destruct Z as (z & Ez & Hz).
  assert (HD : ~ (gasConstant * d_T d * ln10Q == 0)%Q). { intros X. apply Qmult_integral in X as [X|X]; [apply Qmult_integral in X as [X|X]; [discriminate|contradiction]|discriminate]. }
  destruct (divide_ok z (gasConstant * d_T d * ln10Q) HD) as (e & Ee). pose proof (proj2 (divide_spec _ _ _ Ee)) as He'.
  assert (Ep : pE a' = Ok e) by (unfold pE; rewrite Ez; exact Ee). split.
  - exists e. split; [exact Ep|]. rewrite <- Hz, <- He'. reflexivity.
  - exists (ln10Q * (gasConstant * d_T d) / faradayConstant * e)%Q. split; [unfold Eh; rewrite Ep; reflexivity|].
    rewrite <- Hz, <- He'. change (964853329 # 10000)%Q with faradayConstant. field. discriminate.
Qed.
Print Assumptions C103_reversed_partial.
(* In the example hydrogen sits at potential RT times -1 and its ion at -16: the
   half reaction 1/2 H2 = H+ + e. *)
Definition reducing : list Q := [0; -1; 1 # 2]%Q.
Lemma reducing_known : electron_known inverse3 hydrogenous [spH2O; spH; spH2] (ap_data evaluated) reducing.
Proof.
  split; [|split; [|split]].
  - split; [repeat constructor|]. split; [reflexivity|]. split; [repeat constructor|]. intros m i Hm Hi. cbn in Hm, Hi.
    destruct m as [|[|[|]]]; try lia; destruct i as [|[|[|]]]; try lia; vm_compute; reflexivity.
  - split; [reflexivity|]. split; [reflexivity|]. intros symbol. rewrite !dotQ_QS by reflexivity. cbn [map spH2O spH spH2 sp_elements length QS nth reducing el_coefficient]. unfold el_coefficient; cbn -[str_eqb]. repeat match goal with |- context [str_eqb ?x symbol] => destruct (str_eqb x symbol) end; reflexivity.
  - exists (map (Qmult (gasConstant * 300)) [-1 # 2; 1; -31 # 2])%Q. split; [reflexivity|]. intros i Hi. cbn in Hi. destruct i as [|[|[|]]]; try lia; vm_compute; reflexivity.
  - vm_compute. discriminate.
Qed.
Theorem C103_refuted : ~ C103_statement.
Proof.
  intros S. pose proof (reached_new _ _ _ made_ok) as R. pose proof (aqueous_is _ _ _ _ _ _ _ R evaluated_ok) as Aq.
  destruct (S _ _ _ _ _ _ _ R evaluated_ok _ _ _ _ reducing Aq reducing_known) as [(e & E & K) _]. vm_compute in E. injection E as <-. vm_compute in K. discriminate.
Qed.
Print Assumptions C103_refuted.
(* The expected and the reported values coincide exactly when the electron has
   potential zero. *)
Theorem C103_zero_partial : forall echelon phases std act st a a' sp na w h v e, let sys := mkChemicalSystem phases in
  Reached echelon sys a -> ap_update_state std act st a = (Ok tt, a') -> let d := ap_data a' in aqueous_at sys std act st sp na d w h -> electron_known echelon sys sp d v ->
  pE a' = Ok e -> ((e * ((83144621 # 10000000) * d_T d * ln10Q) == - dotQ (d_u d) v)%Q <-> (dotQ (d_u d) v == 0)%Q).
Proof.
  intros echelon phases std act st a a' sp na w h v e sys H E d Aq K Ee. destruct (C103_reversed_partial _ _ _ _ _ _ _ H E _ _ _ _ _ Aq K) as [(e' & Ee' & V) _]. rewrite Ee in Ee'. injection Ee' as <-. fold d in V. rewrite V.
  set (x := dotQ (d_u d) v). clearbody x. split; intros X; [|rewrite X; reflexivity]. destruct x as [xn xd]. unfold Qeq in *. cbn in *. lia.
Qed.
Print Assumptions C103_zero_partial.
