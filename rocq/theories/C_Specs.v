(* Properties C30 - C33 and C70: equilibrium specifications, conditions and
   restrictions. *)
From Coq Require Import Lqa.
From Verif Require Import Base S_System S_State S_Chem M_Strings M_Formula M_Chem M_Algorithms M_System M_Units M_State M_Specs
  S_Equilibrium P_Algorithms P_State P_Specs P_Specs2 P_Restrictions P_Conditions C_State.

(* ---- C30: specifications ---- *)
(* Parameters refer to their own input. *)
Definition params_ok (s : Specs) : Prop :=
  length (q_idxs s) = length (q_params s) /\ NoDup (q_idxs s) /\
  forall k i p, nth_error (q_idxs s) k = Some i -> nth_error (q_params s) k = Some p -> nth_error (q_inputs s) i = Some (pa_id p).
(* Each chemical potential constraint has its own implicit titrant. *)
Definition titrants_of_constraints (s : Specs) : Prop :=
  Forall2 (fun f u => f = u_substance u) (q_implicit s) (q_ucons s).
Definition consistent (s : Specs) : Prop :=
  NoDup (q_inputs s) /\ NoDup (namesConstraints s) /\ titrants_of_constraints s /\
  Apart SameSubstance (q_explicit s ++ q_implicit s) /\ params_ok s.
Definition C30_statement : Prop := forall log stdprops sys db h s,
  db_ok db -> Forall call_ok h -> srun log stdprops sys db newSpecs h = Some s -> consistent s.

Definition noprops (_ : Species) (_ _ : Q) : outcome Std := Err.
Definition own_pE : EConstraint := mkE $"pE" (Some (fun _ _ => Ok 0%Q)).
Lemma empty_db_ok : db_ok emptyDB.
Proof. intros sp [I|[a I]]; cbn in I; contradiction. Qed.

(* Names are compared among constraints of the same kind only. *)
Theorem C30_names_refuted : ~ C30_statement.
Proof.
  intro H. destruct (srun (fun x => x) noprops sample emptyDB newSpecs [SpE; SAddE own_pE]) as [s|] eqn:E; [|vm_compute in E; discriminate].
  assert (C : Forall call_ok [SpE; SAddE own_pE]) by (repeat constructor). destruct (H _ _ _ _ _ _ empty_db_ok C E) as (_ & D & _).
  vm_compute in E. injection E as <-. unfold namesConstraints, concatenate, vectorize in D. cbn in D. inversion D as [|? ? N _]; subst. apply N. left. reflexivity.
Qed.
Print Assumptions C30_names_refuted.

Lemma Forall2_map_l {A B} (f : B -> A) l : Forall2 (fun x y => x = f y) (map f l) l.
Proof. induction l; constructor; auto. Qed.

(* The rest holds after every history, including rejected calls.  Missing: names
   shared by an equation constraint and a chemical potential constraint. *)
Theorem C30_partial : forall log stdprops sys db h s,
  db_ok db -> Forall call_ok h -> srun log stdprops sys db newSpecs h = Some s ->
  NoDup (q_inputs s) /\ NoDup (map e_name (q_econs s)) /\ NoDup (map u_name (q_ucons s)) /\ titrants_of_constraints s /\
  Apart SameSubstance (q_explicit s ++ q_implicit s) /\ params_ok s /\
  (forall e, In e (q_econs s) -> e_name e <> [] /\ e_fn e <> None) /\ (forall u, In u (q_ucons s) -> u_name u <> [] /\ u_fn u <> None).
Proof.
  intros log stdprops sys db h s D C R. pose proof (srun_Inv _ _ _ _ _ _ R) as I. destruct (srun_titrants _ _ _ _ _ _ D C R) as [A _].
  split; [apply I|]. split; [apply I|]. split; [apply I|]. split. { unfold titrants_of_constraints. rewrite (inv_imp _ I). apply Forall2_map_l. }
  split; [exact A|]. split; [|split; apply I]. split; [apply I|]. split; apply I.
Qed.
Print Assumptions C30_partial.

(* All of it holds when constraints are only imposed through the named calls. *)
Theorem C30_named_partial : forall log stdprops sys db h s,
  db_ok db -> Forall call_ok h -> Forall (fun c => ~ user_e c /\ ~ user_u c) h -> srun log stdprops sys db newSpecs h = Some s -> consistent s.
Proof.
  intros log stdprops sys db h s D C U R. pose proof (C30_partial _ _ _ _ _ _ D C R) as (A1 & _ & _ & A4 & A5 & A6 & _).
  split; [exact A1|]. split; [|auto]. apply (named_distinct log stdprops sys db). { apply (srun_Inv _ _ _ _ _ _ R). }
  - apply (srun_named_e log stdprops sys db h s); auto. eapply Forall_impl; [|exact U]. intros ? [? ?]; assumption.
  - apply (srun_named_u log stdprops sys db h s); auto. eapply Forall_impl; [|exact U]. intros ? [? ?]; assumption.
Qed.
Print Assumptions C30_named_partial.

(* Numbers of unknowns and constraints must agree: otherwise the dimensions of
   the problem, hence the solver, cannot be made.  When they agree every control
   variable p has its equation and every q its chemical potential. *)
Theorem C30_dimensions : forall log stdprops sys db h s, srun log stdprops sys db newSpecs h = Some s ->
  let unknowns := (if q_unknownT s then 1 else 0) + (if q_unknownP s then 1 else 0) + length (q_explicit s) + length (q_implicit s) in
  let constraints := length (q_econs s) + length (q_ucons s) in
  (unknowns <> constraints -> mkEquilibriumDims sys s = Err) /\
  (unknowns = constraints -> exists d, mkEquilibriumDims sys s = Ok d /\
     Np d = length (q_econs s) /\ Nq d = length (q_ucons s) /\ Nn d = length (sys_species sys) /\ Nw d = length (q_inputs s) /\
     Nb d = length (sys_elements sys) + 1 /\ Nx d = Nn d + Nq d /\ Nu d = Nn d + Np d + Nq d).
Proof.
  intros log stdprops sys db h s R u c. pose proof (inv_imp _ (srun_Inv _ _ _ _ _ _ R)) as E.
  assert (L : length (q_implicit s) = length (q_ucons s)) by (rewrite E; apply map_length).
  unfold mkEquilibriumDims, numControlVariablesP, numControlVariablesQ, numConstraints, numTitrantsExplicit, numTitrantsImplicit, b2n.
  unfold u, c. clear u c. split; intro H.
  - destruct (Nat.eqb_spec ((if q_unknownT s then 1 else 0) + (if q_unknownP s then 1 else 0) + length (q_explicit s) + length (q_implicit s)) (length (q_econs s) + length (q_ucons s))); [contradiction|reflexivity].
  - destruct (Nat.eqb_spec ((if q_unknownT s then 1 else 0) + (if q_unknownP s then 1 else 0) + length (q_explicit s) + length (q_implicit s)) (length (q_econs s) + length (q_ucons s))); [|contradiction].
    eexists. split; [reflexivity|]. cbn [Np Nq Nn Nw Nb Nx Nu]. repeat split; auto. lia.
Qed.
Print Assumptions C30_dimensions.

Definition fCO2 : ChemicalFormula := match mkChemicalFormula $"CO2" with Ok f => f | _ => Build_ChemicalFormula [] [] 0%Q end.
Example C30_nonvacuous :
  let h := [STemperature; SPressure; SpE; STemperature; SVolume; SOpenTo fCO2; SAddParam (mkParam $"k" 0)] in
  Forall call_ok h /\ Forall (fun c => ~ user_e c /\ ~ user_u c) h /\
  match srun (fun x => x) noprops sample emptyDB newSpecs h with
  | Some s => q_inputs s = [$"T"; $"P"; $"pE"; $"V"; $"k"] /\ namesConstraints s = [$"volume"; $"pE"] /\ is_ok (mkEquilibriumDims sample s) = true
  | None => False end.
Proof.
  cbv zeta. split; [|split].
  - repeat (apply Forall_cons; [try exact I|]); [|apply Forall_nil]. vm_compute. repeat (constructor; [cbn; intuition discriminate|]). constructor.
  - repeat (apply Forall_cons; [split; intros []|]). apply Forall_nil.
  - vm_compute. repeat split.
Qed.

(* ---- C31: rejected specification calls ---- *)
Definition C31_statement : Prop := forall log stdprops sys db h s c s',
  srun log stdprops sys db newSpecs h = Some s -> scall_apply log stdprops sys db c s = (Err, s') -> s' = s.
(* The input is registered before the substance is found to be taken. *)
Theorem C31_refuted : ~ C31_statement.
Proof.
  intro H. destruct (srun (fun x => x) noprops sample emptyDB newSpecs [SpE]) as [s|] eqn:E; [|vm_compute in E; discriminate].
  specialize (H (fun x => x) noprops sample emptyDB [SpE] s SEh (snd (scall_apply (fun x => x) noprops sample emptyDB SEh s)) E).
  assert (K : fst (scall_apply (fun x => x) noprops sample emptyDB SEh s) = Err) by (vm_compute in E; injection E as <-; vm_compute; reflexivity).
  assert (L : length (q_inputs (snd (scall_apply (fun x => x) noprops sample emptyDB SEh s))) = 2) by (vm_compute in E; injection E as <-; vm_compute; reflexivity).
  assert (L1 : length (q_inputs s) = 1) by (vm_compute in E; injection E as <-; reflexivity).
  rewrite H in L; [congruence|]. rewrite (surjective_pairing (scall_apply _ _ _ _ _ _)), K. reflexivity.
Qed.
Print Assumptions C31_refuted.

Definition same_but_inputs (s s' : Specs) : Prop :=
  q_unknownT s' = q_unknownT s /\ q_unknownP s' = q_unknownP s /\ q_params s' = q_params s /\ q_idxs s' = q_idxs s /\
  q_econs s' = q_econs s /\ q_ucons s' = q_ucons s /\ q_explicit s' = q_explicit s /\ q_implicit s' = q_implicit s.

(* A rejected call leaves constraints, titrants, parameters and unknowns as they
   were; at most it has registered its own new input.  Calls that add no input,
   or only an input, have no effect at all.  Missing: calls that add an input and
   are rejected afterwards; addInput("T") and addInput("P"). *)
Theorem C31_partial : forall log stdprops sys db h s c s', Forall no_TP h -> no_TP c ->
  srun log stdprops sys db newSpecs h = Some s -> scall_apply log stdprops sys db c s = (Err, s') ->
  same_but_inputs s s' /\ (s' = s \/ exists v, input_of c = Some v /\ ~ In v (q_inputs s) /\ q_inputs s' = q_inputs s ++ [v]) /\
  (match c with STemperature | SPressure | SOpenTo _ | SAddE _ | SAddU _ | SAddInput _ | SAddParam _ => s' = s | _ => True end).
Proof.
  intros log stdprops sys db h s c s' N Nc R A. destruct (srun_flags _ _ _ _ _ _ N R) as [FT FP].
  assert (E := A). apply apply_effect in E; [|discriminate]. apply effect_err in E as [->|[(v & E & I & -> & NT & NP)|[(-> & I & ->)|(-> & I & ->)]]].
  - split; [repeat split|]. split; auto. destruct c; auto.
  - split; [repeat split|]. split. { right. exists v. auto. }
    destruct c; try exact Logic.I; try contradiction; cbn in E; try discriminate.
    + injection E as ->. cbn in A. unfold addInput in A. destruct (contains str_eqb (q_inputs s) v) eqn:K; [|discriminate]. apply contains_str in K. contradiction.
    + injection E as <-. cbn in A. unfold addParam, addInput in A. destruct (contains str_eqb (q_inputs s) (pa_id p)) eqn:K; [|discriminate]. apply contains_str in K. contradiction.
  - apply FT in I. assert (X : no_T s = s) by (destruct s; cbn in *; subst; reflexivity). rewrite X. repeat split; auto.
  - apply FP in I. assert (X : no_P s = s) by (destruct s; cbn in *; subst; reflexivity). rewrite X. repeat split; auto.
Qed.
Print Assumptions C31_partial.

Example C31_nonvacuous : exists s s', srun (fun x => x) noprops sample emptyDB newSpecs [STemperature; SpE] = Some s /\
  scall_apply (fun x => x) noprops sample emptyDB STemperature s = (Err, s') /\ s' = s /\ q_inputs s = [$"T"; $"pE"].
Proof. eexists. eexists. split; [vm_compute; reflexivity|]. split; [vm_compute; reflexivity|]. split; vm_compute; reflexivity. Qed.

(* ---- C32: conditions ---- *)
Section Conditions.
Variable log : Q -> Q.
Variable fresh : nat -> Q.
Variable sys : ChemicalSystem.
(* Setting input [wid] to the outcome [m] of a conversion. *)
Definition Sets (c : Conditions) (wid : str) (m : outcome Q) (r : outcome unit) (c' : Conditions) : Prop :=
  (r = Ok tt <-> In wid (c_inputs c) /\ exists v, m = Ok v) /\
  (r <> Ok tt -> c' = c) /\
  forall v, r = Ok tt -> m = Ok v -> exists i, FirstAt (fun x => x = wid) (c_inputs c) i /\ c_inputs c' = c_inputs c /\
     Replaced (c_values c) i v (c_values c') /\ c_species c' = c_species c /\ c_components c' = c_components c.
End Conditions.
Definition C32_statement : Prop := forall log fresh sys cells s h c x r c' wid m, Inv s ->
  (exists c0, newConditions cells s = Ok c0 /\ crun log fresh sys c0 h = Some c) -> ccall_apply log fresh sys x c = (r, c') ->
  setting log x = Some (wid, m) -> Sets c wid m r c'.

Definition withEh : Specs := mkSpecs true true [$"Eh"] [] [] [] [] [] [].
Lemma withEh_Inv : Inv withEh.
Proof.
  split; cbn; try (constructor; [intros []|constructor]); try constructor; try (intros; contradiction); auto; try discriminate.
  intros [|k]; discriminate.
Qed.
(* Eh(v, unit) stores v whatever its unit. *)
Theorem C32_Eh_refuted : ~ C32_statement.
Proof.
  intro H. destruct (newConditions (fun _ => 0%Q) withEh) as [c| |] eqn:E; try (vm_compute in E; discriminate).
  specialize (H (fun x => x) (fun _ => 0%Q) sample (fun _ => 0%Q) withEh [] c (CEh (500 # 1) $"mV")
    (fst (ccall_apply (fun x => x) (fun _ => 0%Q) sample (CEh (500 # 1) $"mV") c)) (snd (ccall_apply (fun x => x) (fun _ => 0%Q) sample (CEh (500 # 1) $"mV") c))
    $"Eh" (convert (500 # 1) $"mV" $"V") withEh_Inv).
  destruct H as (_ & _ & H). { exists c. split; auto. } { destruct (ccall_apply _ _ _ _ _); reflexivity. } { reflexivity. }
  vm_compute in E. injection E as <-. destruct (convert (500 # 1) $"mV" $"V") as [v| |] eqn:V; try (vm_compute in V; discriminate).
  destruct (H v eq_refl eq_refl) as (i & F & _ & (_ & R & _) & _). destruct F as ((y & F & _) & _). cbn in F. destruct i as [|[|i]]; try discriminate.
  cbn in R. injection R as <-. vm_compute in V. discriminate.
Qed.
Print Assumptions C32_Eh_refuted.

(* All other setters, and Eh in volts.  Missing: Eh in other units. *)
Theorem C32_partial : forall log fresh sys cells s h c x r c' wid m, Inv s ->
  (exists c0, newConditions cells s = Ok c0 /\ crun log fresh sys c0 h = Some c) -> ccall_apply log fresh sys x c = (r, c') ->
  setting log x = Some (wid, m) -> (forall v u, x = CEh v u -> m = Ok v) -> Sets c wid m r c'.
Proof.
  intros log fresh sys cells s h c x r c' wid m I (c0 & E0 & R) A S EH.
  destruct (newConditions_ok log fresh cells s I) as (c1 & E1 & I1 & L1 & N1 & M1 & _). rewrite E0 in E1. injection E1 as <-.
  destruct (crun_shaped log fresh sys h c0 c R) as [[L _] _]. { split; [exact L1|]. left. auto. }
  assert (K : (~ In wid (c_inputs c) /\ r = Err /\ c' = c) \/
    (In wid (c_inputs c) /\ r = omap (fun _ => tt) m /\ ((forall v, m <> Ok v) -> c' = c) /\
     forall v, m = Ok v -> exists i, FirstAt (fun x => x = wid) (c_inputs c) i /\ c_inputs c' = c_inputs c /\
       Replaced (c_values c) i v (c_values c') /\ c_species c' = c_species c /\ c_components c' = c_components c)).
  { destruct x; try (apply (setter_spec log fresh sys _ c r c' wid m A S); [intros ? ?; discriminate|exact L]).
    specialize (EH _ _ eq_refl). subst m. cbn in S. injection S as <- _. destruct (Eh_spec log fresh sys _ _ _ _ _ A L) as [K|(K1 & K2 & K3)]; [left; exact K|].
    right. split; auto. split; [exact K2|]. split; [intro Z; exfalso; eapply Z; reflexivity|]. intros w [= <-]. exact K3. }
  destruct K as [(N & -> & ->)|(J & -> & NC & OK)]; unfold Sets.
  - split; [split; [discriminate|intros [? _]; contradiction]|]. split; [auto|]. discriminate.
  - split; [|split].
    + split. { destruct m; try discriminate. eauto. } intros (_ & v & ->). reflexivity.
    + intro Z. apply NC. intros v ->. apply Z. reflexivity.
    + intros v _ ->. apply OK. reflexivity.
Qed.
Print Assumptions C32_partial.

(* Inputs start at zero, parameters at their current values. *)
Theorem C32_start : forall cells s, Inv s -> exists c, newConditions cells s = Ok c /\ c_inputs c = q_inputs s /\
  (forall k i p, nth_error (q_idxs s) k = Some i -> nth_error (q_params s) k = Some p -> nth_error (c_values c) i = Some (cells (pa_cell p))) /\
  (forall i, i < length (q_inputs s) -> ~ In i (q_idxs s) -> nth_error (c_values c) i = Some 0%Q).
Proof. intros cells s I. destruct (newConditions_ok (fun x => x) (fun _ => 0%Q) cells s I) as (c & E & H1 & _ & _ & _ & H2 & H3). exists c. auto. Qed.
Print Assumptions C32_start.

(* Starting amounts of species and of components exclude each other, and the last
   call wins; inputs are not touched. *)
Definition starting (x : ccall) : Prop := setting (fun v => v) x = None.
Theorem C32_exclusive : forall log fresh sys cells s h c, Inv s ->
  (exists c0, newConditions cells s = Ok c0 /\ crun log fresh sys c0 h = Some c) ->
  (c_species c = [] \/ c_components c = []) /\
  (forall x c', starting x -> ccall_apply log fresh sys x c = (Ok tt, c') ->
     c_values c' = c_values c /\ c_inputs c' = c_inputs c /\
     match x with
     | CStartComponents b => c_components c' = b /\ c_species c' = []
     | CStartState n => c_species c' = n /\ c_components c' = []
     | CStart i v un => c_components c' = [] /\ exists a, Amount sys i v un a /\ nth_error (c_species c') i = Some a /\
                          (length (c_species c) = length (sys_species sys) -> Replaced (c_species c) i a (c_species c'))
     | CStartN nm v un => c_components c' = [] /\ exists i a, FirstAt (fun sp => name sp = nm) (sys_species sys) i /\ Amount sys i v un a /\
                          nth_error (c_species c') i = Some a /\
                          (length (c_species c) = length (sys_species sys) -> Replaced (c_species c) i a (c_species c'))
     | _ => True
     end).
Proof.
  intros log fresh sys cells s h c I (c0 & E0 & R).
  destruct (newConditions_ok log fresh cells s I) as (c1 & E1 & I1 & L1 & N1 & M1 & _). rewrite E0 in E1. injection E1 as <-.
  destruct (crun_shaped log fresh sys h c0 c R) as [[L S] _]. { split; [exact L1|]. left. auto. } split; [tauto|].
  intros x c' SX A.
  assert (ST : forall i v un, startWith fresh sys i v un c = (Ok tt, c') -> c_values c' = c_values c /\ c_inputs c' = c_inputs c /\ c_components c' = [] /\
    exists a, Amount sys i v un a /\ nth_error (c_species c') i = Some a /\ (length (c_species c) = length (sys_species sys) -> Replaced (c_species c) i a (c_species c'))).
  { intros i v un H. destruct (start_spec log fresh sys _ _ _ _ _ _ H) as [(? & _)|(_ & a & Li & Am & X1 & X2 & X3 & n & X4 & X5 & X6 & X7)]; try discriminate.
    repeat split; auto. exists a. split; [auto|]. split; [apply X4|]. intro Z. rewrite <- (X6 Z). auto. }
  destruct x; cbn in SX; try discriminate; cbn [ccall_apply] in A.
  - destruct (with_value_inv _ _ _ _ _ A) as [(i & E & K)|[(_ & K & _)|(_ & K & _)]]; try discriminate.
    apply ST in K as (A1 & A2 & A3 & a & A4). repeat split; auto. exists i, a. split; [|exact A4]. apply index_spec. exact E.
  - apply ST in A as (A1 & A2 & A3 & A4). repeat split; auto.
  - destruct (length n =? length (sys_species sys)); [|discriminate]. injection A as <-. cbn. auto.
  - destruct (length b =? length (sys_elements sys) + 1); [|discriminate]. injection A as <-. cbn. auto.
Qed.
Print Assumptions C32_exclusive.

Definition withTVk : Specs := mkSpecs true true [$"T"; $"V"; $"k"] [mkParam $"k" 0] [2] [] [] [] [].
Example C32_nonvacuous : Inv withTVk /\ exists c0 c, newConditions (fun _ => 9%Q) withTVk = Ok c0 /\
  crun (fun x => x) (fun _ => 0%Q) sample c0 [CTemperature 25%Q $"celsius"; CStartN $"H2O" 1%Q $"mol"; CStart 2 3%Q $"mol"; CVolume 1%Q $"liter"] = Some c /\
  map Qred (c_values c) = [5963 # 20; 1 # 1000; 9]%Q /\ c_species c = [1; 0; 3]%Q.
Proof.
  split.
  - split; cbn; try (repeat (constructor; [cbn; intuition discriminate|]); constructor); try (intros; contradiction); auto; try discriminate.
    intros [|[|k]] i p H1 H2; try discriminate. injection H1 as <-. injection H2 as <-. reflexivity.
  - eexists. eexists. split; [vm_compute; reflexivity|]. split; [vm_compute; reflexivity|]. split; vm_compute; reflexivity.
Qed.

(* ---- C33: restrictions ---- *)
Theorem C33_last_call_wins : forall sys h r, rrun sys newRestrictions h = Some r -> forall i,
  (exists l, InForce (Upper sys) h i l /\ Shows (r_inc r) (r_above r) i l /\ forall m, InForce (Upper sys) h i m -> m = l) /\
  (exists l, InForce (Lower sys) h i l /\ Shows (r_dec r) (r_below r) i l /\ forall m, InForce (Lower sys) h i m -> m = l).
Proof.
  intros sys h r R i. destruct (rrun_shows sys h r R) as [U L]. destruct (U i) as (l & A & B). destruct (L i) as (l' & A' & B'). split.
  - exists l. split; [auto|]. split; [auto|]. intros m M. apply (InForce_fun sys (Upper sys) h i m l); auto. apply Upper_fun.
  - exists l'. split; [auto|]. split; [auto|]. intros m M. apply (InForce_fun sys (Lower sys) h i m l'); auto. apply Lower_fun.
Qed.
Print Assumptions C33_last_call_wins.

(* Never both forbidden to move and limited, nor limited twice. *)
Theorem C33_exclusive : forall sys h r, rrun sys newRestrictions h = Some r -> forall i v,
  (In i (r_inc r) -> ~ In (i, v) (r_above r)) /\ (In i (r_dec r) -> ~ In (i, v) (r_below r)) /\
  (forall w, In (i, v) (r_above r) -> In (i, w) (r_above r) -> v = w) /\ (forall w, In (i, v) (r_below r) -> In (i, w) (r_below r) -> v = w).
Proof.
  intros sys h r R i v. destruct (rrun_shows sys h r R) as [U L]. destruct (U i) as (l & _ & F & T). destruct (L i) as (l' & _ & F' & T').
  repeat split.
  - intros I J. apply F in I. apply T in J. congruence.
  - intros I J. apply F' in I. apply T' in J. congruence.
  - intros w I J. apply T in I. apply T in J. congruence.
  - intros w I J. apply T' in I. apply T' in J. congruence.
Qed.
Print Assumptions C33_exclusive.

(* A rejected call changes no bound, and a call about one species changes none of another. *)
Theorem C33_others : forall sys c r o r', rcall_apply sys c r = (o, r') -> o <> UB ->
  (forall i, (forall l, ~ Upper sys c i l) -> (In i (r_inc r') <-> In i (r_inc r)) /\ forall v, In (i, v) (r_above r') <-> In (i, v) (r_above r)) /\
  (forall i, (forall l, ~ Lower sys c i l) -> (In i (r_dec r') <-> In i (r_dec r)) /\ forall v, In (i, v) (r_below r') <-> In (i, v) (r_below r)).
Proof.
  intros sys c r o r' A N. destruct (apply_moved sys c r r' o A N) as [U L]. split; intros i H.
  - destruct (U i) as [(l & K & _)|(_ & K)]; [exfalso; apply (H l); auto|exact K].
  - destruct (L i) as [(l & K & _)|(_ & K)]; [exfalso; apply (H l); auto|exact K].
Qed.
Print Assumptions C33_others.

Example C33_nonvacuous : exists r, rrun sample newRestrictions
    [RCannotReact (Named $"H2O"); RCannotIncreaseAbove (At 0) 2%Q $"mol"; RCannotDecrease (At 2); RCannotIncrease (At 9)] = Some r /\
  r_inc r = [] /\ r_above r = [(0, 2%Q)] /\ r_dec r = [0; 2] /\ Refers sample (Named $"H2O") 0.
Proof.
  eexists. split; [vm_compute; reflexivity|]. repeat split. { eexists. split; reflexivity. } intros j s L. inversion L.
Qed.

(* ---- C70: an imposed constraint means that the named quantity equals its own input ---- *)
Theorem C70_properties : forall log stdprops sys db h s, Forall (fun c => ~ user_e c) h -> srun log stdprops sys db newSpecs h = Some s ->
  forall e, In e (q_econs s) -> exists input f i fn, In (e_name e, input, f) equation_table /\ nth_error (q_inputs s) i = Some input /\
    e_fn e = Some fn /\ forall pr w x, nth_error w i = Some x ->
      (forall v, f (sys_phases sys) pr = Ok v -> exists r, fn pr w = Ok r /\ (r == 0 <-> v == x)%Q) /\
      (forall r, fn pr w = Ok r -> exists v, f (sys_phases sys) pr = Ok v /\ (r == v - x)%Q).
Proof.
  intros log stdprops sys db h s U R e I. pose proof (srun_named_e _ _ _ _ _ _ U R) as F. rewrite Forall_forall in F.
  destruct (F e I) as (n & v & f & i & -> & T & N). exists v, f, i, (property_minus sys f i). cbn [e_name e_fn]. repeat split; auto.
  - intros v0 E. unfold property_minus. rewrite E. cbn [bind]. unfold at_w. rewrite H. cbn [bind]. eexists. split; [reflexivity|]. lra.
  - intros r. unfold property_minus. destruct (f (sys_phases sys) pr) as [v0| |]; cbn [bind]; try discriminate. unfold at_w. rewrite H. cbn [bind].
    intros [= <-]. exists v0. split; [reflexivity|]. reflexivity.
Qed.
Print Assumptions C70_properties.

(* Chemical potentials: the constraint of each name evaluates, from its own input,
   to the potential that the named quantity stands for. *)
Theorem C70_potentials : forall log stdprops sys db h s, Forall (fun c => ~ user_u c) h -> srun log stdprops sys db newSpecs h = Some s ->
  forall u, In u (q_ucons s) -> exists fn pot i, u_fn u = Some fn /\ Potential log stdprops db (u_name u) (u_substance u) pot /\
    nth_error (q_inputs s) i = Some (u_name u) /\
    forall pr w x, nth_error w i = Some x ->
      (forall v, fn pr w = Ok v -> pot pr x v) /\
      ((forall sp, exists std, stdprops sp (p_T pr) (p_P pr) = Ok std) -> exists v, fn pr w = Ok v).
Proof.
  intros log stdprops sys db h s U R u I. pose proof (srun_named_u _ _ _ _ _ _ U R) as F. rewrite Forall_forall in F.
  destruct (F u I) as (fn & pot & i & E & P & N & A & B). exists fn, pot, i. repeat split; auto.
  - intros v V. apply (A _ _ _ _ H V). - intro Z. apply (B pr w x Z H).
Qed.
Print Assumptions C70_potentials.

Example C70_nonvacuous :
  match srun (fun x => x) noprops sample emptyDB newSpecs [STemperature; SVolume; SpE] with
  | Some s => map e_name (q_econs s) = [$"volume"] /\ map u_name (q_ucons s) = [$"pE"] /\
      match nth_error (q_ucons s) 0 with
      | Some u => match u_fn u with Some fn => (match fn (newProps twoPhases) [300; 1; 4]%Q with Ok v => Qeq_bool v 0 | _ => false end) = true | None => False end
      | None => False end
  | None => False end.
Proof. vm_compute. repeat split. Qed.
