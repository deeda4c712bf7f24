(* Proofs about equilibrium specifications. *)
From Verif Require Import Base S_System S_State S_Chem M_Strings M_Formula M_Chem M_Algorithms M_System M_Units M_State M_Specs
  S_Equilibrium P_Algorithms P_Chem.
From Verif Require P_State.

Definition add_in (s : Specs) (v : str) : Specs :=
  mkSpecs (q_unknownT s) (q_unknownP s) (q_inputs s ++ [v]) (q_params s) (q_idxs s) (q_econs s) (q_ucons s) (q_explicit s) (q_implicit s).
Definition add_par (s : Specs) (p : Param) (i : nat) : Specs :=
  mkSpecs (q_unknownT s) (q_unknownP s) (q_inputs s) (q_params s ++ [p]) (q_idxs s ++ [i]) (q_econs s) (q_ucons s) (q_explicit s) (q_implicit s).
Definition add_e (s : Specs) (c : EConstraint) : Specs :=
  mkSpecs (q_unknownT s) (q_unknownP s) (q_inputs s) (q_params s) (q_idxs s) (q_econs s ++ [c]) (q_ucons s) (q_explicit s) (q_implicit s).
Definition add_u (s : Specs) (c : UConstraint) : Specs :=
  mkSpecs (q_unknownT s) (q_unknownP s) (q_inputs s) (q_params s) (q_idxs s) (q_econs s) (q_ucons s ++ [c]) (q_explicit s) (q_implicit s ++ [u_substance c]).
Definition add_open (s : Specs) (f : ChemicalFormula) : Specs :=
  mkSpecs (q_unknownT s) (q_unknownP s) (q_inputs s) (q_params s) (q_idxs s) (q_econs s) (q_ucons s) (q_explicit s ++ [f]) (q_implicit s).
Definition no_T (s : Specs) : Specs :=
  mkSpecs false (q_unknownP s) (q_inputs s) (q_params s) (q_idxs s) (q_econs s) (q_ucons s) (q_explicit s) (q_implicit s).
Definition no_P (s : Specs) : Specs :=
  mkSpecs (q_unknownT s) false (q_inputs s) (q_params s) (q_idxs s) (q_econs s) (q_ucons s) (q_explicit s) (q_implicit s).

Definition fresh_e (c : EConstraint) (s : Specs) : Prop :=
  ~ In (e_name c) (map e_name (q_econs s)) /\ e_name c <> [] /\ e_fn c <> None.
Definition fresh_u (c : UConstraint) (s : Specs) : Prop :=
  ~ In (u_name c) (map u_name (q_ucons s)) /\ u_name c <> [] /\ u_fn c <> None /\
  forall f, In f (q_explicit s ++ q_implicit s) -> equivalent f (u_substance c) = false.

Lemma contains_str l x : contains str_eqb l x = true <-> In x l.
Proof. apply contains_spec, str_eqb_eq. Qed.
Lemma contains_str_false l x : contains str_eqb l x = false <-> ~ In x l.
Proof. rewrite <- contains_str. destruct (contains str_eqb l x); split; congruence. Qed.

Lemma registered_spec f s : titrantRegistered f s = false <-> forall g, In g (q_explicit s ++ q_implicit s) -> equivalent g f = false.
Proof.
  unfold titrantRegistered. rewrite orb_false_iff. split.
  - intros [H1 H2] g I. destruct (equivalent g f) eqn:E; auto. exfalso. apply in_app_or in I as [I|I].
    + assert (containsfn (q_explicit s) (fun x => equivalent x f) = true) by (apply containsfn_spec; eauto). congruence.
    + assert (indexfn (q_implicit s) (fun x => equivalent x f) < length (q_implicit s)) by (apply indexfn_lt; eauto).
      apply Nat.ltb_ge in H2. lia.
  - intro H. split.
    + destruct (containsfn _ _) eqn:C; auto. apply containsfn_spec in C as (x & I & E).
      rewrite (H x) in E; [discriminate|]. apply in_or_app; auto.
    + apply Nat.ltb_ge. destruct (Nat.le_gt_cases (length (q_implicit s)) (indexfn (q_implicit s) (fun x => equivalent x f))); auto.
      apply indexfn_lt in H0 as (x & I & E). rewrite (H x) in E; [discriminate|]. apply in_or_app; auto.
Qed.

Lemma addInput_inv v s r s' : addInput v s = (r, s') ->
  (r = Err /\ s' = s /\ In v (q_inputs s)) \/ (r = Ok (length (q_inputs s)) /\ s' = add_in s v /\ ~ In v (q_inputs s)).
Proof.
  unfold addInput. destruct (contains str_eqb (q_inputs s) v) eqn:C; intros [= <- <-].
  - left. apply contains_str in C. auto. - right. apply contains_str_false in C. auto.
Qed.
Lemma with_input_inv v s k r s' : with_input v s k = (r, s') ->
  (r = Err /\ s' = s /\ In v (q_inputs s)) \/ (~ In v (q_inputs s) /\ k (length (q_inputs s)) (add_in s v) = (r, s')).
Proof.
  unfold with_input. destruct (addInput v s) as [a s1] eqn:E. apply addInput_inv in E as [(-> & -> & I)|(-> & -> & I)]; intro H.
  - injection H as <- <-. auto. - auto.
Qed.
Lemma addE_inv c s r s' : addEConstraint c s = (r, s') -> (r = Err /\ s' = s) \/ (r = Ok tt /\ s' = add_e s c /\ fresh_e c s).
Proof.
  unfold addEConstraint. destruct (containsfn _ _) eqn:C; [intros [= <- <-]; auto|].
  destruct (Nat.eqb_spec (length (e_name c)) 0) as [L|L]; [intros [= <- <-]; auto|].
  destruct (e_fn c) eqn:F; intros [= <- <-]; auto. right. repeat split; auto.
  - intro I. apply in_map_iff in I as (x & N & I). assert (containsfn (q_econs s) (fun x => str_eqb (e_name x) (e_name c)) = true).
    { apply containsfn_spec. exists x. split; auto. apply str_eqb_eq, N. } congruence.
  - intro H. rewrite H in L. apply L; reflexivity.
  - congruence.
Qed.
Lemma addU_inv c s r s' : addUConstraint c s = (r, s') -> (r = Err /\ s' = s) \/ (r = Ok tt /\ s' = add_u s c /\ fresh_u c s).
Proof.
  unfold addUConstraint. destruct (containsfn _ _) eqn:C; [intros [= <- <-]; auto|].
  destruct (Nat.eqb_spec (length (u_name c)) 0) as [L|L]; [intros [= <- <-]; auto|].
  destruct (u_fn c) eqn:F; [|intros [= <- <-]; auto].
  destruct (titrantRegistered _ _) eqn:T; intros [= <- <-]; auto. right. repeat split; auto.
  - intro I. apply in_map_iff in I as (x & N & I). assert (containsfn (q_ucons s) (fun x => str_eqb (u_name x) (u_name c)) = true).
    { apply containsfn_spec. exists x. split; auto. apply str_eqb_eq, N. } congruence.
  - intro H. rewrite H in L. apply L; reflexivity.
  - congruence.
  - apply registered_spec, T.
Qed.

Section Effects.
Variable log : Q -> Q.
Variable stdprops : Species -> Q -> Q -> outcome Std.
Variable sys : ChemicalSystem.
Variable db : Database.

(* The meaning of the function of a potential constraint reading input [i]. *)
Definition pot_fn (i : nat) (fn : ConstraintFn) (pot : Props -> Q -> Q -> Prop) : Prop :=
  forall pr w x v, nth_error w i = Some x -> fn pr w = Ok v -> pot pr x v.
Definition total_fn (i : nat) (fn : ConstraintFn) : Prop :=
  forall pr w x, (forall sp, exists std, stdprops sp (p_T pr) (p_P pr) = Ok std) -> nth_error w i = Some x -> exists v, fn pr w = Ok v.

Inductive effect (s : Specs) : scall -> outcome unit -> Specs -> Prop :=
| ef_none c : effect s c Err s
| ef_orphan c v : input_of c = Some v -> c <> STemperature -> c <> SPressure -> ~ In v (q_inputs s) -> effect s c Err (add_in s v)
| ef_T_err : In $"T" (q_inputs s) -> effect s STemperature Err (no_T s)
| ef_T : ~ In $"T" (q_inputs s) -> effect s STemperature (Ok tt) (add_in (no_T s) $"T")
| ef_P_err : In $"P" (q_inputs s) -> effect s SPressure Err (no_P s)
| ef_P : ~ In $"P" (q_inputs s) -> effect s SPressure (Ok tt) (add_in (no_P s) $"P")
| ef_e c v n f : input_of c = Some v -> In (n, v, f) equation_table -> ~ In v (q_inputs s) ->
    fresh_e (mkE n (Some (property_minus sys f (length (q_inputs s))))) s ->
    effect s c (Ok tt) (add_e (add_in s v) (mkE n (Some (property_minus sys f (length (q_inputs s))))))
| ef_u c v u fn pot : input_of c = Some v -> ~ In v (q_inputs s) -> u_name u = v -> u_fn u = Some fn ->
    Potential log stdprops db v (u_substance u) pot -> pot_fn (length (q_inputs s)) fn pot -> total_fn (length (q_inputs s)) fn ->
    (call_ok c -> db_ok db -> listed_once (cf_elements (u_substance u))) -> fresh_u u s ->
    effect s c (Ok tt) (add_u (add_in s v) u)
| ef_addE e : fresh_e e s -> effect s (SAddE e) (Ok tt) (add_e s e)
| ef_addU u : fresh_u u s -> effect s (SAddU u) (Ok tt) (add_u s u)
| ef_open f : (forall g, In g (q_explicit s ++ q_implicit s) -> equivalent g f = false) -> effect s (SOpenTo f) (Ok tt) (add_open s f)
| ef_input v : ~ In v (q_inputs s) -> effect s (SAddInput v) (Ok tt) (add_in s v)
| ef_param p : ~ In (pa_id p) (q_inputs s) -> effect s (SAddParam p) (Ok tt) (add_par (add_in s (pa_id p)) p (length (q_inputs s))).

Lemma at_w_ok w i x : nth_error w i = Some x -> at_w w i = Ok x.
Proof. unfold at_w. intros ->. reflexivity. Qed.

Lemma activity_pot sp n i lna : let u := createActivityConstraint stdprops sp n i lna in
  exists fn, u_name u = n /\ u_substance u = formula sp /\ u_fn u = Some fn /\
    (forall pr w x v, nth_error w i = Some x -> fn pr w = Ok v -> activity_potential stdprops sp lna pr x v) /\ total_fn i fn.
Proof.
  cbv zeta. unfold createActivityConstraint. cbn [u_name u_substance u_fn]. eexists. repeat split.
  - intros pr w x v E H. destruct (stdprops sp (p_T pr) (p_P pr)) as [std| |] eqn:S; cbn [bind] in H; try discriminate.
    rewrite (at_w_ok _ _ _ E) in H. cbn [bind] in H. injection H as <-. exists std. split; auto. unfold gasConstant. reflexivity.
  - intros pr w x H E. destruct (H sp) as (std & S). rewrite S. cbn [bind]. rewrite (at_w_ok _ _ _ E). cbn [bind]. eauto.
Qed.

Lemma activity_effect c sp v lna lna' r s s' : (forall x, lna x == lna' x)%Q ->
  (with_input v s (fun idx s => addUConstraint (createActivityConstraint stdprops sp v idx lna) s)) = (r, s') ->
  input_of c = Some v -> c <> STemperature -> c <> SPressure ->
  Potential log stdprops db v (formula sp) (activity_potential stdprops sp lna') ->
  (call_ok c -> db_ok db -> listed_once (cf_elements (formula sp))) -> effect s c r s'.
Proof.
  intros EQ H I NT NP PO L. apply with_input_inv in H as [(-> & -> & _)|(NI & H)]; [constructor|].
  apply addU_inv in H as [(-> & ->)|(-> & -> & F)]; [apply ef_orphan; auto|].
  destruct (activity_pot sp v (length (q_inputs s)) lna) as (fn & E1 & E2 & E3 & E4 & E5).
  refine (ef_u s c v _ fn (activity_potential stdprops sp lna') I NI E1 E3 PO _ E5 L F).
  intros pr w x y Ew Ef. destruct (E4 pr w x y Ew Ef) as (std & S & V). exists std. split; auto. rewrite V, EQ. reflexivity.
Qed.

Lemma First_of_indexfn {A} (l : list A) p x : nth_error l (indexfn l p) = Some x -> First (fun y => p y = true) l x.
Proof.
  intro H. destruct (indexfn_split l p) as [(a & z & b & -> & P & N & E)|[N E]]; rewrite E in H.
  - rewrite nth_error_app2 in H by lia. rewrite Nat.sub_diag in H. injection H as ->. exists a, b. repeat split; auto.
    intros y I. rewrite (N y I). discriminate.
  - exfalso. assert (length l < length l) by (apply nth_error_Some; congruence). lia.
Qed.

Lemma named_effect c f a v lna lna' r s s' : (forall x, lna x == lna' x)%Q -> activity_of stdprops db f a v lna s = (r, s') -> r <> UB ->
  input_of c = Some v -> c <> STemperature -> c <> SPressure ->
  (forall sp, in_database db a f sp -> Potential log stdprops db v (formula sp) (activity_potential stdprops sp lna')) -> effect s c r s'.
Proof.
  intros EQ H U I NT NP PO. unfold activity_of in H.
  apply P_State.with_value_inv in H. unfold getSpecies in H. destruct (mkChemicalFormula f) as [g| |] eqn:F; cbn [omap bind] in H.
  - destruct (nth_error _ _) as [sp|] eqn:N; cbn [named_species] in H.
    2:{ destruct H as [(a0 & [= <-] & H)|[(H & _)|(H & _)]]; try discriminate. injection H as <- <-. constructor. }
    destruct H as [(a0 & [= <-] & H)|[(H & _)|(H & _)]]; try discriminate. cbn [named_species] in H.
    destruct (Nat.eqb (length (name sp)) 0); [injection H as <- <-; constructor|].
    eapply activity_effect; eauto.
    + apply PO. exists g. split; auto. apply First_of_indexfn in N. exact N.
    + intros _ D. apply D. right. exists a. eapply nth_error_In; eauto.
  - destruct H as [(a0 & H & _)|[(_ & -> & ->)|(H & _)]]; try discriminate. constructor.
  - destruct H as [(a0 & H & _)|[(H & _)|(_ & -> & _)]]; try discriminate. congruence.
Qed.

Lemma property_effect c v n f r s s' : constrainProperty sys n v f s = (r, s') -> input_of c = Some v ->
  c <> STemperature -> c <> SPressure -> In (n, v, f) equation_table -> effect s c r s'.
Proof.
  intros H I NT NP T. unfold constrainProperty in H. apply with_input_inv in H as [(-> & -> & _)|(NI & H)]; [constructor|].
  apply addE_inv in H as [(-> & ->)|(-> & -> & F)]; [apply ef_orphan; auto|]. eapply ef_e; eauto.
Qed.

Lemma apply_effect c s r s' : scall_apply log stdprops sys db c s = (r, s') -> r <> UB -> effect s c r s'.
Proof.
  intros H U. destruct c; cbn [scall_apply] in H.
  - unfold temperature in H. apply with_input_inv in H as [(-> & -> & I)|(NI & H)]; [apply ef_T_err; exact I|].
    injection H as <- <-. apply ef_T. exact NI.
  - unfold pressure in H. apply with_input_inv in H as [(-> & -> & I)|(NI & H)]; [apply ef_P_err; exact I|].
    injection H as <- <-. apply ef_P. exact NI.
  - eapply property_effect; [exact H|reflexivity|discriminate|discriminate|cbn; auto 10].
  - eapply property_effect; [exact H|reflexivity|discriminate|discriminate|cbn; auto 10].
  - eapply property_effect; [exact H|reflexivity|discriminate|discriminate|cbn; auto 10].
  - eapply property_effect; [exact H|reflexivity|discriminate|discriminate|cbn; auto 10].
  - eapply property_effect; [exact H|reflexivity|discriminate|discriminate|cbn; auto 10].
  - eapply property_effect; [exact H|reflexivity|discriminate|discriminate|cbn; auto 10].
  - unfold chemicalPotential in H. cbv zeta in H. apply P_State.with_value_inv in H as [(f & F & H)|[(_ & -> & ->)|(_ & -> & _)]]; [|constructor|congruence].
    apply with_input_inv in H as [(-> & -> & _)|(NI & H)]; [constructor|].
    apply addU_inv in H as [(-> & ->)|(-> & -> & FR)]; [apply ef_orphan; auto; discriminate|].
    eapply ef_u; try reflexivity; auto.
    + cbn [u_substance]. apply pot_u, F.
    + intros pr w x v E H. rewrite (at_w_ok _ _ _ E) in H. injection H as <-. reflexivity.
    + intros pr w x _ E. rewrite (at_w_ok _ _ _ E). eauto.
    + intros _ _. apply (mkChemicalFormula_listed _ _ F).
  - eapply activity_effect with (lna' := fun x => x); [reflexivity|exact H|reflexivity|discriminate|discriminate|constructor|]. cbn. auto.
  - unfold lnActivity in H. destruct (nth_error _ _) as [sp|] eqn:N; [|injection H as <- <-; constructor].
    pose proof (First_of_indexfn _ _ _ N) as (aa & bb & E & P & _). apply str_eqb_eq in P.
    unfold lnActivitySpecies in H. cbv zeta in H.
    eapply activity_effect with (lna' := fun x => x); [reflexivity|exact H|cbn; rewrite P; reflexivity|discriminate|discriminate|constructor|].
    intros _ D. apply D. left. eapply nth_error_In; eauto.
  - unfold lnActivity in H. destruct (nth_error _ _) as [sp|] eqn:N; [|injection H as <- <-; constructor].
    pose proof (First_of_indexfn _ _ _ N) as (aa & bb & E & P & _). apply str_eqb_eq in P.
    unfold lnActivitySpecies in H. cbv zeta in H.
    eapply activity_effect with (lna' := fun x => x); [reflexivity|exact H|cbn; rewrite P; reflexivity|discriminate|discriminate|constructor|].
    intros _ D. apply D. left. eapply nth_error_In; eauto.
  - unfold lnActivity in H. destruct (nth_error _ _) as [sp|] eqn:N; [|injection H as <- <-; constructor].
    pose proof (First_of_indexfn _ _ _ N) as (aa & bb & E & P & _). apply str_eqb_eq in P.
    unfold lnActivitySpecies in H. cbv zeta in H.
    eapply activity_effect with (lna' := fun x => x); [reflexivity|exact H|cbn; rewrite P; reflexivity|discriminate|discriminate|constructor|].
    intros _ D. apply D. left. eapply nth_error_In; eauto.
  - eapply named_effect with (lna' := log); [reflexivity|exact H|exact U|reflexivity|discriminate|discriminate|]. intros sp I. apply pot_fugacity, I.
  - eapply named_effect with (lna' := fun x => (- (x * lnten))%Q); [|exact H|exact U|reflexivity|discriminate|discriminate|].
    + intro x. unfold ln10, lnten. ring. + intros sp I. apply pot_pH, I.
  - eapply named_effect with (lna' := fun x => (- (x * lnten))%Q); [|exact H|exact U|reflexivity|discriminate|discriminate|].
    + intro x. unfold ln10, lnten. ring. + intros sp I. apply pot_pMg, I.
  - unfold pE in H. apply P_State.with_value_inv in H as [(f & F & H)|[(_ & -> & ->)|(_ & -> & _)]]; [|constructor|congruence].
    apply with_input_inv in H as [(-> & -> & _)|(NI & H)]; [constructor|].
    apply addU_inv in H as [(-> & ->)|(-> & -> & FR)]; [apply ef_orphan; auto; discriminate|].
    eapply ef_u; try reflexivity; auto.
    + cbn [u_substance]. apply pot_pE, F.
    + intros pr w x v E H. rewrite (at_w_ok _ _ _ E) in H. cbn [bind] in H. injection H as <-. unfold gasConstant, ln10, lnten. ring.
    + intros pr w x _ E. rewrite (at_w_ok _ _ _ E). cbn [bind]. eauto.
    + intros _ _. apply (mkChemicalFormula_listed _ _ F).
  - unfold Eh in H. apply P_State.with_value_inv in H as [(f & F & H)|[(_ & -> & ->)|(_ & -> & _)]]; [|constructor|congruence].
    apply with_input_inv in H as [(-> & -> & _)|(NI & H)]; [constructor|].
    apply addU_inv in H as [(-> & ->)|(-> & -> & FR)]; [apply ef_orphan; auto; discriminate|].
    eapply ef_u; try reflexivity; auto.
    + cbn [u_substance]. apply pot_Eh, F.
    + intros pr w x v E H. rewrite (at_w_ok _ _ _ E) in H. cbn [bind] in H. injection H as <-. unfold faradayConstant. ring.
    + intros pr w x _ E. rewrite (at_w_ok _ _ _ E). cbn [bind]. eauto.
    + intros _ _. apply (mkChemicalFormula_listed _ _ F).
  - unfold openTo in H. destruct (titrantRegistered f s) eqn:T; injection H as <- <-; [constructor|]. apply ef_open, registered_spec, T.
  - apply addE_inv in H as [(-> & ->)|(-> & -> & F)]; constructor; auto.
  - apply addU_inv in H as [(-> & ->)|(-> & -> & F)]; constructor; auto.
  - unfold forget in H. destruct (addInput var s) as [a s1] eqn:E. apply addInput_inv in E as [(-> & -> & I)|(-> & -> & I)];
      cbn [fst snd] in H; injection H as <- <-; constructor; auto.
  - unfold forget, addParam in H. destruct (addInput (pa_id p) s) as [a s1] eqn:E. apply addInput_inv in E as [(-> & -> & I)|(-> & -> & I)];
      cbn [fst snd] in H; injection H as <- <-; [apply ef_none|apply ef_param]; auto.
Qed.
End Effects.
