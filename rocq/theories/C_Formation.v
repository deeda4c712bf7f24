(* C49 and C83: species defined by formation reactions. *)
From Coq Require Import Reals Lra List Permutation.
From Coquelicot Require Import Coquelicot.
From Verif Require Import Base M_Thermo S_Thermo C_Thermo M_Formation.
Local Open Scope R_scope.

(* ---- What a formation reaction promises ---- *)
(* sum over the reactants of coefficient times value *)
Fixpoint weighted (sel : StdProps -> R) (l : list (R * StdProps)) : R :=
  match l with [] => 0 | (c, p) :: l' => c * sel p + weighted sel l' end.
(* The properties of the reactants at T and P are [ps]. *)
Definition reactantsHave (f : FormationReaction) (T P : R) (ps : list StdProps) : Prop :=
  Forall2 (fun rc p => rt_props (fst rc) T P = Ok p) (fr_reactants f) ps.
Definition coefficients (f : FormationReaction) : list R := map snd (fr_reactants f).
(* Properties of the product with the volume [V0p] and the reaction model [rxn]. *)
Definition Product (f : FormationReaction) (rxn : Evaluator) (V0p T P : R) (ps : list StdProps) (r : StdProps) : Prop :=
  let l := combine (coefficients f) ps in
  let d := evaluated rxn (mkRxnArgs T P (V0p - weighted V0 l)) in
  G0 r = dG0 d + weighted G0 l /\ H0 r = dH0 d + weighted H0 l /\ V0 r = V0p.

Definition C49_statement : Prop :=
  forall f reactants rxn V0p T P ps m,
  let g := withProductStandardVolume (withReactionThermoModel (withReactants f reactants) rxn) V0p in
  createStandardThermoModel g = Ok m -> reactantsHave g T P ps ->
  exists r, m T P = Ok r /\ Product g rxn V0p T P ps r.

(* ---- Proofs ---- *)
Lemma fold_plus : forall sel (l : list (R * StdProps)) x, fold_left (fun x cp => x + fst cp * sel (snd cp)) l x = x + weighted sel l.
Proof. intros sel l. induction l as [|[c p] l IH]; intros x; simpl; [ring|]. rewrite IH. ring. Qed.
Lemma fold_minus : forall sel (l : list (R * StdProps)) x, fold_left (fun x cp => x - fst cp * sel (snd cp)) l x = x - weighted sel l.
Proof. intros sel l. induction l as [|[c p] l IH]; intros x; simpl; [ring|]. rewrite IH. ring. Qed.
Lemma mapM_Forall2R : forall {A B} (g : A -> outcome B) l ps, Forall2 (fun x p => g x = Ok p) l ps -> mapM g l = Ok ps.
Proof. intros A B g l ps H. induction H as [|x p l ps E H IH]; [reflexivity|]. simpl. rewrite E. simpl. rewrite IH. reflexivity. Qed.

Lemma productProps_spec : forall f rxn V T P ps, reactantsHave f T P ps -> fr_vol f = Some V \/ (fr_vol f = None /\ V = fun _ _ => 0) ->
  exists r, productProps (fr_reactants f) rxn (fr_vol f) T P = Ok r /\ Product f rxn (V T P) T P ps r /\ Cp0 r = 0 /\ Cv0 r = 0.
Proof.
  intros f rxn V T P ps Hr Hv. unfold productProps.
  rewrite (mapM_Forall2R _ _ _ Hr). cbn [bind].
  replace (match fr_vol f with Some v => v T P | None => 0 end) with (V T P).
  2:{ destruct Hv as [->|[-> ->]]; reflexivity. }
  eexists. split; [reflexivity|]. unfold Product, coefficients; cbn [G0 H0 V0 Cp0 Cv0]. rewrite !fold_plus, fold_minus. auto.
Qed.

(* What the product model returns, for every reaction: linear in the reactants,
   with the volume of the configured volume model, or zero without one. *)
Theorem C49_partial : forall f rxn T P ps, fr_reactants f <> [] -> fr_rxn f = Some rxn -> reactantsHave f T P ps ->
  exists m r, createStandardThermoModel f = Ok m /\ m T P = Ok r /\
    Product f rxn (match fr_vol f with Some v => v T P | None => 0 end) T P ps r.
Proof.
  intros f rxn T P ps Hne Hrx Hr. unfold createStandardThermoModel.
  destruct (fr_reactants f) as [|rc rest] eqn:E; [contradiction|]. rewrite <- E. rewrite Hrx. 
  destruct (productProps_spec f rxn (match fr_vol f with Some v => v | None => fun _ _ => 0 end) T P ps Hr) as (r & Er & Pr_ & _).
  { destruct (fr_vol f); auto. }
  exists (productProps (fr_reactants f) rxn (fr_vol f)), r. split; [reflexivity|]. split; auto. destruct (fr_vol f); auto.
Qed.
Print Assumptions C49_partial.

(* A species made from a constant equilibrium constant: its reaction's standard
   Gibbs energy at the reference pressure is -RT ln K, and its own volume is zero
   whatever volume model was given before. *)
Theorem C49_constant : forall f lgK T P ps, fr_reactants f <> [] -> reactantsHave f T P ps ->
  exists m r, createStandardThermoModel (withEquilibriumConstant f lgK) = Ok m /\ m T P = Ok r /\
    let l := combine (coefficients f) ps in
    V0 r = 0 /\
    G0 r - weighted G0 l = - universalGasConstant * T * (lgK * ln 10) - weighted V0 l * (P - Pr) /\
    H0 r - weighted H0 l = - weighted V0 l * (P - Pr).
Proof.
  intros f lgK T P ps Hne Hr. set (g := withEquilibriumConstant f lgK).
  destruct (C49_partial g (assigns (rxnConstLgK lgK 100000)) T P ps) as (m & r & E & Er & (EG & EH & EV)); auto.
  exists m, r. split; [exact E|]. split; [exact Er|]. cbv zeta.
  change (coefficients g) with (coefficients f) in EG, EH. unfold g in EG, EH, EV.
  cbn [withEquilibriumConstant withProductStandardVolume withProductStandardVolumeModel withReactionThermoModel fr_vol] in EG, EH, EV.
  unfold volumeConstant in EG, EH, EV. unfold evaluated, assigns, rxnConstLgK in EG, EH. cbn [dG0 dH0] in EG, EH.
  split; [exact EV|]. rewrite EG, EH. unfold Pr, M_Thermo.ln10. split; ring.
Qed.
Print Assumptions C49_constant.

(* Without reactants or without a reaction model the model cannot be made. *)
Theorem C49_incomplete : forall f, is_ok (createStandardThermoModel f) = fr_initialized f.
Proof. intros [[|rc l] [rxn|] vol]; reflexivity. Qed.
Print Assumptions C49_incomplete.

(* The order of the reactants does not matter. *)
Lemma mapM_len : forall {A B} (g : A -> outcome B) l o, mapM g l = Ok o -> length o = length l.
Proof.
  intros A B g l. induction l as [|x l IH]; intros o E; simpl in E; [injection E as <-; reflexivity|].
  destruct (g x); simpl in E; try discriminate. destruct (mapM g l) as [o'| |] eqn:Em; simpl in E; try discriminate.
  injection E as <-. simpl. f_equal. apply IH; auto.
Qed.
Lemma mapM_Forall2_inv : forall {A B} (g : A -> outcome B) l o, mapM g l = Ok o -> Forall2 (fun x p => g x = Ok p) l o.
Proof.
  intros A B g l. induction l as [|x l IH]; intros o E; simpl in E; [injection E as <-; constructor|].
  destruct (g x) as [y| |] eqn:Eg; simpl in E; try discriminate. destruct (mapM g l) as [o'| |] eqn:Em; simpl in E; try discriminate.
  injection E as <-. constructor; auto.
Qed.
Lemma weighted_perm : forall sel l l', Permutation l l' -> weighted sel l = weighted sel l'.
Proof. intros sel l l' H. induction H as [|[c p] l l' H IH|[c p] [d q] l|l l' l'' H1 IH1 H2 IH2]; simpl; try rewrite IH; try ring. congruence. Qed.

Lemma weighted_have : forall sel T P l ps, Forall2 (fun rc p => rt_props (fst rc) T P = Ok p) l ps ->
  weighted sel (combine (map snd l) ps) =
  fold_right (fun rc x => snd rc * (match rt_props (fst rc) T P with Ok p => sel p | _ => 0 end) + x) 0 l.
Proof. intros sel T P l ps H. induction H as [|rc p l ps E H IH]; simpl; [reflexivity|]. rewrite E, IH. reflexivity. Qed.
Lemma fold_right_perm : forall (g : (Reactant * R) -> R) l l', Permutation l l' ->
  fold_right (fun rc x => g rc + x) 0 l = fold_right (fun rc x => g rc + x) 0 l'.
Proof. intros g l l' H. induction H; simpl; try rewrite IHPermutation; try ring; auto. congruence. Qed.

Theorem C49_order : forall l l' rxn vol T P r, Permutation l l' ->
  productProps l rxn vol T P = Ok r -> productProps l' rxn vol T P = Ok r.
Proof.
  intros l l' rxn vol T P r Hp. unfold productProps.
  destruct (mapM (fun rc => rt_props (fst rc) T P) l) as [ps| |] eqn:E; simpl; try discriminate.
  pose proof (mapM_Forall2_inv _ _ _ E) as F.
  assert (exists ps', Forall2 (fun rc p => rt_props (fst rc) T P = Ok p) l' ps') as [ps' F'].
  { clear -F Hp. revert ps F. induction Hp as [|x l l' Hp IH|x y l|l l' l'' H1 IH1 H2 IH2]; intros ps F.
    - exists ps; auto.
    - inversion F as [|? p ? q E Fq]; subst. destruct (IH _ Fq) as [ps' F']. exists (p :: ps'). constructor; auto.
    - inversion F as [|? p ? q E Fq]; subst. inversion Fq as [|? p' ? q' E' Fq']; subst. exists (p' :: p :: q'). constructor; auto.
    - destruct (IH1 _ F) as [ps' F']. eauto. }
  rewrite (mapM_Forall2R _ _ _ F'). simpl. rewrite !fold_plus, !fold_minus.
  rewrite !(weighted_have _ _ _ _ _ F), !(weighted_have _ _ _ _ _ F').
  intros Er. rewrite <- Er.
  rewrite (fold_right_perm (fun rc => snd rc * match rt_props (fst rc) T P with Ok p => V0 p | _ => 0 end) _ _ Hp).
  rewrite (fold_right_perm (fun rc => snd rc * match rt_props (fst rc) T P with Ok p => G0 p | _ => 0 end) _ _ Hp).
  rewrite (fold_right_perm (fun rc => snd rc * match rt_props (fst rc) T P with Ok p => H0 p | _ => 0 end) _ _ Hp).
  reflexivity.
Qed.
Print Assumptions C49_order.

Definition product (l : list ((R -> R -> StdProps) * R)) (rxn : Evaluator) (V : R -> R -> R) : FormationReaction :=
  mkFR (map (fun fc => (mkReactant [] (fun T P => Ok (fst fc T P)), snd fc)) l) (Some rxn) (Some V).
(* The volume change of the reaction. *)
Definition reactionVolume (l : list ((R -> R -> StdProps) * R)) (V : R -> R -> R) (T P : R) : R :=
  V T P - weighted V0 (map (fun fc => (snd fc, fst fc T P)) l).

Lemma combine_map2 : forall {A} (g : A -> R) (h : A -> StdProps) l, combine (map g l) (map h l) = map (fun x => (g x, h x)) l.
Proof. intros A g h l. induction l as [|x l IH]; simpl; congruence. Qed.

(* Reactants and reaction that satisfy the Gibbs-Helmholtz relation give a
   product that satisfies it. *)
Theorem C49_gibbs_helmholtz : forall l rxn V P T, l <> [] ->
  GibbsHelmholtz (fun T => dG0 (evaluated rxn (mkRxnArgs T P (reactionVolume l V T P))))
                 (fun T => dH0 (evaluated rxn (mkRxnArgs T P (reactionVolume l V T P)))) T ->
  (forall f c, In (f, c) l -> GibbsHelmholtz (fun T => G0 (f T P)) (fun T => H0 (f T P)) T) ->
  exists m g, createStandardThermoModel (product l rxn V) = Ok m /\ (forall t, m t P = Ok (g t)) /\
    GibbsHelmholtz (fun t => G0 (g t)) (fun t => H0 (g t)) T.
Proof.
  intros l rxn V P T Hne Hd Hl.
  exists (productProps (fr_reactants (product l rxn V)) rxn (Some V)).
  exists (fun t => let d := evaluated rxn (mkRxnArgs t P (reactionVolume l V t P)) in let w := map (fun fc => (snd fc, fst fc t P)) l in
     mkStdProps (dG0 d + weighted G0 w) (dH0 d + weighted H0 w) (V t P) 0 0).
  split. { unfold createStandardThermoModel, product. destruct l; [contradiction|reflexivity]. }
  split.
  { intros t. unfold productProps, product; cbn [fr_reactants].
    rewrite (mapM_Forall2R _ _ (map (fun fc => fst fc t P) l)).
    2:{ clear. induction l as [|fc l IH]; simpl; constructor; auto. }
    cbn [bind]. rewrite !fold_plus, fold_minus. rewrite map_map. cbn [snd]. rewrite combine_map2. reflexivity. }
  cbn [G0 H0]. cbv zeta. destruct Hd as (d' & Dd & Ed).
  assert (W : forall l, (forall f c, In (f, c) l -> GibbsHelmholtz (fun T => G0 (f T P)) (fun T => H0 (f T P)) T) ->
     GibbsHelmholtz (fun t => weighted G0 (map (fun fc => (snd fc, fst fc t P)) l)) (fun t => weighted H0 (map (fun fc => (snd fc, fst fc t P)) l)) T).
  { clear. induction l as [|[f c] l IH]; intros Hl; simpl.
    - exists 0. split; [auto_derive; [exact I|reflexivity]|ring].
    - destruct IH as (w' & Dw & Ew); [intros; eapply Hl; right; eauto|].
      destruct (Hl f c (or_introl eq_refl)) as (f' & Df & Ef). exists (c * f' + w'). split.
      + apply (is_derive_plus (V := R_NormedModule)); auto. apply is_derive_scal. auto.
      + rewrite Ew, Ef. ring. }
  destruct (W l Hl) as (w' & Dw & Ew). exists (d' + w'). split.
  - apply (is_derive_plus (V := R_NormedModule)); auto.
  - rewrite Ed, Ew. ring.
Qed.
Print Assumptions C49_gibbs_helmholtz.

(* The stoichiometric coefficient asked for by name. *)
Theorem C49_stoichiometry : forall f, NoDup (map (fun rc => rt_name (fst rc)) (fr_reactants f)) ->
  (forall r c, In (r, c) (fr_reactants f) -> fr_stoichiometry f (rt_name r) = c) /\
  (forall n, ~ In n (map (fun rc => rt_name (fst rc)) (fr_reactants f)) -> fr_stoichiometry f n = 0).
Proof.
  intros f. unfold fr_stoichiometry. induction (fr_reactants f) as [|[r c] l IH]; intros Hn; simpl; [split; [intros ? ? []|auto]|].
  simpl in Hn. apply NoDup_cons_iff in Hn as [Hx Hn]. destruct (IH Hn) as [I1 I2]. split.
  - intros r' c' [E|I].
    + injection E as <- <-. rewrite (proj2 (str_eqb_eq _ _) eq_refl). reflexivity.
    + destruct (str_eqb (rt_name r') (rt_name r)) eqn:E; [|auto]. apply str_eqb_eq in E. exfalso. apply Hx. rewrite <- E.
      apply in_map_iff. exists (r', c'). auto.
  - intros n Hi. destruct (str_eqb n (rt_name r)) eqn:E; [|apply I2; tauto]. apply str_eqb_eq in E. exfalso. apply Hi. auto.
Qed.
Print Assumptions C49_stoichiometry.

(* ---- The findings ---- *)
Definition aReactant : Reactant := mkReactant ($"A") (fun T P => Ok (mkStdProps 1 2 3 4 4)).

(* The volume given to withProductStandardVolume is dropped. *)
Theorem C49_refuted : ~ C49_statement.
Proof.
  intros H. destruct (H newFormationReaction [(aReactant, 2)] (assigns (rxnConstLgK 0 Pr)) 7 300 Pr [mkStdProps 1 2 3 4 4] _ eq_refl)
    as (r & E & (_ & _ & V)).
  { constructor; [reflexivity|constructor]. }
  cbn in E. injection E as <-. unfold volumeConstant in V. cbn in V. lra.
Qed.
Print Assumptions C49_refuted.

Theorem C49_volume_dropped : forall f V0p m T P r, createStandardThermoModel (withProductStandardVolume f V0p) = Ok m -> m T P = Ok r -> V0 r = 0.
Proof.
  intros f V0p m T P r. unfold createStandardThermoModel, withProductStandardVolume, withProductStandardVolumeModel; cbn [fr_reactants fr_rxn fr_vol].
  destruct (fr_reactants f) as [|rc l]; [discriminate|]. destruct (fr_rxn f) as [rxn|]; [|discriminate].
  intros E. injection E as <-. unfold productProps. destruct (mapM _ _); cbn [bind]; try discriminate. intros E. injection E as <-. reflexivity.
Qed.
Print Assumptions C49_volume_dropped.

(* ---- C83: the heat capacity of the product ---- *)
Definition C83_statement : Prop :=
  forall l rxn V P T m r, createStandardThermoModel (product l rxn V) = Ok m -> m T P = Ok r ->
  (forall f c, In (f, c) l -> HeatCapacityOf (fun T => H0 (f T P)) (fun T => Cp0 (f T P)) T) ->
  Offered (evaluated rxn) ->
  DerivesTo (fun T => omap H0 (m T P)) T (Cp0 r).

Lemma MK_heat : forall Vr0 p P T, 0 < T -> HeatCapacityOf (fun T => H0 (stdMaierKelley Vr0 p T P)) (fun T => Cp0 (stdMaierKelley Vr0 p T P)) T.
Proof.
  intros Vr0 [Gf Hf Sr Vr a b c] P T HT. unfold HeatCapacityOf; simpl. pose proof Tr_pos. auto_derive; [lra|]. field. lra.
Qed.

(* One reactant with heat capacity 10, and a constant equilibrium constant. *)
Theorem C83_refuted : ~ C83_statement.
Proof.
  intros H. set (A := stdMaierKelley 1 (mkMK 0 0 0 1 10 0 0)).
  destruct (H [(A, 1)] (assigns (rxnConstLgK 0 Pr)) (fun _ _ => 1) Pr 300 _ (mkStdProps _ _ _ 0 0) eq_refl eq_refl) as (g & Lg & Dg).
  - intros f c [E|[]]. injection E as <- <-. apply MK_heat. lra.
  - apply offered_const.
  - cbn [Cp0] in Dg.
    assert (Dg2 : is_derive g 300 10).
    { apply (derive_ext_locally (fun t => 10 * (t - Tr))).
      - apply (filter_imp (fun t : R => omap H0 (productProps (fr_reactants (product [(A, 1)] (assigns (rxnConstLgK 0 Pr)) (fun _ _ => 1))) (assigns (rxnConstLgK 0 Pr)) (Some (fun _ _ => 1)) t Pr) = Ok (g t))); [|exact Lg].
        intros t E. cbn in E. injection E as E. change (@eq R (10 * (t - Tr)) (g t)). rewrite <- E. unfold Rdiv. ring.
      - auto_derive; [exact I|ring]. }
    apply is_derive_unique in Dg. apply is_derive_unique in Dg2. rewrite Dg in Dg2. lra.
Qed.
Print Assumptions C83_refuted.

(* What is returned is zero; it is right exactly when the reactants' heat
   capacities and the derivative of the reaction enthalpy cancel. *)
Theorem C83_partial : forall l rxn V P T d', l <> [] ->
  (forall f c, In (f, c) l -> HeatCapacityOf (fun T => H0 (f T P)) (fun T => Cp0 (f T P)) T) ->
  is_derive (fun T => dH0 (evaluated rxn (mkRxnArgs T P (reactionVolume l V T P)))) T d' ->
  exists m r, createStandardThermoModel (product l rxn V) = Ok m /\ m T P = Ok r /\ Cp0 r = 0 /\
    DerivesTo (fun T => omap H0 (m T P)) T (d' + weighted Cp0 (map (fun fc => (snd fc, fst fc T P)) l)).
Proof.
  intros l rxn V P T d' Hne Hl Hd.
  exists (productProps (fr_reactants (product l rxn V)) rxn (Some V)).
  set (g := fun t => let d := evaluated rxn (mkRxnArgs t P (reactionVolume l V t P)) in let w := map (fun fc => (snd fc, fst fc t P)) l in
     mkStdProps (dG0 d + weighted G0 w) (dH0 d + weighted H0 w) (V t P) 0 0).
  assert (F : forall t, productProps (fr_reactants (product l rxn V)) rxn (Some V) t P = Ok (g t)).
  { intros t. unfold productProps, product; cbn [fr_reactants].
    rewrite (mapM_Forall2R _ _ (map (fun fc => fst fc t P) l)).
    2:{ clear. induction l as [|fc l IH]; simpl; constructor; auto. }
    cbn [bind]. rewrite !fold_plus, fold_minus. rewrite map_map. cbn [snd]. rewrite combine_map2. reflexivity. }
  exists (g T). split. { unfold createStandardThermoModel, product. destruct l; [contradiction|reflexivity]. }
  split; [apply F|]. split; [reflexivity|].
  exists (fun t => H0 (g t)). split; [apply filter_forall; intros t; rewrite F; reflexivity|].
  unfold g; cbn [H0]. cbv zeta. apply (is_derive_plus (V := R_NormedModule)); [exact Hd|].
  clear -Hl. induction l as [|[f c] l IH]; simpl.
  - auto_derive; [exact I|reflexivity].
  - apply (is_derive_plus (V := R_NormedModule)); [|apply IH; intros; eapply Hl; right; eauto].
    apply is_derive_scal. apply (Hl f c). left; auto.
Qed.
Print Assumptions C83_partial.

Example C49_nonvacuous : exists f m r, fr_reactants f <> [] /\ length (fr_reactants f) = 2%nat /\
  createStandardThermoModel (withEquilibriumConstant (withReactants newFormationReaction (fr_reactants f)) 0) = Ok m /\
  m 300 Pr = Ok r /\ G0 r = 2 * 1 + 3 * 5 /\ NoDup (map (fun rc => rt_name (fst rc)) (fr_reactants f)).
Proof.
  exists (mkFR [(aReactant, 2); (mkReactant ($"B") (fun T P => Ok (mkStdProps 5 6 0 0 0)), 3)] None None). do 2 eexists.
  split; [discriminate|]. split; [reflexivity|]. split; [reflexivity|]. split; [reflexivity|]. split.
  - cbn. unfold M_Thermo.ln10, Pr. ring.
  - repeat constructor; simpl; intuition discriminate.
Qed.
Example C83_nonvacuous : let A := stdMaierKelley 1 (mkMK 0 0 0 1 10 0 0) in
  HeatCapacityOf (fun T => H0 (A T Pr)) (fun T => Cp0 (A T Pr)) 300 /\ Cp0 (A 300 Pr) > 0.
Proof. split; [apply MK_heat; lra|simpl; lra]. Qed.
