(* C46 and C47: consistency of the reaction and standard thermodynamic models. *)
From Coq Require Import Reals Lra List.
From Coquelicot Require Import Coquelicot.
From Verif Require Import Base M_Thermo S_Thermo.
Local Open Scope R_scope.

(* ---- C46 ---- *)
(* Replaces T by the square of its square root. *)
Ltac rooted T := let s := fresh "s" in let E := fresh "E" in
  pose proof (sqrt_sqrt T ltac:(lra)) as E; generalize dependent (ln T); intros;
  set (s := sqrt T) in *; clearbody s; rewrite <- E in *; clear E.
Ltac nz := repeat match goal with |- _ * _ <> 0 => apply Rmult_integral_contrapositive_currified end.
Definition atT (f : RxnArgs -> RxnProps) (sel : RxnProps -> R) (P dV0 : R) : R -> R :=
  fun T => sel (f (mkRxnArgs T P dV0)).

Lemma ln10_pos : 0 < ln 10.
Proof. rewrite <- ln_1. apply ln_increasing; lra. Qed.

Lemma constLgK_GH : forall lgKr Pr P dV T, GibbsHelmholtz (atT (rxnConstLgK lgKr Pr) dG0 P dV) (atT (rxnConstLgK lgKr Pr) dH0 P dV) T.
Proof.
  intros. exists (- universalGasConstant * (lgKr * ln10)). split; [|unfold atT, rxnConstLgK; simpl; ring].
  unfold atT, rxnConstLgK; simpl. auto_derive; [exact I|ring].
Qed.

Lemma vantHoff_GH : forall lgKr dHr Tr Pr P dV T, T <> 0 -> Tr <> 0 ->
  GibbsHelmholtz (atT (rxnVantHoff lgKr dHr Tr Pr) dG0 P dV) (atT (rxnVantHoff lgKr dHr Tr Pr) dH0 P dV) T.
Proof.
  intros. assert (Hu : universalGasConstant <> 0) by (unfold universalGasConstant; lra).
  exists (- universalGasConstant * (lgKr * ln10) - dHr / Tr).
  split; unfold atT, rxnVantHoff; simpl.
  - auto_derive; [|field; auto]. nz; auto.
  - field; auto.
Qed.

Lemma gemsLgK_GH : forall A0 A1 A2 A3 A4 A5 A6 Pr P dV T, 0 < T ->
  GibbsHelmholtz (atT (rxnGemsLgK A0 A1 A2 A3 A4 A5 A6 Pr) dG0 P dV) (atT (rxnGemsLgK A0 A1 A2 A3 A4 A5 A6 Pr) dH0 P dV) T.
Proof.
  intros. set (R_ := universalGasConstant).
  assert (Hs : 0 < sqrt T) by (apply sqrt_lt_R0; auto).
  assert (HT : T <> 0) by lra.
  exists (- R_ * ln10 * ((A0 + A1 * T + A2 / T + A3 * ln T + A4 / (T * T) + A5 * (T * T) + A6 / sqrt T)
           + T * (A1 - A2 / (T * T) + A3 / T - 2 * A4 / (T * T * T) + 2 * A5 * T - / 2 * A6 / (sqrt T * T)))).
  split; unfold atT, rxnGemsLgK; simpl; fold R_.
  - auto_derive.
    + repeat split; auto; try lra. nz; auto.
    + rooted T. field. lra.
  - rooted T. field. lra.
Qed.

Lemma phreeqcLgK_GH : forall A1 A2 A3 A4 A5 A6 Pr P dV T, 0 < T ->
  GibbsHelmholtz (atT (rxnPhreeqcLgK A1 A2 A3 A4 A5 A6 Pr) dG0 P dV) (atT (rxnPhreeqcLgK A1 A2 A3 A4 A5 A6 Pr) dH0 P dV) T.
Proof.
  intros. set (R_ := universalGasConstant). pose proof ln10_pos.
  assert (HT : T <> 0) by lra.
  exists (- R_ * ln10 * ((A1 + A2 * T + A3 / T + A4 * log10 T + A5 / (T * T) + A6 * (T * T))
           + T * (A2 - A3 / (T * T) + A4 / (T * ln 10) - 2 * A5 / (T * T * T) + 2 * A6 * T))).
  split; unfold atT, rxnPhreeqcLgK, log10, M_Thermo.ln10; simpl; fold R_.
  - auto_derive.
    + repeat split; auto; try lra. nz; auto.
    + field. lra.
  - field. lra.
Qed.

(* The models for reaction properties on offer, and what a pressure correction
   chained after one of them gives. *)
Inductive Offered : (RxnArgs -> RxnProps) -> Prop :=
| offered_const : forall lgKr Pr, Offered (rxnConstLgK lgKr Pr)
| offered_vantHoff : forall lgKr dHr Tr Pr, Tr <> 0 -> Offered (rxnVantHoff lgKr dHr Tr Pr)
| offered_gems : forall A0 A1 A2 A3 A4 A5 A6 Pr, Offered (rxnGemsLgK A0 A1 A2 A3 A4 A5 A6 Pr)
| offered_phreeqc : forall A1 A2 A3 A4 A5 A6 Pr, Offered (rxnPhreeqcLgK A1 A2 A3 A4 A5 A6 Pr).

Theorem C46_gibbs_helmholtz : forall f T P dV, Offered f -> 0 < T ->
  GibbsHelmholtz (atT f dG0 P dV) (atT f dH0 P dV) T.
Proof.
  intros f T P dV [lgKr Pr|lgKr dHr Tr Pr HTr|A0 A1 A2 A3 A4 A5 A6 Pr|A1 A2 A3 A4 A5 A6 Pr] HT.
  - apply constLgK_GH.
  - apply vantHoff_GH; auto; lra.
  - apply gemsLgK_GH; auto.
  - apply phreeqcLgK_GH; auto.
Qed.
Print Assumptions C46_gibbs_helmholtz.

(* The pressure derivative of the Gibbs energy is the reaction volume. *)
Theorem C46_volume : forall f T P dV, Offered f ->
  VolumeOf (fun P => dG0 (f (mkRxnArgs T P dV))) (fun _ => dV) P.
Proof.
  intros f T P dV [lgKr Pr|lgKr dHr Tr Pr HTr|A0 A1 A2 A3 A4 A5 A6 Pr|A1 A2 A3 A4 A5 A6 Pr]; unfold VolumeOf; cbn -[Rinv];
    (auto_derive; [exact I|ring]).
Qed.
Print Assumptions C46_volume.

(* A pressure correction chained after any model keeps the relation. *)
Theorem C46_pressure_correction : forall f Pr T P dV, (forall T P dV, 0 < T -> GibbsHelmholtz (atT f dG0 P dV) (atT f dH0 P dV) T) ->
  0 < T -> let g := evaluated (chain [assigns f; rxnPressureCorrection Pr]) in
  GibbsHelmholtz (atT g dG0 P dV) (atT g dH0 P dV) T /\
  (forall V, VolumeOf (fun P => dG0 (f (mkRxnArgs T P dV))) (fun _ => V) P ->
     VolumeOf (fun P => dG0 (g (mkRxnArgs T P dV))) (fun _ => V + dV) P) /\
  g (mkRxnArgs T Pr dV) = f (mkRxnArgs T Pr dV).
Proof.
  intros f Pr T P dV Hf HT g. split; [|split].
  - destruct (Hf T P dV HT) as (G' & D & E). exists G'. split.
    + unfold g, evaluated, chain, assigns, atT; simpl. unfold atT in D.
      replace G' with (G' + 0) by ring. apply (is_derive_plus (V := R_NormedModule)); auto.
      auto_derive; [exact I|ring].
    + unfold g, evaluated, chain, assigns, atT in *; simpl. rewrite E. ring.
  - intros V HV. unfold g, evaluated, chain, assigns, VolumeOf in *; simpl.
    apply (is_derive_plus (V := R_NormedModule)); auto. auto_derive; [exact I|ring].
  - unfold g, evaluated, chain, assigns; simpl. destruct (f (mkRxnArgs T Pr dV)) as [a b]. simpl.
    f_equal; ring.
Qed.
Print Assumptions C46_pressure_correction.

(* The equilibrium constant is the configured one at the reference conditions. *)
Theorem C46_reference : forall lgKr dHr Tr Pr dV, Tr <> 0 ->
  dG0 (rxnConstLgK lgKr Pr (mkRxnArgs Tr Pr dV)) = - universalGasConstant * Tr * (lgKr * ln 10) /\
  dG0 (rxnVantHoff lgKr dHr Tr Pr (mkRxnArgs Tr Pr dV)) = - universalGasConstant * Tr * (lgKr * ln 10) /\
  dH0 (rxnVantHoff lgKr dHr Tr Pr (mkRxnArgs Tr Pr dV)) = dHr.
Proof.
  intros. unfold rxnConstLgK, rxnVantHoff, M_Thermo.ln10, Rdiv; simpl. split; [ring|split; [|ring]].
  replace (Tr - Tr) with 0 by ring. ring.
Qed.
Print Assumptions C46_reference.

Example C46_nonvacuous : Offered (rxnVantHoff 2 1000 (29815/100) 100000) /\
  dH0 (rxnVantHoff 2 1000 (29815/100) 100000 (mkRxnArgs 350 200000 3)) = 301000 /\
  Offered (rxnGemsLgK 1 0 0 0 1 0 0 100000) /\ dH0 (rxnGemsLgK 1 0 0 0 1 0 0 100000 (mkRxnArgs 4 100000 1)) <> 0.
Proof.
  split; [constructor; lra|]. split; [cbn; lra|]. split; [constructor|].
  pose proof ln10_pos. cbn -[sqrt]. unfold M_Thermo.ln10, universalGasConstant. intro E.
  assert (83144621 / 10000000 * (0 * (4 * 4) - 0 + 0 * 4 - 2 * 1 / 4 + 2 * 0 * (4 * (4 * 4)) - / 2 * 0 * sqrt 4) < 0) by lra.
  nra.
Qed.

(* ---- C47 ---- *)
(* A standard model is consistent at (T,P) with the entropy S at the reference pressure. *)
Definition ConsistentAt (f : R -> R -> StdProps) (S : R -> R) (T P : R) : Prop :=
  VolumeOf (fun P => G0 (f T P)) (fun P => V0 (f T P)) P /\
  HeatCapacityOf (fun T => H0 (f T Pr)) (fun T => Cp0 (f T Pr)) T /\
  EntropyOf (fun T => G0 (f T Pr)) S T /\
  HeatCapacityOfEntropy S (fun T => Cp0 (f T Pr)) T.
(* With the entropy at the reference point as configured. *)
Definition Consistent (f : R -> R -> StdProps) (Sr : R) (ok : R -> R -> Prop) : Prop :=
  exists S, S Tr = Sr /\ forall T P, 0 < T -> ok T P -> ConsistentAt f S T P.

Definition mk_S (p : MaierKelley) (T : R) : R :=
  mk_Sr p + (mk_a p * ln (T / Tr) + mk_b p * (T - Tr) - / 2 * mk_c p * (1 / (T * T) - 1 / (Tr * Tr))).

Lemma Tr_pos : 0 < Tr.
Proof. unfold Tr; lra. Qed.

Theorem C47_maier_kelley_partial : forall Vr0 p, Consistent (stdMaierKelley Vr0 p) (mk_Sr p) (fun _ _ => True).
Proof.
  intros Vr0 [Gf Hf Sr Vr a b c]. pose proof Tr_pos as HTr. exists (mk_S (mkMK Gf Hf Sr Vr a b c)). split.
  { unfold mk_S; simpl. replace (Tr / Tr) with 1 by (field; lra). rewrite ln_1. field. lra. }
  intros T P HT _. assert (Tr <> 0 /\ T <> 0) as [HTr0 HT0] by lra.
  assert (Hq : 0 < T / Tr) by (apply Rdiv_lt_0_compat; auto).
  assert (HTT : T * T <> 0) by (nz; auto).
  unfold ConsistentAt, VolumeOf, HeatCapacityOf, EntropyOf, HeatCapacityOfEntropy, mk_S; simpl.
  split; [|split; [|split]].
  - auto_derive; [exact I|ring].
  - auto_derive; [auto|]. field; auto.
  - auto_derive; [repeat split; auto|]. change (T * / Tr) with (T / Tr). generalize (ln (T / Tr)). intros. field; auto.
  - auto_derive; [repeat split; auto|]. field; auto.
Qed.
Print Assumptions C47_maier_kelley_partial.

Definition hp_S (p : HollandPowell) (T : R) : R :=
  hp_Sr p + (hp_a p * ln (T / Tr) + hp_b p * (T - Tr) - / 2 * hp_c p * (1 / (T * T) - 1 / (Tr * Tr))
             - 2 * hp_d p * (1 / sqrt T - 1 / sqrt Tr)).

Theorem C47_holland_powell_rigid_partial : forall p, hp_kappa0 p = 0 ->
  Consistent (stdHollandPowell p) (hp_Sr p) (fun _ _ => True).
Proof.
  intros [Gf Hf Sr Vr a b c d alpha0 kappa0 kappa0p kappa0pp numatoms] E; simpl in E; subst kappa0.
  pose proof Tr_pos as HTr. pose proof (sqrt_lt_R0 _ HTr) as HsTr.
  match goal with |- Consistent (stdHollandPowell ?p) _ _ => exists (hp_S p) end. split.
  { unfold hp_S; simpl. replace (Tr / Tr) with 1 by (field; lra). rewrite ln_1. field. lra. }
  intros T P HT _. assert (Tr <> 0 /\ T <> 0) as [HTr0 HT0] by lra.
  assert (Hq : 0 < T / Tr) by (apply Rdiv_lt_0_compat; auto).
  assert (HTT : T * T <> 0) by (nz; auto).
  pose proof (sqrt_lt_R0 _ HT) as Hs.
  unfold ConsistentAt, VolumeOf, HeatCapacityOf, EntropyOf, HeatCapacityOfEntropy, hp_S; simpl.
  destruct (Req_EM_T 0 0) as [_|N]; [|contradiction]. simpl.
  split; [|split; [|split]].
  - auto_derive; [exact I|ring].
  - auto_derive; [auto|]. rooted T. field. lra.
  - auto_derive; [repeat split; auto; lra|]. change (T * / Tr) with (T / Tr). generalize (ln (T / Tr)). intros. rooted T. field. lra.
  - auto_derive; [repeat split; auto; lra|]. rooted T. field. lra.
Qed.
Print Assumptions C47_holland_powell_rigid_partial.

(* Where the compressible model is defined. *)
Definition hp_range (p : HollandPowell) (T P : R) : Prop :=
  hp_kappa0 p = 0 \/ (0 < P /\ 0 < 1 - hp_kb p * hp_Pth p T /\ 0 < 1 + hp_kb p * (P - hp_Pth p T)).
(* Ordinary parameters of a solid. *)
Definition hp_valid (p : HollandPowell) : Prop :=
  hp_kappa0 p = 0 \/
  (0 < hp_kappa0 p /\ 0 < hp_kappa0p p /\ hp_kb p <> 0 /\ hp_kc p <> 1 /\ 0 < hp_alpha0 p /\ 0 < hp_Vr p /\
   0 < hp_Sr p /\ 0 < hp_numatoms p).

Lemma Rpower_derive : forall x y, 0 < x -> is_derive (fun x => Rpower x y) x (y * Rpower x (y - 1)).
Proof.
  intros. unfold Rpower. auto_derive; [auto|].
  replace ((y - 1) * ln x) with (y * ln x + - ln x) by ring. rewrite exp_plus, exp_Ropp, exp_ln by auto. field. lra.
Qed.

(* The volume integral of the code as a function of its thermal pressure. *)
Lemma hp_VdP_form : forall p T P, P <> 0 -> hp_kb p <> 0 -> hp_kc p <> 1 ->
  snd (hp_volume p T P) = hp_Vr p * ((1 - hp_ka p) * P + hp_ka p / (hp_kb p * (hp_kc p - 1)) *
    (Rpower (1 - hp_kb p * hp_Pth p T) (1 - hp_kc p) - Rpower (1 + hp_kb p * (P - hp_Pth p T)) (1 - hp_kc p))).
Proof. intros. unfold hp_volume; simpl. field. repeat split; auto; lra. Qed.

(* The pressure derivative of the Gibbs energy is the volume, also for a
   compressible solid. *)
Lemma hp_stdG : forall p T, hp_kappa0 p <> 0 -> exists A B C, forall P,
  stdHollandPowell p T P = mkStdProps (A + snd (hp_volume p T P)) (B + snd (hp_volume p T P)) (fst (hp_volume p T P)) C C.
Proof.
  intros p T H. destruct p as [Gf Hf Sr Vr a b c d alpha0 kappa0 kappa0p kappa0pp numatoms]. unfold stdHollandPowell.
  simpl in H. destruct (Req_EM_T kappa0 0); [contradiction|]. do 3 eexists. intros P.
  match goal with |- context [hp_volume ?p ?T ?P] => destruct (hp_volume p T P) as [v vdp] end. simpl. reflexivity.
Qed.

Lemma derive_ext_locally : forall f g x l, locally x (fun t : R => f t = g t) -> is_derive f x l -> @is_derive R_AbsRing R_NormedModule g x l.
Proof. intros. eapply is_derive_ext_loc; eauto. Qed.

Theorem C47_volume_partial : forall p T P, hp_valid p -> 0 < T -> hp_range p T P ->
  VolumeOf (fun P => G0 (stdHollandPowell p T P)) (fun P => V0 (stdHollandPowell p T P)) P.
Proof.
  intros p T P Hv HT Hr.
  destruct (Req_EM_T (hp_kappa0 p) 0) as [E|E].
  { destruct (C47_holland_powell_rigid_partial p E) as (S & _ & H). apply (H T P HT I). }
  destruct Hv as [Hv|Hv]; [contradiction|]. destruct Hv as (Hk & Hkp & Hb & Hc & _).
  destruct Hr as [Hr|(HP & H1 & H3)]; [contradiction|].
  destruct (hp_stdG p T E) as (A & B & C & F). unfold VolumeOf. rewrite F; simpl.
  apply (is_derive_ext (fun P => A + snd (hp_volume p T P))). { intro t. rewrite F. reflexivity. }
  replace (hp_Vr p * (1 - hp_ka p * (1 - 1 / Rpower (1 + hp_kb p * (P - hp_Pth p T)) (hp_kc p)))) with
    (0 + hp_Vr p * (1 - hp_ka p * (1 - 1 / Rpower (1 + hp_kb p * (P - hp_Pth p T)) (hp_kc p)))) by ring.
  apply (is_derive_plus (V := R_NormedModule)). { auto_derive; [exact I|ring]. }
  apply (derive_ext_locally (fun P => hp_Vr p * ((1 - hp_ka p) * P + hp_ka p / (hp_kb p * (hp_kc p - 1)) *
    (Rpower (1 - hp_kb p * hp_Pth p T) (1 - hp_kc p) - Rpower (1 + hp_kb p * (P - hp_Pth p T)) (1 - hp_kc p))))).
  { apply (locally_interval _ P 0 p_infty); [exact HP|exact I|]. intros y Hy _. simpl in Hy. rewrite hp_VdP_form; auto; lra. }
  set (K := Rpower (1 - hp_kb p * hp_Pth p T) (1 - hp_kc p)). set (q := hp_Pth p T) in *.
  pose proof (Rpower_derive (1 + hp_kb p * (P - q)) (1 - hp_kc p) H3) as D.
  assert (D2 : is_derive (fun P => Rpower (1 + hp_kb p * (P - q)) (1 - hp_kc p)) P
    (hp_kb p * ((1 - hp_kc p) * Rpower (1 + hp_kb p * (P - q)) (1 - hp_kc p - 1)))).
  { apply (is_derive_comp (fun x => Rpower x (1 - hp_kc p)) (fun P => 1 + hp_kb p * (P - q))); auto.
    auto_derive; [exact I|ring]. }
  replace (1 - hp_kc p - 1) with (- hp_kc p) in D2 by ring. rewrite Rpower_Ropp in D2.
  assert (0 < Rpower (1 + hp_kb p * (P - q)) (hp_kc p)) by (unfold Rpower; apply exp_pos).
  set (X := Rpower (1 + hp_kb p * (P - q)) (hp_kc p)) in *. clearbody X K.
  evar_last. { apply (is_derive_scal (fun P => _) P (hp_Vr p)). apply (is_derive_plus (V := R_NormedModule)).
    - apply (is_derive_scal (fun P => P)). apply (is_derive_id (K := R_AbsRing)).
    - apply is_derive_scal. apply (is_derive_minus (V := R_NormedModule)); [apply (is_derive_const (K := R_AbsRing) (V := R_NormedModule))|exact D2]. }
  unfold minus, plus, opp, Hierarchy.zero; simpl. change Hierarchy.one with 1. field. repeat split; auto; lra.
Qed.
Print Assumptions C47_volume_partial.

(* The thermal pressure grows with temperature, at Tr with slope alpha0 kappa0. *)
Lemma hp_Pth_derive : forall p, 0 < hp_Sr p -> 0 < hp_numatoms p ->
  hp_Pth p Tr = 0 /\ is_derive (hp_Pth p) Tr (hp_alpha0 p * hp_kappa0 p).
Proof.
  intros p HS Hn. pose proof Tr_pos as HTr. unfold hp_Pth.
  set (theta := 10636 / (hp_Sr p / hp_numatoms p + 644 / 100)).
  assert (Hth : 0 < theta).
  { unfold theta. apply Rdiv_lt_0_compat; [lra|]. assert (0 < hp_Sr p / hp_numatoms p) by (apply Rdiv_lt_0_compat; auto). lra. }
  set (u0 := theta / Tr). assert (Hu : 0 < u0) by (apply Rdiv_lt_0_compat; auto).
  assert (He : 1 < exp u0) by (rewrite <- exp_0; apply exp_increasing; auto).
  split.
  { unfold u0. ring. }
  auto_derive.
  { fold (Rdiv theta Tr). fold u0. repeat split; auto; lra. }
  change (theta * / Tr) with u0.
  assert (Et : theta = u0 * Tr) by (unfold u0; field; lra). rewrite Et. clearbody u0. clear Et.
  field. repeat split; try lra.
Qed.

(* What the enthalpy of the code derives to: not the heat capacity alone. *)
Lemma hp_enthalpy_derive : forall p P, hp_kappa0 p <> 0 -> hp_kb p <> 0 -> hp_kc p <> 1 ->
  0 < hp_Sr p -> 0 < hp_numatoms p -> 0 < P -> 0 < 1 + hp_kb p * P ->
  is_derive (fun T => H0 (stdHollandPowell p T P)) Tr
    (Cp0 (stdHollandPowell p Tr P) +
     hp_Vr p * hp_ka p * (hp_alpha0 p * hp_kappa0 p) * (1 - / Rpower (1 + hp_kb p * P) (hp_kc p))).
Proof.
  intros p P Hk Hb Hc HS Hn HP H3. pose proof Tr_pos as HTr. pose proof (sqrt_lt_R0 _ HTr) as Hs.
  destruct (hp_Pth_derive p HS Hn) as [E0 D0].
  assert (F : forall T, stdHollandPowell p T P =
     let q := mkHP (hp_Gf p) (hp_Hf p) (hp_Sr p) (hp_Vr p) (hp_a p) (hp_b p) (hp_c p) (hp_d p) 0 0 0 0 0 in
     mkStdProps (G0 (stdHollandPowell q T Pr) + snd (hp_volume p T P)) (H0 (stdHollandPowell q T Pr) + snd (hp_volume p T P))
       (fst (hp_volume p T P)) (Cp0 (stdHollandPowell q T Pr)) (Cp0 (stdHollandPowell q T Pr))).
  { intro T. destruct p as [Gf Hf Sr Vr a b c d alpha0 kappa0 kappa0p kappa0pp numatoms]. unfold stdHollandPowell.
    simpl in Hk. cbv [hp_Gf hp_Hf hp_Sr hp_Vr hp_a hp_b hp_c hp_d]. destruct (Req_EM_T kappa0 0) as [|_]; [contradiction|].
    destruct (Req_EM_T 0 0) as [_|]; [|contradiction]. destruct (hp_volume _ T P) as [v vdp]. simpl. f_equal; ring. }
  set (q := mkHP (hp_Gf p) (hp_Hf p) (hp_Sr p) (hp_Vr p) (hp_a p) (hp_b p) (hp_c p) (hp_d p) 0 0 0 0 0) in *.
  destruct (C47_holland_powell_rigid_partial q eq_refl) as (S & _ & Cq). destruct (Cq Tr P HTr I) as (_ & DH & _).
  unfold HeatCapacityOf in DH.
  apply (is_derive_ext (fun T => H0 (stdHollandPowell q T Pr) + snd (hp_volume p T P))). { intro t. rewrite F. reflexivity. }
  rewrite F. cbv zeta. cbn [Cp0].
  apply (is_derive_plus (V := R_NormedModule)); [exact DH|].
  apply (is_derive_ext (fun T => hp_Vr p * ((1 - hp_ka p) * P + hp_ka p / (hp_kb p * (hp_kc p - 1)) *
    (Rpower (1 - hp_kb p * hp_Pth p T) (1 - hp_kc p) - Rpower (1 + hp_kb p * (P - hp_Pth p T)) (1 - hp_kc p))))).
  { intro t. rewrite hp_VdP_form; auto; lra. }
  assert (D2 : is_derive (fun T => Rpower (1 - hp_kb p * hp_Pth p T) (1 - hp_kc p)) Tr
    ((- hp_kb p * (hp_alpha0 p * hp_kappa0 p)) * ((1 - hp_kc p) * Rpower (1 - hp_kb p * hp_Pth p Tr) (1 - hp_kc p - 1)))).
  { apply (is_derive_comp (fun x => Rpower x (1 - hp_kc p)) (fun T => 1 - hp_kb p * hp_Pth p T)).
    - apply Rpower_derive. rewrite E0. lra.
    - auto_derive; [eexists; exact D0|]. change (Derive (fun x : R => hp_Pth p x) Tr) with (Derive (hp_Pth p) Tr). rewrite (is_derive_unique (hp_Pth p) _ _ D0). ring. }
  assert (D4 : is_derive (fun T => Rpower (1 + hp_kb p * (P - hp_Pth p T)) (1 - hp_kc p)) Tr
    ((- hp_kb p * (hp_alpha0 p * hp_kappa0 p)) * ((1 - hp_kc p) * Rpower (1 + hp_kb p * (P - hp_Pth p Tr)) (1 - hp_kc p - 1)))).
  { apply (is_derive_comp (fun x => Rpower x (1 - hp_kc p)) (fun T => 1 + hp_kb p * (P - hp_Pth p T))).
    - apply Rpower_derive. rewrite E0. replace (P - 0) with P by ring. auto.
    - auto_derive; [eexists; exact D0|]. change (Derive (fun x : R => hp_Pth p x) Tr) with (Derive (hp_Pth p) Tr). rewrite (is_derive_unique (hp_Pth p) _ _ D0). ring. }
  rewrite E0 in D2, D4. replace (1 - hp_kb p * 0) with 1 in D2 by ring. replace (P - 0) with P in D4 by ring.
  replace (1 - hp_kc p - 1) with (- hp_kc p) in D2, D4 by ring. rewrite Rpower_Ropp in D2, D4.
  replace (Rpower 1 (hp_kc p)) with 1 in D2 by (unfold Rpower; rewrite ln_1, Rmult_0_r, exp_0; reflexivity).
  assert (0 < Rpower (1 + hp_kb p * P) (hp_kc p)) by (unfold Rpower; apply exp_pos).
  set (X := Rpower (1 + hp_kb p * P) (hp_kc p)) in *. clearbody X.
  evar_last. { apply (is_derive_scal (fun T => _) Tr (hp_Vr p)). apply (is_derive_plus (V := R_NormedModule)).
    - apply (is_derive_const (K := R_AbsRing) (V := R_NormedModule)).
    - apply is_derive_scal. apply (is_derive_minus (V := R_NormedModule)); [exact D2|exact D4]. }
  unfold minus, plus, opp, Hierarchy.zero; simpl. field. repeat split; auto; lra.
Qed.

Definition C47_statement : Prop :=
  (forall Vr0 p, Consistent (stdMaierKelley Vr0 p) (mk_Sr p) (fun _ _ => True)) /\
  (forall p, hp_valid p -> Consistent (stdHollandPowell p) (hp_Sr p) (hp_range p)).

(* Every compressible solid shows it: the pressure integral of the code begins at
   zero pressure, where the solid's volume changes with temperature. *)
Theorem C47_every_compressible_solid : forall p, hp_valid p -> hp_kappa0 p <> 0 -> 0 < hp_kb p -> 0 < hp_kc p -> hp_ka p <> 0 ->
  ~ Consistent (stdHollandPowell p) (hp_Sr p) (hp_range p).
Proof.
  intros p [Hv|(Hk & Hkp & Hb & Hc & Ha & HV & HS & Hn)] Hk0 Hbp Hcp Hka (S & _ & C); [contradiction|].
  pose proof Tr_pos as HTr. assert (HPr : 0 < Pr) by (unfold Pr; lra).
  assert (H3 : 0 < 1 + hp_kb p * Pr) by nra.
  destruct (hp_Pth_derive p HS Hn) as [E0 _].
  destruct (C Tr Pr HTr) as (_ & DH & _). { right. rewrite E0. split; [auto|]. split; lra. }
  unfold HeatCapacityOf in DH. pose proof (hp_enthalpy_derive p Pr Hk0 Hb Hc HS Hn HPr H3) as D.
  pose proof (eq_trans (eq_sym (is_derive_unique _ _ _ DH)) (is_derive_unique _ _ _ D)) as DD. cbv beta in DD. clear DH D.
  assert (Hp : 1 < Rpower (1 + hp_kb p * Pr) (hp_kc p)).
  { pose proof (Rpower_lt (1 + hp_kb p * Pr) 0 (hp_kc p)) as L. rewrite Rpower_O in L by auto. apply L; nra. }
  assert (Hi : 1 - / Rpower (1 + hp_kb p * Pr) (hp_kc p) <> 0).
  { intro E. assert (Hx : Rpower (1 + hp_kb p * Pr) (hp_kc p) * (1 - / Rpower (1 + hp_kb p * Pr) (hp_kc p)) =
      Rpower (1 + hp_kb p * Pr) (hp_kc p) - 1) by (field; lra). rewrite E in Hx. lra. }
  assert (Hz : hp_Vr p * hp_ka p * (hp_alpha0 p * hp_kappa0 p) * (1 - / Rpower (1 + hp_kb p * Pr) (hp_kc p)) <> 0).
  { nz; auto; lra. }
  apply Hz. lra.
Qed.
Print Assumptions C47_every_compressible_solid.

(* The figures of a common rock-forming mineral, rounded. *)
Definition aSolid : HollandPowell :=
  mkHP (-2000000) (-2100000) 95 (44 / 1000000) 200 0 0 0 (4 / 100000) 100000000000 4 (-2 / 100000000000) 7.

Lemma aSolid_facts : hp_ka aSolid = 5 / 3 /\ hp_kb aSolid = 44 / 1000000000000 /\ hp_kc aSolid = 3 / 22.
Proof. unfold hp_ka, hp_kb, hp_kc; simpl. repeat split; field. Qed.

Theorem C47_refuted : ~ C47_statement.
Proof.
  intros [_ H]. destruct aSolid_facts as (A & B & C).
  apply (C47_every_compressible_solid aSolid).
  - right. rewrite B, C. simpl. repeat split; lra.
  - simpl; lra.
  - rewrite B; lra.
  - rewrite C; lra.
  - rewrite A; lra.
  - apply H. right. rewrite B, C. simpl. repeat split; lra.
Qed.
Print Assumptions C47_refuted.

Example C47_nonvacuous : hp_valid aSolid /\ hp_range aSolid Tr 200000 /\
  hp_valid (mkHP 1 2 3 4 5 6 7 8 0 0 0 0 0) /\
  Cp0 (stdMaierKelley 0 (mkMK 1 2 3 0 10 20 30) 300 100000) <> Cv0 (stdMaierKelley 0 (mkMK 1 2 3 0 10 20 30) 300 100000).
Proof.
  destruct aSolid_facts as (A & B & C). split; [|split; [|split]].
  - right. rewrite B, C. simpl. repeat split; lra.
  - right. destruct (hp_Pth_derive aSolid) as [E0 _]; simpl; try lra. rewrite E0, B. repeat split; lra.
  - left; reflexivity.
  - simpl. destruct (Req_EM_T 0 0) as [_|]; [|contradiction]. unfold universalGasConstant. lra.
Qed.
