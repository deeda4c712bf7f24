(* C128: the standard properties of the species of SUPCRTBL. *)
From Coq Require Import Reals List Lra.
From Coquelicot Require Import Coquelicot.
From Verif Require Import Base M_Water M_HKF M_Supcrt M_SupcrtModels M_Thermo C_Thermo M_Supcrtbl.
Import ListNotations.
Local Open Scope R_scope.

(* ---- Specification: energies in J/mol, entropies and heat capacities in
   J/(mol*K), volumes in m3/mol, pressures in Pa; the parameters are in kJ/mol,
   J/(mol*K), J/(bar*mol), kJ/(mol*K) and kbar. ---- *)
Definition R_gas : R := 8.3144621.
(* Quantities of a state that do not need derivatives. *)
Definition energies_agree (f : R -> R -> State) (T P : R) : Prop :=
  enthalpy (f T P) = internal_energy (f T P) + P * volume (f T P) /\
  helmholtz_energy (f T P) = internal_energy (f T P) - T * entropy (f T P).
Definition entropy_agrees (f : R -> R -> State) (T P : R) : Prop := is_derive (fun x => gibbs_energy (f x P)) T (- entropy (f T P)).
Definition heat_agrees (f : R -> R -> State) (T P : R) : Prop := is_derive (fun x => enthalpy (f x P)) T (heat_capacity_cp (f T P)).
Definition volume_agrees (f : R -> R -> State) (T P : R) : Prop := is_derive (fun y => gibbs_energy (f T y)) P (volume (f T P)).
Definition Agree (f : R -> R -> State) (T P : R) : Prop := energies_agree f T P /\ entropy_agrees f T P /\ heat_agrees f T P /\ volume_agrees f T P.

(* The range of temperatures and pressures of a mineral: the powers in its equation
   of state are those of positive numbers. *)
Definition per_kJ (p : MineralHP) : HollandPowell :=
  mkHP (mh_Gf p) (mh_Hf p) (mh_Sr p * 1e-3) (mh_Vr p) (mh_a p) (mh_b p) (mh_c p) (mh_d p) (mh_alpha p) (mh_kappa p) (mh_kappap p) (mh_kappapp p) (mh_numatoms p * 1e-3).
Definition ordinary (p : MineralHP) : Prop := hp_valid (per_kJ p) /\ mh_kappa p <> 0.
Definition in_range (p : MineralHP) (T P : R) : Prop := 0 < T /\ hp_range (per_kJ p) T (P * 1e-5).
(* Solutes without a Born term. *)
Definition no_born : Electro := mkEl 0 0 0 0 0 0.

Definition C128_statement : Prop :=
  (forall p T P, 0 < T -> Agree (fun T P => supcrtblFluid T P p) T P /\ heat_capacity_cp (supcrtblFluid T P p) - heat_capacity_cv (supcrtblFluid T P p) = R_gas) /\
  (forall p T P, ordinary p -> in_range p T P -> Agree (fun T P => supcrtblMineral T P p) T P) /\
  (forall p wes T, so_wref p = 0 -> so_c1 p = 0 -> so_c2 p = 0 -> 228 < T ->
     G0 (supcrtblSoluteProps T 100000 p no_born wes) = so_Gf p * 1000 - so_Sr p * (T - 298.15)) /\
  (forall ps wt, G0 (supcrtblSolvent 273.16 611.655 ps wt) - M_Water.waterMolarMass * (M_Water.w_enthalpy wt - 273.16 * M_Water.w_entropy wt) = snd (fst (fst (fst ps))) * 1000).

(* ---- Fluids ---- *)
Lemma Tr_is : M_Supcrtbl.Tr = M_Thermo.Tr. Proof. reflexivity. Qed.
(* The properties of a fluid are a thousand times those of a rigid solid without
   volume in the model of Holland and Powell. *)
Definition fluid_kJ (p : Fluid) : HollandPowell := mkHP (fl_Gf p) (fl_Hf p) (fl_Sr p * 1e-3) 0 (fl_a p) (fl_b p) (fl_c p) (fl_d p) 0 0 0 0 0.
Lemma fluid_form p T P : let s := supcrtblFluid T P p in let r := stdHollandPowell (fluid_kJ p) T P in
  gibbs_energy s = 1000 * G0 r /\ enthalpy s = 1000 * H0 r /\ entropy s = 1000 * hp_S (fluid_kJ p) T /\ volume s = 0 /\ heat_capacity_cp s = Cp0 r /\
  heat_capacity_cv s = Cp0 r - R_gas /\ internal_energy s = enthalpy s /\ helmholtz_energy s = internal_energy s - T * entropy s.
Proof.
  destruct p as [Gf Hf Sr Vr a b c d Tmax]. cbv zeta. unfold stdHollandPowell, fluid_kJ, hp_S. cbn [fl_Gf fl_Hf fl_Sr fl_a fl_b fl_c fl_d hp_a hp_b hp_c hp_d hp_Sr].
  destruct (Req_EM_T 0 0) as [_|N]; [|contradiction]. unfold supcrtblFluid. cbn [gibbs_energy enthalpy entropy volume heat_capacity_cp heat_capacity_cv internal_energy helmholtz_energy G0 H0 Cp0].
  unfold J_to_kJ, kJ_to_J, Tr05, Tr2, R_gas, universalGasConstant. rewrite !Tr_is.
  replace (d / 0.5) with (2 * d) by lra. replace (b / 2) with (/ 2 * b) by lra. replace (c / 2) with (/ 2 * c) by lra.
  generalize (ln (T / M_Thermo.Tr)) (sqrt T) (sqrt M_Thermo.Tr) (1 / T) (1 / (T * T)) (1 / (M_Thermo.Tr * M_Thermo.Tr)) (1 / M_Thermo.Tr). intros.
  repeat split; try lra; try ring.
Qed.
Lemma scaled (f g : R -> R) k x l : (forall y, g y = k * f y) -> is_derive f x l -> is_derive g x (k * l).
Proof. intros E D. apply is_derive_ext with (fun y => k * f y); [intros y; symmetry; apply E|]. apply is_derive_scal, D. Qed.
Theorem C128_fluid_partial : forall p T P, 0 < T -> let f := fun T P => supcrtblFluid T P p in
  energies_agree f T P /\ entropy_agrees f T P /\ volume_agrees f T P /\
  is_derive (fun x => enthalpy (f x P)) T (1000 * heat_capacity_cp (f T P)) /\
  gibbs_energy (f 298.15 P) = fl_Gf p * 1000 /\ enthalpy (f 298.15 P) = fl_Hf p * 1000 /\ entropy (f 298.15 P) = fl_Sr p /\
  heat_capacity_cp (f T P) - heat_capacity_cv (f T P) = R_gas.
Proof.
  intros p T P HT. cbv zeta. unfold energies_agree, entropy_agrees, volume_agrees.
  assert (K0 : hp_kappa0 (fluid_kJ p) = 0) by reflexivity.
  destruct (C47_holland_powell_rigid_partial (fluid_kJ p) K0) as (S0 & _ & Cons). destruct (Cons T P HT I) as (_ & DH & _).
  assert (DG : is_derive (fun x => G0 (stdHollandPowell (fluid_kJ p) x P)) T (- hp_S (fluid_kJ p) T)).
  { destruct p as [Gf Hf Sr Vr a b c d Tmax]. unfold fluid_kJ, hp_S. cbn [fl_Gf fl_Hf fl_Sr fl_a fl_b fl_c fl_d hp_a hp_b hp_c hp_d hp_Sr]. unfold stdHollandPowell.
    destruct (Req_EM_T 0 0) as [_|N]; [|contradiction]. cbn [G0].
    assert (HTr : 0 < M_Thermo.Tr) by (unfold M_Thermo.Tr; lra). pose proof (sqrt_lt_R0 _ HTr) as HsTr. pose proof (sqrt_lt_R0 _ HT) as Hs.
    assert (Hq : 0 < T / M_Thermo.Tr) by (apply Rdiv_lt_0_compat; auto). assert (HTT : T * T <> 0) by nra.
    auto_derive; [repeat split; auto; lra|]. change (T * / M_Thermo.Tr) with (T / M_Thermo.Tr). generalize (ln (T / M_Thermo.Tr)). intros. rooted T. field. lra. }
  destruct (fluid_form p T P) as (_ & _ & ES & EV & EC & ECv & EU & EA).
  split; [split; [rewrite EU, EV; ring|exact EA]|]. split.
  { rewrite ES. replace (- (1000 * hp_S (fluid_kJ p) T)) with (1000 * - hp_S (fluid_kJ p) T) by ring.
    apply (scaled (fun x => G0 (stdHollandPowell (fluid_kJ p) x P))); [|exact DG]. intros y. apply (fluid_form p y P). }
  split.
  { rewrite EV. apply is_derive_ext with (fun _ => gibbs_energy (supcrtblFluid T P p)); [intros y; destruct p; reflexivity|]. apply (is_derive_const (K := R_AbsRing) (V := R_NormedModule)). }
  split.
  { replace (heat_capacity_cp (supcrtblFluid T P p)) with (Cp0 (stdHollandPowell (fluid_kJ p) T Pr)) by (destruct (fluid_form p T Pr) as (_ & _ & _ & _ & E & _); rewrite <- E; destruct p; reflexivity).
    apply (scaled (fun x => H0 (stdHollandPowell (fluid_kJ p) x Pr))); [|exact DH]. intros y. destruct (fluid_form p y Pr) as (_ & E & _). rewrite <- E. destruct p. reflexivity. }
  assert (E1 : 298.15 = M_Supcrtbl.Tr) by (unfold M_Supcrtbl.Tr, M_Thermo.Tr; lra). assert (HTr : 0 < M_Supcrtbl.Tr) by lra.
  assert (L : ln (M_Supcrtbl.Tr / M_Supcrtbl.Tr) = 0) by (replace (M_Supcrtbl.Tr / M_Supcrtbl.Tr) with 1 by (field; lra); apply ln_1).
  destruct p as [Gf Hf Sr Vr a b c d Tmax]. unfold supcrtblFluid. cbn [gibbs_energy enthalpy entropy heat_capacity_cp heat_capacity_cv fl_Gf fl_Hf fl_Sr].
  rewrite E1, L. fold Tr05 Tr2. unfold kJ_to_J, J_to_kJ, R_gas, universalGasConstant.
  split; [|split; [|split]]; try ring; lra.
Qed.
Print Assumptions C128_fluid_partial.
(* Its heat capacity stays in kJ/(mol*K), a thousandth of the derivative of the
   enthalpy, and the gas constant is then taken off in J/(mol*K). *)
Definition a_gas : Fluid := mkFluid (-394) (-393) 213 0 0.04 0 0 0 1000.
Theorem C128_heat_refuted : forall P, ~ heat_agrees (fun T P => supcrtblFluid T P a_gas) 300 P /\
  is_derive (fun x => enthalpy (supcrtblFluid x P a_gas)) 300 40 /\ heat_capacity_cp (supcrtblFluid 300 P a_gas) = 0.04 /\ heat_capacity_cv (supcrtblFluid 300 P a_gas) < -8.
Proof.
  intros P. assert (Cp : heat_capacity_cp (supcrtblFluid 300 P a_gas) = 0.04) by (cbn; unfold Rdiv; ring).
  destruct (C128_fluid_partial a_gas 300 P ltac:(lra)) as (_ & _ & _ & D & _ & _ & _ & R8). cbv beta in D, R8. rewrite Cp in D, R8.
  split; [|split; [|split]].
  - unfold heat_agrees. cbv beta. rewrite Cp. intros D'. pose proof (eq_trans (eq_sym (is_derive_unique _ _ _ D)) (is_derive_unique _ _ _ D')) as E. lra.
  - replace 40 with (1000 * 0.04) by lra. exact D.
  - exact Cp.
  - unfold R_gas in R8. lra.
Qed.
Print Assumptions C128_heat_refuted.

(* ---- Minerals ---- *)
Lemma mineral_form p T P : mh_kappa p <> 0 -> let s := supcrtblMineral T P p in let r := stdHollandPowell (per_kJ p) T (P * 1e-5) in
  gibbs_energy s = 1000 * G0 r /\ enthalpy s = 1000 * H0 r /\ entropy s = 1000 * hp_S (per_kJ p) T /\ volume s = V0 r * 1e-5 /\ heat_capacity_cp s = 1000 * Cp0 r /\
  heat_capacity_cv s = heat_capacity_cp s /\ internal_energy s = enthalpy s - 1000 * (P * volume s) /\ helmholtz_energy s = internal_energy s - T * entropy s.
Proof.
  intros K. destruct p as [Gf Hf Sr Vr a b c d al k0 kp kpp n Tmax]. cbn [mh_kappa] in K. cbv zeta. unfold stdHollandPowell, per_kJ.
  cbn [mh_Gf mh_Hf mh_Sr mh_Vr mh_a mh_b mh_c mh_d mh_alpha mh_kappa mh_kappap mh_kappapp mh_numatoms].
  destruct (Req_EM_T k0 0) as [N|_]; [contradiction|].
  unfold hp_volume, hp_Pth, hp_ka, hp_kb, hp_kc, hp_S. cbn [hp_Vr hp_Sr hp_numatoms hp_alpha0 hp_kappa0 hp_kappa0p hp_kappa0pp hp_a hp_b hp_c hp_d].
  unfold supcrtblMineral. cbn [gibbs_energy enthalpy entropy volume heat_capacity_cp heat_capacity_cv internal_energy helmholtz_energy G0 H0 Cp0 V0].
  replace (Sr * 1e-3 / (n * 1e-3)) with (Sr / n) by (unfold Rdiv; rewrite Rinv_mult; replace (/ 1e-3) with 1000 by lra; lra).
  replace (644 / 100) with 6.44 by lra.
  unfold J_to_kJ, kJ_to_J, Pa_to_bar, Tr05, Tr2. rewrite !Tr_is.
  replace (d / 0.5) with (2 * d) by lra. replace (b / 2) with (/ 2 * b) by lra. replace (c / 2) with (/ 2 * c) by lra.
  set (theta := 10636 / (Sr / n + 6.44)). set (ka := (1 + kp) / (1 + kp + k0 * kpp)). set (kb := kp / k0 - kpp / (1 + kp)).
  set (kc := (1 + kp + k0 * kpp) / (kp * (1 + kp) - k0 * kpp)).
  match goal with |- context [1 - kb * ?X] => set (Pth := X) end.
  match goal with |- context [ka * (?X - ?Y) / ?Z] => set (F := ka * (X - Y) / Z) end.
  match goal with |- context [1 / Rpower ?X kc] => set (W := 1 / Rpower X kc) end.
  generalize (ln (T / M_Thermo.Tr)) (sqrt T) (sqrt M_Thermo.Tr) (1 / T) (1 / (T * T)) (1 / (M_Thermo.Tr * M_Thermo.Tr)) (1 / M_Thermo.Tr). intros.
  split; [ring|]. split; [ring|]. split; [lra|]. split; [ring|]. split; [unfold Rdiv; ring|]. split; [reflexivity|]. split; [|ring].
  replace (1e-3) with (/1000) by lra. replace 1e-5 with (/ 100000) by lra. field.
Qed.

(* What holds of every mineral: the entropy, and the Gibbs energy and the enthalpy
   with respect to each other; a thousandth of the derivative of the Gibbs energy
   with respect to the pressure is the volume. *)
Theorem C128_mineral_partial : forall p T P, ordinary p -> 0 < T -> let f := fun T P => supcrtblMineral T P p in
  entropy (f 298.15 P) = mh_Sr p /\ helmholtz_energy (f T P) = internal_energy (f T P) - T * entropy (f T P) /\
  enthalpy (f T P) = internal_energy (f T P) + 1000 * (P * volume (f T P)) /\
  gibbs_energy (f T P) - (enthalpy (f T P) - T * entropy (f T P)) = 1000 * mh_Gf p - (1000 * mh_Hf p - 298.15 * mh_Sr p) /\
  (in_range p T P -> is_derive (fun y => gibbs_energy (f T y)) P (1000 * volume (f T P))) /\
  (mh_alpha p = 0 -> entropy_agrees f T P /\ heat_agrees f T P).
Proof.
  intros p T P (V & K) HT. cbv zeta. pose proof (mineral_form p T P K) as (EG & EH & ES & EV & EC & _ & EU & EA).
  assert (E1 : 298.15 = M_Thermo.Tr) by (unfold M_Thermo.Tr; lra). assert (HTr : 0 < M_Thermo.Tr) by lra.
  assert (SR : hp_S (per_kJ p) M_Thermo.Tr = mh_Sr p * 1e-3).
  { unfold hp_S. cbn [per_kJ hp_Sr hp_a hp_b hp_c hp_d]. replace (M_Thermo.Tr / M_Thermo.Tr) with 1 by (field; lra). rewrite ln_1. ring. }
  split.
  { rewrite E1. destruct (mineral_form p M_Thermo.Tr P K) as (_ & _ & -> & _). rewrite SR. lra. }
  split; [exact EA|]. split; [rewrite EU; ring|]. split.
  { rewrite EG, EH, ES. rewrite E1. destruct p as [Gf Hf Sr Vr a b c d al k0 kp kpp n Tmax]. cbn [mh_Gf mh_Hf mh_Sr mh_kappa] in *. unfold per_kJ, stdHollandPowell, hp_S.
    cbn [mh_Gf mh_Hf mh_Sr mh_Vr mh_a mh_b mh_c mh_d mh_alpha mh_kappa mh_kappap mh_kappapp mh_numatoms hp_Sr hp_a hp_b hp_c hp_d].
    destruct (Req_EM_T k0 0) as [N|_]; [contradiction|].
    match goal with |- context [hp_volume ?q T ?y] => destruct (hp_volume q T y) as [v vdp] end. cbn [G0 H0].
    generalize (ln (T / M_Thermo.Tr)) (sqrt T) (sqrt M_Thermo.Tr) (1 / T) (1 / (T * T)) (1 / (M_Thermo.Tr * M_Thermo.Tr)) (1 / M_Thermo.Tr). intros. rewrite <- E1.
    replace 1e-3 with (/ 1000) by lra. lra. }
  split.
  { intros (_ & Rg). rewrite EV. pose proof (C47_volume_partial (per_kJ p) T (P * 1e-5) V HT Rg) as D. unfold S_Thermo.VolumeOf in D.
    replace (1000 * (V0 (stdHollandPowell (per_kJ p) T (P * 1e-5)) * 1e-5)) with (1000 * (1e-5 * V0 (stdHollandPowell (per_kJ p) T (P * 1e-5)))) by ring.
    apply (scaled (fun y => G0 (stdHollandPowell (per_kJ p) T (y * 1e-5)))); [intros y; apply (mineral_form p T y K)|].
    apply (is_derive_comp (fun x => G0 (stdHollandPowell (per_kJ p) T x)) (fun y => y * 1e-5)); [exact D|]. auto_derive; [exact I|ring]. }
  intros A0. unfold entropy_agrees, heat_agrees.
  set (r := mkFluid (mh_Gf p) (mh_Hf p) (mh_Sr p) 0 (mh_a p) (mh_b p) (mh_c p) (mh_d p) 0).
  assert (F : exists C, forall x, gibbs_energy (supcrtblMineral x P p) = gibbs_energy (supcrtblFluid x P r) + C /\ enthalpy (supcrtblMineral x P p) = enthalpy (supcrtblFluid x P r) + C /\
     entropy (supcrtblMineral x P p) = entropy (supcrtblFluid x P r) /\ heat_capacity_cp (supcrtblMineral x P p) = 1000 * heat_capacity_cp (supcrtblFluid x P r)).
  { destruct p as [Gf Hf Sr Vr a b c d al k0 kp kpp n Tmax]. cbn [mh_alpha] in A0. subst al. unfold r. unfold supcrtblMineral, supcrtblFluid.
    cbn [mh_Gf mh_Hf mh_Sr mh_a mh_b mh_c mh_d gibbs_energy enthalpy entropy heat_capacity_cp]. rewrite !Rmult_0_l. eexists. intros x. rewrite !Rmult_0_l.
    unfold kJ_to_J. split; [rewrite <- Rmult_plus_distr_r; reflexivity|]. split; [ring|]. split; ring. }
  destruct F as (C & F). destruct (C128_fluid_partial r T P HT) as (_ & DG & _ & DH & _). cbv beta in DH. unfold entropy_agrees in DG. destruct (F T) as (_ & _ & -> & ->).
  split.
  - apply is_derive_ext with (fun x => gibbs_energy (supcrtblFluid x P r) + C); [intros x; symmetry; apply F|].
    evar_last; [apply (is_derive_plus (V := R_NormedModule)); [exact DG|apply (is_derive_const (K := R_AbsRing) (V := R_NormedModule))]|]. apply (plus_zero_r (G := R_AbelianGroup)).
  - apply is_derive_ext with (fun x => enthalpy (supcrtblFluid x P r) + C); [intros x; symmetry; apply F|].
    evar_last; [apply (is_derive_plus (V := R_NormedModule)); [exact DH|apply (is_derive_const (K := R_AbsRing) (V := R_NormedModule))]|]. apply (plus_zero_r (G := R_AbelianGroup)).
Qed.
Print Assumptions C128_mineral_partial.

(* A mineral with rounded figures of calcite. *)
Definition a_mineral : MineralHP := mkMineralHP (-1128) (-1207) 92.5 3.689 0.14 0 0 0 2.5e-5 733 4 0 5 1200.
Lemma a_mineral_facts : hp_ka (per_kJ a_mineral) = 1 /\ hp_kb (per_kJ a_mineral) = 4 / 733 /\ hp_kc (per_kJ a_mineral) = 1 / 4.
Proof. unfold hp_ka, hp_kb, hp_kc; cbn. repeat split; field. Qed.
Lemma a_mineral_ordinary : ordinary a_mineral.
Proof.
  destruct a_mineral_facts as (A & B & C). split; [|cbn; lra]. right. rewrite B, C. cbn. repeat split; lra.
Qed.
Lemma a_mineral_Pth : hp_Pth (per_kJ a_mineral) M_Thermo.Tr = 0 /\ is_derive (hp_Pth (per_kJ a_mineral)) M_Thermo.Tr (hp_alpha0 (per_kJ a_mineral) * hp_kappa0 (per_kJ a_mineral)).
Proof. apply hp_Pth_derive; cbn; lra. Qed.
Lemma a_mineral_range P : 0 < P -> in_range a_mineral 298.15 P.
Proof.
  intros HP. destruct a_mineral_facts as (A & B & C). destruct a_mineral_Pth as (Z & _). split; [lra|]. right.
  replace 298.15 with M_Thermo.Tr by (unfold M_Thermo.Tr; lra). rewrite Z, B. repeat split; lra.
Qed.
Lemma a_mineral_volume P : volume (supcrtblMineral 298.15 P a_mineral) = 3.689e-5 / Rpower (1 + 4 / 733 * (P * 1e-5)) (1 / 4).
Proof.
  destruct a_mineral_facts as (A & B & C). destruct a_mineral_Pth as (Z & _). destruct a_mineral_ordinary as (_ & K).
  destruct (mineral_form a_mineral 298.15 P K) as (_ & _ & _ & -> & _). replace 298.15 with M_Thermo.Tr by (unfold M_Thermo.Tr; lra).
  destruct (hp_stdG (per_kJ a_mineral) M_Thermo.Tr K) as (x & y & z & F). rewrite F. cbn [V0]. unfold hp_volume. cbv zeta. cbn [fst].
  rewrite A, B, C, Z. replace (P * 1e-5 - 0) with (P * 1e-5) by ring. change (hp_Vr (per_kJ a_mineral)) with 3.689.
  assert (Q : 0 < Rpower (1 + 4 / 733 * (P * 1e-5)) (1 / 4)) by (unfold Rpower; apply exp_pos). replace 1e-5 with (/ 100000) in * by lra. replace 3.689e-5 with (3.689 * / 100000) by lra. field. lra.
Qed.
(* The derivative of the Gibbs energy with respect to the pressure is a thousand
   times the volume, and the difference of the enthalpy and the internal energy a
   thousand times P V. *)
Theorem C128_pressure_refuted : forall P, 0 < P -> ordinary a_mineral /\ in_range a_mineral 298.15 P /\
  ~ volume_agrees (fun T P => supcrtblMineral T P a_mineral) 298.15 P /\ ~ energies_agree (fun T P => supcrtblMineral T P a_mineral) 298.15 P.
Proof.
  intros P HP. pose proof (a_mineral_range P HP) as Rg. split; [exact a_mineral_ordinary|]. split; [exact Rg|].
  destruct (C128_mineral_partial a_mineral 298.15 P a_mineral_ordinary ltac:(lra)) as (_ & _ & U & _ & D & _). specialize (D Rg). cbv beta in D, U.
  assert (VP : 0 < volume (supcrtblMineral 298.15 P a_mineral)).
  { rewrite a_mineral_volume. apply Rdiv_lt_0_compat; [lra|]. unfold Rpower. apply exp_pos. }
  split.
  - intros D'. unfold volume_agrees in D'. pose proof (eq_trans (eq_sym (is_derive_unique _ _ _ D)) (is_derive_unique _ _ _ D')) as E. lra.
  - intros (E & _). cbv beta in E. assert (0 < P * volume (supcrtblMineral 298.15 P a_mineral)) by (apply Rmult_lt_0_compat; assumption). lra.
Qed.
Print Assumptions C128_pressure_refuted.
(* The enthalpy has a term that depends on the temperature, which the heat capacity
   does not have. *)
Theorem C128_mineral_heat_refuted : forall P, 0 < P -> ~ heat_agrees (fun T P => supcrtblMineral T P a_mineral) 298.15 P.
Proof.
  intros P HP D. unfold heat_agrees in D. destruct a_mineral_facts as (A & B & C). destruct a_mineral_ordinary as (_ & K).
  replace 298.15 with M_Thermo.Tr in D by (unfold M_Thermo.Tr; lra).
  destruct (mineral_form a_mineral M_Thermo.Tr P K) as (_ & _ & _ & _ & EC & _). rewrite EC in D.
  assert (D' : is_derive (fun x => H0 (stdHollandPowell (per_kJ a_mineral) x (P * 1e-5))) M_Thermo.Tr (Cp0 (stdHollandPowell (per_kJ a_mineral) M_Thermo.Tr (P * 1e-5)) +
     hp_Vr (per_kJ a_mineral) * hp_ka (per_kJ a_mineral) * (hp_alpha0 (per_kJ a_mineral) * hp_kappa0 (per_kJ a_mineral)) * (1 - / Rpower (1 + hp_kb (per_kJ a_mineral) * (P * 1e-5)) (hp_kc (per_kJ a_mineral))))).
  { apply hp_enthalpy_derive; try (rewrite ?B, ?C; lra); try (cbn; lra). }
  apply (scaled _ (fun x => enthalpy (supcrtblMineral x P a_mineral)) 1000) in D'; [|intros y; apply (mineral_form a_mineral y P K)].
  pose proof (eq_trans (eq_sym (is_derive_unique _ _ _ D)) (is_derive_unique _ _ _ D')) as E. clear D D'. rewrite A, B, C in E.
  assert (L : 1 < Rpower (1 + 4 / 733 * (P * 1e-5)) (1 / 4)).
  { pose proof (Rpower_lt (1 + 4 / 733 * (P * 1e-5)) 0 (1 / 4)) as X. rewrite Rpower_O in X by lra. apply X; lra. }
  assert (I1 : / Rpower (1 + 4 / 733 * (P * 1e-5)) (1 / 4) < 1).
  { apply Rmult_lt_reg_l with (Rpower (1 + 4 / 733 * (P * 1e-5)) (1 / 4)); [lra|]. rewrite Rinv_r by lra. lra. }
  cbn [per_kJ a_mineral hp_Vr hp_alpha0 hp_kappa0 mh_Vr mh_alpha mh_kappa] in E. set (z := / Rpower _ _) in *. clearbody z. lra.
Qed.
Print Assumptions C128_mineral_heat_refuted.
(* The bulk modulus is given in kbar but used with pressures in bar: minerals are a
   thousand times as compressible as their parameter says. *)
Theorem C128_compressible_refuted : let V := fun y => volume (supcrtblMineral 298.15 y a_mineral) in
  is_derive V 0 (- V 0 / (mh_kappa a_mineral * 1e5)) /\ ~ is_derive V 0 (- V 0 / (mh_kappa a_mineral * 1e8)).
Proof.
  cbv zeta. assert (V : volume (supcrtblMineral 298.15 0 a_mineral) = 3.689e-5).
  { rewrite a_mineral_volume. rewrite Rmult_0_l, Rmult_0_r, Rplus_0_r. unfold Rpower. rewrite ln_1, Rmult_0_r, exp_0. lra. }
  assert (D : is_derive (fun y => volume (supcrtblMineral 298.15 y a_mineral)) 0 (- volume (supcrtblMineral 298.15 0 a_mineral) / (mh_kappa a_mineral * 1e5))).
  { apply is_derive_ext with (fun y => 3.689e-5 * Rpower (1 + 4 / 733 * (y * 1e-5)) (- (1 / 4))).
    { intros y. rewrite a_mineral_volume. rewrite Rpower_Ropp. reflexivity. }
    pose proof (Rpower_derive (1 + 4 / 733 * (0 * 1e-5)) (- (1 / 4)) ltac:(lra)) as D.
    evar_last. { apply is_derive_scal. apply (is_derive_comp (fun x => Rpower x (- (1 / 4))) (fun y => 1 + 4 / 733 * (y * 1e-5))); [exact D|]. auto_derive; [exact I|reflexivity]. }
    replace (1 + 4 / 733 * (0 * 1e-5)) with 1 by lra. replace (Rpower 1 (- (1 / 4) - 1)) with 1 by (unfold Rpower; rewrite ln_1, Rmult_0_r, exp_0; reflexivity).
    rewrite V. cbn [a_mineral mh_kappa]. unfold scal. cbn. unfold mult. cbn. lra. }
  split; [exact D|]. intros D'. pose proof (eq_trans (eq_sym (is_derive_unique _ _ _ D)) (is_derive_unique _ _ _ D')) as E. rewrite V in E. cbn [a_mineral mh_kappa] in E. lra.
Qed.
Print Assumptions C128_compressible_refuted.

(* ---- Solutes and water ---- *)
(* At 1 bar the Gibbs energy of a solute has its slope from the entropy as if that
   were in cal/(mol*K). *)
Theorem C128_solute_partial : forall p wes T, so_wref p = 0 -> so_c1 p = 0 -> so_c2 p = 0 -> 228 < T ->
  G0 (supcrtblSoluteProps T 100000 p no_born wes) = so_Gf p * 1000 - 4.184 * so_Sr p * (T - 298.15) /\
  H0 (supcrtblSoluteProps T 100000 p no_born wes) = so_Hf p * 1000 /\
  G0 (supcrtblSoluteProps 298.15 100000 p no_born wes) = so_Gf p * 1000.
Proof.
  intros p wes T W C1 C2 HT. unfold supcrtblSoluteProps, supcrtSolute, supcrtblSolute, no_born.
  cbn [so_Gf so_Hf so_Sr so_a1 so_a2 so_a3 so_a4 so_c1 so_c2 so_wref s_w s_wT s_wP s_wTT G0 H0]. rewrite W, C1, C2.
  replace (100000 * 1.0e-05) with 1 by lra. replace (2600.0 + 1) with (2600.0 + 1.0) by lra. replace ((2600.0 + 1.0) / (2600.0 + 1.0)) with 1 by (field; lra). rewrite ln_1.
  replace (1 - 1.0) with 0 by lra. unfold kJ_to_cal, cal_to_kJ, calorieToJoule. replace (1 / 4.184e-3) with (1000 / 4.184) by lra.
  rewrite ?Rmult_0_l, ?Rmult_0_r. rewrite ?Rmult_0_l, ?Rmult_0_r. repeat split; lra.
Qed.
Print Assumptions C128_solute_partial.
(* The other parameters of solutes are in multiples of kJ/(mol*bar), kJ/mol,
   kJ*K/(mol*bar), kJ*K/mol, kJ/(mol*K) and kJ*K/mol; the name and the charge are
   those given. *)
Theorem C128_solute_units_partial : forall p wes T P, 0 < P -> 228 < T -> let s := fun P => supcrtblSoluteProps T P p no_born wes in
  Cp0 (s 100000) = 1000 * (so_c1 p + 1e4 * so_c2 p / (T - 228) ^ 2) /\
  V0 (s P) = 1000 / 1e5 * (0.1 * so_a1 p + 100 * so_a2 p / (2600 + P / 1e5) + (so_a3 p + 1e4 * so_a4 p / (2600 + P / 1e5)) / (T - 228)) /\
  so_name (supcrtblSolute p) = so_name p /\ so_charge (supcrtblSolute p) = so_charge p.
Proof.
  intros p wes T P HP HT. cbv zeta. unfold supcrtblSoluteProps, supcrtSolute, supcrtblSolute, no_born.
  cbn [so_name so_charge so_Gf so_Hf so_Sr so_a1 so_a2 so_a3 so_a4 so_c1 so_c2 so_wref s_w s_wT s_wP s_wTT G0 H0 Cp0 V0].
  unfold kJ_to_cal, cal_to_kJ, calorieToJoule, barToPascal. replace (1 / 4.184e-3) with (1000 / 4.184) by lra.
  split; [|split; [|split; reflexivity]].
  - replace (100000 * 1.0e-05) with 1 by lra. replace (2600.0 + 1) with (2600.0 + 1.0) by lra. replace ((2600.0 + 1.0) / (2600.0 + 1.0)) with 1 by (field; lra). rewrite ln_1.
    replace (1 - 1.0) with 0 by lra. replace (T - 228.0) with (T - 228) by lra. assert (N : T - 228 <> 0) by lra.
    set (u := T - 228) in *. replace 1e+4 with 10000 by lra. field. split; [exact N|lra].
  - replace (P * 1.0e-05) with (P / 1e5) by lra. replace (T - 228.0) with (T - 228) by lra. replace (2600.0 + P / 1e5) with (2600 + P / 1e5) by lra.
    assert (N : T - 228 <> 0) by lra. assert (M : 2600 + P / 1e5 <> 0) by lra. set (u := T - 228) in *. set (v := 2600 + P / 1e5) in *.
    replace 1.0e+05 with 100000 by lra. replace 1e+4 with 10000 by lra. replace 1e+2 with 100 by lra. replace 1e-1 with (1/10) by lra. replace 0.1 with (1/10) by lra.
    field. repeat split; first [assumption | lra].
Qed.
Print Assumptions C128_solute_units_partial.
Definition a_solute : Solute R := mkSolute $"SiO2(aq)" 0 (-833) (-878) 75 0 0 0 0 0 0 0.
Theorem C128_entropy_refuted : forall wes, so_wref a_solute = 0 /\ so_c1 a_solute = 0 /\ so_c2 a_solute = 0 /\
  G0 (supcrtblSoluteProps 398.15 100000 a_solute no_born wes) <> so_Gf a_solute * 1000 - so_Sr a_solute * (398.15 - 298.15).
Proof.
  intros wes. split; [reflexivity|]. split; [reflexivity|]. split; [reflexivity|].
  destruct (C128_solute_partial a_solute wes 398.15 eq_refl eq_refl eq_refl ltac:(lra)) as (E & _). rewrite E. cbn. lra.
Qed.
Print Assumptions C128_entropy_refuted.
(* The Gibbs energy of water at its triple point is the default one whatever the
   parameters are. *)
Definition Gtr (ps : R * R * R * R * R * R) : R := snd (fst (fst (fst ps))).
Theorem C128_water_partial : forall ps wt, G0 (supcrtblSolvent 273.16 611.655 ps wt) - M_Water.waterMolarMass * (M_Water.w_enthalpy wt - 273.16 * M_Water.w_entropy wt) = -235.51736 * 1000.
Proof. intros ps wt. unfold supcrtblSolvent, supcrtSolvent. cbn [G0]. unfold calorieToJoule. ring_simplify. lra. Qed.
Print Assumptions C128_water_partial.
Theorem C128_water_refuted : exists ps, Gtr ps = -300 /\ forall wt,
  G0 (supcrtblSolvent 273.16 611.655 ps wt) - M_Water.waterMolarMass * (M_Water.w_enthalpy wt - 273.16 * M_Water.w_entropy wt) <> Gtr ps * 1000.
Proof. exists (273.16, 63.3, -300, -287.7, -284, -231.9). split; [reflexivity|]. intros wt. rewrite C128_water_partial. unfold Gtr. cbn [fst snd]. lra. Qed.
Print Assumptions C128_water_refuted.
Theorem C128_refuted : ~ C128_statement.
Proof.
  intros (F & _). destruct (F a_gas 300 100000 ltac:(lra)) as ((_ & _ & H & _) & _). exact (proj1 (C128_heat_refuted 100000) H).
Qed.
Print Assumptions C128_refuted.
Example C128_nonvacuous : ordinary a_mineral /\ in_range a_mineral 298.15 1e8 /\ 0 < volume (supcrtblMineral 298.15 1e8 a_mineral) /\
  mh_alpha (mkMineralHP (-1128) (-1207) 92.5 3.689 0.14 0 0 0 0 733 4 0 5 1200) = 0 /\ heat_capacity_cp (supcrtblMineral 300 1e5 a_mineral) = 140.
Proof.
  split; [exact a_mineral_ordinary|]. split; [apply a_mineral_range; lra|]. split.
  - rewrite a_mineral_volume. apply Rdiv_lt_0_compat; [lra|]. unfold Rpower. apply exp_pos.
  - split; [reflexivity|]. cbn. unfold kJ_to_J, Rdiv. ring_simplify. lra.
Qed.
