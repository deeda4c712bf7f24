(* C81 and C82: standard properties at the reference conditions, and the standard
   entropy that is reported for them. *)
From Coq Require Import Reals Lra List.
From Coquelicot Require Import Coquelicot.
From Verif Require Import Base M_Thermo S_Thermo C_Thermo.
Local Open Scope R_scope.

(* ---- C81 ---- *)
(* What a table of standard properties says at 298.15 K and 1 bar. *)
Definition Reference (r : StdProps) (Gf Hf Vr : R) : Prop := G0 r = Gf /\ H0 r = Hf /\ V0 r = Vr.
Definition C81_statement : Prop :=
  (forall Vr0 p, Reference (stdMaierKelley Vr0 p Tr Pr) (mk_Gf p) (mk_Hf p) (mk_Vr p)) /\
  (forall p, hp_valid p -> Reference (stdHollandPowell p Tr Pr) (hp_Gf p) (hp_Hf p) (hp_Vr p)).

Theorem C81_maier_kelley_partial : forall Vr0 p, Reference (stdMaierKelley Vr0 p Tr Pr) (mk_Gf p) (mk_Hf p) (mk_Vr p).
Proof.
  intros Vr0 [Gf Hf Sr Vr a b c]. pose proof Tr_pos. unfold Reference; simpl.
  replace (Tr / Tr) with 1 by (field; lra). rewrite ln_1. split; [|split; [|reflexivity]]; field; lra.
Qed.
Print Assumptions C81_maier_kelley_partial.

Theorem C81_rigid_partial : forall p, hp_kappa0 p = 0 -> Reference (stdHollandPowell p Tr Pr) (hp_Gf p) (hp_Hf p) (hp_Vr p).
Proof.
  intros [Gf Hf Sr Vr a b c d alpha0 kappa0 kappa0p kappa0pp numatoms] E; simpl in E; subst kappa0.
  pose proof Tr_pos as HTr. pose proof (sqrt_lt_R0 _ HTr). unfold Reference; simpl.
  destruct (Req_EM_T 0 0) as [_|N]; [|contradiction]. simpl.
  replace (Tr / Tr) with 1 by (field; lra). rewrite ln_1. split; [|split; [|reflexivity]]; field; lra.
Qed.
Print Assumptions C81_rigid_partial.

(* For a compressible solid all three miss the value by what the volume integral
   from zero to the reference pressure contributes. *)
Theorem C81_compressible_partial : forall p, hp_kappa0 p <> 0 ->
  Reference (stdHollandPowell p Tr Pr) (hp_Gf p + snd (hp_volume p Tr Pr)) (hp_Hf p + snd (hp_volume p Tr Pr)) (fst (hp_volume p Tr Pr)).
Proof.
  intros p Hk. pose proof Tr_pos as HTr. pose proof (sqrt_lt_R0 _ HTr).
  destruct p as [Gf Hf Sr Vr a b c d alpha0 kappa0 kappa0p kappa0pp numatoms]. unfold stdHollandPowell, Reference.
  cbn [hp_Gf hp_Hf]. simpl in Hk. destruct (Req_EM_T kappa0 0) as [|_]; [contradiction|]. destruct (hp_volume _ Tr Pr) as [v vdp]. simpl.
  replace (Tr / Tr) with 1 by (field; lra). rewrite ln_1. split; [|split; [|reflexivity]]; field; lra.
Qed.
Print Assumptions C81_compressible_partial.

(* A solid for which the integral is simple. *)
Definition simpleSolid : HollandPowell :=
  mkHP (-2000000) (-2100000) 95 (44 / 1000000) 200 0 0 0 (4 / 100000) 100000000000 (1 / 2) 0 7.
Lemma simpleSolid_facts : hp_ka simpleSolid = 1 /\ hp_kb simpleSolid = 5 / 1000000000000 /\ hp_kc simpleSolid = 2.
Proof. unfold hp_ka, hp_kb, hp_kc; simpl. repeat split; field. Qed.
Lemma simpleSolid_valid : hp_valid simpleSolid.
Proof. destruct simpleSolid_facts as (A & B & C). right. rewrite B, C. simpl. repeat split; lra. Qed.

Theorem C81_refuted : ~ C81_statement.
Proof.
  intros [_ H]. destruct simpleSolid_facts as (A & B & C). destruct (H _ simpleSolid_valid) as [E _].
  assert (Hk : hp_kappa0 simpleSolid <> 0) by (simpl; lra).
  destruct (C81_compressible_partial simpleSolid Hk) as [E2 _]. rewrite E in E2.
  destruct (hp_Pth_derive simpleSolid) as [E0 _]; simpl; try lra.
  rewrite hp_VdP_form in E2; rewrite ?B, ?C; try (unfold Pr; lra).
  rewrite A, B, C, E0 in E2. replace (1 - 2) with (- (1)) in E2 by ring. rewrite !Rpower_Ropp, !Rpower_1 in E2 by (unfold Pr; lra).
  change (hp_Vr simpleSolid) with (44 / 1000000) in E2. unfold Pr in E2.
  assert (E3 : / (1 - 5 / 1000000000000 * 0) = 1) by (field_simplify_eq; lra). rewrite E3 in E2.
  assert (L : / (1 + 5 / 1000000000000 * (100000 - 0)) < 1).
  { rewrite <- Rinv_1 at 2. apply Rinv_lt_contravar; lra. }
  nra.
Qed.
Print Assumptions C81_refuted.

Example C81_nonvacuous : hp_valid simpleSolid /\ hp_kappa0 simpleSolid <> 0 /\
  hp_kappa0 (mkHP 1 2 3 4 5 6 7 8 9 0 0 0 0) = 0.
Proof. split; [exact simpleSolid_valid|]. split; simpl; lra. Qed.

(* ---- C82 ---- *)
(* ThermoProps.cpp:173-176 and ChemicalProps.cpp:358-361: standardEntropies(). *)
Definition reportedEntropy (r : StdProps) (T : R) : R := (H0 r - G0 r) / T.
Definition C82_statement : Prop := forall Vr0 p T P, 0 < T ->
  EntropyOf (fun T => G0 (stdMaierKelley Vr0 p T P)) (fun T => reportedEntropy (stdMaierKelley Vr0 p T P) T) T.

(* The reported entropy is the entropy exactly when the formation properties of the
   table are those of the substance itself. *)
Theorem C82_partial : forall Vr0 p T P, 0 < T ->
  (EntropyOf (fun T => G0 (stdMaierKelley Vr0 p T P)) (fun T => reportedEntropy (stdMaierKelley Vr0 p T P) T) T <->
   mk_Hf p - mk_Gf p = Tr * mk_Sr p).
Proof.
  intros Vr0 p T P HT.
  destruct p as [Gf Hf Sr Vr a b c] eqn:Ep. pose proof Tr_pos as HTr. assert (HT0 : T <> 0) by lra. assert (HTr0 : Tr <> 0) by lra.
  assert (D : is_derive (fun T => G0 (stdMaierKelley Vr0 (mkMK Gf Hf Sr Vr a b c) T P)) T (- mk_S (mkMK Gf Hf Sr Vr a b c) T)).
  { destruct (C47_maier_kelley_partial Vr0 (mkMK Gf Hf Sr Vr a b c)) as (S & _ & _).
    assert (Hq : 0 < T / Tr) by (apply Rdiv_lt_0_compat; auto). assert (HTT : T * T <> 0) by (nz; auto).
    unfold mk_S; simpl. auto_derive; [repeat split; auto|]. change (T * / Tr) with (T / Tr). generalize (ln (T / Tr)). intros. field; auto. }
  assert (E : reportedEntropy (stdMaierKelley Vr0 (mkMK Gf Hf Sr Vr a b c) T P) T = mk_S (mkMK Gf Hf Sr Vr a b c) T + (Hf - Gf - Tr * Sr) / T).
  { unfold reportedEntropy, mk_S; simpl. generalize (ln (T / Tr)). intros l. field; auto. }
  unfold EntropyOf. simpl mk_Hf. simpl mk_Gf. simpl mk_Sr. split; intros H.
  - pose proof (eq_trans (eq_sym (is_derive_unique _ _ _ H)) (is_derive_unique _ _ _ D)) as DD. cbv beta in DD. rewrite E in DD.
    assert (Z : (Hf - Gf - Tr * Sr) / T = 0) by lra.
    assert (Z2 : Hf - Gf - Tr * Sr = (Hf - Gf - Tr * Sr) / T * T) by (field; auto). rewrite Z in Z2. lra.
  - rewrite E. replace (Hf - Gf - Tr * Sr) with 0 by lra. replace (mk_S (mkMK Gf Hf Sr Vr a b c) T + 0 / T) with (mk_S (mkMK Gf Hf Sr Vr a b c) T) by (field; auto).
    exact D.
Qed.
Print Assumptions C82_partial.

(* Formation values of water vapour from its elements, in J/mol and J/(mol K). *)
Definition steam : MaierKelley := mkMK (-228131) (-241358) (18883 / 100) 0 (3054 / 100) (1029 / 100000) 0.
Theorem C82_refuted : ~ C82_statement.
Proof.
  intros H. pose proof (proj1 (C82_partial 0 steam 300 Pr ltac:(lra)) (H 0 steam 300 Pr ltac:(lra))) as E. simpl in E. unfold Tr in E. lra.
Qed.
Print Assumptions C82_refuted.
Example C82_nonvacuous : mk_Hf (mkMK 0 (Tr * 2) 2 0 3 0 0) - mk_Gf (mkMK 0 (Tr * 2) 2 0 3 0 0) = Tr * mk_Sr (mkMK 0 (Tr * 2) 2 0 3 0 0).
Proof. simpl. ring. Qed.
