(* Lemmas about activity models: closed forms and the Gibbs-Duhem equation. *)
From Coq Require Import Reals Qreals List Bool Lia Lra Permutation Sorting.
From Coquelicot Require Import Coquelicot.
Import ListNotations.
From Verif Require Import Base M_Strings M_Formula M_Chem M_Algorithms M_System M_Registry P_Algorithms P_Chem M_CubicEOS P_Helmholtz P_CubicEOS M_Aqueous S_Activity P_Aqueous.
Local Open Scope R_scope.

Lemma set_at_same a i v : set_at a i v i = v.
Proof. unfold set_at. rewrite Nat.eqb_refl. reflexivity. Qed.
Lemma set_at_other a i v j : j <> i -> set_at a i v j = a j.
Proof. intros H. unfold set_at. apply Nat.eqb_neq in H. rewrite H. reflexivity. Qed.

Definition one_at (k i : nat) : R := if Nat.eqb i k then 1 else 0.
Lemma Sum_one n k c : (k < n)%nat -> Sum n (fun i => one_at k i * c) = c.
Proof.
  induction n as [|n IH]; intros H; [lia|]. cbn [Sum]. unfold one_at at 2. destruct (Nat.eqb_spec n k) as [->|N].
  - rewrite (Sum_ext k _ (fun _ => 0 * 0)); [rewrite Sum_scal; ring|]. intros i Hi. unfold one_at. destruct (Nat.eqb_spec i k); [lia|ring].
  - rewrite IH by lia. ring.
Qed.

(* ---- Ionic strengths ---- *)
Lemma strengths reactions rho eps l mx m : mkAqueousMixture reactions rho eps l = Ok mx ->
  stoichiometricIonicStrength mx (stoichiometricMolalities mx m) = effectiveIonicStrength mx m +
  0.5 * Sum (length (mx_neutral mx)) (fun i => m (nth i (mx_neutral mx) O) *
    Sum (length (mx_charged mx)) (fun j => charge_at l (nth j (mx_charged mx) O) * charge_at l (nth j (mx_charged mx) O) * Q2R (mx_D mx i j))).
Proof.
  intros H. unfold stoichiometricIonicStrength, effectiveIonicStrength. destruct (mx_inv _ _ _ _ _ H) as (_ & -> & _).
  rewrite (Sum_mixture _ _ _ _ _ (fun i => charge_at l i * charge_at l i * m i) H).
  rewrite (water_uncharged _ _ _ _ _ H).
  rewrite (Sum_ext (length (mx_neutral mx)) (fun i => charge_at l (nth i (mx_neutral mx) 0%nat) * charge_at l (nth i (mx_neutral mx) 0%nat) * m (nth i (mx_neutral mx) 0%nat)) (fun _ => 0 * 0)).
  2: { intros k Hk. destruct (neutral_eq _ _ _ _ _ H (nth k (mx_neutral mx) 0%nat)) as (_ & -> & _); [apply nth_In; exact Hk|ring]. }
  rewrite Sum_scal.
  rewrite (Sum_ext (length (mx_neutral mx)) (fun i => m (nth i (mx_neutral mx) 0%nat) * _) (fun i => Sum (length (mx_charged mx)) (fun j => charge_at l (nth j (mx_charged mx) 0%nat) * charge_at l (nth j (mx_charged mx) 0%nat) * (Q2R (mx_D mx i j) * m (nth i (mx_neutral mx) 0%nat))))).
  2: { intros k Hk. rewrite <- Sum_scal. apply Sum_ext. intros j Hj. ring. }
  rewrite Sum_swap. unfold stoichiometricMolalities.
  rewrite (Sum_ext (length (mx_charged mx)) (fun j => _ * (_ + _)) (fun j => charge_at l (nth j (mx_charged mx) 0%nat) * charge_at l (nth j (mx_charged mx) 0%nat) * m (nth j (mx_charged mx) 0%nat) +
    Sum (length (mx_neutral mx)) (fun i => charge_at l (nth j (mx_charged mx) 0%nat) * charge_at l (nth j (mx_charged mx) 0%nat) * (Q2R (mx_D mx i j) * m (nth i (mx_neutral mx) 0%nat))))).
  2: { intros j Hj. rewrite Sum_scal. ring. }
  rewrite Sum_add. ring.
Qed.

(* ---- Residuals ---- *)
Lemma gives_det f T P p x a b : gives f T P p x a -> gives f T P p x b -> forall i, a i = b i.
Proof. intros (q & e & E & H) (q' & e' & E' & H') i. rewrite E in E'. injection E' as <- _. rewrite <- H, <- H'. reflexivity. Qed.
Lemma residual_unique f n T P p path t r r' : duhem_residual f n T P p path t r -> duhem_residual f n T P p path t r' -> r = r'.
Proof.
  intros (a & d & L & D & <-) (a' & d' & L' & D' & <-). apply Sum_ext. intros i Hi. f_equal.
  assert (E : is_derive (fun s => a s i) t (d' i)).
  { apply (is_derive_ext_loc (fun s => a' s i)); [|apply D'; exact Hi]. apply (filter_imp (fun s => gives f T P p (path s) (a s) /\ gives f T P p (path s) (a' s))).
    - intros s [G G']. exact (eq_sym (gives_det _ _ _ _ _ _ _ G G' i)).
    - apply filter_and; assumption. }
  rewrite <- (is_derive_unique _ _ _ E). symmetry. apply is_derive_unique, D. exact Hi.
Qed.
Lemma sum_constant n path path' t : composition_path n path path' t -> Sum n path' = 0.
Proof.
  intros (_ & D & C). assert (E : is_derive (fun s => Sum n (path s)) t (Sum n path')) by (apply (d_Sum n (fun k s => path s k)); exact D).
  apply is_derive_unique in E. rewrite <- E. apply is_derive_unique. apply (is_derive_ext_loc (fun _ => 1)); [|apply d_const].
  apply (filter_imp (fun s => Sum n (path s) = 1)); [intros s H; symmetry; exact H|exact C].
Qed.

(* ---- Ideal models ---- *)
Lemma logs_residual f n T P p path path' t c : composition_path n path path' t ->
  (forall s, gives f T P p (path s) (fun i => ln (path s i) + c)) -> GibbsDuhem f n T P p path t.
Proof.
  intros C G. exists (fun s i => ln (path s i) + c), (fun i => path' i / path t i). split; [apply filter_forall; exact G|]. split.
  - intros i Hi. destruct C as (Hp & D & _). eapply d_val; [apply d_add; [apply d_ln; [apply D; exact Hi|apply Hp; exact Hi]|apply d_const]|]. cbv beta. field. specialize (Hp i Hi). lra.
  - rewrite (Sum_ext n _ path'); [exact (sum_constant _ _ _ _ C)|]. intros i Hi. destruct C as (Hp & _). specialize (Hp i Hi). field. lra.
Qed.
Lemma idealSolution_duhem n T P p path path' t : composition_path n path path' t -> GibbsDuhem idealSolution n T P p path t.
Proof.
  intros C. apply (logs_residual _ _ _ _ _ _ path' _ 0 C). intros s. eexists _, _. split; [reflexivity|]. intros i. cbn. ring.
Qed.
Lemma idealGas_duhem n T P p path path' t : composition_path n path path' t -> GibbsDuhem idealGas n T P p path t.
Proof.
  intros C. apply (logs_residual _ _ _ _ _ _ path' _ (ln (P * 1.0e-5)) C). intros s. eexists _, _. split; [reflexivity|]. reflexivity.
Qed.

(* ---- Solutions ---- *)
Definition Mw : R := 0.018015268.
Lemma Mw_pos : 0 < Mw. Proof. unfold Mw. lra. Qed.
Lemma Mw_eq : waterMolarMass = Mw. Proof. reflexivity. Qed.
Definition water_fraction (n w : nat) (m : nat -> R) (t : R) : R := 1 / (1 + Mw * (t * Sum n (solutes w m))).
Lemma solutes_scal n w m t : Sum n (solutes w (fun i => t * m i)) = t * Sum n (solutes w m).
Proof. rewrite <- Sum_scal. apply Sum_ext. intros i _. unfold solutes. destruct (Nat.eqb i w); ring. Qed.
Lemma dilution_water n w m t : dilution n w m t w = water_fraction n w m t.
Proof. unfold dilution, solution. rewrite Nat.eqb_refl, solutes_scal. reflexivity. Qed.
Lemma dilution_solute n w m t i : i <> w -> dilution n w m t i = Mw * (t * m i) * water_fraction n w m t.
Proof. intros H. apply Nat.eqb_neq in H. unfold dilution, solution. rewrite H, solutes_scal. reflexivity. Qed.
Lemma water_fraction_pos n w m t : (forall i, (i < n)%nat -> i <> w -> 0 <= m i) -> 0 < t -> 0 < water_fraction n w m t /\ 0 < 1 + Mw * (t * Sum n (solutes w m)).
Proof.
  intros H Ht. assert (S0 : 0 <= Sum n (solutes w m)) by (apply Sum_nonneg; intros k Hk; unfold solutes; destruct (Nat.eqb_spec k w); [lra|apply H; assumption]).
  pose proof Mw_pos. assert (0 <= Mw * (t * Sum n (solutes w m))) by (apply Rmult_le_pos; [lra|apply Rmult_le_pos; lra]).
  unfold water_fraction. split; [|lra]. apply Rdiv_lt_0_compat; lra.
Qed.
Lemma molalities_dilution n w m t i : (forall i, (i < n)%nat -> i <> w -> 0 <= m i) -> 0 < t -> i <> w -> molalities w (dilution n w m t) i = t * m i.
Proof.
  intros H Ht Hi. unfold molalities. rewrite dilution_water. destruct (water_fraction_pos n w m t H Ht) as [Hw _]. destruct (Req_EM_T (water_fraction n w m t) 0); [lra|].
  rewrite dilution_solute by exact Hi. rewrite Mw_eq. pose proof Mw_pos. field. lra.
Qed.
Lemma d_water_fraction n w m t : 0 < 1 + Mw * (t * Sum n (solutes w m)) ->
  is_derive (fun s => ln (water_fraction n w m s)) t (- Mw * Sum n (solutes w m) * water_fraction n w m t).
Proof.
  intros H. unfold water_fraction. assert (0 < 1 / (1 + Mw * (t * Sum n (solutes w m)))) by (apply Rdiv_lt_0_compat; lra).
  eapply d_val; [apply d_ln; [apply d_div; [apply d_const|apply d_add; [apply d_const|apply d_mul; [apply d_const|apply d_mul; [apply d_id|apply d_const]]]|lra]|exact H0]|].
  cbv beta. field. lra.
Qed.
Lemma idealAqueous_residual l f w T P p m t : idealAqueous l = Ok f -> indexWithFormula l $"H2O" = Ok w ->
  (forall i, (i < length l)%nat -> i <> w -> 0 < m i) -> 0 < t ->
  duhem_residual f (length l) T P p (dilution (length l) w m) t
    (Mw * Sum (length l) (solutes w m) * (water_fraction (length l) w m t * (1 - water_fraction (length l) w m t))).
Proof.
  intros Hf Hw Hm Ht. unfold idealAqueous in Hf. rewrite Hw in Hf. cbn [omap bind] in Hf. injection Hf as <-. set (n := length l) in *.
  assert (Hn : (w < n)%nat).
  { revert Hw. unfold indexWithFormula. destruct (mkChemicalFormula $"H2O"); [|discriminate|discriminate]. cbn [bind]. fold n. destruct (Nat.leb_spec n (findWithFormula l a)); [discriminate|]. intros E. injection E as <-. assumption. }
  assert (Hm' : forall i, (i < n)%nat -> i <> w -> 0 <= m i) by (intros; apply Rlt_le, Hm; assumption).
  exists (fun s => set_at (fun i => ln (s * m i)) w (ln (water_fraction n w m s))), (set_at (fun i => / t) w (- Mw * Sum n (solutes w m) * water_fraction n w m t)).
  split; [|split].
  - apply (filter_imp (fun s => 0 < s)); [|exact (open_gt 0 t Ht)]. intros s Hs. eexists _, _. split; [reflexivity|]. intros i. cbn. unfold set_at. destruct (Nat.eqb_spec i w) as [->|N].
    + rewrite dilution_water. reflexivity.
    + f_equal. pose proof (molalities_dilution n w m s i Hm' Hs N) as E. unfold molalities in E. rewrite dilution_water in *.
      destruct (Req_EM_T (water_fraction n w m s) 0) as [Z|_]; [|exact E]. destruct (water_fraction_pos n w m s Hm' Hs). lra.
  - intros i Hi. unfold set_at. destruct (Nat.eqb_spec i w) as [->|N].
    + apply d_water_fraction. apply (water_fraction_pos n w m t Hm' Ht).
    + eapply d_val; [apply d_ln; [apply d_mul; [apply d_id|apply d_const]|]|].
      * apply Rmult_lt_0_compat; [exact Ht|apply Hm; assumption].
      * cbv beta. specialize (Hm i Hi N). field. lra.
  - set (F := water_fraction n w m t). set (M := Sum n (solutes w m)).
    rewrite (Sum_ext n _ (fun i => one_at w i * (- Mw * M * F * F) + Mw * F * solutes w m i)).
    + rewrite Sum_add, Sum_scal, Sum_one by exact Hn. fold M. ring.
    + intros i Hi. unfold set_at, solutes, one_at. destruct (Nat.eqb_spec i w) as [->|N]; [rewrite dilution_water; fold F; ring|]. rewrite dilution_solute by exact N. fold F. field. lra.
Qed.
