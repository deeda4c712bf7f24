(* Redlich-Kister, Debye-Hueckel and HKF activity models: closed forms and the
   Gibbs-Duhem equation. *)
From Coq Require Import Reals Qreals List Bool Lia Lra.
From Coquelicot Require Import Coquelicot.
Import ListNotations.
From Verif Require Import Base M_Strings M_Chem M_System M_Registry M_CubicEOS P_Helmholtz P_CubicEOS M_Aqueous S_Activity P_Aqueous P_Activity.
Local Open Scope R_scope.

(* ---- Redlich-Kister ---- *)
Definition rk1 (a0 a1 a2 x1 x2 : R) : R := x2 * x2 * (a0 + a1 * (3 * x1 - x2) + a2 * (x1 - x2) * (5 * x1 - x2)).
Definition rk2 (a0 a1 a2 x1 x2 : R) : R := x1 * x1 * (a0 - a1 * (3 * x2 - x1) + a2 * (x2 - x1) * (5 * x2 - x1)).
Lemma redlichKister_duhem a0 a1 a2 l f T P p path path' t : redlichKister a0 a1 a2 l = Ok f ->
  composition_path (length l) path path' t -> GibbsDuhem f (length l) T P p path t.
Proof.
  unfold redlichKister. destruct (Nat.eqb_spec (length l) 2) as [E|]; [|discriminate]. intros Hf C. injection Hf as <-. rewrite E in *.
  pose proof (sum_constant _ _ _ _ C) as S'. destruct C as (Hp & D & L). apply locally_singleton in L. cbn in S', L.
  pose proof (Hp 0%nat ltac:(lia)) as P0. pose proof (Hp 1%nat ltac:(lia)) as P1. pose proof (D 0%nat ltac:(lia)) as D0. pose proof (D 1%nat ltac:(lia)) as D1.
  set (x1 := path t 0%nat) in *. set (x2 := path t 1%nat) in *. set (u := path' 0%nat) in *.
  assert (E2 : path' 1%nat = - u) by lra. rewrite E2 in D1.
  exists (fun s => set_at (set_at (fun i => ln_g (fst p) i + ln (path s i)) 0 (rk1 a0 a1 a2 (path s 0%nat) (path s 1%nat) + ln (path s 0%nat))) 1 (rk2 a0 a1 a2 (path s 0%nat) (path s 1%nat) + ln (path s 1%nat))).
  exists (fun i => match i with
    | O => 2 * x2 * (- u) * (a0 + a1 * (3 * x1 - x2) + a2 * (x1 - x2) * (5 * x1 - x2)) + x2 * x2 * (a1 * (4 * u) + a2 * (2 * u * (5 * x1 - x2) + (x1 - x2) * (6 * u))) + u / x1
    | _ => 2 * x1 * u * (a0 - a1 * (3 * x2 - x1) + a2 * (x2 - x1) * (5 * x2 - x1)) + x1 * x1 * (a1 * (4 * u) + a2 * (- 2 * u * (5 * x2 - x1) + (x2 - x1) * (- 6 * u))) + - u / x2
    end).
  split; [|split].
  - apply filter_forall. intros s. eexists _, _. split; [reflexivity|]. intros [|[|i]]; cbn; reflexivity.
  - intros [|[|i]] Hi; [| |lia]; cbn.
    + unfold rk1. eapply d_val; [apply d_add; [apply d_mul; [apply d_mul; exact D1|apply d_add; [apply d_add; [apply d_const|apply d_mul; [apply d_const|apply d_sub; [apply d_mul; [apply d_const|exact D0]|exact D1]]]|
        apply d_mul; [apply d_mul; [apply d_const|apply d_sub; [exact D0|exact D1]]|apply d_sub; [apply d_mul; [apply d_const|exact D0]|exact D1]]]]|apply d_ln; [exact D0|exact P0]]|].
      cbv beta. fold x1 x2. field. lra.
    + unfold rk2. eapply d_val; [apply d_add; [apply d_mul; [apply d_mul; exact D0|apply d_add; [apply d_sub; [apply d_const|apply d_mul; [apply d_const|apply d_sub; [apply d_mul; [apply d_const|exact D1]|exact D0]]]|
        apply d_mul; [apply d_mul; [apply d_const|apply d_sub; [exact D1|exact D0]]|apply d_sub; [apply d_mul; [apply d_const|exact D1]|exact D0]]]]|apply d_ln; [exact D1|exact P1]]|].
      cbv beta. fold x1 x2. field. lra.
  - cbn. fold x1 x2. assert (Ex : x2 = 1 - x1) by lra. clearbody x1 x2. subst x2. field. lra.
Qed.
Lemma redlichKister_sum a0 a1 a2 l f T P p x : redlichKister a0 a1 a2 l = Ok f -> 0 < T -> x 0%nat + x 1%nat = 1 ->
  exists q e, f T P x p = Ok (q, e) /\ Sum 2 (fun i => x i * ln_g q i) = Gex q / (gasR * T) /\ Hex q = Gex q /\
  Gex q = gasR * T * (x 0%nat * x 1%nat * (a0 + a1 * (x 0%nat - x 1%nat) + a2 * (x 0%nat - x 1%nat) ^ 2)) /\ (forall i, ln_a q i = ln_g q i + ln (x i)).
Proof.
  unfold redlichKister. destruct (Nat.eqb_spec (length l) 2) as [E|]; [|discriminate]. intros Hf Ht Hx. injection Hf as <-.
  eexists _, _. split; [reflexivity|]. cbn [Sum ln_g Gex Hex ln_a]. split; [|split; [reflexivity|split; [ring|reflexivity]]].
  cbn. pose proof gasR_pos. set (x1 := x 0%nat) in *. set (x2 := x 1%nat) in *. clearbody x1 x2. assert (x2 = 1 - x1) as -> by lra. field. lra.
Qed.

(* ---- Loops over ions ---- *)
(* One step of a loop that sets the values of the species at position i and adds
   to the value of water. *)
Definition ion_step (ks : list nat) (w : nat) (v u c : nat -> R) (acc : (nat -> R) * (nat -> R)) (i : nat) : (nat -> R) * (nat -> R) :=
  let k := nth i ks O in
  let a := set_at (snd acc) k (u i) in
  (set_at (fst acc) k (v i), set_at a w (a w + c i)).
Lemma ion_loop ks w v u c g0 a0 : NoDup ks -> ~ In w ks -> forall n, (n <= length ks)%nat ->
  let r := fold_left (ion_step ks w v u c) (seq 0 n) (g0, a0) in
  (forall j, (j < n)%nat -> fst r (nth j ks O) = v j /\ snd r (nth j ks O) = u j) /\ snd r w = a0 w + Sum n c /\ fst r w = g0 w /\
  (forall k, k <> w -> ~ In k ks -> fst r k = g0 k /\ snd r k = a0 k).
Proof.
  intros Nd Nw. induction n as [|n IH]; intros Hn.
  - cbn. split; [intros j H; lia|]. split; [ring|]. auto.
  - specialize (IH ltac:(lia)). rewrite seq_S, fold_left_app. cbn [fold_left]. set (r := fold_left _ (seq 0 n) _) in *. cbn zeta in IH. destruct IH as (IH1 & IH2 & IH3 & IH4).
    cbn zeta. unfold ion_step. cbn [fst snd]. rewrite Nat.add_0_l. set (k := nth n ks O).
    assert (Hk : In k ks) by (apply nth_In; lia). assert (Kw : w <> k) by (intros ->; exact (Nw Hk)). split; [|split; [|split]].
    + intros j Hj. assert (Jw : nth j ks O <> w) by (intros E; apply Nw; rewrite <- E; apply nth_In; lia).
      rewrite (set_at_other _ w) by exact Jw. destruct (Nat.eq_dec j n) as [->|N]; [fold k; rewrite !set_at_same; auto|].
      assert (nth j ks O <> k). { intros E. apply N. eapply NoDup_nth; [exact Nd|lia|lia|exact E]. }
      rewrite !set_at_other by assumption. apply IH1. lia.
    + rewrite set_at_same, set_at_other by exact Kw. rewrite IH2. cbn [Sum]. ring.
    + rewrite set_at_other by exact Kw. exact IH3.
    + intros i Hi Ni. assert (i <> k) by (intros ->; exact (Ni Hk)). rewrite (set_at_other _ w) by exact Hi. rewrite !set_at_other by assumption. apply IH4; assumption.
Qed.
Lemma fold_ext {A B} (f g : A -> B -> A) l : (forall a b, In b l -> f a b = g a b) -> forall a, fold_left f l a = fold_left g l a.
Proof. induction l as [|b l IH]; intros H a; [reflexivity|]. cbn. rewrite H by (left; reflexivity). apply IH. intros. apply H. right. assumption. Qed.

(* ---- Debye-Hueckel ---- *)
(* The logarithm of the activity coefficient of an ion. *)
Definition dh_lng (A B a b z I : R) : R := ln10 * (- A * z * z * sqrt I / dh_Lambda a B (sqrt I) + b * I).
(* What an ion adds to the activity of water, besides its molality times its
   coefficient. *)
Definition dh_extra (A B a b z I : R) : R :=
  2 / 3 * A * I * sqrt I * dh_sigma a (dh_Lambda a B (sqrt I)) * ln10 - I * I * b / (z * z) * ln10.
Section DH.
Variables (reactions : list Dissociation) (rho eps : R -> R -> R) (l : list Species) (mx : Mixture).
Hypothesis Hmx : mkAqueousMixture reactions rho eps l = Ok mx.
Let w := mx_water mx.
Variables (aions bions bneutral : list R) (T P : R) (p : Props * Extra).
Let A := dh_A (rho T P / 1000) T (eps T P).
Let B := dh_B (rho T P / 1000) T (eps T P).
Definition za (j : nat) : R := charge_at l (nth j (mx_charged mx) O).

Lemma dh_closed x : let st := mixtureState mx T P x in let I := st_Is st in
  exists q, dh_fn mx aions bions bneutral T P x p = Ok (q, Some (mx, st)) /\
  (forall j, (j < length (mx_charged mx))%nat ->
     ln_g q (nth j (mx_charged mx) O) = dh_lng A B (nth j aions 0) (nth j bions 0) (za j) I /\
     ln_a q (nth j (mx_charged mx) O) = dh_lng A B (nth j aions 0) (nth j bions 0) (za j) I + ln (st_m st (nth j (mx_charged mx) O))) /\
  (forall j, (j < length (mx_neutral mx))%nat -> ln_g q (nth j (mx_neutral mx) O) = ln10 * nth j bneutral 0 * I /\
     ln_a q (nth j (mx_neutral mx) O) = ln10 * nth j bneutral 0 * I + ln (st_m st (nth j (mx_neutral mx) O))) /\
  ln_a q w = - waterMolarMass * (1 / waterMolarMass * (1 - x w) / x w + Sum (length (mx_charged mx)) (fun j =>
     st_ms st j * dh_lng A B (nth j aions 0) (nth j bions 0) (za j) I + dh_extra A B (nth j aions 0) (nth j bions 0) (za j) I)) /\
  ln_g q w = ln_a q w - ln (x w).
Proof.
  intros st I. destruct (mx_inv _ _ _ _ _ Hmx) as (_ & Es & _ & _ & _ & _ & _ & Er & Ee).
  assert (HA : dh_A (st_rho st / 1000) T (st_epsilon st) = A) by (unfold st, mixtureState; cbn; rewrite Er, Ee; reflexivity).
  assert (HB : dh_B (st_rho st / 1000) T (st_epsilon st) = B) by (unfold st, mixtureState; cbn; rewrite Er, Ee; reflexivity).
  unfold dh_fn. fold st. cbn zeta. rewrite HA, HB. fold w.
  set (nc := length (mx_charged mx)).
  pose (v := fun j => dh_lng A B (nth j aions 0) (nth j bions 0) (za j) I).
  pose (u := fun j => v j + ln (st_m st (nth j (mx_charged mx) O))).
  pose (c := fun j => st_ms st j * v j + dh_extra A B (nth j aions 0) (nth j bions 0) (za j) I).
  rewrite (fold_ext _ (ion_step (mx_charged mx) w v u c)).
  2: { intros [g a] j _. unfold dh_ion, ion_step. cbn [fst snd]. rewrite set_at_same, Es. fold I. fold w. f_equal.
       fold (za j). unfold u, c. change (ln10 * (- A * za j * za j * sqrt I / dh_Lambda (nth j aions 0) B (sqrt I) + nth j bions 0 * I)) with (v j).
       f_equal. f_equal. unfold dh_extra. ring. }
  assert (Nw : ~ In w (mx_charged mx)) by (intros H; apply (charged_neq _ _ _ _ _ Hmx) in H; apply (proj1 H); reflexivity).
  pose proof (ion_loop (mx_charged mx) w v u c (ln_g (fst p)) (set_at (ln_a (fst p)) w (1 / waterMolarMass * (1 - x w) / x w)) (charged_nodup _ _ _ _ _ Hmx) Nw nc (le_n _)) as L.
  cbn zeta in L. destruct (fold_left (ion_step (mx_charged mx) w v u c) (seq 0 nc) _) as [g a]. cbn [fst snd] in L. destruct L as (L1 & L2 & L3 & L4).
  rewrite set_at_same in L2. rewrite set_at_same.
  set (a1 := set_at a w (a w * (-1 / (1 / waterMolarMass)))). set (g1 := set_at g w (a w * (-1 / (1 / waterMolarMass)) - ln (x w))).
  pose (v' := fun j => ln10 * nth j bneutral 0 * I). pose (u' := fun j => v' j + ln (st_m st (nth j (mx_neutral mx) O))).
  set (nn := length (mx_neutral mx)).
  assert (Nn : ~ In w (mx_neutral mx)) by (intros H; apply (neutral_eq _ _ _ _ _ Hmx) in H; apply (proj1 H); reflexivity).
  (* the same loop, without anything added for water *)
  assert (L' : forall n, (n <= nn)%nat -> let r := fold_left (dh_neutral mx st bneutral) (seq 0 n) (g1, a1) in
    (forall j, (j < n)%nat -> fst r (nth j (mx_neutral mx) O) = v' j /\ snd r (nth j (mx_neutral mx) O) = u' j) /\ (forall k, ~ In k (mx_neutral mx) -> fst r k = g1 k /\ snd r k = a1 k)).
  { induction n as [|n IH]; intros Hn; [split; [intros; lia|auto]|]. specialize (IH ltac:(lia)). rewrite seq_S, fold_left_app. cbn [fold_left]. cbn zeta in IH |- *.
    destruct (fold_left (dh_neutral mx st bneutral) (seq 0 n) (g1, a1)) as [g2 a2]. cbn [fst snd] in IH. destruct IH as [IH1 IH2]. unfold dh_neutral. cbn [fst snd]. rewrite Nat.add_0_l. set (k := nth n (mx_neutral mx) O).
    assert (Hk : In k (mx_neutral mx)) by (apply nth_In; unfold nn in Hn; lia). split.
    - intros j Hj. destruct (Nat.eq_dec j n) as [->|N]; [fold k; rewrite !set_at_same; auto|].
      assert (nth j (mx_neutral mx) O <> k). { intros E. apply N. eapply NoDup_nth; [exact (neutral_nodup _ _ _ _ _ Hmx)|unfold nn in Hn; lia|unfold nn in Hn; lia|exact E]. }
      rewrite !set_at_other by assumption. apply IH1. lia.
    - intros i Ni. assert (i <> k) by (intros ->; exact (Ni Hk)). rewrite !set_at_other by assumption. apply IH2. exact Ni. }
  specialize (L' nn (le_n _)). cbn zeta in L'. destruct (fold_left (dh_neutral mx st bneutral) (seq 0 nn) (g1, a1)) as [g2 a2]. cbn [fst snd] in L'. destruct L' as [M1 M2].
  eexists. split; [reflexivity|]. cbn [ln_g ln_a with_a with_g]. split; [|split; [|split]].
  - intros j Hj. set (k := nth j (mx_charged mx) O). assert (Hk : In k (mx_charged mx)) by (apply nth_In; exact Hj).
    assert (Kn : ~ In k (mx_neutral mx)). { intros H. apply (neutral_eq _ _ _ _ _ Hmx) in H. apply (charged_neq _ _ _ _ _ Hmx) in Hk. tauto. }
    assert (Kw : k <> w) by (intros E; apply Nw; rewrite <- E; exact Hk).
    destruct (M2 k Kn) as [-> ->]. unfold g1, a1. rewrite !set_at_other by exact Kw. destruct (L1 j Hj) as [E1 E2]. fold k in E1, E2. rewrite E1, E2. split; reflexivity.
  - intros j Hj. destruct (M1 j Hj) as [-> ->]. split; reflexivity.
  - destruct (M2 w Nn) as [_ ->]. unfold a1. rewrite set_at_same, L2. unfold c, v.
    replace (-1 / (1 / waterMolarMass)) with (- waterMolarMass) by (rewrite Mw_eq; pose proof Mw_pos; field; lra). apply Rmult_comm.
  - destruct (M2 w Nn) as [-> ->]. unfold g1, a1. rewrite !set_at_same. reflexivity.
Qed.
End DH.

(* ---- Solutions of ions only ---- *)
Fixpoint position (ks : list nat) (i : nat) : nat := match ks with [] => O | k :: ks' => if Nat.eqb k i then O else S (position ks' i) end.
Lemma position_nth ks : NoDup ks -> forall j, (j < length ks)%nat -> position ks (nth j ks O) = j.
Proof.
  induction 1 as [|k ks Hk _ IH]; intros j Hj; [cbn in Hj; lia|]. destruct j as [|j]; cbn; [rewrite Nat.eqb_refl; reflexivity|]. cbn in Hj.
  destruct (Nat.eqb_spec k (nth j ks O)) as [E|_]; [exfalso; apply Hk; rewrite E; apply nth_In; lia|]. rewrite IH by lia. reflexivity.
Qed.
Section Ions.
Variables (reactions : list Dissociation) (rho eps : R -> R -> R) (l : list Species) (mx : Mixture).
Hypothesis Hmx : mkAqueousMixture reactions rho eps l = Ok mx.
Hypothesis Hneutral : mx_neutral mx = [].
Variable m : nat -> R.
Let w := mx_water mx.
Let n := length l.
Let nc := length (mx_charged mx).
Hypothesis Hm : forall i, (i < n)%nat -> i <> w -> 0 < m i.
Definition ion_m (j : nat) : R := m (nth j (mx_charged mx) O).
Definition ion_z (j : nat) : R := charge_at l (nth j (mx_charged mx) O).
Definition ion_I : R := 0.5 * Sum nc (fun j => ion_z j * ion_z j * ion_m j).
Let xw := water_fraction n w m.

Lemma ion_m_pos j : (j < nc)%nat -> 0 < ion_m j.
Proof.
  intros Hj. destruct (charged_neq _ _ _ _ _ Hmx (nth j (mx_charged mx) O)) as (H & _ & K); [apply nth_In; exact Hj|]. apply Hm; assumption.
Qed.
Lemma ion_z_neq j : (j < nc)%nat -> ion_z j <> 0.
Proof. intros Hj. destruct (charged_neq _ _ _ _ _ Hmx (nth j (mx_charged mx) O)) as (_ & H & _); [apply nth_In; exact Hj|exact H]. Qed.
Lemma Hm' : forall i, (i < n)%nat -> i <> w -> 0 <= m i.
Proof. intros. apply Rlt_le, Hm; assumption. Qed.
Lemma total_solutes : Sum n (solutes w m) = Sum nc ion_m.
Proof.
  unfold n. rewrite (Sum_mixture _ _ _ _ _ _ Hmx), Hneutral. cbn [length Sum]. fold w. unfold solutes at 1. rewrite Nat.eqb_refl, !Rplus_0_l.
  apply Sum_ext. intros j Hj. destruct (charged_neq _ _ _ _ _ Hmx (nth j (mx_charged mx) O)) as (H & _); [apply nth_In; exact Hj|]. unfold solutes. apply Nat.eqb_neq in H. fold w in H. rewrite H. reflexivity.
Qed.
Lemma ion_I_pos j : (j < nc)%nat -> 0 < ion_I.
Proof.
  intros Hj. unfold ion_I. assert (0 < Sum nc (fun j => ion_z j * ion_z j * ion_m j)); [|lra]. assert (H : forall k, (k < nc)%nat -> 0 < ion_z k * ion_z k * ion_m k).
  { intros k Hk. apply Rmult_lt_0_compat; [|apply ion_m_pos; exact Hk]. pose proof (ion_z_neq k Hk). nra. }
  apply (Sum_pos nc _ j); [intros k Hk; apply Rlt_le, H; exact Hk|exact Hj|apply H; exact Hj].
Qed.
Lemma ion_state T P s : 0 < s -> let st := mixtureState mx T P (dilution n w m s) in
  (forall j, (j < nc)%nat -> st_m st (nth j (mx_charged mx) O) = s * ion_m j /\ st_ms st j = s * ion_m j) /\ st_Is st = s * ion_I.
Proof.
  intros Hs st. assert (E : forall j, (j < nc)%nat -> st_m st (nth j (mx_charged mx) O) = s * ion_m j).
  { intros j Hj. unfold st, mixtureState. cbn [st_m]. fold w. rewrite molalities_dilution; [reflexivity|exact Hm'|exact Hs|].
    destruct (charged_neq _ _ _ _ _ Hmx (nth j (mx_charged mx) O)) as (H & _); [apply nth_In; exact Hj|exact H]. }
  assert (E2 : forall j, (j < nc)%nat -> st_ms st j = s * ion_m j).
  { intros j Hj. specialize (E j Hj). unfold st, mixtureState in *. cbn [st_m st_ms] in *. unfold stoichiometricMolalities. rewrite Hneutral. cbn [length Sum]. rewrite E. ring. }
  split; [auto|]. unfold st, mixtureState. cbn [st_Is]. unfold stoichiometricIonicStrength, ion_I. fold nc.
  destruct (mx_inv _ _ _ _ _ Hmx) as (_ & -> & _). rewrite <- Rmult_assoc, (Rmult_comm s 0.5), Rmult_assoc. f_equal. rewrite <- Sum_scal. apply Sum_ext. intros j Hj. specialize (E2 j Hj).
  unfold st, mixtureState in E2. cbn [st_ms] in E2. rewrite E2. unfold ion_z. ring.
Qed.
(* 1 - xw over xw is the molar mass of water times the total molality. *)
Lemma xw_ratio s : 0 < s -> 0 < xw s /\ (1 - xw s) / xw s = Mw * (s * Sum nc ion_m).
Proof.
  intros Hs. unfold xw. destruct (water_fraction_pos n w m s Hm' Hs) as [H1 H2]. split; [exact H1|]. unfold water_fraction. rewrite total_solutes in *. field. lra.
Qed.
Lemma ionic_residual (f : ActivityFn) T P p (v : nat -> R -> R) (v' : nat -> R) (W : R -> R) W' t : 0 < t ->
  (forall s, 0 < s -> exists q e, f T P (dilution n w m s) p = Ok (q, e) /\
     (forall j, (j < nc)%nat -> ln_a q (nth j (mx_charged mx) O) = v j s + ln (s * ion_m j)) /\ ln_a q w = W s) ->
  (forall j, (j < nc)%nat -> is_derive (v j) t (v' j)) -> is_derive W t W' ->
  duhem_residual f n T P p (dilution n w m) t (xw t * (W' + Mw * Sum nc (fun j => ion_m j * (1 + t * v' j)))).
Proof.
  intros Ht Hf Dv DW.
  pose (a := fun s i => match f T P (dilution n w m s) p with Ok qe => ln_a (fst qe) i | _ => 0 end).
  (* the position of an index among the charged species *)
  assert (Hpos : forall i, (i < n)%nat -> i <> w -> exists j, (j < nc)%nat /\ nth j (mx_charged mx) O = i).
  { intros i Hi Ni. assert (In i (mx_charged mx)) as H.
    { destruct (mx_partition _ _ _ _ _ Hmx) as [Pm _]. rewrite Hneutral in Pm. cbn [app] in Pm.
      assert (In i (mx_water mx :: mx_charged mx)) as [E|H] by (apply (Permutation.Permutation_in _ Pm), in_seq; unfold n in Hi; lia); [exfalso; apply Ni; symmetry; exact E|exact H]. }
    destruct (In_nth _ _ O H) as (j & Hj & E). exists j. split; assumption. }
  pose (pos := position (mx_charged mx)).
  assert (Ppos : forall j, (j < nc)%nat -> pos (nth j (mx_charged mx) O) = j) by (intros j Hj; apply position_nth; [exact (charged_nodup _ _ _ _ _ Hmx)|exact Hj]).
  exists a, (fun i => if Nat.eqb i w then W' else v' (pos i) + 1 / t). split; [|split].
  - apply (filter_imp (fun s => 0 < s)); [|exact (open_gt 0 t Ht)]. intros s Hs. destruct (Hf s Hs) as (q & e & E & _). exists q, e. split; [exact E|]. intros i. unfold a. rewrite E. reflexivity.
  - intros i Hi. destruct (Nat.eqb_spec i w) as [->|N].
    + apply (is_derive_ext_loc W); [|exact DW]. apply (filter_imp (fun s => 0 < s)); [|exact (open_gt 0 t Ht)]. intros s Hs. destruct (Hf s Hs) as (q & e & E & _ & Ew). unfold a. rewrite E. symmetry. exact Ew.
    + destruct (Hpos i Hi N) as (j & Hj & <-). rewrite Ppos by exact Hj. pose proof (ion_m_pos j Hj).
      apply (is_derive_ext_loc (fun s => v j s + ln (s * ion_m j))).
      * apply (filter_imp (fun s => 0 < s)); [|exact (open_gt 0 t Ht)]. intros s Hs. destruct (Hf s Hs) as (q & e & E & Ej & _). unfold a. rewrite E. symmetry. apply Ej. exact Hj.
      * eapply d_val; [apply d_add; [apply Dv; exact Hj|apply d_ln; [apply d_mul; [apply d_id|apply d_const]|apply Rmult_lt_0_compat; assumption]]|]. cbv beta. field. lra.
  - unfold n at 1. rewrite (Sum_mixture _ _ _ _ _ _ Hmx), Hneutral. cbn [length Sum]. fold w nc. rewrite Nat.eqb_refl, dilution_water. fold xw.
    rewrite Rmult_plus_distr_l, Rplus_0_r. f_equal. rewrite <- Rmult_assoc, <- Sum_scal. apply Sum_ext. intros j Hj.
    destruct (charged_neq _ _ _ _ _ Hmx (nth j (mx_charged mx) O)) as (H & _); [apply nth_In; exact Hj|]. rewrite dilution_solute by exact H. apply Nat.eqb_neq in H. fold w in H. rewrite H, Ppos by exact Hj. fold (ion_m j). fold xw. unfold xw. field. lra.
Qed.
End Ions.

(* Derivatives of the terms of the Debye-Hueckel model in the dilution. *)
Lemma d_root I0 t : 0 < I0 -> 0 < t -> is_derive (fun s => sqrt (s * I0)) t (I0 / (2 * sqrt (t * I0))).
Proof.
  intros H Ht. assert (0 < t * I0) by (apply Rmult_lt_0_compat; assumption). eapply d_val; [apply d_sqrt; [apply d_mul; [apply d_id|apply d_const]|exact H0]|]. cbv beta. field. apply Rgt_not_eq, sqrt_lt_R0. exact H0.
Qed.
Lemma sq_root I0 t : 0 < I0 -> 0 < t -> sqrt (t * I0) * sqrt (t * I0) = t * I0.
Proof. intros. apply sqrt_sqrt. apply Rlt_le, Rmult_lt_0_compat; assumption. Qed.
Lemma d_dh_lng A B a b z I0 t : 0 < I0 -> 0 < t -> 0 <= a * B ->
  exists d, is_derive (fun s => dh_lng A B a b z (s * I0)) t d.
Proof.
  intros H Ht Ha. pose proof (sqrt_pos (t * I0)). assert (0 < dh_Lambda a B (sqrt (t * I0))) by (unfold dh_Lambda; assert (0 <= a * B * sqrt (t * I0)) by (apply Rmult_le_pos; assumption); lra).
  eexists. unfold dh_lng, dh_Lambda in *. apply d_mul; [apply d_const|]. apply d_add; [|apply d_mul; [apply d_const|apply d_mul; [apply d_id|apply d_const]]].
  apply d_div; [apply d_mul; [apply d_const|apply d_root; assumption]|apply d_add; [apply d_const|apply d_mul; [apply d_const|apply d_root; assumption]]|lra].
Qed.
Lemma d_dh_extra A B a b z I0 t : 0 < I0 -> 0 < t -> 0 <= a -> 0 < B -> z <> 0 ->
  is_derive (fun s => dh_extra A B a b z (s * I0)) t (- (2 * I0 / (z * z)) * dh_lng A B a b z (t * I0)).
Proof.
  intros H Ht Ha HB Hz. assert (0 < t * I0) as Hi by (apply Rmult_lt_0_compat; assumption). pose proof (sqrt_lt_R0 _ Hi) as Hu. pose proof (sq_root I0 t H Ht) as Hsq.
  unfold dh_extra, dh_lng, dh_sigma, dh_Lambda. destruct (Req_EM_T a 0) as [->|Na].
  - eapply d_val; [apply d_sub; [apply d_mul; [apply d_mul; [apply d_mul; [apply d_mul; [apply d_const|apply d_mul; [apply d_id|apply d_const]]|apply d_root; assumption]|apply d_const]|apply d_const]|
      apply d_mul; [apply d_div; [apply d_mul; [apply d_mul; [apply d_mul; [apply d_id|apply d_const]|apply d_mul; [apply d_id|apply d_const]]|apply d_const]|apply d_const|]|apply d_const]]|].
    + cbv beta. nra.
    + cbv beta. set (u := sqrt (t * I0)) in *. assert (Et : t = u * u / I0) by (rewrite Hsq; field; lra). clearbody u. rewrite Et. field. repeat split; try lra; nra.
  - assert (0 < a) as Ha' by lra. assert (0 < a * B) as HaB by (apply Rmult_lt_0_compat; assumption).
    apply (is_derive_ext_loc (fun s => 2 / 3 * A * (3 / (a * B) ^ 3 * ((a * B * sqrt (s * I0)) * (a * B * sqrt (s * I0) - 2) + 2 * ln (1 + a * B * sqrt (s * I0)))) * ln10 - s * I0 * (s * I0) * b / (z * z) * ln10)).
    { apply (filter_imp (fun s => 0 < s)); [|exact (open_gt 0 t Ht)]. intros s Hs. assert (0 < s * I0) as Hi' by (apply Rmult_lt_0_compat; assumption).
      pose proof (sqrt_lt_R0 _ Hi'). pose proof (sq_root I0 s H Hs) as Hq. set (u := sqrt (s * I0)) in *. rewrite <- Hq. clearbody u. match goal with |- @eq _ ?x ?y => change (@eq R x y) end. field. repeat split; try lra; nra. }
    assert (0 < 1 + a * B * sqrt (t * I0)) as HL by (assert (0 < a * B * sqrt (t * I0)) by (apply Rmult_lt_0_compat; assumption); lra).
    eapply d_val; [apply d_sub; [apply d_mul; [apply d_mul; [apply d_const|apply d_mul; [apply d_const|apply d_add; [apply d_mul; [apply d_mul; [apply d_const|apply d_root; assumption]|apply d_sub; [apply d_mul; [apply d_const|apply d_root; assumption]|apply d_const]]|
        apply d_mul; [apply d_const|apply d_ln; [apply d_add; [apply d_const|apply d_mul; [apply d_const|apply d_root; assumption]]|exact HL]]]]]|apply d_const]|
      apply d_mul; [apply d_div; [apply d_mul; [apply d_mul; [apply d_mul; [apply d_id|apply d_const]|apply d_mul; [apply d_id|apply d_const]]|apply d_const]|apply d_const|]|apply d_const]]|].
    + cbv beta. nra.
    + cbv beta. set (u := sqrt (t * I0)) in *. assert (Et : t = u * u / I0) by (rewrite Hsq; field; lra). clearbody u. rewrite Et. field. repeat split; try lra; nra.
Qed.

Section DHResidual.
Variables (reactions : list Dissociation) (rho eps : R -> R -> R) (l : list Species) (mx : Mixture).
Hypothesis Hmx : mkAqueousMixture reactions rho eps l = Ok mx.
Hypothesis Hneutral : mx_neutral mx = [].
Variables (m : nat -> R) (aions bions bneutral : list R) (T P : R) (p : Props * Extra).
Let w := mx_water mx.
Let nc := length (mx_charged mx).
Let A := dh_A (rho T P / 1000) T (eps T P).
Let B := dh_B (rho T P / 1000) T (eps T P).
Lemma dh_residual t : (forall i, (i < length l)%nat -> i <> w -> 0 < m i) -> 0 < t -> 0 < T -> 0 < rho T P -> 0 < eps T P ->
  (forall j, (j < nc)%nat -> 0 <= nth j aions 0) ->
  duhem_residual (dh_fn mx aions bions bneutral) (length l) T P p (dilution (length l) w m) t
    (Mw * water_fraction (length l) w m t * Sum nc (fun j => (2 * ion_I l mx m / (ion_z l mx j * ion_z l mx j) - ion_m mx m j) *
       dh_lng A B (nth j aions 0) (nth j bions 0) (ion_z l mx j) (t * ion_I l mx m))).
Proof.
  intros Hm Ht HT Hr He Ha. set (I0 := ion_I l mx m).
  assert (HB : 0 < B). { unfold B, dh_B. assert (0 < sqrt (rho T P / 1000)) by (apply sqrt_lt_R0; lra). assert (0 < sqrt (T * eps T P)) by (apply sqrt_lt_R0, Rmult_lt_0_compat; assumption). apply Rdiv_lt_0_compat; [apply Rmult_lt_0_compat; lra|assumption]. }
  set (v := fun j s => dh_lng A B (nth j aions 0) (nth j bions 0) (ion_z l mx j) (s * I0)).
  assert (Ex : exists v' : nat -> R, forall j, (j < nc)%nat -> is_derive (v j) t (v' j)).
  { exists (fun j => Derive (v j) t). intros j Hj. pose proof (ion_I_pos _ _ _ _ _ Hmx m Hm j Hj) as HI. fold I0 in HI.
    destruct (d_dh_lng A B (nth j aions 0) (nth j bions 0) (ion_z l mx j) I0 t HI Ht) as [d D].
    - apply Rmult_le_pos; [apply Ha; exact Hj|lra].
    - assert (D' : is_derive (v j) t d) by exact D. replace (Derive (v j) t) with d by (symmetry; apply is_derive_unique; exact D'). exact D'. }
  destruct Ex as [v' Dv].
  pose (S0 := Sum nc (ion_m mx m)).
  pose (W := fun s => - Mw * (s * S0 + Sum nc (fun j => s * ion_m mx m j * v j s + dh_extra A B (nth j aions 0) (nth j bions 0) (ion_z l mx j) (s * I0)))).
  assert (DW : is_derive W t (- Mw * (S0 + Sum nc (fun j => ion_m mx m j * v j t + t * ion_m mx m j * v' j - 2 * I0 / (ion_z l mx j * ion_z l mx j) * v j t)))).
  { unfold W. eapply d_val; [apply d_mul; [apply d_const|apply d_add; [apply d_mul; [apply d_id|apply d_const]|
      apply (d_Sum nc (fun j s => s * ion_m mx m j * v j s + dh_extra A B (nth j aions 0) (nth j bions 0) (ion_z l mx j) (s * I0)) (fun j => ion_m mx m j * v j t + t * ion_m mx m j * v' j - 2 * I0 / (ion_z l mx j * ion_z l mx j) * v j t))]]|].
    - intros j Hj. pose proof (ion_I_pos _ _ _ _ _ Hmx m Hm j Hj) as HI. fold I0 in HI. eapply d_val; [apply d_add; [apply d_mul; [apply d_mul; [apply d_id|apply d_const]|apply Dv; exact Hj]|apply d_dh_extra; [exact HI|exact Ht|apply Ha; exact Hj|exact HB|exact (ion_z_neq _ _ _ _ _ Hmx j Hj)]]|]. cbv beta. unfold v. field. exact (ion_z_neq _ _ _ _ _ Hmx j Hj).
    - cbv beta. ring. }
  pose proof (ionic_residual _ _ _ _ _ Hmx Hneutral m Hm (dh_fn mx aions bions bneutral) T P p v v' W (- Mw * (S0 + Sum nc (fun j => ion_m mx m j * v j t + t * ion_m mx m j * v' j - 2 * I0 / (ion_z l mx j * ion_z l mx j) * v j t))) t Ht) as R0.
  match goal with |- duhem_residual _ _ _ _ _ _ _ ?g => match type of R0 with _ -> _ -> _ -> duhem_residual _ _ _ _ _ _ _ ?r => replace g with r end end.
  - apply R0; [|exact Dv|exact DW]. intros s Hs. destruct (dh_closed _ _ _ _ _ Hmx aions bions bneutral T P p (dilution (length l) w m s)) as (q & E & Hc & _ & Hw & _).
    destruct (ion_state _ _ _ _ _ Hmx Hneutral m Hm T P s Hs) as [S1 S2]. fold w in S1, S2. rewrite S2 in *. fold A B in Hc, Hw.
    eexists q, _. split; [exact E|]. split.
    + intros j Hj. destruct (Hc j Hj) as [_ ->]. destruct (S1 j Hj) as [-> _]. reflexivity.
    + etransitivity; [exact Hw|]. unfold W. rewrite Mw_eq. fold w. f_equal. f_equal.
      * rewrite dilution_water. destruct (xw_ratio _ _ _ _ _ Hmx Hneutral m Hm s Hs) as [Hx Hq]. fold w in Hx, Hq. fold nc in Hq. pose proof Mw_pos.
        transitivity (1 / Mw * ((1 - water_fraction (length l) w m s) / water_fraction (length l) w m s)); [field; split; lra|]. rewrite Hq. unfold S0. field. lra.
      * apply Sum_ext. intros j Hj. destruct (S1 j Hj) as [_ ->]. reflexivity.
  - fold w nc. rewrite (Rmult_comm Mw (water_fraction _ _ _ _)), Rmult_assoc. f_equal. rewrite <- Ropp_mult_distr_l. unfold S0.
    rewrite Rplus_comm. fold (Rminus (Mw * Sum nc (fun j => ion_m mx m j * (1 + t * v' j))) (Mw * (Sum nc (ion_m mx m) + Sum nc (fun j => ion_m mx m j * v j t + t * ion_m mx m j * v' j - 2 * I0 / (ion_z l mx j * ion_z l mx j) * v j t)))).
    rewrite <- Rmult_minus_distr_l. f_equal. rewrite <- Sum_add. unfold Rminus at 1. rewrite <- (Rmult_1_l (Sum nc (fun j => ion_m mx m j + _))), Ropp_mult_distr_l, <- Sum_scal, <- Sum_add. apply Sum_ext. intros j Hj. fold (v j t). ring.
Qed.
End DHResidual.
