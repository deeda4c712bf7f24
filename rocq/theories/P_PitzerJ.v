(* The Pitzer model: the tabulated functions J0 and J1, and mixing of ions of
   unequal charges. *)
From Coq Require Import Reals Qreals List Bool Lia Lra ZArith.
From Coquelicot Require Import Coquelicot.
Import ListNotations.
From Verif Require Import Base M_CubicEOS P_Helmholtz P_CubicEOS M_Aqueous M_Pitzer.
Local Open Scope R_scope.

Lemma within_true a b x : a <= x <= b -> within a b x = true.
Proof. intros [H K]. unfold within. destruct (Rle_dec a x); [|lra]. destruct (Rle_dec x b); [reflexivity|lra]. Qed.
Lemma within_false a b x : x < a \/ b < x -> within a b x = false.
Proof. intros H. unfold within. destruct (Rle_dec a x); [|reflexivity]. destruct (Rle_dec x b); [lra|reflexivity]. Qed.
Lemma Int_part_spec r z : r - 1 < IZR z <= r -> z = Int_part r.
Proof.
  intros [H K]. destruct (base_Int_part r) as [B C]. assert (L1 : (z < Int_part r + 1)%Z) by (apply lt_IZR; rewrite plus_IZR; lra). assert (L2 : (Int_part r < z + 1)%Z) by (apply lt_IZR; rewrite plus_IZR; lra). lia.
Qed.
(* Within cell k of a table the value is that of its left end. *)
Lemma interpolate_cell x x0 x1 y k : x0 < x1 -> (S k < length y)%nat ->
  x0 + INR k * ((x1 - x0) / INR (length y - 1)) <= x < x0 + INR (S k) * ((x1 - x0) / INR (length y - 1)) ->
  interpolateJ x x0 x1 y = Ok (Q2R (nth k y 0%Q)).
Proof.
  intros H0 Hk [L U]. unfold interpolateJ. cbv zeta. set (N := length y) in *. set (dx := (x1 - x0) / INR (N - 1)) in *.
  assert (D : 0 < dx) by (unfold dx; apply Rdiv_lt_0_compat; [lra|apply (lt_INR 0); lia]).
  assert (E : Int_part ((x - x0) / dx) = Z.of_nat k).
  { symmetry. apply Int_part_spec. rewrite <- INR_IZR_INZ. rewrite S_INR in U. split.
    - apply Rmult_lt_reg_r with dx; [exact D|]. unfold Rdiv. rewrite Rmult_minus_distr_r, Rmult_assoc, Rinv_l by lra. lra.
    - apply Rmult_le_reg_r with dx; [exact D|]. unfold Rdiv. rewrite Rmult_assoc, Rinv_l by lra. lra. }
  rewrite E, Nat2Z.id. destruct (Nat.ltb_spec N k); [lia|]. rewrite (nth_error_nth' y 0%Q) by (fold N; lia). reflexivity.
Qed.
Lemma interpolate_last x0 x1 y : x0 < x1 -> (1 < length y)%nat -> interpolateJ x1 x0 x1 y = Ok (Q2R (nth (length y - 1) y 0%Q)).
Proof.
  intros H0 Hk. unfold interpolateJ. cbv zeta. set (N := length y) in *. assert (D : 0 < INR (N - 1)) by (apply (lt_INR 0); lia).
  assert (E : Int_part ((x1 - x0) / ((x1 - x0) / INR (N - 1))) = Z.of_nat (N - 1)).
  { symmetry. apply Int_part_spec. rewrite <- INR_IZR_INZ. replace ((x1 - x0) / ((x1 - x0) / INR (N - 1))) with (INR (N - 1)) by (field; lra). lra. }
  rewrite E, Nat2Z.id. destruct (Nat.ltb_spec N (N - 1)); [lia|]. rewrite (nth_error_nth' y 0%Q) by (fold N; lia). reflexivity.
Qed.
Lemma find_cell x x0 dx n : 0 < dx -> x0 <= x < x0 + INR n * dx -> exists k, (k < n)%nat /\ x0 + INR k * dx <= x < x0 + INR (S k) * dx.
Proof.
  intros D. induction n as [|n IH]; intros [L U]; [cbn in U; lra|]. destruct (Rlt_le_dec x (x0 + INR n * dx)) as [H|H].
  - destruct IH as (k & Hk & C); [lra|]. exists k. split; [lia|exact C].
  - exists n. split; [lia|]. lra.
Qed.
Lemma interpolate_ok x x0 x1 y : x0 < x1 -> (1 < length y)%nat -> x0 <= x <= x1 -> exists v, interpolateJ x x0 x1 y = Ok v.
Proof.
  intros H0 Hy [L U]. destruct (Rle_lt_or_eq_dec _ _ U) as [U'| ->]; [|eexists; apply interpolate_last; assumption].
  assert (Hp : 0 < INR (length y - 1)) by (apply (lt_INR 0); lia).
  destruct (find_cell x x0 ((x1 - x0) / INR (length y - 1)) (length y - 1)) as (k & Hk & C).
  - apply Rdiv_lt_0_compat; lra.
  - split; [exact L|]. replace (INR (length y - 1) * ((x1 - x0) / INR (length y - 1))) with (x1 - x0) by (field; lra). lra.
  - eexists. apply (interpolate_cell _ _ _ _ k); [exact H0|lia|exact C].
Qed.
Ltac regions x := repeat match goal with |- context [within ?a ?b x] => first [rewrite (within_true a b x) by lra | rewrite (within_false a b x) by lra] end.
Lemma J_defined x : 0 <= x <= 10000 -> (exists v, J0 x = Ok v) /\ (exists v, J1 x = Ok v).
Proof.
  intros H. unfold J0, J1.
  destruct (Rle_lt_dec x 1); [regions x; split; apply interpolate_ok; cbn; try lia; lra|].
  destruct (Rle_lt_dec x 10); [regions x; split; apply interpolate_ok; cbn; try lia; lra|].
  destruct (Rle_lt_dec x 100); [regions x; split; apply interpolate_ok; cbn; try lia; lra|].
  destruct (Rle_lt_dec x 1000); [regions x; split; apply interpolate_ok; cbn; try lia; lra|].
  regions x. split; apply interpolate_ok; cbn; try lia; lra.
Qed.
Lemma J_undefined x : x < 0 \/ 10000 < x -> J0 x = Err /\ J1 x = Err.
Proof. intros H. unfold J0, J1. regions x. split; reflexivity. Qed.
Lemma J_first x : 0 <= x < 0.01 -> J0 x = Ok 0 /\ J1 x = Ok 0.
Proof.
  intros H. unfold J0, J1. regions x. split.
  - rewrite (interpolate_cell x 0 1 J0region1 0); [f_equal; unfold Q2R; cbn; lra|lra|cbn; lia|]. change (length J0region1 - 1)%nat with 100%nat. rewrite !INR_IZR_INZ. cbn [Z.of_nat Pos.of_succ_nat Pos.succ]. lra.
  - rewrite (interpolate_cell x 0 1 J1region1 0); [f_equal; unfold Q2R; cbn; lra|lra|cbn; lia|]. change (length J1region1 - 1)%nat with 100%nat. rewrite !INR_IZR_INZ. cbn [Z.of_nat Pos.of_succ_nat Pos.succ]. lra.
Qed.
Lemma J_second x k : (k < 90)%nat -> 1 < x -> 1 + INR k / 10 <= x < 1 + INR (S k) / 10 -> J0 x = Ok (Q2R (nth k J0region2 0%Q)) /\ J1 x = Ok (Q2R (nth k J1region2 0%Q)).
Proof.
  intros Hk Hx H. assert (Hle : x <= 10).
  { assert (INR (S k) <= 90) by (replace 90 with (INR 90) by (rewrite INR_IZR_INZ; reflexivity); apply le_INR; lia). lra. }
  unfold J0, J1. regions x. split; apply interpolate_cell; try lra; try (cbn; lia).
  - change (length J0region2 - 1)%nat with 90%nat. replace (INR 90) with 90 by (rewrite INR_IZR_INZ; reflexivity). lra.
  - change (length J1region2 - 1)%nat with 90%nat. replace (INR 90) with 90 by (rewrite INR_IZR_INZ; reflexivity). lra.
Qed.

(* ---- Mixing of ions ---- *)
Lemma theta_same A I z : thetaE A I z z = Ok 0 /\ thetaE_prime A I z z = Ok 0.
Proof. unfold thetaE, thetaE_prime. destruct (Req_EM_T z z); [split; reflexivity|contradiction]. Qed.
Lemma theta_value A I zi zj jij jii jjj kij kii kjj :
  J0 (6 * zi * zj * A * sqrt I) = Ok jij -> J0 (6 * zi * zi * A * sqrt I) = Ok jii -> J0 (6 * zj * zj * A * sqrt I) = Ok jjj ->
  J1 (6 * zi * zj * A * sqrt I) = Ok kij -> J1 (6 * zi * zi * A * sqrt I) = Ok kii -> J1 (6 * zj * zj * A * sqrt I) = Ok kjj ->
  zi <> zj -> thetaE A I zi zj = Ok (zi * zj / (4 * I) * (jij - 0.5 * jii - 0.5 * jjj)) /\
  thetaE_prime A I zi zj = Ok (zi * zj / (8 * I * I) * (kij - 0.5 * kii - 0.5 * kjj) - zi * zj / (4 * I) * (jij - 0.5 * jii - 0.5 * jjj) / I).
Proof.
  intros E1 E2 E3 E4 E5 E6 N. assert (T : thetaE A I zi zj = Ok (zi * zj / (4 * I) * (jij - 0.5 * jii - 0.5 * jjj))).
  { unfold thetaE. destruct (Req_EM_T zi zj); [contradiction|]. cbv zeta. rewrite E1, E2, E3. reflexivity. }
  split; [exact T|]. unfold thetaE_prime. destruct (Req_EM_T zi zj); [contradiction|]. cbv zeta. rewrite E4, E5, E6. cbn [bind]. rewrite T. reflexivity.
Qed.
Lemma theta_defined A I zi zj : 0 <= A -> 0 < zi * zj -> 6 * (zi * zi) * A * sqrt I <= 10000 -> 6 * (zj * zj) * A * sqrt I <= 10000 ->
  (exists v, thetaE A I zi zj = Ok v) /\ (exists v, thetaE_prime A I zi zj = Ok v).
Proof.
  intros HA Hz Hi Hj. destruct (Req_EM_T zi zj) as [->|N]; [destruct (theta_same A I zj) as [-> ->]; split; eexists; reflexivity|].
  assert (Q : 0 <= A * sqrt I) by (apply Rmult_le_pos; [exact HA|apply sqrt_pos]). set (q := A * sqrt I) in *.
  assert (Hij : 6 * zi * zj * A * sqrt I = 6 * (zi * zj) * q) by (unfold q; ring). assert (Hii : 6 * zi * zi * A * sqrt I = 6 * (zi * zi) * q) by (unfold q; ring). assert (Hjj : 6 * zj * zj * A * sqrt I = 6 * (zj * zj) * q) by (unfold q; ring).
  assert (Li : 6 * (zi * zi) * q <= 10000) by (unfold q; lra). assert (Lj : 6 * (zj * zj) * q <= 10000) by (unfold q; lra).
  assert (Pi : 0 <= zi * zi * q) by (apply Rmult_le_pos; [apply Rle_0_sqr|exact Q]). assert (Pj : 0 <= zj * zj * q) by (apply Rmult_le_pos; [apply Rle_0_sqr|exact Q]). assert (Pij : 0 <= zi * zj * q) by (apply Rmult_le_pos; lra).
  assert (M : 2 * (zi * zj * q) <= zi * zi * q + zj * zj * q).
  { assert (0 <= (zi - zj) * (zi - zj) * q) by (apply Rmult_le_pos; [apply Rle_0_sqr|exact Q]). lra. }
  destruct (J_defined (6 * zi * zj * A * sqrt I)) as [[v1 E1] [w1 F1]]; [rewrite Hij; lra|].
  destruct (J_defined (6 * zi * zi * A * sqrt I)) as [[v2 E2] [w2 F2]]; [rewrite Hii; lra|].
  destruct (J_defined (6 * zj * zj * A * sqrt I)) as [[v3 E3] [w3 F3]]; [rewrite Hjj; lra|].
  destruct (theta_value _ _ _ _ _ _ _ _ _ _ E1 E2 E3 F1 F2 F3 N) as [-> ->]. split; eexists; reflexivity.
Qed.

(* ---- Between the points of the tables ---- *)
Definition off_grid (x : R) : Prop :=
  (0 < x < 1 /\ forall k, 100 * x <> INR k) \/ (1 < x < 10 /\ forall k, 10 * x <> INR k) \/ (10 < x < 100 /\ forall k, x <> INR k) \/
  (100 < x < 1000 /\ forall k, x / 100 <> INR k) \/ (1000 < x < 10000 /\ forall k, x / 1000 <> INR k).
Lemma cell_local x x0 x1 y N : length y = S N -> (0 < N)%nat -> x0 < x < x1 -> (forall k, x <> x0 + INR k * ((x1 - x0) / INR N)) ->
  locally x (fun z => x0 < z < x1 /\ interpolateJ z x0 x1 y = interpolateJ x x0 x1 y).
Proof.
  intros Hy HN [L U] NG. assert (Hp : 0 < INR N) by (apply (lt_INR 0); lia). set (dx := (x1 - x0) / INR N) in *. assert (D : 0 < dx) by (apply Rdiv_lt_0_compat; lra).
  destruct (find_cell x x0 dx N D) as (k & Hk & C1 & C2). { split; [lra|]. unfold dx. replace (INR N * ((x1 - x0) / INR N)) with (x1 - x0) by (field; lra). lra. }
  assert (C1' : x0 + INR k * dx < x) by (specialize (NG k); lra).
  apply (filter_imp (fun z => (x0 < z /\ z < x1) /\ (x0 + INR k * dx < z /\ z < x0 + INR (S k) * dx))).
  - intros z [Z1 Z2]. split; [exact Z1|]. assert (E : (length y - 1)%nat = N) by lia.
    rewrite !(interpolate_cell _ x0 x1 y k); try lra; try lia; try reflexivity; rewrite E; fold dx; lra.
  - apply filter_and; (apply filter_and; [apply open_gt; assumption|apply open_lt; assumption]).
Qed.
Lemma off_grid_local x : off_grid x -> locally x (fun z => J0 z = J0 x /\ J1 z = J1 x) /\ 0 <= x <= 10000.
Proof.
  assert (I100 : INR 100 = 100) by (rewrite INR_IZR_INZ; reflexivity). assert (I90 : INR 90 = 90) by (rewrite INR_IZR_INZ; reflexivity). assert (I9 : INR 9 = 9) by (rewrite INR_IZR_INZ; reflexivity).
  intros [[H N]|[[H N]|[[H N]|[[H N]|[H N]]]]]; (split; [|lra]).
  - pose proof (cell_local x 0 1 J0region1 100 eq_refl ltac:(lia) H) as L0. pose proof (cell_local x 0 1 J1region1 100 eq_refl ltac:(lia) H) as L1. rewrite I100 in *.
    assert (G : forall k, x <> 0 + INR k * ((1 - 0) / 100)) by (intros k E; apply (N k); lra).
    apply (filter_imp (fun z => (0 < z < 1 /\ interpolateJ z 0 1 J0region1 = interpolateJ x 0 1 J0region1) /\ (0 < z < 1 /\ interpolateJ z 0 1 J1region1 = interpolateJ x 0 1 J1region1))); [|apply filter_and; auto].
    intros z [[Z E0] [_ E1]]. unfold J0, J1. regions z. regions x. split; assumption.
  - pose proof (cell_local x 1 10 J0region2 90 eq_refl ltac:(lia) H) as L0. pose proof (cell_local x 1 10 J1region2 90 eq_refl ltac:(lia) H) as L1. rewrite I90 in *.
    assert (G : forall k, x <> 1 + INR k * ((10 - 1) / 90)) by (intros k E; apply (N (10 + k)%nat); rewrite plus_INR; replace (INR 10) with 10 by (rewrite INR_IZR_INZ; reflexivity); lra).
    apply (filter_imp (fun z => (1 < z < 10 /\ interpolateJ z 1 10 J0region2 = interpolateJ x 1 10 J0region2) /\ (1 < z < 10 /\ interpolateJ z 1 10 J1region2 = interpolateJ x 1 10 J1region2))); [|apply filter_and; auto].
    intros z [[Z E0] [_ E1]]. unfold J0, J1. regions z. regions x. split; assumption.
  - pose proof (cell_local x 10 100 J0region3 90 eq_refl ltac:(lia) H) as L0. pose proof (cell_local x 10 100 J1region3 90 eq_refl ltac:(lia) H) as L1. rewrite I90 in *.
    assert (G : forall k, x <> 10 + INR k * ((100 - 10) / 90)) by (intros k E; apply (N (10 + k)%nat); rewrite plus_INR; replace (INR 10) with 10 by (rewrite INR_IZR_INZ; reflexivity); lra).
    apply (filter_imp (fun z => (10 < z < 100 /\ interpolateJ z 10 100 J0region3 = interpolateJ x 10 100 J0region3) /\ (10 < z < 100 /\ interpolateJ z 10 100 J1region3 = interpolateJ x 10 100 J1region3))); [|apply filter_and; auto].
    intros z [[Z E0] [_ E1]]. unfold J0, J1. regions z. regions x. split; assumption.
  - pose proof (cell_local x 100 1000 J0region4 9 eq_refl ltac:(lia) H) as L0. pose proof (cell_local x 100 1000 J1region4 9 eq_refl ltac:(lia) H) as L1. rewrite I9 in *.
    assert (G : forall k, x <> 100 + INR k * ((1000 - 100) / 9)) by (intros k E; apply (N (1 + k)%nat); rewrite plus_INR; replace (INR 1) with 1 by (rewrite INR_IZR_INZ; reflexivity); lra).
    apply (filter_imp (fun z => (100 < z < 1000 /\ interpolateJ z 100 1000 J0region4 = interpolateJ x 100 1000 J0region4) /\ (100 < z < 1000 /\ interpolateJ z 100 1000 J1region4 = interpolateJ x 100 1000 J1region4))); [|apply filter_and; auto].
    intros z [[Z E0] [_ E1]]. unfold J0, J1. regions z. regions x. split; assumption.
  - pose proof (cell_local x 1000 10000 J0region5 9 eq_refl ltac:(lia) H) as L0. pose proof (cell_local x 1000 10000 J1region5 9 eq_refl ltac:(lia) H) as L1. rewrite I9 in *.
    assert (G : forall k, x <> 1000 + INR k * ((10000 - 1000) / 9)) by (intros k E; apply (N (1 + k)%nat); rewrite plus_INR; replace (INR 1) with 1 by (rewrite INR_IZR_INZ; reflexivity); lra).
    apply (filter_imp (fun z => (1000 < z < 10000 /\ interpolateJ z 1000 10000 J0region5 = interpolateJ x 1000 10000 J0region5) /\ (1000 < z < 10000 /\ interpolateJ z 1000 10000 J1region5 = interpolateJ x 1000 10000 J1region5))); [|apply filter_and; auto].
    intros z [[Z E0] [_ E1]]. unfold J0, J1. regions z. regions x. split; assumption.
Qed.
