(* C134: the saturation curve of water. *)
From Coq Require Import Reals Lra Lia List.
Import ListNotations.
From Coquelicot Require Import Coquelicot.
From Verif Require Import Base M_Helmholtz M_Water M_WaterSaturation.
Local Open Scope R_scope.

(* ---- Specification: the equations of Wagner and Pruss ---- *)
Definition pw (x y : R) : R := if Req_EM_T x 0 then 0 else Rpower x y.
Definition series (l : list (R * R)) (x : R) : R := fold_right (fun '(a, e) s => a * pw x e + s) 0 l.
Definition Tc : R := 647.096.
Definition pc : R := 22064000.
Definition dc : R := 322.
Definition tau (T : R) : R := 1 - T / Tc.
(* ln(p/pc) = Tc/T (a1 tau + a2 tau^1.5 + ...). *)
Definition eq_pressure (T : R) : R :=
  pc * exp (Tc / T * series [(-7.85951783, 1); (1.84408259, 3/2); (-11.7866497, 3); (22.6807411, 7/2); (-15.9618719, 4); (1.80122502, 15/2)] (tau T)).
(* d/dc = 1 + b1 tau^(1/3) + ... *)
Definition eq_liquid (T : R) : R :=
  dc * (1 + series [(1.99274064, 1/3); (1.09965342, 2/3); (-0.510839303, 5/3); (-1.75493479, 16/3); (-45.5170352, 43/3); (-674694.45, 110/3)] (tau T)).
(* ln(d/dc) = c1 tau^(2/6) + ...: no factor Tc/T. *)
Definition eq_vapour (T : R) : R :=
  dc * exp (series [(-2.0315024, 2/6); (-2.6830294, 4/6); (-5.38626492, 8/6); (-17.2991605, 18/6); (-44.7586581, 37/6); (-63.9201063, 71/6)] (tau T)).
(* A number is found up to the critical temperature only. *)
Definition computes (f : R -> option R) (g : R -> R) : Prop := forall T, 0 < T -> (T <= Tc -> f T = Some (g T)) /\ (Tc < T -> f T = None).

Definition C134_statement : Prop :=
  computes waterSaturatedPressureWagnerPruss eq_pressure /\ computes waterSaturatedLiquidDensityWagnerPruss eq_liquid /\ computes waterSaturatedVapourDensityWagnerPruss eq_vapour.

(* ---- Proofs ---- *)
Lemma root t k : 0 <= t -> (0 < k)%nat -> exists u, 0 <= u /\ u ^ k = t /\ (t < 1 -> u < 1) /\ (0 < t -> 0 < u) /\ (t = 0 -> u = 0) /\ forall m e, (0 < m)%nat -> e = INR m / INR k -> pw t e = u ^ m.
Proof.
  intros H K. unfold pw. assert (KR : 0 < INR k) by (apply lt_0_INR; auto). destruct (Req_EM_T t 0) as [->|N].
  - exists 0. split; [lra|]. split; [apply pow_i; auto|]. split; [lra|]. split; [lra|]. split; auto. intros m e M _. symmetry. apply pow_i. auto.
  - assert (P : 0 < t) by lra. exists (Rpower t (/ INR k)). assert (PU : 0 < Rpower t (/ INR k)) by (unfold Rpower; apply exp_pos).
    assert (E : forall m, Rpower t (/ INR k) ^ m = Rpower t (INR m / INR k)). { intro m. rewrite <- Rpower_pow by auto. rewrite Rpower_mult. f_equal. field. lra. }
    split; [lra|]. split. { rewrite E. unfold Rdiv. rewrite Rinv_r by lra. apply Rpower_1. auto. }
    split. { intro L. rewrite <- (Rpower_O t) by auto. unfold Rpower. apply exp_increasing. assert (ln t < 0) by (rewrite <- ln_1; apply ln_increasing; lra). assert (0 < / INR k) by (apply Rinv_0_lt_compat; auto). nra. }
    split; [auto|]. split; [lra|]. intros m e M ->. symmetry. apply E.
Qed.
Lemma std_pow_pw t e : 0 <= t -> std_pow t e = Some (pw t e).
Proof. intro H. unfold std_pow, pw. destruct (Rlt_dec t 0); [lra|]. destruct (Req_EM_T t 0); auto. Qed.
Lemma tau_range T : 0 < T -> T <= Tc -> 0 <= tau T < 1.
Proof. intros A B. unfold tau, Tc in *. split; [|assert (0 < T / 647.096) by (apply Rdiv_lt_0_compat; lra); lra]. assert (T / 647.096 <= 1) by (apply Rle_div_l; lra). lra. Qed.
Lemma tau_out T : Tc < T -> tau T < 0.
Proof. intro A. unfold tau, Tc in *. assert (1 < T / 647.096) by (apply Rlt_div_r; lra). lra. Qed.
Lemma TcT T : 0 < T -> Tc / T = 1 / (1 - tau T).
Proof. intro A. unfold tau, Tc. field. lra. Qed.
Lemma tau_inj T : T = Tc * (1 - tau T).
Proof. unfold tau, Tc. field. lra. Qed.

(* The equations in terms of a root of tau. *)
Definition poly_p (u : R) : R := -7.85951783 * u ^ 2 + 1.84408259 * u ^ 3 + -11.7866497 * u ^ 6 + 22.6807411 * u ^ 7 + -15.9618719 * u ^ 8 + 1.80122502 * u ^ 15.
Definition poly_l (x : R) : R := 1.99274064 * x + 1.09965342 * x ^ 2 + -0.510839303 * x ^ 5 + -1.75493479 * x ^ 16 + -45.5170352 * x ^ 43 + -674694.45 * x ^ 110.
Definition poly_v (y : R) : R := -2.0315024 * y ^ 2 + -2.6830294 * y ^ 4 + -5.38626492 * y ^ 8 + -17.2991605 * y ^ 18 + -44.7586581 * y ^ 37 + -63.9201063 * y ^ 71.
Lemma pressure_at T : 0 < T -> T <= Tc -> exists u, 0 <= u < 1 /\ u ^ 2 = tau T /\ (T < Tc -> 0 < u) /\ (T = Tc -> u = 0) /\ waterSaturatedPressureWagnerPruss T = Some (pc * exp (poly_p u / (1 - u ^ 2))) /\ eq_pressure T = pc * exp (poly_p u / (1 - u ^ 2)).
Proof.
  intros A B. destruct (tau_range T A B) as [T0 T1]. destruct (root (tau T) 2 T0 ltac:(lia)) as (u & U0 & U2 & U1 & UP & UZ & UM). exists u.
  split; [auto|]. split; [auto|]. split. { intro L. apply UP. unfold tau, Tc in *. assert (T / 647.096 < 1) by (apply Rlt_div_l; lra). lra. }
  split. { intros ->. apply UZ. unfold tau, Tc. field. lra. }
  assert (M : forall m e, (0 < m)%nat -> e = INR m / INR 2 -> pw (tau T) e = u ^ m) by exact UM. split.
  - unfold waterSaturatedPressureWagnerPruss. change waterCriticalTemperature with Tc. change (1 - T / Tc) with (tau T). rewrite (std_pow_pw _ _ T0), (M 3%nat 1.5) by (try lia; simpl; lra). cbv zeta. f_equal.
    unfold pc, waterCriticalPressure. replace 22.064e6 with 22064000 by lra. f_equal. f_equal. rewrite TcT by auto. rewrite <- U2. unfold poly_p, Rdiv. rewrite Rmult_1_l, Rmult_comm. f_equal. ring.
  - unfold eq_pressure. f_equal. f_equal. rewrite TcT by auto. cbn [series fold_right].
    rewrite (M 2%nat 1), (M 3%nat (3/2)), (M 6%nat 3), (M 7%nat (7/2)), (M 8%nat 4), (M 15%nat (15/2)) by (try lia; simpl; lra). rewrite <- U2. unfold poly_p, Rdiv. rewrite Rmult_1_l, Rmult_comm. f_equal. ring.
Qed.
Lemma liquid_at T : 0 < T -> T <= Tc -> exists x, 0 <= x < 1 /\ x ^ 3 = tau T /\ (T < Tc -> 0 < x) /\ (T = Tc -> x = 0) /\ waterSaturatedLiquidDensityWagnerPruss T = Some (dc * (1 + poly_l x)) /\ eq_liquid T = dc * (1 + poly_l x).
Proof.
  intros A B. destruct (tau_range T A B) as [T0 T1]. destruct (root (tau T) 3 T0 ltac:(lia)) as (u & U0 & U2 & U1 & UP & UZ & UM). exists u.
  split; [auto|]. split; [auto|]. split. { intro L. apply UP. unfold tau, Tc in *. assert (T / 647.096 < 1) by (apply Rlt_div_l; lra). lra. }
  split. { intros ->. apply UZ. unfold tau, Tc. field. lra. }
  assert (M : forall m e, (0 < m)%nat -> e = INR m / INR 3 -> pw (tau T) e = u ^ m) by exact UM. split.
  - unfold waterSaturatedLiquidDensityWagnerPruss. change waterCriticalTemperature with Tc. change (1 - T / Tc) with (tau T). rewrite (std_pow_pw _ _ T0), (M 1%nat (1/3)) by (try lia; simpl; lra). cbv zeta. f_equal.
    unfold dc, waterCriticalDensity. f_equal. rewrite <- U2. unfold poly_l. replace (-674694.450) with (-674694.45) by lra. ring.
  - unfold eq_liquid. f_equal. cbn [series fold_right].
    rewrite (M 1%nat (1/3)), (M 2%nat (2/3)), (M 5%nat (5/3)), (M 16%nat (16/3)), (M 43%nat (43/3)), (M 110%nat (110/3)) by (try lia; rewrite !INR_IZR_INZ; simpl; lra). unfold poly_l. ring.
Qed.
Lemma vapour_at T : 0 < T -> T <= Tc -> exists y, 0 <= y < 1 /\ y ^ 6 = tau T /\ (T < Tc -> 0 < y) /\ (T = Tc -> y = 0) /\ waterSaturatedVapourDensityWagnerPruss T = Some (dc * exp (poly_v y / (1 - y ^ 6))) /\ eq_vapour T = dc * exp (poly_v y).
Proof.
  intros A B. destruct (tau_range T A B) as [T0 T1]. destruct (root (tau T) 6 T0 ltac:(lia)) as (u & U0 & U2 & U1 & UP & UZ & UM). exists u.
  split; [auto|]. split; [auto|]. split. { intro L. apply UP. unfold tau, Tc in *. assert (T / 647.096 < 1) by (apply Rlt_div_l; lra). lra. }
  split. { intros ->. apply UZ. unfold tau, Tc. field. lra. }
  assert (M : forall m e, (0 < m)%nat -> e = INR m / INR 6 -> pw (tau T) e = u ^ m) by exact UM. split.
  - unfold waterSaturatedVapourDensityWagnerPruss. change waterCriticalTemperature with Tc. change (1 - T / Tc) with (tau T). rewrite (std_pow_pw _ _ T0), (M 1%nat (1/6)) by (try lia; simpl; lra). cbv zeta. f_equal.
    unfold dc, waterCriticalDensity. f_equal. f_equal. rewrite TcT by auto. rewrite <- U2. unfold poly_v, Rdiv. rewrite Rmult_1_l, Rmult_comm. f_equal.
    replace (-2.03150240) with (-2.0315024) by lra. replace (-2.68302940) with (-2.6830294) by lra. ring.
  - unfold eq_vapour. f_equal. f_equal. cbn [series fold_right].
    rewrite (M 2%nat (2/6)), (M 4%nat (4/6)), (M 8%nat (8/6)), (M 18%nat (18/6)), (M 37%nat (37/6)), (M 71%nat (71/6)) by (try lia; rewrite !INR_IZR_INZ; simpl; lra). unfold poly_v. ring.
Qed.

(* The logarithm of the pressure falls with tau: the derivative is a polynomial
   with negative coefficients in the Bernstein basis of degree 15. *)
Definition bern (u v : R) : R := 1571903566 * (u ^ 0 * v ^ 15) + 23025328713 * (u ^ 1 * v ^ 14) + 157304727552 * (u ^ 2 * v ^ 13) + 665057076082 * (u ^ 3 * v ^ 12) + 1953559437690 * (u ^ 4 * v ^ 11) + 4240734721265 * (u ^ 5 * v ^ 10) + 7038640251296 * (u ^ 6 * v ^ 9) + 9081416415044 * (u ^ 7 * v ^ 8) + 9162277738174 * (u ^ 8 * v ^ 7) + 7236723804135 * (u ^ 9 * v ^ 6) + 4474149020572 * (u ^ 10 * v ^ 5) + 2156376324158 * (u ^ 11 * v ^ 4) + 792575991242 * (u ^ 12 * v ^ 3) + 205076567237 * (u ^ 13 * v ^ 2) + 27845972160 * (u ^ 14 * v ^ 1) + 1856398144 * (u ^ 15 * v ^ 0).
Definition qq (u : R) : R := (-1571903566) * u ^ 0 + (553224777) * u ^ 1 + (-184408259) * u ^ 3 + (-7071989820) * u ^ 4 + (15876518770) * u ^ 5 + (-8054837640) * u ^ 6 + (-11340370550) * u ^ 7 + (9577123140) * u ^ 8 + (2701837530) * u ^ 13 + (-2341592526) * u ^ 15.
Lemma homog u v : (-1571903566) * u ^ 0 * (u + v) ^ 15 + (553224777) * u ^ 1 * (u + v) ^ 14 + (-184408259) * u ^ 3 * (u + v) ^ 12 + (-7071989820) * u ^ 4 * (u + v) ^ 11 + (15876518770) * u ^ 5 * (u + v) ^ 10 + (-8054837640) * u ^ 6 * (u + v) ^ 9 + (-11340370550) * u ^ 7 * (u + v) ^ 8 + (9577123140) * u ^ 8 * (u + v) ^ 7 + (2701837530) * u ^ 13 * (u + v) ^ 2 + (-2341592526) * u ^ 15 * (u + v) ^ 0 = - bern u v.
Proof. unfold bern. ring. Qed.
Lemma qq_neg u : 0 <= u < 1 -> qq u < 0.
Proof.
  intros [A B]. assert (H : qq u = - bern u (1 - u)). { rewrite <- homog. replace (u + (1 - u)) with 1 by ring. unfold qq. rewrite !pow1. ring. } rewrite H.
  assert (P : forall i j, 0 <= u ^ i * (1 - u) ^ j). { intros i j. apply Rmult_le_pos; apply pow_le; lra. }
  assert (S : 0 < u ^ 0 * (1 - u) ^ 15). { apply Rmult_lt_0_compat; [simpl; lra|apply pow_lt; lra]. }
  unfold bern. assert (P1 := P 1%nat 14%nat). assert (P2 := P 2%nat 13%nat). assert (P3 := P 3%nat 12%nat). assert (P4 := P 4%nat 11%nat). assert (P5 := P 5%nat 10%nat). assert (P6 := P 6%nat 9%nat). assert (P7 := P 7%nat 8%nat). assert (P8 := P 8%nat 7%nat). assert (P9 := P 9%nat 6%nat). assert (P10 := P 10%nat 5%nat). assert (P11 := P 11%nat 4%nat). assert (P12 := P 12%nat 3%nat). assert (P13 := P 13%nat 2%nat). assert (P14 := P 14%nat 1%nat). assert (P15 := P 15%nat 0%nat). lra.
Qed.

Definition dpoly_p (u : R) : R := -7.85951783 * 2 * u + 1.84408259 * 3 * u ^ 2 + -11.7866497 * 6 * u ^ 5 + 22.6807411 * 7 * u ^ 6 + -15.9618719 * 8 * u ^ 7 + 1.80122502 * 15 * u ^ 14.
Lemma expo_p_der u : u ^ 2 <> 1 -> derivable_pt_lim (fun u => poly_p u / (1 - u ^ 2)) u ((dpoly_p u * (1 - u ^ 2) + 2 * u * poly_p u) / (1 - u ^ 2) ^ 2).
Proof.
  intro H. apply is_derive_Reals. unfold poly_p, dpoly_p. auto_derive; [lra|]. field. lra.
Qed.
Lemma expo_p_qq u : dpoly_p u * (1 - u ^ 2) + 2 * u * poly_p u = u * qq u / 10 ^ 8.
Proof.
  unfold dpoly_p, poly_p, qq. replace (-7.85951783) with (-785951783 / 10 ^ 8) by lra. replace 1.84408259 with (184408259 / 10 ^ 8) by lra. replace (-11.7866497) with (-1178664970 / 10 ^ 8) by lra.
  replace 22.6807411 with (2268074110 / 10 ^ 8) by lra. replace (-15.9618719) with (-1596187190 / 10 ^ 8) by lra. replace 1.80122502 with (180122502 / 10 ^ 8) by lra. field.
Qed.
Lemma expo_p_falls u v : 0 <= u -> u < v -> v < 1 -> poly_p v / (1 - v ^ 2) < poly_p u / (1 - u ^ 2).
Proof.
  intros A B C. assert (S : forall c, 0 <= c < 1 -> 0 < 1 - c ^ 2) by (intros c Hc; nra).
  destruct (MVT_cor2 (fun u => poly_p u / (1 - u ^ 2)) (fun u => (dpoly_p u * (1 - u ^ 2) + 2 * u * poly_p u) / (1 - u ^ 2) ^ 2) u v B) as (c & E & L).
  { intros c Hc. apply expo_p_der. assert (K := S c ltac:(lra)). lra. }
  assert (K := S c ltac:(lra)). rewrite expo_p_qq in E. assert (Q := qq_neg c ltac:(lra)).
  assert (N : c * qq c / 10 ^ 8 / (1 - c ^ 2) ^ 2 < 0).
  { unfold Rdiv. assert (0 < / (1 - c ^ 2) ^ 2) by (apply Rinv_0_lt_compat; apply pow_lt; auto). assert (0 < / 10 ^ 8) by (apply Rinv_0_lt_compat; lra).
    assert (c * qq c < 0) by nra. assert (c * qq c * / 10 ^ 8 < 0) by nra. nra. }
  nra.
Qed.
Lemma expo_v_falls y z : 0 <= y -> y < z -> z < 1 -> poly_v z / (1 - z ^ 6) < poly_v y / (1 - y ^ 6).
Proof.
  intros A B C. assert (P : forall k, (0 < k)%nat -> 0 <= y ^ k < z ^ k).
  { intros k K. split; [apply pow_le; auto|]. destruct k as [|k]; [lia|]. clear K. induction k as [|k IH]; [simpl; lra|]. change (y ^ S (S k)) with (y * y ^ S k). change (z ^ S (S k)) with (z * z ^ S k).
    assert (0 <= y ^ S k) by (apply pow_le; auto). nra. }
  assert (Z : z ^ 6 < 1). { rewrite <- (pow1 6). apply pow_lt_1_compat || idtac. assert (L := pow_lt_1_compat z 6 ltac:(lra) ltac:(lia)). lra. }
  assert (K6 := P 6%nat ltac:(lia)). assert (K2 := P 2%nat ltac:(lia)). assert (K4 := P 4%nat ltac:(lia)). assert (K8 := P 8%nat ltac:(lia)). assert (K18 := P 18%nat ltac:(lia)). assert (K37 := P 37%nat ltac:(lia)). assert (K71 := P 71%nat ltac:(lia)).
  assert (D : poly_v z < poly_v y) by (unfold poly_v; lra). assert (N : poly_v y <= 0) by (unfold poly_v; lra).
  assert (I : / (1 - y ^ 6) < / (1 - z ^ 6)). { apply Rinv_lt_contravar; [|lra]. apply Rmult_lt_0_compat; lra. } assert (J : 0 < / (1 - y ^ 6)) by (apply Rinv_0_lt_compat; lra). unfold Rdiv. nra.
Qed.
(* Bounds on powers by repeated squaring. *)
Lemma mult_bound a b p q r : 0 <= a <= p -> 0 <= b <= q -> p * q <= r -> 0 <= a * b <= r.
Proof. intros A B C. split; [nra|]. apply Rle_trans with (p * q); auto. apply Rmult_le_compat; lra. Qed.
Lemma pow_add x m n k a b c : k = (m + n)%nat -> 0 <= x ^ m <= a -> 0 <= x ^ n <= b -> a * b <= c -> 0 <= x ^ k <= c.
Proof. intros -> A B C. rewrite Rdef_pow_add. eapply mult_bound; eauto. Qed.
Lemma powers_200 x : 0 <= x <= 0.8841 -> 0 <= x ^ 4 <= 0.6112 /\ 0 <= x ^ 15 <= 0.1578 /\ 0 <= x ^ 42 <= 0.0057 /\ 0 <= x ^ 109 <= 0.00000149.
Proof.
  intro H. assert (P1 : 0 <= x ^ 1 <= 0.8841) by (simpl; lra).
  assert (P2 : 0 <= x ^ 2 <= 0.78164) by (apply (pow_add x 1 1 2 0.8841 0.8841); auto; lra).
  assert (P4 : 0 <= x ^ 4 <= 0.61097) by (apply (pow_add x 2 2 4 0.78164 0.78164); auto; lra).
  assert (P8 : 0 <= x ^ 8 <= 0.37329) by (apply (pow_add x 4 4 8 0.61097 0.61097); auto; lra).
  assert (P16 : 0 <= x ^ 16 <= 0.13935) by (apply (pow_add x 8 8 16 0.37329 0.37329); auto; lra).
  assert (P32 : 0 <= x ^ 32 <= 0.01942) by (apply (pow_add x 16 16 32 0.13935 0.13935); auto; lra).
  assert (P64 : 0 <= x ^ 64 <= 0.000378) by (apply (pow_add x 32 32 64 0.01942 0.01942); auto; lra).
  assert (P12 : 0 <= x ^ 12 <= 0.22808) by (apply (pow_add x 8 4 12 0.37329 0.61097); auto; lra).
  assert (P13 : 0 <= x ^ 13 <= 0.20165) by (apply (pow_add x 12 1 13 0.22808 0.8841); auto; lra).
  split; [lra|]. split; [apply (pow_add x 13 2 15 0.20165 0.78164); auto; lra|].
  assert (P10 : 0 <= x ^ 10 <= 0.29178) by (apply (pow_add x 8 2 10 0.37329 0.78164); auto; lra).
  split; [apply (pow_add x 32 10 42 0.01942 0.29178); auto; lra|].
  assert (P96 : 0 <= x ^ 96 <= 0.00000734077) by (apply (pow_add x 64 32 96 0.000378 0.01942); auto; lra).
  apply (pow_add x 96 13 109 0.00000734077 0.20165); auto; lra.
Qed.
Lemma powers_280 x : 0 <= x <= 0.8279 -> 0 <= x ^ 3 <= 0.56746 /\ 0 <= x ^ 14 <= 0.07108 /\ 0 <= x ^ 41 <= 0.000434 /\ 0 <= x ^ 108 <= 0.00000000139.
Proof.
  intro H. assert (P1 : 0 <= x ^ 1 <= 0.8279) by (simpl; lra).
  assert (P2 : 0 <= x ^ 2 <= 0.68542) by (apply (pow_add x 1 1 2 0.8279 0.8279); auto; lra).
  assert (P4 : 0 <= x ^ 4 <= 0.469801) by (apply (pow_add x 2 2 4 0.68542 0.68542); auto; lra).
  assert (P8 : 0 <= x ^ 8 <= 0.220714) by (apply (pow_add x 4 4 8 0.469801 0.469801); auto; lra).
  assert (P16 : 0 <= x ^ 16 <= 0.048715) by (apply (pow_add x 8 8 16 0.220714 0.220714); auto; lra).
  assert (P32 : 0 <= x ^ 32 <= 0.0023732) by (apply (pow_add x 16 16 32 0.048715 0.048715); auto; lra).
  assert (P64 : 0 <= x ^ 64 <= 0.00000563209) by (apply (pow_add x 32 32 64 0.0023732 0.0023732); auto; lra).
  assert (P12 : 0 <= x ^ 12 <= 0.103692) by (apply (pow_add x 8 4 12 0.220714 0.469801); auto; lra).
  split; [apply (pow_add x 2 1 3 0.68542 0.8279); auto; lra|]. split; [apply (pow_add x 12 2 14 0.103692 0.68542); auto; lra|].
  assert (P9 : 0 <= x ^ 9 <= 0.18273) by (apply (pow_add x 8 1 9 0.220714 0.8279); auto; lra).
  split; [apply (pow_add x 32 9 41 0.0023732 0.18273); auto; lra|].
  assert (P96 : 0 <= x ^ 96 <= 0.0000000133661) by (apply (pow_add x 64 32 96 0.00000563209 0.0023732); auto; lra).
  apply (pow_add x 96 12 108 0.0000000133661 0.103692); auto; lra.
Qed.
Lemma poly_l_pos x : 0 < x <= 0.8841 -> 0 < poly_l x.
Proof.
  intro H. destruct (powers_200 x ltac:(lra)) as (A & B & C & D).
  assert (E : poly_l x = x * (1.99274064 + 1.09965342 * x + -0.510839303 * x ^ 4 + -1.75493479 * x ^ 15 + -45.5170352 * x ^ 42 + -674694.45 * x ^ 109)) by (unfold poly_l; ring).
  rewrite E. apply Rmult_lt_0_compat; lra.
Qed.
Definition dpoly_l (x : R) : R := 1.99274064 + x * (1.09965342 * 2 + -0.510839303 * 5 * x ^ 3 + -1.75493479 * 16 * x ^ 14 + -45.5170352 * 43 * x ^ 41 + -674694.45 * 110 * x ^ 108).
Lemma dpoly_l_pos x : 0 <= x <= 0.8279 -> 0 < dpoly_l x.
Proof.
  intro H. destruct (powers_280 x H) as (A & B & C & D). unfold dpoly_l.
  set (K := 1.09965342 * 2 + -0.510839303 * 5 * x ^ 3 + -1.75493479 * 16 * x ^ 14 + -45.5170352 * 43 * x ^ 41 + -674694.45 * 110 * x ^ 108).
  assert (KB : -2.2 <= K) by (unfold K; lra). clearbody K. nra.
Qed.
Lemma poly_l_der x : derivable_pt_lim poly_l x (dpoly_l x).
Proof. apply is_derive_Reals. unfold poly_l, dpoly_l. auto_derive; [exact I|]. simpl Nat.pred. cbn [INR]. rewrite ?INR_IZR_INZ. simpl Z.of_nat. ring. Qed.
Lemma poly_l_rises x y : 0 <= x -> x < y -> y <= 0.8279 -> poly_l x < poly_l y.
Proof.
  intros A B C. destruct (MVT_cor2 poly_l dpoly_l x y B) as (c & E & L). { intros c _. apply poly_l_der. } assert (D := dpoly_l_pos c ltac:(lra)). nra.
Qed.

Lemma cold T : Tc < T -> forall e, std_pow (1 - T / waterCriticalTemperature) e = None.
Proof. intros L e. change (1 - T / waterCriticalTemperature) with (tau T). unfold std_pow. destruct (Rlt_dec (tau T) 0) as [H|H]; auto. apply tau_out in L. contradiction. Qed.
Lemma root_order k a b T T' : 0 < T -> T < T' -> 0 <= a -> 0 <= b -> a ^ k = tau T -> b ^ k = tau T' -> b < a.
Proof.
  intros A B PA PB EA EB. destruct (Rlt_le_dec b a) as [H|H]; auto. exfalso. assert (a ^ k <= b ^ k) by (apply pow_incr; lra). rewrite EA, EB in H0. unfold tau, Tc in H0.
  assert (T / 647.096 < T' / 647.096) by (apply Rmult_lt_compat_r; lra). lra.
Qed.

(* The saturation pressure is that of the equation of Wagner and Pruss up to the
   critical temperature and not a number above it. *)
Theorem C134_pressure : computes waterSaturatedPressureWagnerPruss eq_pressure.
Proof.
  intros T A. split.
  - intro B. destruct (pressure_at T A B) as (u & _ & _ & _ & _ & -> & ->). reflexivity.
  - intro B. unfold waterSaturatedPressureWagnerPruss. cbv zeta. rewrite (cold T B). reflexivity.
Qed.
Print Assumptions C134_pressure.

(* It is positive, rises with the temperature and reaches the critical pressure at
   the critical temperature only. *)
Theorem C134_pressure_rises :
  (forall T T' p p', 0 < T -> T < T' -> waterSaturatedPressureWagnerPruss T = Some p -> waterSaturatedPressureWagnerPruss T' = Some p' -> 0 < p < p') /\
  waterSaturatedPressureWagnerPruss Tc = Some pc.
Proof.
  assert (Q : 0 < pc) by (unfold pc; lra). split.
  - intros T T' p p' A B E E'. assert (C' : T' <= Tc). { destruct (Rle_lt_dec T' Tc) as [H|H]; auto. destruct (C134_pressure T' ltac:(lra)) as [_ N]. rewrite (N H) in E'. discriminate. }
    destruct (pressure_at T A ltac:(lra)) as (u & U & UT & _ & _ & F & _). destruct (pressure_at T' ltac:(lra) C') as (v & V & VT & _ & _ & F' & _).
    rewrite E in F. injection F as ->. rewrite E' in F'. injection F' as ->. assert (L : v < u) by (apply (root_order 2 u v T T'); auto; lra).
    split; [apply Rmult_lt_0_compat; auto; apply exp_pos|]. apply Rmult_lt_compat_l; auto. apply exp_increasing. apply expo_p_falls; lra.
  - assert (TP : 0 < Tc) by (unfold Tc; lra). destruct (pressure_at Tc TP (Rle_refl _)) as (u & _ & _ & _ & UZ & -> & _). rewrite (UZ eq_refl). f_equal. unfold poly_p.
    replace (exp _) with 1; [ring|]. symmetry. rewrite <- exp_0. f_equal. rewrite ?pow_ne_zero by discriminate. unfold Rdiv. ring.
Qed.
Print Assumptions C134_pressure_rises.

(* The density of the saturated liquid is that of the equation. *)
Theorem C134_liquid : computes waterSaturatedLiquidDensityWagnerPruss eq_liquid.
Proof.
  intros T A. split.
  - intro B. destruct (liquid_at T A B) as (u & _ & _ & _ & _ & -> & ->). reflexivity.
  - intro B. unfold waterSaturatedLiquidDensityWagnerPruss. cbv zeta. rewrite (cold T B). reflexivity.
Qed.
Print Assumptions C134_liquid.

Lemma tau_le T T0 : T0 <= T -> tau T <= tau T0.
Proof. intro H. unfold tau, Tc. assert (T0 / 647.096 <= T / 647.096) by (apply Rmult_le_compat_r; lra). lra. Qed.
Lemma cube_le x X : 0 <= X -> x ^ 3 <= X ^ 3 -> x <= X.
Proof. intros A B. destruct (Rle_lt_dec x X) as [H|H]; auto. exfalso. assert (X * X < x * x) by nra. assert (X * X * X < x * x * x) by nra. simpl in B. lra. Qed.

(* From 200 K on it exceeds the critical density, which it reaches at the critical
   temperature; from 280 K on, just above that of the greatest density, it falls
   as the temperature rises. *)
Theorem C134_liquid_falls :
  (forall T d, 200 <= T < Tc -> waterSaturatedLiquidDensityWagnerPruss T = Some d -> dc < d) /\
  waterSaturatedLiquidDensityWagnerPruss Tc = Some dc /\
  (forall T T' d d', 280 <= T -> T < T' -> waterSaturatedLiquidDensityWagnerPruss T = Some d -> waterSaturatedLiquidDensityWagnerPruss T' = Some d' -> d' < d).
Proof.
  split; [|split].
  - intros T d [A B] E. destruct (liquid_at T ltac:(lra) ltac:(lra)) as (x & X & XT & XP & _ & F & _). rewrite E in F. injection F as ->.
    assert (XB : x <= 0.8841). { apply cube_le; [lra|]. rewrite XT. apply Rle_trans with (tau 200); [apply tau_le; auto|]. unfold tau, Tc. lra. }
    assert (P := poly_l_pos x (conj (XP B) XB)). unfold dc. lra.
  - assert (TP : 0 < Tc) by (unfold Tc; lra). destruct (liquid_at Tc TP (Rle_refl _)) as (u & _ & _ & _ & UZ & -> & _). rewrite (UZ eq_refl). f_equal. unfold poly_l. rewrite !pow_ne_zero by discriminate. ring.
  - intros T T' d d' A B E E'. assert (C' : T' <= Tc). { destruct (Rle_lt_dec T' Tc) as [H|H]; auto. destruct (C134_liquid T' ltac:(lra)) as [_ N]. rewrite (N H) in E'. discriminate. }
    destruct (liquid_at T ltac:(lra) ltac:(lra)) as (u & U & UT & _ & _ & F & _). destruct (liquid_at T' ltac:(lra) C') as (v & V & VT & _ & _ & F' & _).
    rewrite E in F. injection F as ->. rewrite E' in F'. injection F' as ->. assert (L : v < u) by (apply (root_order 3 u v T T'); auto; lra).
    assert (UB : u <= 0.8279). { apply cube_le; [lra|]. rewrite UT. apply Rle_trans with (tau 280); [apply tau_le; auto|]. unfold tau, Tc. lra. }
    assert (P := poly_l_rises v u ltac:(lra) L UB). unfold dc. lra.
Qed.
Print Assumptions C134_liquid_falls.

(* The density of the saturated vapour, however, is not that of the equation: the
   exponent is multiplied by Tc/T, as that of the pressure is. *)
Theorem C134_vapour_partial :
  (forall T d, 0 < T -> waterSaturatedVapourDensityWagnerPruss T = Some d -> T <= Tc /\ d = dc * Rpower (eq_vapour T / dc) (Tc / T)) /\
  (forall T d, 0 < T < Tc -> waterSaturatedVapourDensityWagnerPruss T = Some d -> 0 < d < eq_vapour T /\ eq_vapour T < dc) /\
  waterSaturatedVapourDensityWagnerPruss Tc = Some dc /\
  (forall T T' d d', 0 < T -> T < T' -> waterSaturatedVapourDensityWagnerPruss T = Some d -> waterSaturatedVapourDensityWagnerPruss T' = Some d' -> d < d') /\
  (forall T, Tc < T -> waterSaturatedVapourDensityWagnerPruss T = None).
Proof.
  assert (Q : 0 < dc) by (unfold dc; lra).
  assert (N : forall T, Tc < T -> waterSaturatedVapourDensityWagnerPruss T = None). { intros T B. unfold waterSaturatedVapourDensityWagnerPruss. cbv zeta. rewrite (cold T B). reflexivity. }
  assert (IN : forall T d, waterSaturatedVapourDensityWagnerPruss T = Some d -> T <= Tc). { intros T d E. destruct (Rle_lt_dec T Tc) as [H|H]; auto. rewrite (N T H) in E. discriminate. }
  split; [|split; [|split; [|split]]]; auto.
  - intros T d A E. assert (B := IN T d E). split; auto. destruct (vapour_at T A B) as (y & Y & YT & _ & _ & F & G). rewrite E in F. injection F as ->. rewrite G. f_equal.
    replace (dc * exp (poly_v y) / dc) with (exp (poly_v y)) by (field; lra). unfold Rpower. rewrite ln_exp. f_equal. rewrite TcT by auto. rewrite <- YT. field. rewrite YT. destruct (tau_range T A B). lra.
  - intros T d [A B] E. destruct (vapour_at T A ltac:(lra)) as (y & Y & YT & YP & _ & F & G). rewrite E in F. injection F as ->. rewrite G. specialize (YP B).
    assert (PV : poly_v y < 0). { unfold poly_v. assert (0 < y ^ 2) by (apply pow_lt; auto). assert (0 < y ^ 4) by (apply pow_lt; auto). assert (0 < y ^ 8) by (apply pow_lt; auto). assert (0 < y ^ 18) by (apply pow_lt; auto).
      assert (0 < y ^ 37) by (apply pow_lt; auto). assert (0 < y ^ 71) by (apply pow_lt; auto). lra. }
    assert (S : 0 < y ^ 6 < 1). { destruct (tau_range T A ltac:(lra)). split; [apply pow_lt; auto|lra]. }
    split; [split|].
    + apply Rmult_lt_0_compat; auto. apply exp_pos.
    + apply Rmult_lt_compat_l; auto. apply exp_increasing. assert (J : 1 < / (1 - y ^ 6)). { rewrite <- Rinv_1 at 1. apply Rinv_lt_contravar; lra. } change (poly_v y * / (1 - y ^ 6) < poly_v y). set (i := / (1 - y ^ 6)) in *. clearbody i. set (q := poly_v y) in *. clearbody q. clear - J PV. nra.
    + rewrite <- (Rmult_1_r dc) at 2. apply Rmult_lt_compat_l; auto. rewrite <- exp_0. apply exp_increasing. auto.
  - assert (TP : 0 < Tc) by (unfold Tc; lra). destruct (vapour_at Tc TP (Rle_refl _)) as (u & _ & _ & _ & UZ & -> & _). rewrite (UZ eq_refl). f_equal. unfold poly_v. rewrite !pow_ne_zero by discriminate.
    replace (exp _) with 1; [ring|]. symmetry. rewrite <- exp_0. f_equal. rewrite ?pow_ne_zero by discriminate. unfold Rdiv. ring.
  - intros T T' d d' A B E E'. assert (C' := IN T' d' E'). destruct (vapour_at T A ltac:(lra)) as (u & U & UT & _ & _ & F & _). destruct (vapour_at T' ltac:(lra) C') as (v & V & VT & _ & _ & F' & _).
    rewrite E in F. injection F as ->. rewrite E' in F'. injection F' as ->. assert (L : v < u) by (apply (root_order 6 u v T T'); auto; lra).
    apply Rmult_lt_compat_l; auto. apply exp_increasing. apply expo_v_falls; lra.
Qed.
Print Assumptions C134_vapour_partial.
Theorem C134_vapour_refuted : ~ C134_statement.
Proof.
  intros (_ & _ & H). destruct (H 300 ltac:(lra)) as [K _]. unfold Tc in K. specialize (K ltac:(lra)). destruct C134_vapour_partial as (_ & P & _).
  destruct (P 300 (eq_vapour 300) ltac:(unfold Tc; lra) K) as [L _]. lra.
Qed.
Print Assumptions C134_vapour_refuted.

(* At low temperatures, where the equation does not hold, the density of the
   liquid is negative: no temperature is refused. *)
Theorem C134_liquid_positive_refuted : ~ (forall T d, 0 < T -> waterSaturatedLiquidDensityWagnerPruss T = Some d -> 0 < d).
Proof.
  intro H. set (T := Tc * (1 - 0.95 ^ 3)). assert (A : 0 < T) by (unfold T, Tc; lra). assert (B : T <= Tc) by (unfold T, Tc; lra).
  destruct (liquid_at T A B) as (x & X & XT & _ & _ & F & _). assert (K := H T _ A F). assert (E : tau T = 0.95 ^ 3) by (unfold tau, T, Tc; field; lra). rewrite E in XT.
  assert (XL : 0.95 <= x). { apply cube_le; lra. }
  assert (G : forall m n a b c, 0 <= a -> 0 <= b -> a <= x ^ m -> b <= x ^ n -> c <= a * b -> c <= x ^ (m + n)). { intros m n a b c PA PB HA HB HC. rewrite Rdef_pow_add. apply Rle_trans with (a * b); auto. apply Rmult_le_compat; auto. }
  assert (P1 : 0.95 <= x ^ 1) by (simpl; lra). assert (P2 : 0.9 <= x ^ 2) by (apply (G 1%nat 1%nat 0.95 0.95); auto; lra). assert (P4 : 0.81 <= x ^ 4) by (apply (G 2%nat 2%nat 0.9 0.9); auto; lra).
  assert (P8 : 0.65 <= x ^ 8) by (apply (G 4%nat 4%nat 0.81 0.81); auto; lra). assert (P16 : 0.42 <= x ^ 16) by (apply (G 8%nat 8%nat 0.65 0.65); auto; lra). assert (P32 : 0.17 <= x ^ 32) by (apply (G 16%nat 16%nat 0.42 0.42); auto; lra).
  assert (P64 : 0.028 <= x ^ 64) by (apply (G 32%nat 32%nat 0.17 0.17); auto; lra). assert (P128 : 0.0007 <= x ^ 128) by (apply (G 64%nat 64%nat 0.028 0.028); auto; lra).
  assert (P110 : 0.0007 <= x ^ 110). { apply Rle_trans with (x ^ 128); auto. replace 128%nat with (110 + 18)%nat by reflexivity. rewrite Rdef_pow_add. assert (0 <= x ^ 110) by (apply pow_le; lra).
    assert (x ^ 18 <= 1). { rewrite <- (pow1 18). apply pow_incr. lra. } nra. }
  assert (U : forall k, 0 <= x ^ k <= 1). { intro k. split; [apply pow_le; lra|]. rewrite <- (pow1 k). apply pow_incr. lra. }
  assert (U2 := U 2%nat). assert (U5 := U 5%nat). assert (U16 := U 16%nat). assert (U43 := U 43%nat). unfold poly_l, dc in K. lra.
Qed.
Print Assumptions C134_liquid_positive_refuted.

(* At 300 K all three are numbers; the liquid is denser than the critical point
   and the vapour less dense. *)
Example C134_nonvacuous : exists p l v, waterSaturatedPressureWagnerPruss 300 = Some p /\ waterSaturatedLiquidDensityWagnerPruss 300 = Some l /\ waterSaturatedVapourDensityWagnerPruss 300 = Some v /\
  0 < p < pc /\ 0 < v < dc /\ dc < l.
Proof.
  assert (B : 300 <= Tc) by (unfold Tc; lra). destruct (C134_pressure 300 ltac:(lra)) as [P _]. destruct (C134_liquid 300 ltac:(lra)) as [L _]. destruct (vapour_at 300 ltac:(lra) B) as (y & _ & _ & _ & _ & V & _).
  exists (eq_pressure 300), (eq_liquid 300). eexists. split; [auto|]. split; [auto|]. split; [exact V|]. destruct C134_pressure_rises as [RI C]. destruct C134_liquid_falls as [LF _]. destruct C134_vapour_partial as (_ & VP & _).
  assert (S : 300 < Tc) by (unfold Tc; lra). split; [exact (RI 300 Tc _ _ ltac:(lra) S (P B) C)|]. split; [|apply (LF 300); auto; lra].
  assert (Z : 0 < 300 < Tc) by lra. destruct (VP 300 _ Z V) as [[V0 V1] V2]. split; [exact V0|exact (Rlt_trans _ _ _ V1 V2)].
Qed.
