(* Property theorems: roots of cubics. *)
From Coq Require Import Reals Lra.
From Coquelicot Require Import Complex.
From Verif Require Import Base M_Roots.
Local Open Scope R_scope.

(* ---- Cube roots ---- *)
Lemma cbrt_pow x : cbrt x ^ 3 = x.
Proof.
  unfold cbrt. assert (G : forall y, 0 < y -> Rpower y (1 / 3) ^ 3 = y).
  { intros y Y. rewrite <- Rpower_pow by apply exp_pos. rewrite Rpower_mult. replace (1 / 3 * INR 3) with 1 by (cbn; field). apply Rpower_1. auto. }
  destruct (Rlt_dec x 0) as [L|L].
  - replace ((- Rpower (- x) (1 / 3)) ^ 3) with (- (Rpower (- x) (1 / 3) ^ 3)) by ring. rewrite G by lra. ring.
  - destruct (Req_EM_T x 0) as [->|N]; [ring|]. apply G. lra.
Qed.
Lemma cube_mono x y : x < y -> x ^ 3 < y ^ 3.
Proof. intro L. assert (E : y ^ 3 - x ^ 3 = (y - x) * ((x + y / 2) ^ 2 + 3 / 4 * y ^ 2)) by field. assert (P : 0 < (x + y / 2) ^ 2 + 3 / 4 * y ^ 2).
  { assert (0 <= (x + y / 2) ^ 2) by apply pow2_ge_0. destruct (Req_dec y 0) as [->|N]; [replace ((x + 0 / 2) ^ 2) with (x * x) by field; nra|]. assert (0 < y ^ 2) by (rewrite <- Rsqr_pow2; apply Rlt_0_sqr; auto). lra. }
  assert (0 < (y - x) * ((x + y / 2) ^ 2 + 3 / 4 * y ^ 2)) by (apply Rmult_lt_0_compat; lra). lra. Qed.
Lemma cube_inj x y : x ^ 3 = y ^ 3 -> x = y.
Proof. intro E. destruct (Rtotal_order x y) as [L|[L|L]]; auto; apply cube_mono in L; lra. Qed.

(* ---- The cubic and its factors ---- *)
Definition cubic (b c d : R) (z : C) : C := (z * z * z + RtoC b * z * z + RtoC c * z + RtoC d)%C.
Definition factors (r : CubicRoots) (z : C) : C := let '(r0, r1, r2) := r in ((z - r0) * (z - r1) * (z - r2))%C.
Definition realCubic (b c d x : R) : R := x ^ 3 + b * x ^ 2 + c * x + d.
(* The number that decides between one and three real roots. *)
Definition discriminant (b c d : R) : R := (realCubic b c d (- b / 3)) ^ 2 - 4 * ((b ^ 2 - 3 * c) / 9) ^ 3.

Lemma eps_pos : 0 < eps.
Proof. unfold eps. apply Rmult_lt_0_compat; [lra|]. apply Rinv_0_lt_compat. apply pow_lt. lra. Qed.

Ltac ceq := unfold cubic, factors, RtoC, Cminus, Cplus, Cmult, Copp; cbn [fst snd]; apply injective_projections; cbn [fst snd].

Lemma Cprod_zero a b : (a * b)%C = RtoC 0 -> a = RtoC 0 \/ b = RtoC 0.
Proof. intro E. apply (f_equal Cmod) in E. rewrite Cmod_mult, Cmod_0 in E. apply Rmult_integral in E as [E|E]; [left|right]; apply Cmod_eq_0; auto. Qed.
Lemma Cdiff_zero a b : (a - b)%C = RtoC 0 -> a = b.
Proof. destruct a as [a1 a2]. destruct b as [b1 b2]. intro E. pose proof (f_equal fst E) as E1. pose proof (f_equal snd E) as E2. cbn in E1, E2. apply injective_projections; cbn; lra. Qed.
(* What the three branches return. *)
Lemma cardano_one b c d : eps < discriminant b c d -> exists r, cardano b c d = Ok r /\ forall z, cubic b c d z = factors r z.
Proof.
  intro D. unfold cardano. set (xn := - b / 3). set (yn := d + xn * (c + xn * (b + xn))). set (d2 := (b * b - 3 * c) / 9). set (disc := yn * yn - 4 * d2 * d2 * d2).
  assert (E : disc = discriminant b c d). { unfold disc, discriminant, yn, d2, realCubic, xn. field. }
  cbn zeta. fold disc. pose proof eps_pos as EP. destruct (Rlt_dec eps disc) as [_|N]; [|lra].
  unfold sqrtR at 1. destruct (Rlt_dec disc 0); [lra|]. cbn [bind].
  set (s := sqrt disc). assert (SS : s * s = disc) by (apply sqrt_sqrt; lra).
  set (A := cbrt (/ 2 * (- yn + s))). set (B := cbrt (/ 2 * (- yn - s))).
  assert (A3 : A ^ 3 = / 2 * (- yn + s)) by apply cbrt_pow. assert (B3 : B ^ 3 = / 2 * (- yn - s)) by apply cbrt_pow.
  assert (AB : A * B = d2). { apply cube_inj. replace ((A * B) ^ 3) with (A ^ 3 * B ^ 3) by ring. rewrite A3, B3. assert (disc = yn * yn - 4 * d2 * d2 * d2) by reflexivity. nra. }
  replace (xn + A + B - xn) with (A + B) by ring.
  replace (xn + A + B) with (xn + (A + B)) by ring.
  unfold sqrtR. assert (P : 3 * ((A + B) * (A + B) - 4 * d2) = 3 * (A - B) ^ 2) by (rewrite <- AB; ring).
  destruct (Rlt_dec (3 * ((A + B) * (A + B) - 4 * d2)) 0) as [K|K]. { rewrite P in K. pose proof (pow2_ge_0 (A - B)). lra. } cbn [bind].
  set (w := sqrt (3 * ((A + B) * (A + B) - 4 * d2))). assert (WW : w * w = 3 * (A - B) ^ 2) by (unfold w; rewrite sqrt_sqrt; [exact P|lra]).
  eexists. split; [reflexivity|]. intros [x y].
  assert (T3 : (A + B) ^ 3 = - yn + 3 * d2 * (A + B)). { rewrite <- AB. replace ((A + B) ^ 3) with (A ^ 3 + B ^ 3 + 3 * (A * B) * (A + B)) by ring. rewrite A3, B3. field. }
  assert (Y : yn = d + xn * (c + xn * (b + xn))) by reflexivity. assert (D2 : d2 = (b * b - 3 * c) / 9) by reflexivity. assert (XB : b = - 3 * xn) by (unfold xn; field).
  assert (Cc : c = 3 * xn ^ 2 - 3 * d2). { rewrite D2, XB. field. }
  assert (Dd : d = yn - xn * (c + xn * (b + xn))) by lra.
  set (t := A + B) in *. assert (W2 : w * w = 3 * (t * t - 4 * d2)) by (rewrite P; exact WW).
  clearbody w t yn d2 xn. clear - T3 W2 XB Cc Dd. subst b c d.
  assert (T3' : t ^ 3 - 3 * d2 * t + yn = 0) by lra. assert (YN : yn = 3 * d2 * t - t ^ 3) by lra. subst yn. clear T3 T3'.
  assert (W3 : (/ 2 * w) * (/ 2 * w) = 3 / 4 * (t * t - 4 * d2)). { replace ((/ 2 * w) * (/ 2 * w)) with (/ 4 * (w * w)) by field. rewrite W2. field. }
  set (q := / 2 * w) in *. clearbody q. clear W2.
  ceq.
  - transitivity ((x - (xn + t)) * ((x - xn + / 2 * t) ^ 2 - y ^ 2 + 3 / 4 * (t * t - 4 * d2)) - 2 * y ^ 2 * (x - xn + / 2 * t)); [field|]. rewrite <- W3. field.
  - transitivity (2 * (x - (xn + t)) * (x - xn + / 2 * t) * y + y * ((x - xn + / 2 * t) ^ 2 - y ^ 2 + 3 / 4 * (t * t - 4 * d2))); [field|]. rewrite <- W3. field.
Qed.
(* Three real numbers, by their elementary symmetric functions. *)
Lemma real_factors b c d r0 r1 r2 : r0 + r1 + r2 = - b -> r0 * r1 + r0 * r2 + r1 * r2 = c -> r0 * r1 * r2 = - d ->
  forall z, cubic b c d z = factors ((r0, 0), (r1, 0), (r2, 0)) z.
Proof.
  intros S P T [x y]. assert (B : b = - (r0 + r1 + r2)) by lra. assert (D : d = - (r0 * r1 * r2)) by lra. subst b d. subst c. ceq; ring.
Qed.
Lemma cardano_three b c d : discriminant b c d < - eps -> exists r0 r1 r2, cardano b c d = Ok ((r0, 0), (r1, 0), (r2, 0)) /\
  r0 + r1 + r2 = - b /\ r0 * r1 + r0 * r2 + r1 * r2 = c /\ r0 * r1 * r2 = - d /\ r0 < r1 < r2.
Proof.
  intro D. unfold cardano. set (xn := - b / 3). set (yn := d + xn * (c + xn * (b + xn))). set (d2 := (b * b - 3 * c) / 9). set (disc := yn * yn - 4 * d2 * d2 * d2).
  assert (E : disc = discriminant b c d). { unfold disc, discriminant, yn, d2, realCubic, xn. field. }
  cbn zeta. fold disc. pose proof eps_pos as EP. destruct (Rlt_dec eps disc) as [|_]; [lra|]. destruct (Rlt_dec disc (- eps)) as [_|]; [|lra].
  assert (DP : 0 < d2). { destruct (Rle_lt_dec d2 0) as [K|K]; auto. exfalso. assert (0 <= yn * yn) by nra. assert (d2 * d2 * d2 <= 0) by (assert (0 <= d2 * d2) by nra; nra). unfold disc in *. nra. }
  unfold sqrtR. destruct (Rlt_dec d2 0); [lra|]. cbn [bind]. set (dl := sqrt d2). assert (DD : dl * dl = d2) by (apply sqrt_sqrt; lra). assert (D0 : 0 < dl) by (apply sqrt_lt_R0; auto).
  set (h := 2 * d2 * dl). assert (H0 : 0 < h) by (unfold h; apply Rmult_lt_0_compat; lra).
  unfold divR. destruct (Req_EM_T h 0); [lra|]. cbn [bind].
  assert (HH : h * h = 4 * d2 * d2 * d2). { unfold h. replace (2 * d2 * dl * (2 * d2 * dl)) with (4 * d2 * d2 * (dl * dl)) by ring. rewrite DD. ring. }
  assert (YH : yn * yn < h * h) by (rewrite HH; unfold disc in *; lra).
  assert (Y1 : - h < yn) by nra. assert (Y2 : yn < h) by nra.
  assert (R1 : -1 < - yn / h). { apply Rmult_lt_reg_r with h; auto. unfold Rdiv. rewrite Rmult_assoc, Rinv_l by lra. lra. }
  assert (R2 : - yn / h < 1). { apply Rmult_lt_reg_r with h; auto. unfold Rdiv. rewrite Rmult_assoc, Rinv_l by lra. lra. }
  unfold acosR. destruct (Rlt_dec (- yn / h) (-1)); [lra|]. destruct (Rlt_dec 1 (- yn / h)); [lra|]. cbn [bind].
  set (th := acos (- yn / h) / 3).
  assert (C3 : cos (3 * th) = - yn / h). { unfold th. replace (3 * (acos (- yn / h) / 3)) with (acos (- yn / h)) by field. apply cos_acos. lra. }
  assert (TB : 0 < th < PI / 3). { destruct (acos_bound_lt (- yn / h)) as [B1 B2]; [lra|]. unfold th. lra. }
  exists (xn + 2 * dl * cos (2 * PI / 3 + th)), (xn + 2 * dl * cos (2 * PI / 3 - th)), (xn + 2 * dl * cos th). split; [reflexivity|].
  assert (CT : cos (3 * th) = 4 * cos th ^ 3 - 3 * cos th).
  { replace (3 * th) with (2 * th + th) by ring. rewrite cos_plus, cos_2a, sin_2a. assert (S2 : sin th * sin th = 1 - cos th * cos th). { pose proof (sin2_cos2 th) as K. unfold Rsqr in K. lra. }
    replace ((cos th * cos th - sin th * sin th) * cos th - 2 * sin th * cos th * sin th) with ((cos th * cos th - sin th * sin th) * cos th - 2 * cos th * (sin th * sin th)) by ring. rewrite S2. ring. }
  assert (Cp : cos (2 * PI / 3) = - / 2). { replace (2 * PI / 3) with (2 * (PI / 3)) by field. rewrite cos_2PI3. field. }
  assert (Sp : sin (2 * PI / 3) = sqrt 3 / 2). { replace (2 * PI / 3) with (2 * (PI / 3)) by field. apply sin_2PI3. }
  assert (S3 : sqrt 3 * sqrt 3 = 3) by (apply sqrt_sqrt; lra).
  assert (CC : sin th * sin th = 1 - cos th * cos th). { pose proof (sin2_cos2 th) as K. unfold Rsqr in K. lra. }
  assert (ORD : cos (2 * PI / 3 + th) < cos (2 * PI / 3 - th) < cos th). { pose proof PI_RGT_0. split; apply cos_decreasing_1; lra. }
  rewrite cos_plus, cos_minus, Cp, Sp in *. set (k := cos th) in *. set (s := sin th) in *. set (q := sqrt 3) in *.
  assert (YN : yn = - h * (4 * k ^ 3 - 3 * k)). { rewrite <- CT, C3. field. lra. }
  assert (Y : yn = d + xn * (c + xn * (b + xn))) by reflexivity. assert (D2 : d2 = (b * b - 3 * c) / 9) by reflexivity. assert (XB : b = - 3 * xn) by (unfold xn; field).
  assert (Cc : c = 3 * xn ^ 2 - 3 * d2) by (rewrite D2, XB; field). assert (Dd : d = yn - xn * (c + xn * (b + xn))) by lra.
  assert (Hh : h = 2 * dl ^ 3). { unfold h. rewrite <- DD. ring. }
  split; [rewrite XB; field|]. split; [|split].
  - rewrite Cc, <- DD. transitivity (3 * xn ^ 2 - 3 * (dl * dl) * k * k - (dl * dl) * (q * q) * (s * s)); [field|]. rewrite S3, CC. ring.
  - rewrite Dd, YN, Hh. rewrite Cc, XB, <- DD.
    transitivity (xn ^ 3 + xn * (- 3 * (dl * dl) * k * k - (dl * dl) * (q * q) * (s * s)) + 2 * dl ^ 3 * k * (k * k - (q * q) * (s * s))); [field|]. rewrite S3, CC. ring.
  - destruct ORD as [O1 O2]. split; apply Rplus_lt_compat_l; apply Rmult_lt_compat_l; lra.
Qed.
Lemma cardano_double b c d : - eps <= discriminant b c d <= eps -> exists r0 r1 r2 k, cardano b c d = Ok ((r0, 0), (r1, 0), (r2, 0)) /\
  r0 + r1 + r2 = - b /\ r0 * r1 + r0 * r2 + r1 * r2 = c + k /\ r0 * r1 * r2 = - (d + k * b / 3) /\ r0 <= r1 <= r2 /\ Rabs k ^ 3 <= 27 * Rabs (discriminant b c d).
Proof.
  intro D. unfold cardano. set (xn := - b / 3). set (yn := d + xn * (c + xn * (b + xn))). set (d2 := (b * b - 3 * c) / 9). set (disc := yn * yn - 4 * d2 * d2 * d2).
  assert (E : disc = discriminant b c d). { unfold disc, discriminant, yn, d2, realCubic, xn. field. }
  cbn zeta. fold disc. pose proof eps_pos as EP. destruct (Rlt_dec eps disc) as [|_]; [lra|]. destruct (Rlt_dec disc (- eps)) as [|_]; [lra|].
  set (dl := cbrt (/ 2 * yn)). assert (D3 : dl ^ 3 = / 2 * yn) by apply cbrt_pow.
  assert (Y : yn = d + xn * (c + xn * (b + xn))) by reflexivity. assert (D2 : d2 = (b * b - 3 * c) / 9) by reflexivity. assert (XB : b = - 3 * xn) by (unfold xn; field).
  assert (Cc : c = 3 * xn ^ 2 - 3 * d2) by (rewrite D2, XB; field). assert (Dd : d = yn - xn * (c + xn * (b + xn))) by lra. assert (YN : yn = 2 * dl ^ 3) by lra.
  set (a := xn + dl). set (g := xn - 2 * dl). set (k := 3 * (d2 - dl ^ 2)).
  assert (S1 : a + a + g = - b) by (unfold a, g; rewrite XB; ring). assert (S2 : a * a + a * g + a * g = c + k) by (unfold a, g, k; rewrite Cc; ring).
  assert (S3 : a * a * g = - (d + k * b / 3)). { unfold a, g, k. rewrite Dd, Cc, XB, YN. field. }
  assert (KB : Rabs k ^ 3 <= 27 * Rabs (discriminant b c d)).
  { assert (ED : disc = 4 * ((dl ^ 2) ^ 3 - d2 ^ 3)). { unfold disc. rewrite YN. ring. }
    rewrite <- E, ED. set (p := dl ^ 2). unfold k. fold p. clear. rewrite !Rabs_mult. rewrite (Rabs_pos_eq 3), (Rabs_pos_eq 4) by lra.
    replace ((3 * Rabs (d2 - p)) ^ 3) with (27 * (Rabs (d2 - p) ^ 3)) by ring.
    apply Rmult_le_compat_l; [lra|]. replace (p ^ 3 - d2 ^ 3) with (- ((d2 - p) * (d2 ^ 2 + d2 * p + p ^ 2))) by ring. rewrite Rabs_Ropp, Rabs_mult.
    assert (G : (d2 - p) ^ 2 <= 4 * (d2 ^ 2 + d2 * p + p ^ 2)). { assert (0 <= 3 * (d2 + p) ^ 2) by (pose proof (pow2_ge_0 (d2 + p)); lra). nra. }
    assert (N : 0 <= d2 ^ 2 + d2 * p + p ^ 2) by (pose proof (pow2_ge_0 (d2 - p)); lra). rewrite (Rabs_pos_eq _ N).
    pose proof (Rabs_pos (d2 - p)) as AP. assert (SQ : Rabs (d2 - p) ^ 2 = (d2 - p) ^ 2) by (rewrite pow2_abs; reflexivity).
    replace (Rabs (d2 - p) ^ 3) with (Rabs (d2 - p) * Rabs (d2 - p) ^ 2) by ring. rewrite SQ. replace (4 * (Rabs (d2 - p) * (d2 ^ 2 + d2 * p + p ^ 2))) with (Rabs (d2 - p) * (4 * (d2 ^ 2 + d2 * p + p ^ 2))) by ring.
    apply Rmult_le_compat_l; auto. }
  destruct (Rlt_dec a g) as [L|L].
  - exists a, a, g, k. split; [reflexivity|]. repeat split; auto; lra.
  - exists g, a, a, k. split; [reflexivity|]. repeat split; auto; lra.
Qed.

(* ======================== C44: roots of cubics ======================== *)
Definition C44_statement : Prop := forall b c d, exists r, cardano b c d = Ok r /\ (forall z, cubic b c d z = factors r z) /\
  forall x, In x (realRoots r) <-> realCubic b c d x = 0.
(* x^3 - 1e-9: the tolerance on the discriminant is absolute, and none of the
   numbers returned is a root. *)
Theorem C44_refuted : ~ C44_statement.
Proof.
  intro H. destruct (H 0 0 (- / 1000000000)) as (r & E & F & _).
  assert (EV : - eps <= discriminant 0 0 (- / 1000000000) <= eps).
  { unfold discriminant, realCubic, eps. split; [|].
    - replace ((((- 0 / 3) ^ 3 + 0 * (- 0 / 3) ^ 2 + 0 * (- 0 / 3) + - / 1000000000) ^ 2 - 4 * ((0 ^ 2 - 3 * 0) / 9) ^ 3)) with (/ 1000000000 ^ 2) by field. pose proof (pow_lt 2 52 ltac:(lra)). assert (0 < / 2 ^ 52) by (apply Rinv_0_lt_compat; auto). lra.
    - replace ((((- 0 / 3) ^ 3 + 0 * (- 0 / 3) ^ 2 + 0 * (- 0 / 3) + - / 1000000000) ^ 2 - 4 * ((0 ^ 2 - 3 * 0) / 9) ^ 3)) with (/ 1000000000 ^ 2) by field. replace (2 ^ 52) with 4503599627370496 by ring. lra. }
  destruct (cardano_double _ _ _ EV) as (r0 & r1 & r2 & k & E' & S1 & S2 & S3 & _ & _). rewrite E in E'. injection E' as ->.
  assert (Z : forall x, realCubic 0 0 (- / 1000000000) x = (x - r0) * (x - r1) * (x - r2)).
  { intro x. specialize (F (x, 0)). apply (f_equal fst) in F. unfold cubic, factors, RtoC, Cminus, Cplus, Cmult, Copp in F. cbn [fst snd] in F. unfold realCubic. lra. }
  unfold realCubic in Z. pose proof (Z r0) as Z0. pose proof (Z 0) as Za. pose proof (Z 1) as Zb. pose proof (Z (-1)) as Zc.
  assert (K : k = 0) by nra. subst k.
  assert (Q : r0 ^ 2 + r1 ^ 2 + r2 ^ 2 = 0) by nra. assert (r0 = 0) by nra. subst r0. lra.
Qed.
Print Assumptions C44_refuted.
(* Away from that branch, or when the discriminant is zero, the statement holds;
   within it the numbers are the roots of the cubic with k (x + b/3) added, where
   k^3 is at most 27 times the discriminant. *)
Theorem C44_partial : forall b c d,
  exists r k, cardano b c d = Ok r /\ (forall z, cubic b (c + k) (d + k * b / 3) z = factors r z) /\
  (forall x, In x (realRoots r) <-> realCubic b (c + k) (d + k * b / 3) x = 0) /\
  Rabs k ^ 3 <= 27 * Rabs (discriminant b c d) /\ (eps < Rabs (discriminant b c d) -> k = 0).
Proof.
  intros b c d.
  assert (RR : forall b c d r, (forall z, cubic b c d z = factors r z) -> forall x, In x (realRoots r) <-> realCubic b c d x = 0).
  { clear. intros b c d [[r0 r1] r2] F x. specialize (F (RtoC x)).
    assert (L : cubic b c d (RtoC x) = RtoC (realCubic b c d x)). { unfold realCubic. ceq; ring. }
    rewrite L in F. clear L. unfold realRoots. rewrite in_flat_map.
    assert (M : (exists z : C, In z [r0; r1; r2] /\ In x (if Req_EM_T (snd z) 0 then [fst z] else [])) <-> In (RtoC x) [r0; r1; r2]).
    { split.
      - intros (z & Iz & Ix). destruct (Req_EM_T (snd z) 0) as [Z|Z]; [|destruct Ix]. destruct Ix as [<-|[]]. replace (RtoC (fst z)) with z; auto. destruct z. cbn in *. subst. reflexivity.
      - intro I. exists (RtoC x). split; auto. cbn. destruct (Req_EM_T 0 0) as [_|N]; [left; auto|contradiction]. }
    rewrite M. clear M. unfold factors in F. split.
    - intro I. assert (Z : RtoC (realCubic b c d x) = RtoC 0).
      { rewrite F. destruct I as [<-|[<-|[<-|[]]]]; unfold Cminus; rewrite Cplus_opp_r; ring. }
      apply RtoC_inj. auto.
    - intro Z. rewrite Z in F. symmetry in F. apply Cprod_zero in F as [F|F].
      + apply Cprod_zero in F as [F|F]; [left|right; left]; symmetry; apply Cdiff_zero; auto.
      + right. right. left. symmetry. apply Cdiff_zero. auto. }
  destruct (Rlt_le_dec eps (discriminant b c d)) as [D|D].
  - destruct (cardano_one b c d D) as (r & E & F). exists r, 0. split; auto. replace (c + 0) with c by ring. replace (d + 0 * b / 3) with d by field. split; auto. split; [apply RR; auto|]. split; auto.
    rewrite Rabs_R0. pose proof (Rabs_pos (discriminant b c d)). lra.
  - destruct (Rlt_le_dec (discriminant b c d) (- eps)) as [D'|D'].
    + destruct (cardano_three b c d D') as (r0 & r1 & r2 & E & S1 & S2 & S3 & _). eexists. exists 0. split; [exact E|]. replace (c + 0) with c by ring. replace (d + 0 * b / 3) with d by field.
      pose proof (real_factors b c d r0 r1 r2 S1 S2 S3) as F. split; auto. split; [apply RR; auto|]. split; auto. rewrite Rabs_R0. pose proof (Rabs_pos (discriminant b c d)). lra.
    + destruct (cardano_double b c d (conj D' D)) as (r0 & r1 & r2 & k & E & S1 & S2 & S3 & _ & K). eexists. exists k. split; [exact E|].
      pose proof (real_factors b (c + k) (d + k * b / 3) r0 r1 r2 S1 S2 S3) as F. split; auto. split; [apply RR; auto|]. split; auto.
      intro L. exfalso. assert (Rabs (discriminant b c d) <= eps) by (apply Rabs_le; lra). lra.
Qed.
Print Assumptions C44_partial.
Theorem C44_exact : forall b c d, eps < Rabs (discriminant b c d) \/ discriminant b c d = 0 ->
  exists r, cardano b c d = Ok r /\ (forall z, cubic b c d z = factors r z) /\ forall x, In x (realRoots r) <-> realCubic b c d x = 0.
Proof.
  intros b c d H. destruct (C44_partial b c d) as (r & k & E & F & G & K & N).
  assert (k = 0). { destruct H as [H|H]; auto. rewrite H, Rabs_R0 in K. destruct (Req_dec k 0) as [|Z]; auto. exfalso. assert (0 < Rabs k) by (apply Rabs_pos_lt; auto). assert (0 < Rabs k ^ 3) by (apply pow_lt; auto). lra. }
  subst k. replace (c + 0) with c in * by ring. replace (d + 0 * b / 3) with d in * by field. exists r. auto.
Qed.
Print Assumptions C44_exact.
(* Three real roots are returned in ascending order, not in the documented
   descending order. *)
Theorem C44_ascending : forall b c d, discriminant b c d <= eps -> exists r0 r1 r2, cardano b c d = Ok ((r0, 0), (r1, 0), (r2, 0)) /\ r0 <= r1 <= r2.
Proof.
  intros b c d D. destruct (Rlt_le_dec (discriminant b c d) (- eps)) as [D'|D'].
  - destruct (cardano_three b c d D') as (r0 & r1 & r2 & E & _ & _ & _ & L). exists r0, r1, r2. split; auto. lra.
  - destruct (cardano_double b c d (conj D' D)) as (r0 & r1 & r2 & k & E & _ & _ & _ & L & _). exists r0, r1, r2. auto.
Qed.
Print Assumptions C44_ascending.
Lemma distinct_discriminant : discriminant (-6) 11 (-6) < - eps.
Proof. unfold discriminant, realCubic, eps. replace (((- -6 / 3) ^ 3 + -6 * (- -6 / 3) ^ 2 + 11 * (- -6 / 3) + -6) ^ 2 - 4 * (((-6) ^ 2 - 3 * 11) / 9) ^ 3) with (- (4 / 27)) by field. replace (2 ^ 52) with 4503599627370496 by ring. lra. Qed.
Theorem C44_descending_refuted : ~ (forall b c d r0 r1 r2, cardano b c d = Ok ((r0, 0), (r1, 0), (r2, 0)) -> r2 <= r1 <= r0).
Proof.
  intro H. destruct (cardano_three (-6) 11 (-6) distinct_discriminant) as (r0 & r1 & r2 & E & _ & _ & _ & L). apply H in E. lra.
Qed.
Print Assumptions C44_descending_refuted.
(* x^3 - 6 x^2 + 11 x - 6 = (x-1)(x-2)(x-3). *)
Example C44_nonvacuous : eps < Rabs (discriminant (-6) 11 (-6)) /\ exists r, cardano (-6) 11 (-6) = Ok r /\ In 1 (realRoots r) /\ In 2 (realRoots r) /\ In 3 (realRoots r) /\ ~ In 4 (realRoots r).
Proof.
  pose proof distinct_discriminant as D. pose proof eps_pos as EP. assert (L : eps < Rabs (discriminant (-6) 11 (-6))) by (rewrite Rabs_left; lra). split; auto.
  destruct (C44_exact (-6) 11 (-6) (or_introl L)) as (r & E & _ & R). exists r. split; auto. rewrite !R. unfold realCubic. repeat split; lra.
Qed.
