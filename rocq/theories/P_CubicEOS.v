(* Proofs about the cubic equations of state. *)
From Coq Require Import Reals List Bool Lra Lia.
Import ListNotations.
From Coquelicot Require Import Coquelicot.
From Verif Require Import Base M_Roots C_Roots M_CubicEOS P_Helmholtz.
Local Open Scope R_scope.

(* ---- Continuity of the functions used for the roots ---- *)
Lemma cbrt_continuous x : continuous cbrt x.
Proof.
  apply continuity_pt_filterlim. intros e He.
  exists (e ^ 3 / 4). split; [apply Rdiv_lt_0_compat; [apply pow_lt; exact He|lra]|].
  intros y [_ Hy]. unfold dist in *. cbn [Base R_met] in *. unfold R_dist in *.
  set (u := cbrt y). set (v := cbrt x).
  assert (E : y - x = (u - v) * (u ^ 2 + u * v + v ^ 2)).
  { rewrite <- (cbrt_pow y), <- (cbrt_pow x). fold u v. ring. }
  destruct (Rlt_le_dec (Rabs (u - v)) e) as [|K]; [assumption|exfalso].
  assert (Q : Rabs (u - v) ^ 2 / 4 <= u ^ 2 + u * v + v ^ 2).
  { rewrite pow2_abs. assert (0 <= 3 / 4 * (u + v) ^ 2) by (apply Rmult_le_pos; [lra|apply pow2_ge_0]). lra. }
  assert (Hp : 0 <= u ^ 2 + u * v + v ^ 2) by (pose proof (pow2_ge_0 (Rabs (u - v))); lra).
  rewrite E, Rabs_mult, (Rabs_pos_eq (u ^ 2 + u * v + v ^ 2)) in Hy by exact Hp.
  assert (e ^ 2 <= Rabs (u - v) ^ 2) by (apply pow_incr; lra).
  assert (e * (e ^ 2 / 4) <= Rabs (u - v) * (u ^ 2 + u * v + v ^ 2)) by (apply Rmult_le_compat; [lra|apply Rmult_le_pos; [apply pow2_ge_0|lra]|exact K|lra]).
  lra.
Qed.
Lemma acos_continuous x : -1 < x < 1 -> continuous acos x.
Proof. intros H. apply continuity_pt_filterlim, derivable_continuous_pt, derivable_pt_acos, H. Qed.
Lemma cos_continuous x : continuous cos x.
Proof. apply continuity_pt_filterlim, continuity_cos. Qed.
Lemma sqrt_continuous x : continuous sqrt x.
Proof. apply continuous_sqrt. Qed.

Section Continuity.
Variable s0 : R.
Notation cont f := (continuous (f : R -> R) s0).
Lemma c_const (c : R) : cont (fun _ => c).
Proof. apply continuous_const. Qed.
Lemma c_add f g : cont f -> cont g -> cont (fun s => f s + g s).
Proof. intros. apply (continuous_plus f g); assumption. Qed.
Lemma c_mul f g : cont f -> cont g -> cont (fun s => f s * g s).
Proof. intros. apply (continuous_mult f g); assumption. Qed.
Lemma c_opp f : cont f -> cont (fun s => - f s).
Proof. intros. apply (continuous_opp f); assumption. Qed.
Lemma c_sub f g : cont f -> cont g -> cont (fun s => f s - g s).
Proof. intros. apply (continuous_minus f g); assumption. Qed.
Lemma c_comp (h f : R -> R) : cont f -> continuous h (f s0) -> cont (fun s => h (f s)).
Proof. intros. apply (continuous_comp f h); assumption. Qed.
Lemma c_inv f : cont f -> f s0 <> 0 -> cont (fun s => / f s).
Proof. intros Hf Hn. apply (c_comp Rinv f Hf). apply continuous_Rinv. exact Hn. Qed.
Lemma c_div f g : cont f -> cont g -> g s0 <> 0 -> cont (fun s => f s / g s).
Proof. intros Hf Hg Hn. apply c_mul; [exact Hf|apply c_inv; assumption]. Qed.
Lemma c_lt f c : cont f -> f s0 < c -> locally s0 (fun s => f s < c).
Proof. intros Hf Hl. apply (Hf (fun y => y < c)). apply (open_lt c). exact Hl. Qed.
Lemma c_gt f c : cont f -> c < f s0 -> locally s0 (fun s => c < f s).
Proof. intros Hf Hl. apply (Hf (fun y => c < y)). apply (open_gt c). exact Hl. Qed.
End Continuity.

(* ---- The selected root as a function of the coefficients ---- *)
Definition xn_ (b : R) : R := - b / 3.
Definition yn_ (b c d : R) : R := d + xn_ b * (c + xn_ b * (b + xn_ b)).
Definition d2_ (b c : R) : R := (b * b - 3 * c) / 9.
Lemma disc_eq b c d : yn_ b c d * yn_ b c d - 4 * d2_ b c * d2_ b c * d2_ b c = discriminant b c d.
Proof. unfold discriminant, yn_, d2_, realCubic, xn_. field. Qed.
Definition single_root (b c d : R) : R :=
  xn_ b + cbrt (/ 2 * (- yn_ b c d + sqrt (discriminant b c d))) + cbrt (/ 2 * (- yn_ b c d - sqrt (discriminant b c d))).
Definition angle (b c d : R) : R := acos (- yn_ b c d / (2 * d2_ b c * sqrt (d2_ b c))) / 3.
Definition top_root (b c d : R) : R := xn_ b + 2 * sqrt (d2_ b c) * cos (angle b c d).
Definition low_root (b c d : R) : R := xn_ b + 2 * sqrt (d2_ b c) * cos (2 * PI / 3 + angle b c d).

Lemma cardano_one_eq b c d : eps < discriminant b c d -> exists u v, v <> 0 /\ cardano b c d = Ok ((single_root b c d, 0), (u, - v), (u, v)).
Proof.
  intro D. unfold cardano. fold (xn_ b). fold (yn_ b c d). fold (d2_ b c). cbn zeta. rewrite disc_eq.
  pose proof eps_pos as EP. destruct (Rlt_dec eps (discriminant b c d)) as [_|N]; [|lra].
  unfold sqrtR at 1. destruct (Rlt_dec (discriminant b c d) 0); [lra|]. cbn [bind].
  pose proof (disc_eq b c d) as E. unfold single_root. set (s := sqrt (discriminant b c d)).
  assert (SS : s * s = discriminant b c d) by (apply sqrt_sqrt; lra). assert (S0 : 0 < s) by (apply sqrt_lt_R0; lra).
  set (A := cbrt (/ 2 * (- yn_ b c d + s))). set (B := cbrt (/ 2 * (- yn_ b c d - s))).
  assert (A3 : A ^ 3 = / 2 * (- yn_ b c d + s)) by apply cbrt_pow. assert (B3 : B ^ 3 = / 2 * (- yn_ b c d - s)) by apply cbrt_pow.
  assert (AB : A * B = d2_ b c). { apply cube_inj. replace ((A * B) ^ 3) with (A ^ 3 * B ^ 3) by ring. rewrite A3, B3. rewrite <- E in SS. nra. }
  replace (xn_ b + A + B - xn_ b) with (A + B) by ring.
  unfold sqrtR. assert (P : 3 * ((A + B) * (A + B) - 4 * d2_ b c) = 3 * (A - B) ^ 2) by (rewrite <- AB; ring).
  assert (N : A - B <> 0). { intros Z. assert (A = B) by lra. rewrite H in A3. lra. }
  assert (Q : 0 < (A - B) ^ 2) by (rewrite <- Rsqr_pow2; apply Rlt_0_sqr, N).
  destruct (Rlt_dec (3 * ((A + B) * (A + B) - 4 * d2_ b c)) 0) as [K|K]; [lra|]. cbn [bind].
  eexists. eexists. split; [|reflexivity]. assert (0 < sqrt (3 * ((A + B) * (A + B) - 4 * d2_ b c))) by (apply sqrt_lt_R0; lra). lra.
Qed.
Lemma three_domain b c d : discriminant b c d < - eps -> 0 < d2_ b c /\ 0 < 2 * d2_ b c * sqrt (d2_ b c) /\ -1 < - yn_ b c d / (2 * d2_ b c * sqrt (d2_ b c)) < 1.
Proof.
  intro D. pose proof (disc_eq b c d) as E. pose proof eps_pos as EP.
  set (d2 := d2_ b c) in *. set (yn := yn_ b c d) in *.
  assert (DP : 0 < d2). { destruct (Rle_lt_dec d2 0) as [K|K]; auto. exfalso. assert (0 <= yn * yn) by nra. assert (d2 * d2 * d2 <= 0) by (assert (0 <= d2 * d2) by nra; nra). nra. }
  set (dl := sqrt d2). assert (DD : dl * dl = d2) by (apply sqrt_sqrt; lra). assert (D0 : 0 < dl) by (apply sqrt_lt_R0; auto).
  set (h := 2 * d2 * dl). assert (H0 : 0 < h) by (unfold h; apply Rmult_lt_0_compat; lra).
  assert (HH : h * h = 4 * d2 * d2 * d2). { unfold h. replace (2 * d2 * dl * (2 * d2 * dl)) with (4 * d2 * d2 * (dl * dl)) by ring. rewrite DD. ring. }
  assert (YH : yn * yn < h * h) by (rewrite HH; lra).
  assert (Y1 : - h < yn) by nra. assert (Y2 : yn < h) by nra.
  split; [exact DP|]. split; [exact H0|]. split.
  - apply Rmult_lt_reg_r with h; auto. unfold Rdiv. rewrite Rmult_assoc, Rinv_l by lra. lra.
  - apply Rmult_lt_reg_r with h; auto. unfold Rdiv. rewrite Rmult_assoc, Rinv_l by lra. lra.
Qed.
Lemma cardano_three_eq b c d : discriminant b c d < - eps -> exists m, cardano b c d = Ok ((low_root b c d, 0), (m, 0), (top_root b c d, 0)) /\ low_root b c d < m < top_root b c d.
Proof.
  intro D. destruct (cardano_three b c d D) as (r0 & r1 & r2 & Ec & _ & _ & _ & L).
  destruct (three_domain b c d D) as (DP & H0 & R1 & R2).
  revert Ec. unfold cardano. fold (xn_ b). fold (yn_ b c d). fold (d2_ b c). cbn zeta. rewrite disc_eq.
  pose proof eps_pos as EP. destruct (Rlt_dec eps (discriminant b c d)) as [|_]; [lra|]. destruct (Rlt_dec (discriminant b c d) (- eps)) as [_|]; [|lra].
  unfold sqrtR. destruct (Rlt_dec (d2_ b c) 0); [lra|]. cbn [bind].
  unfold divR. destruct (Req_EM_T (2 * d2_ b c * sqrt (d2_ b c)) 0); [lra|]. cbn [bind].
  unfold acosR. set (ratio := - yn_ b c d / (2 * d2_ b c * sqrt (d2_ b c))) in *. destruct (Rlt_dec ratio (-1)); [lra|]. destruct (Rlt_dec 1 ratio); [lra|]. cbn [bind].
  change (acos ratio / 3) with (angle b c d). intros Ec. eexists. split; [reflexivity|]. unfold low_root, top_root. injection Ec. intros K2 K1 K0. rewrite <- K0, <- K1, <- K2 in L. exact L.
Qed.

(* The root that the code selects; zero when it selects none. *)
Definition root (type : FluidType) (b c d : R) : R :=
  match bind (cardano b c d) (fun r => selectRoot type (realRoots r)) with Ok z => z | _ => 0 end.
Lemma root_one type b c d : eps < discriminant b c d -> bind (cardano b c d) (fun r => selectRoot type (realRoots r)) = Ok (single_root b c d).
Proof.
  intro D. destruct (cardano_one_eq b c d D) as (u & v & Hv & ->). cbn [bind]. unfold realRoots. cbn [flat_map fst snd].
  destruct (Req_EM_T 0 0); [|contradiction]. destruct (Req_EM_T (- v) 0); [lra|]. destruct (Req_EM_T v 0); [contradiction|]. reflexivity.
Qed.
Lemma root_three type b c d : discriminant b c d < - eps ->
  bind (cardano b c d) (fun r => selectRoot type (realRoots r)) = Ok (match type with Vapor => top_root b c d | Liquid => low_root b c d end).
Proof.
  intro D. destruct (cardano_three_eq b c d D) as (m & -> & L). cbn [bind]. unfold realRoots. cbn [flat_map fst snd].
  destruct (Req_EM_T 0 0); [|contradiction]. cbn [app selectRoot]. f_equal. destruct type; cbn [maxOf minOf].
  - destruct (Rlt_dec (low_root b c d) m); [|lra]. destruct (Rlt_dec m (top_root b c d)); [reflexivity|lra].
  - destruct (Rlt_dec m (low_root b c d)); [lra|]. destruct (Rlt_dec (top_root b c d) (low_root b c d)); [lra|reflexivity].
Qed.
Lemma Rabs_gt a e : 0 < e -> e < Rabs a -> e < a \/ a < - e.
Proof. intros He H. unfold Rabs in H. destruct (Rcase_abs a); lra. Qed.
Lemma root_ok type b c d : eps < Rabs (discriminant b c d) ->
  bind (cardano b c d) (fun r => selectRoot type (realRoots r)) = Ok (root type b c d).
Proof.
  intros H. unfold root. destruct (Rabs_gt _ _ eps_pos H) as [D|D]; [rewrite (root_one type b c d D)|rewrite (root_three type b c d D)]; reflexivity.
Qed.
Lemma root_is_root type b c d : eps < Rabs (discriminant b c d) -> realCubic b c d (root type b c d) = 0.
Proof.
  intros H. destruct (C44_exact b c d (or_introl H)) as (r & E & _ & G). apply G. pose proof (root_ok type b c d H) as K. rewrite E in K. cbn [bind] in K.
  revert K. generalize (realRoots r) (root type b c d). intros l z. destruct l as [|z0 [|z1 [|z2 [|]]]]; cbn [selectRoot]; try discriminate.
  - injection 1. intros ->. left. reflexivity.
  - injection 1. intros <-. clear. destruct type; cbn [maxOf minOf]; repeat destruct (Rlt_dec _ _); cbn; auto.
Qed.
(* The vapour takes the largest root, the liquid the smallest. *)
Lemma root_extreme type b c d z : eps < Rabs (discriminant b c d) -> realCubic b c d z = 0 ->
  match type with Vapor => z <= root type b c d | Liquid => root type b c d <= z end.
Proof.
  intros H Hz. destruct (C44_exact b c d (or_introl H)) as (r & E & _ & G). apply G in Hz. pose proof (root_ok type b c d H) as K. rewrite E in K. cbn [bind] in K.
  revert Hz K. generalize (realRoots r) (root type b c d). intros l y. destruct l as [|z0 [|z1 [|z2 [|]]]]; cbn [selectRoot]; try discriminate.
  - intros [->|[]]. injection 1. intros ->. destruct type; lra.
  - intros I. injection 1. intros <-. clear - I. destruct type; cbn [maxOf minOf]; cbn in I; repeat destruct (Rlt_dec _ _); intuition lra.
Qed.
Definition slope (b c z : R) : R := 3 * z * z + 2 * b * z + c.
(* Selected roots are simple. *)
Lemma root_simple type b c d : eps < Rabs (discriminant b c d) -> 0 < slope b c (root type b c d).
Proof.
  intros H. pose proof (root_is_root type b c d H) as Hz. pose proof eps_pos as EP. pose proof (root_extreme type b c d) as X.
  set (z := root type b c d) in *. unfold realCubic in Hz.
  assert (Dz : discriminant b c d = - (slope b c z) ^ 2 * ((b + z) ^ 2 - 4 * (c + z * (b + z))) / 27).
  { replace d with (- (z ^ 3 + b * z ^ 2 + c * z)) by lra. unfold discriminant, realCubic, slope. field. }
  (* the other two roots are those of t^2 + (b+z) t + c + z (b+z) *)
  set (p := b + z) in *. set (k := c + z * p) in *.
  assert (F : forall t, realCubic b c d t = (t - z) * (t * t + p * t + k)). { intros t. replace d with (- (z ^ 3 + b * z ^ 2 + c * z)) by lra. unfold realCubic, k, p. ring. }
  assert (Sz : slope b c z = z * z + p * z + k) by (unfold slope, k, p; ring).
  destruct (Rle_lt_dec (slope b c z) 0) as [L|L]; [exfalso|exact L].
  destruct (Rle_lt_dec 0 (p ^ 2 - 4 * k)) as [M|M].
  - (* real roots: z lies between them *)
    set (w := sqrt (p ^ 2 - 4 * k)). assert (W : w * w = p ^ 2 - 4 * k) by (apply sqrt_sqrt; exact M). assert (W0 : 0 <= w) by apply sqrt_pos.
    assert (Z1 : realCubic b c d ((- p + w) / 2) = 0). { rewrite F. replace ((- p + w) / 2 * ((- p + w) / 2) + p * ((- p + w) / 2) + k) with ((w * w - p ^ 2 + 4 * k) / 4) by field. rewrite W. field. }
    assert (Z2 : realCubic b c d ((- p - w) / 2) = 0). { rewrite F. replace ((- p - w) / 2 * ((- p - w) / 2) + p * ((- p - w) / 2) + k) with ((w * w - p ^ 2 + 4 * k) / 4) by field. rewrite W. field. }
    assert (B : (z + p / 2) ^ 2 <= (w / 2) ^ 2) by (rewrite Sz in L; lra).
    assert (N : slope b c z <> 0). { intros Z. rewrite Z in Dz. replace (- 0 ^ 2 * (p ^ 2 - 4 * k) / 27) with 0 in Dz by field. rewrite Dz, Rabs_R0 in H. lra. }
    assert (z + p / 2 <= w / 2 /\ - (w / 2) <= z + p / 2) by (split; nra).
    destruct type.
    + pose proof (X _ H Z1) as X1. apply N. rewrite Sz. assert (z + p / 2 = w / 2) by lra. assert ((z + p / 2) ^ 2 = (w / 2) ^ 2) by (rewrite H1; reflexivity). lra.
    + pose proof (X _ H Z2) as X2. apply N. rewrite Sz. assert (z + p / 2 = - (w / 2)) by lra. assert ((z + p / 2) ^ 2 = (w / 2) ^ 2) by (rewrite H1; field). lra.
  - (* no other real root *)
    rewrite Sz in L. pose proof (pow2_ge_0 (z + p / 2)). lra.
Qed.

(* ---- Continuity and derivative of the selected root along a curve ---- *)
Section Curve.
Variables (b c d : R -> R) (s0 : R) (type : FluidType).
Hypothesis Hb : continuous b s0. Hypothesis Hc : continuous c s0. Hypothesis Hd : continuous d s0.
Hypothesis HD : eps < Rabs (discriminant (b s0) (c s0) (d s0)).
Lemma xn_continuous : continuous (fun s => xn_ (b s)) s0.
Proof. unfold xn_. apply c_mul; [apply c_opp, Hb|apply c_const]. Qed.
Lemma yn_continuous : continuous (fun s => yn_ (b s) (c s) (d s)) s0.
Proof. unfold yn_. pose proof xn_continuous as K. apply c_add; [exact Hd|]. apply c_mul; [exact K|]. apply c_add; [exact Hc|]. apply c_mul; [exact K|]. apply c_add; [exact Hb|exact K]. Qed.
Lemma d2_continuous : continuous (fun s => d2_ (b s) (c s)) s0.
Proof. unfold d2_. apply c_mul; [|apply c_const]. apply c_sub; [apply c_mul; assumption|apply c_mul; [apply c_const|assumption]]. Qed.
Lemma disc_continuous : continuous (fun s => discriminant (b s) (c s) (d s)) s0.
Proof.
  apply (continuous_ext (fun s => yn_ (b s) (c s) (d s) * yn_ (b s) (c s) (d s) - 4 * d2_ (b s) (c s) * d2_ (b s) (c s) * d2_ (b s) (c s))).
  - intros s. apply disc_eq.
  - pose proof yn_continuous. pose proof d2_continuous. apply c_sub; [apply c_mul; assumption|]. apply c_mul; [|assumption]. apply c_mul; [|assumption]. apply c_mul; [apply c_const|assumption].
Qed.
Lemma disc_near : locally s0 (fun s => eps < Rabs (discriminant (b s) (c s) (d s))).
Proof. apply (c_gt s0 (fun s => Rabs (discriminant (b s) (c s) (d s))) eps); [|exact HD]. apply (c_comp s0 Rabs); [apply disc_continuous|]. apply continuous_Rabs. Qed.
Lemma root_continuous : continuous (fun s => root type (b s) (c s) (d s)) s0.
Proof.
  pose proof xn_continuous as Kx. pose proof yn_continuous as Ky. pose proof d2_continuous as K2. pose proof disc_continuous as Kd.
  destruct (Rabs_gt _ _ eps_pos HD) as [D|D].
  - apply (continuous_ext_loc _ (fun s => single_root (b s) (c s) (d s))).
    + eapply filter_imp; [|exact (c_gt s0 _ eps Kd D)]. intros s Hs. unfold root. rewrite (root_one type _ _ _ Hs). reflexivity.
    + unfold single_root. assert (Ks : continuous (fun s => sqrt (discriminant (b s) (c s) (d s))) s0) by (apply (c_comp s0 sqrt); [exact Kd|apply sqrt_continuous]).
      apply c_add; [apply c_add; [exact Kx|]|].
      * apply (c_comp s0 cbrt); [|apply cbrt_continuous]. apply c_mul; [apply c_const|]. apply c_add; [apply c_opp, Ky|exact Ks].
      * apply (c_comp s0 cbrt); [|apply cbrt_continuous]. apply c_mul; [apply c_const|]. apply c_sub; [apply c_opp, Ky|exact Ks].
  - destruct (three_domain _ _ _ D) as (DP & H0 & R1).
    assert (Ks : continuous (fun s => sqrt (d2_ (b s) (c s))) s0) by (apply (c_comp s0 sqrt); [exact K2|apply sqrt_continuous]).
    assert (Ka : continuous (fun s => angle (b s) (c s) (d s)) s0).
    { unfold angle. apply c_mul; [|apply c_const]. apply (c_comp s0 acos); [|apply acos_continuous, R1].
      apply c_div; [apply c_opp, Ky| |lra]. apply c_mul; [apply c_mul; [apply c_const|exact K2]|exact Ks]. }
    apply (continuous_ext_loc _ (fun s => match type with Vapor => top_root (b s) (c s) (d s) | Liquid => low_root (b s) (c s) (d s) end)).
    + eapply filter_imp; [|exact (c_lt s0 _ (- eps) Kd D)]. intros s Hs. unfold root. rewrite (root_three type _ _ _ Hs). reflexivity.
    + destruct type.
      * unfold top_root. apply c_add; [exact Kx|]. apply c_mul; [apply c_mul; [apply c_const|exact Ks]|]. apply (c_comp s0 cos); [exact Ka|apply cos_continuous].
      * unfold low_root. apply c_add; [exact Kx|]. apply c_mul; [apply c_mul; [apply c_const|exact Ks]|]. apply (c_comp s0 cos); [|apply cos_continuous]. apply c_add; [apply c_const|exact Ka].
Qed.
End Curve.

Lemma is_derive_vanish (N K : R -> R) s0 n' : is_derive N s0 n' -> N s0 = 0 -> continuous K s0 -> is_derive (fun s => N s * K s) s0 (n' * K s0).
Proof.
  intros HN N0 HK. apply is_derive_Reals. apply is_derive_Reals in HN. intros e He.
  destruct (HN (e / (2 * (Rabs (K s0) + 1)))) as [d1 H1].
  { apply Rdiv_lt_0_compat; [exact He|]. pose proof (Rabs_pos (K s0)). lra. }
  assert (Hm : 0 < Rmin 1 (e / (2 * (Rabs n' + 1)))). { apply Rmin_glb_lt; [lra|]. apply Rdiv_lt_0_compat; [exact He|]. pose proof (Rabs_pos n'). lra. }
  apply continuity_pt_filterlim in HK. destruct (HK _ Hm) as [d2 [P2 H2]].
  exists (mkposreal (Rmin d1 d2) (Rmin_glb_lt _ _ _ (cond_pos d1) P2)). intros h Hh Hl. cbn in Hl.
  specialize (H1 h Hh (Rlt_le_trans _ _ _ Hl (Rmin_l _ _))).
  assert (K1 : Rabs (K (s0 + h) - K s0) < Rmin 1 (e / (2 * (Rabs n' + 1)))).
  { apply (H2 (s0 + h)). split; [split; [exact I|lra]|]. unfold dist; cbn; unfold R_dist. replace (s0 + h - s0) with h by ring. apply (Rlt_le_trans _ _ _ Hl (Rmin_r _ _)). }
  rewrite N0 in H1 |- *. set (k := K (s0 + h)) in *. set (k0 := K s0) in *. set (m := N (s0 + h)) in *.
  replace ((m * k - 0 * k0) / h - n' * k0) with (((m - 0) / h - n') * k + n' * (k - k0)) by (field; exact Hh).
  eapply Rle_lt_trans; [apply Rabs_triang|]. rewrite !Rabs_mult.
  assert (Kb : Rabs k < Rabs k0 + 1). { pose proof (Rmin_l 1 (e / (2 * (Rabs n' + 1)))). pose proof (Rabs_triang_inv k k0). lra. }
  pose proof (Rmin_r 1 (e / (2 * (Rabs n' + 1)))) as K2.
  set (x := Rabs ((m - 0) / h - n')) in *. set (y := Rabs (k - k0)) in *. pose proof (Rabs_pos k0) as P0. pose proof (Rabs_pos n') as P1. pose proof (Rabs_pos k) as P3.
  assert (x * Rabs k < e / 2).
  { apply Rle_lt_trans with (e / (2 * (Rabs k0 + 1)) * Rabs k); [apply Rmult_le_compat_r; lra|].
    replace (e / 2) with (e / (2 * (Rabs k0 + 1)) * (Rabs k0 + 1)) by (field; lra). apply Rmult_lt_compat_l; [apply Rdiv_lt_0_compat; lra|lra]. }
  assert (Rabs n' * y <= e / 2).
  { assert (y <= e / (2 * (Rabs n' + 1))) by lra. assert (0 <= y) by apply Rabs_pos.
    apply Rle_trans with (Rabs n' * (e / (2 * (Rabs n' + 1)))); [apply Rmult_le_compat_l; lra|].
    assert (E : e / 2 = (Rabs n' + 1) * (e / (2 * (Rabs n' + 1)))) by (field; lra). rewrite E.
    apply Rmult_le_compat_r; [apply Rlt_le, Rdiv_lt_0_compat; lra|lra]. }
  lra.
Qed.

Lemma root_derive_gen (b c d Z : R -> R) s0 b' c' d' :
  is_derive b s0 b' -> is_derive c s0 c' -> is_derive d s0 d' -> continuous Z s0 ->
  locally s0 (fun s => realCubic (b s) (c s) (d s) (Z s) = 0) -> slope (b s0) (c s0) (Z s0) <> 0 ->
  is_derive Z s0 (dZ (Z s0) (b s0) (c s0) b' c' d').
Proof.
  intros Hb Hc Hd HZ HR HS.
  assert (Cb : continuous b s0) by (apply (ex_derive_continuous b); eexists; exact Hb).
  assert (Cc : continuous c s0) by (apply (ex_derive_continuous c); eexists; exact Hc).
  set (Q := fun s => Z s * Z s + Z s * Z s0 + Z s0 * Z s0 + b s * (Z s + Z s0) + c s).
  set (N := fun s => (b s - b s0) * (Z s0 * Z s0) + (c s - c s0) * Z s0 + (d s - d s0)).
  assert (CQ : continuous Q s0).
  { unfold Q. apply c_add; [apply c_add; [apply c_add; [apply c_add|]|]|exact Cc].
    - apply c_mul; exact HZ.
    - apply c_mul; [exact HZ|apply c_const].
    - apply c_const.
    - apply c_mul; [exact Cb|]. apply c_add; [exact HZ|apply c_const]. }
  assert (Q0 : Q s0 = slope (b s0) (c s0) (Z s0)) by (unfold Q, slope; ring).
  assert (DN : is_derive N s0 (b' * (Z s0 * Z s0) + c' * Z s0 + d')).
  { unfold N. eapply d_val; [apply d_add; [apply d_add; apply d_mul|]; [apply d_sub; [exact Hb|apply d_const]|apply d_const|apply d_sub; [exact Hc|apply d_const]|apply d_const|apply d_sub; [exact Hd|apply d_const]]|]. cbv beta. ring. }
  assert (CI : continuous (fun s => / Q s) s0) by (apply c_inv; [exact CQ|rewrite Q0; exact HS]).
  assert (N0 : N s0 = 0) by (unfold N; ring).
  pose proof (is_derive_vanish _ _ _ _ DN N0 CI) as DV. cbv beta in DV.
  assert (NQ : locally s0 (fun s => Q s <> 0)).
  { destruct (Rlt_le_dec (Q s0) 0) as [L|L].
    - eapply filter_imp; [|apply (c_lt s0 Q 0 CQ L)]. cbn. intros; lra.
    - eapply filter_imp; [|apply (c_gt s0 Q 0 CQ)]; [cbn; intros; lra|]. rewrite Q0 in *. lra. }
  pose proof (locally_singleton _ _ HR) as R0. cbv beta in R0.
  apply (is_derive_ext_loc (fun s => Z s0 - N s * / Q s)).
  - eapply filter_imp; [|exact (filter_and _ _ HR NQ)]. intros s [Hr Hq].
    assert (E : (Z s - Z s0) * Q s + N s = 0). { unfold realCubic in *. unfold Q, N. transitivity ((Z s ^ 3 + b s * Z s ^ 2 + c s * Z s + d s) - (Z s0 ^ 3 + b s0 * Z s0 ^ 2 + c s0 * Z s0 + d s0)); [ring|lra]. }
    assert (N s = - ((Z s - Z s0) * Q s)) by lra. rewrite H. match goal with |- ?l = ?r => change (@eq R l r) end. field. exact Hq.
  - eapply d_val; [apply d_sub; [apply d_const|exact DV]|]. rewrite Q0. unfold dZ. unfold slope in *. field. exact HS.
Qed.

Lemma root_derive type (b c d : R -> R) s0 b' c' d' : is_derive b s0 b' -> is_derive c s0 c' -> is_derive d s0 d' ->
  eps < Rabs (discriminant (b s0) (c s0) (d s0)) ->
  is_derive (fun s => root type (b s) (c s) (d s)) s0 (dZ (root type (b s0) (c s0) (d s0)) (b s0) (c s0) b' c' d').
Proof.
  intros Hb Hc Hd HD.
  assert (Cb : continuous b s0) by (apply (ex_derive_continuous b); eexists; exact Hb).
  assert (Cc : continuous c s0) by (apply (ex_derive_continuous c); eexists; exact Hc).
  assert (Cd : continuous d s0) by (apply (ex_derive_continuous d); eexists; exact Hd).
  apply (root_derive_gen b c d (fun s => root type (b s) (c s) (d s))); try assumption.
  - apply root_continuous; assumption.
  - eapply filter_imp; [|apply (disc_near b c d s0 Cb Cc Cd HD)]. intros s Hs. apply root_is_root. exact Hs.
  - pose proof (root_simple type _ _ _ HD). lra.
Qed.

(* ---- The reduced residual Gibbs energy along a curve ---- *)
Section Reduced.
Variables (ep sg : R).
Definition Zof (type : FluidType) (beta q : R) : R := root type (cA ep sg beta q) (cB ep sg beta q) (cC ep sg beta q).
Definition disc (beta q : R) : R := discriminant (cA ep sg beta q) (cB ep sg beta q) (cC ep sg beta q).
Definition physical (beta Z : R) : Prop := 0 < beta /\ beta < Z /\ 0 < Z + ep * beta /\ 0 < Z + sg * beta.
Definition gred (beta q Z : R) : R := Z - 1 - ln (Z - beta) - q * intI ep sg beta Z.
Lemma cubic_eq beta q Z : realCubic (cA ep sg beta q) (cB ep sg beta q) (cC ep sg beta q) Z =
  (Z - 1 - beta) * (Z + ep * beta) * (Z + sg * beta) + q * beta * (Z - beta).
Proof. unfold realCubic, cA, cB, cC. ring. Qed.
Lemma stationary beta q Z : physical beta Z -> realCubic (cA ep sg beta q) (cB ep sg beta q) (cC ep sg beta q) Z = 0 ->
  1 - 1 / (Z - beta) + q * beta / ((Z + ep * beta) * (Z + sg * beta)) = 0.
Proof.
  intros (P0 & P1 & P2 & P3) E. rewrite cubic_eq in E.
  apply Rmult_eq_reg_r with ((Z - beta) * ((Z + ep * beta) * (Z + sg * beta))).
  - rewrite Rmult_0_l, <- E. field. repeat split; lra.
  - apply Rmult_integral_contrapositive_currified; [lra|]. apply Rmult_integral_contrapositive_currified; lra.
Qed.
Lemma d_intI (beta Z : R -> R) s b' z' : is_derive beta s b' -> is_derive Z s z' -> physical (beta s) (Z s) ->
  is_derive (fun s => intI ep sg (beta s) (Z s)) s (dI ep sg (beta s) (Z s) b' z').
Proof.
  intros Hb HZ (P0 & P1 & P2 & P3). unfold intI, dI, intI. destruct (Req_EM_T ep sg) as [E|E].
  - eapply d_val; [apply d_div; [exact Hb|apply d_add; [exact HZ|apply d_mul; [apply d_const|exact Hb]]|lra]|]. cbv beta. field. split; lra.
  - eapply d_val; [apply d_div; [apply d_ln; [apply d_div; [apply d_add; [exact HZ|apply d_mul; [apply d_const|exact Hb]]|apply d_add; [exact HZ|apply d_mul; [apply d_const|exact Hb]]|lra]|apply Rdiv_lt_0_compat; lra]|apply d_const|lra]|].
    cbv beta. field. repeat split; lra.
Qed.
Lemma dI_split beta Z b' z' : physical beta Z ->
  dI ep sg beta Z b' z' = (b' * Z - z' * beta) / ((Z + ep * beta) * (Z + sg * beta)).
Proof.
  intros (P0 & P1 & P2 & P3). unfold dI, intI. destruct (Req_EM_T ep sg) as [E|E].
  - subst. field. repeat split; lra.
  - field. repeat split; lra.
Qed.
Lemma d_gred (beta q Z : R -> R) s b' q' z' : is_derive beta s b' -> is_derive q s q' -> is_derive Z s z' -> physical (beta s) (Z s) ->
  realCubic (cA ep sg (beta s) (q s)) (cB ep sg (beta s) (q s)) (cC ep sg (beta s) (q s)) (Z s) = 0 ->
  is_derive (fun s => gred (beta s) (q s) (Z s)) s ((Z s - 1) * b' / beta s - intI ep sg (beta s) (Z s) * q').
Proof.
  intros Hb Hq HZ HP HR. pose proof (d_intI _ _ _ _ _ Hb HZ HP) as HI. pose proof HP as (P0 & P1 & P2 & P3).
  unfold gred. eapply d_val; [apply d_sub; [apply d_sub; [apply d_sub; [exact HZ|apply d_const]|apply d_ln; [apply d_sub; [exact HZ|exact Hb]|lra]]|apply d_mul; [exact Hq|exact HI]]|].
  cbv beta. rewrite (dI_split _ _ b' z' HP).
  pose proof (stationary _ _ _ HP HR) as HS. set (D := (Z s + ep * beta s) * (Z s + sg * beta s)) in *.
  assert (D0 : D <> 0) by (apply Rmult_integral_contrapositive_currified; lra).
  assert (X : q s / D = (1 / (Z s - beta s) - 1) / beta s). { apply Rmult_eq_reg_r with (beta s); [|lra]. replace (q s / D * beta s) with (q s * beta s / D) by (field; exact D0). replace ((1 / (Z s - beta s) - 1) / beta s * beta s) with (1 / (Z s - beta s) - 1) by (field; split; lra). lra. }
  transitivity (z' - 1 / (Z s - beta s) * (z' - b') - (intI ep sg (beta s) (Z s) * q' + q s / D * (b' * Z s - z' * beta s))).
  - field. split; [exact D0|lra].
  - rewrite X. field. split; lra.
Qed.
Lemma d_Zof type (beta q : R -> R) s b' q' : is_derive beta s b' -> is_derive q s q' -> eps < Rabs (disc (beta s) (q s)) ->
  is_derive (fun s => Zof type (beta s) (q s)) s
    (dZ (Zof type (beta s) (q s)) (cA ep sg (beta s) (q s)) (cB ep sg (beta s) (q s))
        (dA ep sg (beta s) (q s) b' q') (dB ep sg (beta s) (q s) b' q') (dC ep sg (beta s) (q s) b' q')).
Proof.
  intros Hb Hq HD. unfold Zof.
  apply (root_derive type (fun s => cA ep sg (beta s) (q s)) (fun s => cB ep sg (beta s) (q s)) (fun s => cC ep sg (beta s) (q s)) s).
  - unfold cA, dA. eapply d_val; [apply d_sub; [apply d_mul; [apply d_const|exact Hb]|apply d_const]|]. cbv beta. ring.
  - unfold cB, dB. eapply d_val; [apply d_sub; [apply d_mul; [apply d_mul; [apply d_const|exact Hb]|exact Hb]|apply d_mul; [apply d_sub; [apply d_const|exact Hq]|exact Hb]]|]. cbv beta. ring.
  - unfold cC, dC. eapply d_val; [apply d_sub; [apply d_mul; [apply d_mul; [apply d_mul; [apply d_const|exact Hb]|exact Hb]|exact Hb]|apply d_mul; [apply d_mul; [apply d_add; [apply d_const|exact Hq]|exact Hb]|exact Hb]]|]. cbv beta. ring.
  - exact HD.
Qed.
(* The vapour root always exceeds beta. *)
Lemma vapor_exceeds beta q : 0 < beta -> -1 < ep -> -1 < sg -> eps < Rabs (disc beta q) -> beta < Zof Vapor beta q.
Proof.
  intros Hb He Hs HD. unfold Zof. set (A := cA ep sg beta q). set (B := cB ep sg beta q). set (C := cC ep sg beta q).
  destruct (Rlt_le_dec beta (root Vapor A B C)) as [|L]; [assumption|exfalso].
  assert (N : realCubic A B C beta < 0). { unfold A, B, C. rewrite cubic_eq. replace ((beta - 1 - beta) * (beta + ep * beta) * (beta + sg * beta) + q * beta * (beta - beta)) with (- (beta * beta * ((1 + ep) * (1 + sg)))) by ring.
    assert (0 < beta * beta * ((1 + ep) * (1 + sg))); [|lra]. repeat apply Rmult_lt_0_compat; lra. }
  (* at a large number the cubic is positive *)
  set (m := Rmax beta (1 + Rabs A + Rabs B + Rabs C)).
  assert (M1 : 1 + Rabs A + Rabs B + Rabs C <= m) by apply Rmax_r. assert (M0 : beta <= m) by apply Rmax_l.
  pose proof (Rabs_pos A). pose proof (Rabs_pos B). pose proof (Rabs_pos C).
  assert (Pm : 0 <= realCubic A B C m).
  { unfold realCubic. assert (- Rabs A <= A) by (unfold Rabs; destruct (Rcase_abs A); lra). assert (- Rabs B <= B) by (unfold Rabs; destruct (Rcase_abs B); lra). assert (- Rabs C <= C) by (unfold Rabs; destruct (Rcase_abs C); lra).
    assert (m1 : 1 <= m) by lra. assert (m2 : m <= m * m) by nra. assert (m3 : 1 <= m * m) by nra.
    assert (- Rabs A * (m * m) <= A * m ^ 2) by nra. assert (- Rabs B * (m * m) <= B * m) by nra. assert (- Rabs C * (m * m) <= C) by nra.
    assert ((Rabs A + Rabs B + Rabs C) * (m * m) <= m * (m * m)) by nra. nra. }
  assert (Cn : continuity (realCubic A B C)) by (unfold realCubic; reg).
  destruct (IVT_cor (realCubic A B C) beta m Cn M0) as (z & Hz & Ez); [nra|].
  pose proof (root_extreme Vapor A B C z HD Ez) as X. cbn in X. assert (z = beta) by lra. subst z. lra.
Qed.
End Reduced.

(* ---- Temperature derivatives of the mixture parameters ---- *)
Lemma d_sqrt (f : R -> R) (x a : R) : is_derive f x a -> 0 < f x -> is_derive (fun x => sqrt (f x)) x (a / (2 * sqrt (f x))).
Proof.
  intros Hf H. eapply d_val; [apply (d_comp sqrt f); [|exact Hf]|].
  - apply is_derive_Reals, (derivable_pt_lim_sqrt (f x) H).
  - assert (0 < sqrt (f x)) by (apply sqrt_lt_R0; exact H). field. lra.
Qed.
Lemma d_Sum n (f : nat -> R -> R) (f' : nat -> R) x : (forall k, (k < n)%nat -> is_derive (f k) x (f' k)) -> is_derive (fun x => Sum n (fun k => f k x)) x (Sum n f').
Proof.
  induction n as [|n IH]; cbn [Sum]; intros H; [apply d_const|]. apply (d_add (fun x => Sum n (fun k => f k x)) (f n)); [apply IH; intros; apply H; lia|apply H; lia].
Qed.
Lemma Sum_ext n f g : (forall k, (k < n)%nat -> f k = g k) -> Sum n f = Sum n g.
Proof. induction n as [|n IH]; cbn; intros H; [reflexivity|]. rewrite IH, (H n) by (intros; try apply H; lia). reflexivity. Qed.
Lemma Sum_scal n c f : Sum n (fun k => c * f k) = c * Sum n f.
Proof. induction n as [|n IH]; cbn; [ring|rewrite IH; ring]. Qed.
Lemma Sum_add n f g : Sum n (fun k => f k + g k) = Sum n f + Sum n g.
Proof. induction n as [|n IH]; cbn; [ring|rewrite IH; ring]. Qed.
Lemma Sum_swap n m f : Sum n (fun i => Sum m (fun j => f i j)) = Sum m (fun j => Sum n (fun i => f i j)).
Proof.
  induction n as [|n IH]; cbn.
  - induction m as [|m IHm]; cbn; [reflexivity|rewrite <- IHm; ring].
  - rewrite IH. rewrite <- Sum_add. reflexivity.
Qed.
Lemma Sum_nonneg n f : (forall k, (k < n)%nat -> 0 <= f k) -> 0 <= Sum n f.
Proof. induction n as [|n IH]; cbn; intros H; [lra|]. pose proof (IH (fun k Hk => H k (Nat.lt_lt_succ_r _ _ Hk))). pose proof (H n (Nat.lt_succ_diag_r n)). lra. Qed.
Lemma Sum_pos n f k : (forall k, (k < n)%nat -> 0 <= f k) -> (k < n)%nat -> 0 < f k -> 0 < Sum n f.
Proof.
  induction n as [|n IH]; cbn; intros H Hk Hp; [lia|]. assert (0 <= f n) by (apply H; lia). assert (H' : forall k, (k < n)%nat -> 0 <= f k) by (intros; apply H; lia).
  destruct (Nat.eq_dec k n) as [->|N]; [pose proof (Sum_nonneg n f H'); lra|]. pose proof (IH H' ltac:(lia) Hp). lra.
Qed.

Lemma half_eq : 0.5 = / 2. Proof. lra. Qed.
Ltac half := rewrite ?half_eq.
Lemma d_alpha_m m Tc T : 0 < Tc -> 0 < T ->
  is_derive (fun t => al (alpha_m m (t * (1 / Tc)) (1 / Tc))) T (alT (alpha_m m (T * (1 / Tc)) (1 / Tc))) /\
  is_derive (fun t => alT (alpha_m m (t * (1 / Tc)) (1 / Tc))) T (alTT (alpha_m m (T * (1 / Tc)) (1 / Tc))).
Proof.
  intros Hc HT. set (k := 1 / Tc). assert (Hk : 0 < k) by (apply Rdiv_lt_0_compat; lra).
  assert (Hp : 0 < T * k) by (apply Rmult_lt_0_compat; lra).
  set (s := sqrt (T * k)). assert (S0 : 0 < s) by (apply sqrt_lt_R0; exact Hp). assert (SS : T * k = s * s) by (symmetry; apply sqrt_sqrt; lra).
  assert (D : is_derive (fun t => sqrt (t * k)) T (0.5 / s * k)).
  { eapply d_val; [apply d_sqrt; [apply d_mul; [apply d_id|apply d_const]|exact Hp]|]. cbv beta. fold s. half. field. lra. }
  unfold alpha_m. cbn [al alT alTT]. split.
  - eapply d_val; [apply d_mul; (apply d_add; [apply d_const|apply d_mul; [apply d_const|apply d_sub; [apply d_const|exact D]]])|]. cbv beta. fold s. half. field. lra.
  - assert (D2 : is_derive (fun t => 0.5 / sqrt (t * k) * k) T (- (0.5) / (T * k) * (0.5 / s * k) * k)).
    { eapply d_val; [apply d_mul; [apply d_div; [apply d_const|exact D|fold s; lra]|apply d_const]|]. cbv beta. fold s. rewrite SS. half. field. lra. }
    eapply d_val; [apply d_mul; [apply d_mul; [apply d_const|apply d_add; [apply d_const|apply d_mul; [apply d_const|apply d_sub; [apply d_const|exact D]]]]|apply d_mul; [apply d_const|exact D2]]|].
    cbv beta. fold s. rewrite !SS. half. field. lra.
Qed.
Lemma d_alpha type w Tc T : 0 < Tc -> 0 < T ->
  is_derive (fun t => al (alphafn type (t * (1 / Tc)) (1 / Tc) w)) T (alT (alphafn type (T * (1 / Tc)) (1 / Tc) w)) /\
  is_derive (fun t => alT (alphafn type (t * (1 / Tc)) (1 / Tc) w)) T (alTT (alphafn type (T * (1 / Tc)) (1 / Tc) w)).
Proof.
  intros Hc HT. destruct type; cbn [alphafn].
  - unfold alphaVDW. cbn. split; apply d_const.
  - unfold alphaRK. cbn [al alT alTT]. set (k := 1 / Tc). assert (Hk : 0 < k) by (apply Rdiv_lt_0_compat; lra).
    assert (Hp : 0 < T * k) by (apply Rmult_lt_0_compat; lra).
    set (s := sqrt (T * k)). assert (S0 : 0 < s) by (apply sqrt_lt_R0; exact Hp). assert (SS : T * k = s * s) by (symmetry; apply sqrt_sqrt; lra).
    assert (D : is_derive (fun t => sqrt (t * k)) T (0.5 / s * k)).
    { eapply d_val; [apply d_sqrt; [apply d_mul; [apply d_id|apply d_const]|exact Hp]|]. cbv beta. fold s. half. field. lra. }
    assert (D1 : is_derive (fun t => 1 / sqrt (t * k)) T (- (0.5) / (T * k) * (1 / s) * k)).
    { eapply d_val; [apply d_div; [apply d_const|exact D|fold s; lra]|]. cbv beta. fold s. rewrite SS. half. field. lra. }
    split; [exact D1|].
    eapply d_val; [apply d_mul; [apply d_mul; [apply d_div; [apply d_const|apply d_mul; [apply d_id|apply d_const]|lra]|exact D1]|apply d_const]|].
    cbv beta. fold s. rewrite !SS. half. field. lra.
  - apply d_alpha_m; assumption.
  - apply d_alpha_m; assumption.
Qed.

Section Mix.
Variable e : EOS.
Let n := nspecies e.
Definition critical_positive : Prop := forall k, (k < nspecies e)%nat -> 0 < Tcr e k /\ 0 < Pcr e k.
(* The derivatives that the function of interaction parameters returns are those of its parameters. *)
Definition interaction_consistent : Prop := forall T i j, 0 < T -> (i < nspecies e)%nat -> (j < nspecies e)%nat ->
  is_derive (fun t => r_ e t i j) T (rT_ e T i j) /\ is_derive (fun t => rT_ e t i j) T (rTT_ e T i j).
Lemma no_interaction : interaction e = None -> interaction_consistent.
Proof. intros H T i j _ _ _. unfold r_, rT_, rTT_, ip. rewrite H. cbn. split; apply d_const. Qed.
Hypothesis HC : critical_positive. Hypothesis HI : interaction_consistent.
Variable T : R. Hypothesis HT : 0 < T.
Hypothesis HA : forall k, (k < nspecies e)%nat -> 0 < a_ e T k.
Lemma d_a k : (k < n)%nat -> is_derive (fun t => a_ e t k) T (aT_ e T k) /\ is_derive (fun t => aT_ e t k) T (aTT_ e T k).
Proof.
  intros Hk. destruct (HC k Hk) as [Hc _]. destruct (d_alpha (model e) (omega e k) (Tcr e k) T Hc HT) as [D1 D2].
  unfold a_, aT_, aTT_, alpha_of. split; (eapply d_val; [apply d_mul; [apply d_const|eassumption]|cbv beta; ring]).
Qed.
Lemma d_s i j : (i < n)%nat -> (j < n)%nat -> is_derive (fun t => s_ e t i j) T (sT_ e T i j) /\ is_derive (fun t => sT_ e t i j) T (sTT_ e T i j).
Proof.
  intros Hi Hj. destruct (d_a i Hi) as [Di Di']. destruct (d_a j Hj) as [Dj Dj']. pose proof (HA i Hi) as Pi. pose proof (HA j Hj) as Pj.
  assert (Pp : 0 < a_ e T i * a_ e T j) by (apply Rmult_lt_0_compat; assumption).
  assert (S0 : 0 < s_ e T i j) by (apply sqrt_lt_R0; exact Pp).
  assert (SS : s_ e T i j * s_ e T i j = a_ e T i * a_ e T j) by (apply sqrt_sqrt; lra).
  assert (D : is_derive (fun t => s_ e t i j) T (sT_ e T i j)).
  { unfold s_ at 1. eapply d_val; [apply d_sqrt; [apply d_mul; eassumption|exact Pp]|]. cbv beta. fold (s_ e T i j). unfold sT_. half. rewrite <- SS. field. lra. }
  split; [exact D|].
  assert (E : sT_ e T i j = 0.5 * s_ e T i j / (a_ e T i * a_ e T j) * (aT_ e T i * a_ e T j + a_ e T i * aT_ e T j)) by reflexivity.
  unfold sT_ at 1. eapply d_val; [apply d_mul; [apply d_div; [apply d_mul; [apply d_const|exact D]|apply d_mul; eassumption|lra]|apply d_add; apply d_mul; eassumption]|].
  cbv beta. unfold sTT_. rewrite E. half. field. repeat split; lra.
Qed.
Lemma d_aij i j : (i < n)%nat -> (j < n)%nat -> is_derive (fun t => aij e t i j) T (aijT e T i j) /\ is_derive (fun t => aijT e t i j) T (aijTT e T i j).
Proof.
  intros Hi Hj. destruct (d_s i j Hi Hj) as [D1 D2]. destruct (HI T i j HT Hi Hj) as [K1 K2]. unfold aij, aijT, aijTT. split.
  - eapply d_val; [apply d_mul; eassumption|]. cbv beta. ring.
  - eapply d_val; [apply d_add; apply d_mul; eassumption|]. cbv beta. ring.
Qed.
Lemma d_amix x : is_derive (fun t => amix e t x) T (amixT e T x) /\ is_derive (fun t => amixT e t x) T (amixTT e T x).
Proof.
  unfold amix, amixT, amixTT. split.
  - apply (d_Sum (nspecies e) (fun i t => Sum (nspecies e) (fun j => x i * x j * aij e t i j))). intros i Hi.
    apply (d_Sum (nspecies e) (fun j t => x i * x j * aij e t i j)). intros j Hj.
    eapply d_val; [apply d_mul; [apply d_const|exact (proj1 (d_aij i j Hi Hj))]|]. cbv beta. ring.
  - apply (d_Sum (nspecies e) (fun i t => Sum (nspecies e) (fun j => x i * x j * aijT e t i j))). intros i Hi.
    apply (d_Sum (nspecies e) (fun j t => x i * x j * aijT e t i j)). intros j Hj.
    eapply d_val; [apply d_mul; [apply d_const|exact (proj2 (d_aij i j Hi Hj))]|]. cbv beta. ring.
Qed.
Lemma gasR_pos : 0 < gasR. Proof. unfold gasR. lra. Qed.
Lemma d_q x : amix e T x <> 0 -> bmix e x <> 0 -> is_derive (fun t => q_ e t x) T (qT_ e T x) /\ is_derive (fun t => qT_ e t x) T (qTT_ e T x).
Proof.
  intros Ha Hb. destruct (d_amix x) as [D1 D2]. pose proof gasR_pos as G.
  assert (N : bmix e x * gasR * T <> 0). { apply Rmult_integral_contrapositive_currified; [apply Rmult_integral_contrapositive_currified; [exact Hb|lra]|lra]. }
  assert (D : is_derive (fun t => q_ e t x) T (qT_ e T x)).
  { unfold q_ at 1. eapply d_val; [apply d_div; [exact D1|apply d_mul; [apply d_const|apply d_id]|exact N]|]. cbv beta. unfold qT_, q_. field. repeat split; (assumption || lra). }
  split; [exact D|]. unfold qT_ at 1.
  eapply d_val; [apply d_mul; [exact D|apply d_sub; [apply d_div; [exact D2|exact D1|exact Ha]|apply d_div; [apply d_const|apply d_id|lra]]]|].
  cbv beta. unfold qTT_, qT_. assert (Q0 : q_ e T x <> 0). { unfold q_, Rdiv. apply Rmult_integral_contrapositive_currified; [exact Ha|apply Rinv_neq_0_compat, N]. }
  field. repeat split; (assumption || lra).
Qed.
Lemma d_beta P x : is_derive (fun t => beta_ e t P x) T (- beta_ e T P x / T).
Proof. pose proof gasR_pos. unfold beta_. eapply d_val; [apply d_div; [apply d_const|apply d_mul; [apply d_const|apply d_id]|apply Rmult_integral_contrapositive_currified; lra]|]. cbv beta. field. lra. Qed.
Lemma d_betaP P x : 0 < P -> is_derive (fun p => beta_ e T p x) P (beta_ e T P x / P).
Proof. intros HP. pose proof gasR_pos. unfold beta_. eapply d_val; [apply d_div; [apply d_mul; [apply d_id|apply d_const]|apply d_const|apply Rmult_integral_contrapositive_currified; lra]|]. cbv beta. field. lra. Qed.
End Mix.

(* ---- Composition ---- *)
Ltac rring := match goal with |- ?l = ?r => change (@eq R l r) end; ring.
Section Composition.
Variable e : EOS.
Let n := nspecies e.
Let ep := epsilon_ (model e).
Let sg := sigma_ (model e).
Definition qk_ (T : R) (x : nat -> R) (k : nat) : R := (1 + abar e T x k / amix e T x - bbar e k / bmix e x) * q_ e T x.
Lemma Omega_pos m : 0 < Omega_ m. Proof. destruct m; cbn; lra. Qed.
Lemma Psi_pos m : 0 < Psi_ m. Proof. destruct m; cbn; lra. Qed.
Lemma b_pos k : critical_positive e -> (k < n)%nat -> 0 < b_ e k.
Proof. intros HC Hk. destruct (HC k Hk). unfold b_. pose proof (Omega_pos (model e)). pose proof gasR_pos. apply Rdiv_lt_0_compat; [|assumption]. apply Rmult_lt_0_compat; [apply Rmult_lt_0_compat|]; assumption. Qed.
(* The code's fugacity coefficients in closed form. *)
Lemma lnPhi_closed T P x Z k : b_ e k <> 0 -> physical ep sg (beta_ e T P x) Z ->
  realCubic (cA ep sg (beta_ e T P x) (q_ e T x)) (cB ep sg (beta_ e T P x) (q_ e T x)) (cC ep sg (beta_ e T P x) (q_ e T x)) Z = 0 ->
  slope (cA ep sg (beta_ e T P x) (q_ e T x)) (cB ep sg (beta_ e T P x) (q_ e T x)) Z <> 0 ->
  lnPhi e T P x Z k = Z - 1 - ln (Z - beta_ e T P x) - qk_ T x k * intI ep sg (beta_ e T P x) Z.
Proof.
  intros Hb HP HR HS. unfold lnPhi. fold ep sg. fold (qk_ T x k). cbn zeta.
  set (beta := beta_ e T P x) in *. set (q := q_ e T x) in *. set (qk := qk_ T x k).
  change (bbar e k) with (b_ e k). replace (b_ e k / b_ e k * beta) with beta by (field; exact Hb).
  set (A := cA ep sg beta q) in *. set (B := cB ep sg beta q) in *. set (C := cC ep sg beta q) in *.
  set (Zk := - (((ep + sg - 1) * beta - 1) * Z * Z + (B + _) * Z + 2 * C + _) / _).
  set (dz := - ((qk - q) * beta * Z - (qk - q) * beta * beta) / slope A B Z).
  assert (EZ : Zk = Z + dz).
  { unfold Zk, dz. unfold slope in *. unfold realCubic in HR. apply Rmult_eq_reg_r with (3 * Z * Z + 2 * A * Z + B); [|exact HS].
    transitivity (- (((ep + sg - 1) * beta - 1) * Z * Z + (B + (((ep * sg - ep - sg) * (2 * beta - beta) + qk - q) * beta - (ep + sg - q) * beta)) * Z + 2 * C + ((ep * sg * (2 * beta + 1) + 2 * q - qk) * beta * beta - (2 * (ep * sg + q) + 3 * ep * sg * beta) * beta * beta))); [field; exact HS|].
    transitivity (3 * Z ^ 3 + 2 * A * Z ^ 2 + B * Z - ((qk - q) * beta * Z - (qk - q) * beta * beta)); [|field; exact HS].
    replace (3 * Z ^ 3) with (- 3 * (A * Z ^ 2 + B * Z + C)) by lra. unfold A, B, C, cA, cB, cC. ring. }
  assert (EI : (if Req_EM_T ep sg then intI ep sg beta Z * (1 + beta / beta - (Zk + ep * beta) / (Z + ep * beta))
                else intI ep sg beta Z + ((Zk + sg * beta) / (Z + sg * beta) - (Zk + ep * beta) / (Z + ep * beta)) / (sg - ep)) = intI ep sg beta Z + dI ep sg beta Z 0 dz).
  { destruct HP as (P0 & P1 & P2 & P3). rewrite EZ. unfold dI. destruct (Req_EM_T ep sg) as [X|X]; field; repeat split; lra. }
  rewrite EI. clear EI. rewrite (dI_split ep sg beta Z 0 dz HP), EZ.
  pose proof (stationary ep sg beta q Z HP HR) as St. destruct HP as (P0 & P1 & P2 & P3).
  set (D := (Z + ep * beta) * (Z + sg * beta)) in *. assert (D0 : D <> 0) by (apply Rmult_integral_contrapositive_currified; lra).
  transitivity (Z - 1 - ln (Z - beta) - qk * intI ep sg beta Z + dz * (1 - 1 / (Z - beta) + q * beta / D)); [field; split; [exact D0|lra]|]. rewrite St. ring.
Qed.
Lemma weighted_abar T x : Sum n x = 1 -> Sum n (fun k => x k * abar e T x k) = amix e T x.
Proof.
  intros H1. unfold abar. fold n.
  rewrite (Sum_ext n _ (fun k => 2 * Sum n (fun j => x k * x j * aij e T k j) + (- amix e T x) * x k)).
  - rewrite Sum_add, Sum_scal, Sum_scal, H1. unfold amix. fold n. ring.
  - intros k _. rewrite <- (Sum_scal n 2). rewrite Rmult_minus_distr_l. rewrite <- (Sum_scal n (x k)). unfold Rminus. f_equal; [apply Sum_ext; intros; ring|ring].
Qed.
Lemma weighted_qk T x : Sum n x = 1 -> amix e T x <> 0 -> bmix e x <> 0 -> Sum n (fun k => x k * qk_ T x k) = q_ e T x.
Proof.
  intros H1 Ha Hb. unfold qk_.
  rewrite (Sum_ext n _ (fun k => q_ e T x * x k + (q_ e T x / amix e T x) * (x k * abar e T x k) + - (q_ e T x / bmix e x) * (x k * bbar e k))).
  - rewrite !Sum_add, !Sum_scal, H1, (weighted_abar T x H1). change (Sum n (fun k => x k * bbar e k)) with (bmix e x). field. split; assumption.
  - intros k _. field. split; assumption.
Qed.
Lemma weighted_lnPhi T P x Z : critical_positive e -> Sum n x = 1 -> amix e T x <> 0 -> bmix e x <> 0 -> physical ep sg (beta_ e T P x) Z ->
  realCubic (cA ep sg (beta_ e T P x) (q_ e T x)) (cB ep sg (beta_ e T P x) (q_ e T x)) (cC ep sg (beta_ e T P x) (q_ e T x)) Z = 0 ->
  slope (cA ep sg (beta_ e T P x) (q_ e T x)) (cB ep sg (beta_ e T P x) (q_ e T x)) Z <> 0 ->
  Sum n (fun k => x k * lnPhi e T P x Z k) = gred ep sg (beta_ e T P x) (q_ e T x) Z.
Proof.
  intros HC H1 Ha Hb HP HR HS.
  rewrite (Sum_ext n _ (fun k => (Z - 1 - ln (Z - beta_ e T P x)) * x k + - intI ep sg (beta_ e T P x) Z * (x k * qk_ T x k))).
  - rewrite Sum_add, !Sum_scal, H1, (weighted_qk T x H1 Ha Hb). unfold gred. ring.
  - intros k Hk. rewrite (lnPhi_closed T P x Z k); [ring| |assumption|assumption|assumption]. pose proof (b_pos k HC Hk). lra.
Qed.

(* Derivatives in the amount of one species *)
Definition change (m : nat -> R) (k : nat) (v : R) : nat -> R := fun i => if Nat.eqb i k then v else m i.
Definition fractions (m : nat -> R) : nat -> R := fun i => m i / Sum n m.
Lemma change_same m k i : change m k (m k) i = m i.
Proof. unfold change. destruct (Nat.eqb_spec i k); [subst; reflexivity|reflexivity]. Qed.
Definition delta (i k : nat) : R := if Nat.eqb i k then 1 else 0.
Lemma d_change m k i v : is_derive (fun v => change m k v i) v (delta i k).
Proof. unfold change, delta. destruct (Nat.eqb i k); [apply d_id|apply d_const]. Qed.
Lemma Sum_delta N k f : (k < N)%nat -> Sum N (fun i => delta i k * f i) = f k.
Proof.
  induction N as [|N IH]; intros Hk; [lia|]. cbn [Sum]. unfold delta at 2. destruct (Nat.eqb_spec N k) as [->|Hn].
  - rewrite (Sum_ext k _ (fun i => 0 * f i)); [rewrite Sum_scal; ring|]. intros i Hi. unfold delta. destruct (Nat.eqb_spec i k); [lia|ring].
  - rewrite IH by lia. ring.
Qed.
Lemma d_total m k : (k < n)%nat -> is_derive (fun v => Sum n (change m k v)) (m k) 1.
Proof.
  intros Hk. eapply d_val; [apply (d_Sum n (fun i v => change m k v i)); intros i _; apply d_change|].
  rewrite (Sum_ext n _ (fun i => delta i k * 1)) by (intros; rring). apply Sum_delta. exact Hk.
Qed.
Lemma Sum_change_same N m k f : Sum N (fun i => f i (change m k (m k) i)) = Sum N (fun i => f i (m i)).
Proof. apply Sum_ext. intros i _. rewrite change_same. reflexivity. Qed.
Lemma d_bmix m k : (k < n)%nat -> 0 < Sum n m ->
  is_derive (fun v => bmix e (fractions (change m k v))) (m k) ((b_ e k - bmix e (fractions m)) / Sum n m).
Proof.
  intros Hk HN. set (N := Sum n m) in *.
  assert (EN : Sum n (change m k (m k)) = N) by (apply (Sum_change_same n m k (fun _ v => v))).
  assert (DB : is_derive (fun v => Sum n (fun i => change m k v i * bbar e i)) (m k) (b_ e k)).
  { eapply d_val; [apply (d_Sum n (fun i v => change m k v i * bbar e i)); intros i _; apply d_mul; [apply d_change|apply d_const]|]. cbv beta.
    rewrite (Sum_ext n _ (fun i => delta i k * bbar e i)) by (intros; rring). apply (Sum_delta n k (bbar e) Hk). }
  assert (EB : forall m', bmix e (fractions m') = Sum n (fun i => m' i * bbar e i) / Sum n m').
  { intros m'. unfold bmix, fractions. fold n. rewrite (Sum_ext n _ (fun i => / Sum n m' * (m' i * bbar e i))) by (intros; unfold Rdiv; ring). rewrite Sum_scal. unfold Rdiv. ring. }
  apply (is_derive_ext (fun v => Sum n (fun i => change m k v i * bbar e i) / Sum n (change m k v))); [intros v; symmetry; apply EB|].
  eapply d_val; [apply d_div; [exact DB|apply d_total, Hk|rewrite EN; lra]|]. cbv beta.
  rewrite EN, (Sum_change_same n m k (fun i v => v * bbar e i)), EB. fold N. field. lra.
Qed.
Lemma d_amix_n T m k : (forall i j, (i < n)%nat -> (j < n)%nat -> aij e T i j = aij e T j i) -> (k < n)%nat -> 0 < Sum n m ->
  is_derive (fun v => amix e T (fractions (change m k v))) (m k) ((abar e T (fractions m) k - amix e T (fractions m)) / Sum n m).
Proof.
  intros Hs Hk HN. set (N := Sum n m) in *.
  assert (EN : Sum n (change m k (m k)) = N) by (apply (Sum_change_same n m k (fun _ v => v))).
  set (F := fun m' : nat -> R => Sum n (fun i => Sum n (fun j => m' i * m' j * aij e T i j))).
  assert (EA : forall m', amix e T (fractions m') = F m' / (Sum n m' * Sum n m')).
  { intros m'. unfold amix, fractions, F. fold n. unfold Rdiv. rewrite Rmult_comm, <- Sum_scal. apply Sum_ext. intros i _. rewrite <- Sum_scal. apply Sum_ext. intros j _. rewrite Rinv_mult. ring. }
  assert (EF : F (change m k (m k)) = F m).
  { unfold F. apply Sum_ext. intros i _. apply Sum_ext. intros j _. rewrite !change_same. reflexivity. }
  assert (DF : is_derive (fun v => F (change m k v)) (m k) (2 * Sum n (fun j => m j * aij e T k j))).
  { unfold F. eapply d_val; [apply (d_Sum n (fun i v => Sum n (fun j => change m k v i * change m k v j * aij e T i j))); intros i _;
      apply (d_Sum n (fun j v => change m k v i * change m k v j * aij e T i j)); intros j _; apply d_mul; [apply d_mul; apply d_change|apply d_const]|].
    cbv beta.
    rewrite (Sum_ext n _ (fun i => delta i k * Sum n (fun j => m j * aij e T i j) + Sum n (fun j => delta j k * (m i * aij e T i j)))).
    - rewrite Sum_add, (Sum_delta n k (fun i => Sum n (fun j => m j * aij e T i j)) Hk).
      rewrite (Sum_ext n (fun i => Sum n (fun j => delta j k * (m i * aij e T i j))) (fun i => m i * aij e T k i)); [rring|].
      intros i Hi. rewrite (Sum_delta n k (fun j => m i * aij e T i j) Hk), (Hs i k Hi Hk). reflexivity.
    - intros i _. rewrite <- Sum_scal, <- Sum_add. apply Sum_ext. intros j _. rewrite !change_same. rring. }
  apply (is_derive_ext (fun v => F (change m k v) / (Sum n (change m k v) * Sum n (change m k v)))); [intros v; symmetry; apply EA|].
  eapply d_val; [apply d_div; [exact DF|apply d_mul; apply d_total, Hk|rewrite EN; apply Rmult_integral_contrapositive_currified; lra]|]. cbv beta.
  rewrite EN, EF. unfold abar. rewrite EA. fold n N.
  rewrite (Sum_ext n (fun j => 2 * fractions m j * aij e T k j) (fun j => 2 / N * (m j * aij e T k j))) by (intros; unfold fractions; fold N; field; lra).
  rewrite Sum_scal. field. lra.
Qed.
Lemma fractions_same m k T P : bmix e (fractions (change m k (m k))) = bmix e (fractions m) /\ amix e T (fractions (change m k (m k))) = amix e T (fractions m) /\
  beta_ e T P (fractions (change m k (m k))) = beta_ e T P (fractions m) /\ q_ e T (fractions (change m k (m k))) = q_ e T (fractions m).
Proof.
  assert (E : forall i, fractions (change m k (m k)) i = fractions m i).
  { intros i. unfold fractions. rewrite change_same, (Sum_ext n (change m k (m k)) m); [reflexivity|intros; apply change_same]. }
  assert (B : bmix e (fractions (change m k (m k))) = bmix e (fractions m)) by (unfold bmix; apply Sum_ext; intros; rewrite E; reflexivity).
  assert (A : amix e T (fractions (change m k (m k))) = amix e T (fractions m)) by (unfold amix; apply Sum_ext; intros; apply Sum_ext; intros; rewrite !E; reflexivity).
  unfold beta_, q_. rewrite B, A. repeat split.
Qed.
Lemma d_beta_n T P m k : 0 < T -> (k < n)%nat -> 0 < Sum n m -> bmix e (fractions m) <> 0 ->
  is_derive (fun v => beta_ e T P (fractions (change m k v))) (m k) (beta_ e T P (fractions m) * (b_ e k / bmix e (fractions m) - 1) / Sum n m).
Proof.
  intros HT Hk HN Hb. pose proof gasR_pos. pose proof (d_bmix m k Hk HN) as D. unfold beta_.
  eapply d_val; [apply d_div; [apply d_mul; [apply d_const|exact D]|apply d_const|apply Rmult_integral_contrapositive_currified; lra]|]. cbv beta. field. repeat split; (assumption || lra).
Qed.
Lemma d_q_n T m k : (forall i j, (i < n)%nat -> (j < n)%nat -> aij e T i j = aij e T j i) -> 0 < T -> (k < n)%nat -> 0 < Sum n m -> bmix e (fractions m) <> 0 -> amix e T (fractions m) <> 0 ->
  is_derive (fun v => q_ e T (fractions (change m k v))) (m k) ((qk_ T (fractions m) k - q_ e T (fractions m)) / Sum n m).
Proof.
  intros Hs HT Hk HN Hb Ha. pose proof gasR_pos. pose proof (d_bmix m k Hk HN) as DB. pose proof (d_amix_n T m k Hs Hk HN) as DA.
  destruct (fractions_same m k T 1) as (Eb & Ea & _).
  unfold q_ at 1. eapply d_val; [apply d_div; [exact DA|apply d_mul; [apply d_mul; [exact DB|apply d_const]|apply d_const]|]|].
  - cbv beta. rewrite Eb. apply Rmult_integral_contrapositive_currified; [apply Rmult_integral_contrapositive_currified; [exact Hb|lra]|lra].
  - cbv beta. rewrite Ea, Eb. unfold qk_, q_. change (bbar e k) with (b_ e k). field. repeat split; (assumption || lra).
Qed.
End Composition.
