(* The fields of the Wagner and Pruss Helmholtz state of water are partial
   derivatives. *)
From Coq Require Import Reals List ZArith Lia Lra.
From Coquelicot Require Import Coquelicot.
Import ListNotations.
From Verif Require Import Base M_Helmholtz S_Water P_Helmholtz.
Local Open Scope R_scope.

(* ---- The ideal part ---- *)
Lemma gammao_pos i : (4 <= i < 9)%nat -> 0 < at_ wp_gammao (i - 4).
Proof. intros Hi. do 9 (destruct i as [|i]; [unfold at_, wp_gammao; cbn [nth Nat.sub]; try lia; lra|]). lia. Qed.
Lemma Derivs_phio_term i t d : 0 < t -> 0 < at_ wp_gammao (i - 4) -> Derivs (fun t d => phio_term t i) t d.
Proof.
  intros Ht Hg. assert (He : 1 < exp (at_ wp_gammao (i - 4) * t)).
  { rewrite <- exp_0. apply exp_increasing. apply Rmult_lt_0_compat; assumption. }
  assert (H1 : exp (at_ wp_gammao (i - 4) * t) <> 0) by lra.
  assert (H2 : exp (at_ wp_gammao (i - 4) * t) - 1 <> 0) by lra.
  assert (H3 : 0 < 1 - 1 / exp (at_ wp_gammao (i - 4) * t)).
  { apply Rlt_Rminus. apply Rmult_lt_reg_r with (exp (at_ wp_gammao (i - 4) * t)); [lra|]. field_simplify; lra. }
  split; unfold phio_term; proj; jj; try assumption;
  generalize dependent (exp (at_ wp_gammao (i - 4) * t)); intros; simpl; try ring; field; auto.
Qed.
Lemma Derivs_phio t d : 0 < t -> 0 < d -> Derivs phio t d.
Proof.
  intros Ht Hd. assert (Ht' : t <> 0) by lra. assert (Hd' : d <> 0) by lra.
  assert (t ^ 2 <> 0) by (apply pow_nonzero; lra). assert (d ^ 2 <> 0) by (apply pow_nonzero; lra).
  unfold phio. apply (Derivs_accumulate (fun t (_ : R) => phio_term t)).
  - intros i Hi. apply Derivs_phio_term; [exact Ht|apply gammao_pos; lia].
  - split; proj; jj; try assumption; try lra; simpl; try ring; field; auto.
Qed.

(* ---- The terms of the residual part ---- *)
Definition wA (N p q : R) (t d : R) : R := N * (Rpower (d) (p)) * (Rpower (t) (q)).
Definition wA_r (N p q : R) (t d : R) : R := p / d * wA N p q t d.
Definition wA_t (N p q : R) (t d : R) : R := q / t * wA N p q t d.
Definition wA_rr (N p q : R) (t d : R) : R := (p - 1) / d * wA_r N p q t d.
Definition wA_tt (N p q : R) (t d : R) : R := (q - 1) / t * wA_t N p q t d.
Definition wA_rt (N p q : R) (t d : R) : R := q * p / (t * d) * wA N p q t d.
Definition wA_rrr (N p q : R) (t d : R) : R := (p - 2) / d * wA_rr N p q t d.
Definition wA_ttt (N p q : R) (t d : R) : R := (q - 2) / t * wA_tt N p q t d.
Definition wA_rtt (N p q : R) (t d : R) : R := p / d * wA_tt N p q t d.
Definition wA_rrt (N p q : R) (t d : R) : R := q / t * wA_rr N p q t d.

Lemma jets_wA N p q t d : 0 < t -> 0 < d ->
  Differentials (wA N p q) (wA_t N p q) (wA_r N p q) (wA_tt N p q) (wA_rt N p q) (wA_rr N p q) (wA_ttt N p q) (wA_rtt N p q) (wA_rrt N p q) (wA_rrr N p q) t d.
Proof.
  intros Ht Hd. assert (Ht' : t <> 0) by lra. assert (Hd' : d <> 0) by lra. assert (t * d <> 0) by nz.
  assert (K1 : JD (wA N p q) t d (wA_t N p q t d) (wA_r N p q t d)).
  { unfold wA; jj; [try assumption..|unfold wA_ttt, wA_rtt, wA_rrt, wA_rrr, wA_tt, wA_rt, wA_rr, wA_t, wA_r, wA; field; auto|unfold wA_ttt, wA_rtt, wA_rrt, wA_rrr, wA_tt, wA_rt, wA_rr, wA_t, wA_r, wA; field; auto]. }
  assert (K2 : JD (wA_t N p q) t d (wA_tt N p q t d) (wA_rt N p q t d)).
  { unfold wA_t; jj; [try assumption..|unfold wA_ttt, wA_rtt, wA_rrt, wA_rrr, wA_tt, wA_rt, wA_rr, wA_t, wA_r; field; auto|unfold wA_ttt, wA_rtt, wA_rrt, wA_rrr, wA_tt, wA_rt, wA_rr, wA_t, wA_r; field; auto]. }
  assert (K3 : JD (wA_r N p q) t d (wA_rt N p q t d) (wA_rr N p q t d)).
  { unfold wA_r; jj; [try assumption..|unfold wA_ttt, wA_rtt, wA_rrt, wA_rrr, wA_tt, wA_rt, wA_rr, wA_t, wA_r; field; auto|unfold wA_ttt, wA_rtt, wA_rrt, wA_rrr, wA_tt, wA_rt, wA_rr, wA_t, wA_r; field; auto]. }
  assert (K4 : JD (wA_tt N p q) t d (wA_ttt N p q t d) (wA_rtt N p q t d)).
  { unfold wA_tt; jj; [try assumption..|unfold wA_ttt, wA_rtt, wA_rrt, wA_rrr, wA_tt, wA_rt, wA_rr, wA_t, wA_r; field; auto|unfold wA_ttt, wA_rtt, wA_rrt, wA_rrr, wA_tt, wA_rt, wA_rr, wA_t, wA_r; field; auto]. }
  assert (K5 : JD (wA_rt N p q) t d (wA_rtt N p q t d) (wA_rrt N p q t d)).
  { unfold wA_rt; jj; [try assumption..|unfold wA_ttt, wA_rtt, wA_rrt, wA_rrr, wA_tt, wA_rt, wA_rr, wA_t, wA_r; field; auto|unfold wA_ttt, wA_rtt, wA_rrt, wA_rrr, wA_tt, wA_rt, wA_rr, wA_t, wA_r; field; auto]. }
  assert (K6 : JD (wA_rr N p q) t d (wA_rrt N p q t d) (wA_rrr N p q t d)).
  { unfold wA_rr; jj; [try assumption..|unfold wA_ttt, wA_rtt, wA_rrt, wA_rrr, wA_tt, wA_rt, wA_rr, wA_t, wA_r; field; auto|unfold wA_ttt, wA_rtt, wA_rrt, wA_rrr, wA_tt, wA_rt, wA_rr, wA_t, wA_r; field; auto]. }
  split; assumption.
Qed.
Definition wB (N c p q : R) (t d : R) : R := N * (Rpower (d) (p)) * (Rpower (t) (q)) * exp (-(Rpower (d) (c))).
Definition wB_r (N c p q : R) (t d : R) : R := (p - c * (Rpower (d) (c))) / d * wB N c p q t d.
Definition wB_t (N c p q : R) (t d : R) : R := q / t * wB N c p q t d.
Definition wB_rr (N c p q : R) (t d : R) : R := (p - c * (Rpower (d) (c)) - 1) / d * wB_r N c p q t d - (Rpower (d) (c)) * ((c / d) ^ 2) * wB N c p q t d.
Definition wB_tt (N c p q : R) (t d : R) : R := (q - 1) / t * wB_t N c p q t d.
Definition wB_rt (N c p q : R) (t d : R) : R := q / t * wB_r N c p q t d.
Definition wB_rrr (N c p q : R) (t d : R) : R := (p - c * (Rpower (d) (c)) - 1) / d * wB_rr N c p q t d - ((p - c * (Rpower (d) (c)) - 1) + 2 * c * c * (Rpower (d) (c))) / ((d) ^ 2) * wB_r N c p q t d - c * c * (Rpower (d) (c)) * (c - 2) / ((d) ^ 3) * wB N c p q t d.
Definition wB_ttt (N c p q : R) (t d : R) : R := (q - 2) / t * wB_tt N c p q t d.
Definition wB_rtt (N c p q : R) (t d : R) : R := (q - 1) / t * wB_rt N c p q t d.
Definition wB_rrt (N c p q : R) (t d : R) : R := (p - c * (Rpower (d) (c)) - 1) / d * wB_rt N c p q t d - c * c * (Rpower (d) (c)) / ((d) ^ 2) * wB_t N c p q t d.

Lemma jets_wB N c p q t d : 0 < t -> 0 < d ->
  Differentials (wB N c p q) (wB_t N c p q) (wB_r N c p q) (wB_tt N c p q) (wB_rt N c p q) (wB_rr N c p q) (wB_ttt N c p q) (wB_rtt N c p q) (wB_rrt N c p q) (wB_rrr N c p q) t d.
Proof.
  intros Ht Hd. assert (Ht' : t <> 0) by lra. assert (Hd' : d <> 0) by lra. assert (t * d <> 0) by nz. assert (d ^ 2 <> 0) by (apply pow_nonzero; lra). assert (d ^ 3 <> 0) by (apply pow_nonzero; lra).
  assert (K1 : JD (wB N c p q) t d (wB_t N c p q t d) (wB_r N c p q t d)).
  { unfold wB; jj; [try assumption..|unfold wB_ttt, wB_rtt, wB_rrt, wB_rrr, wB_tt, wB_rt, wB_rr, wB_t, wB_r, wB; simpl; field; auto|unfold wB_ttt, wB_rtt, wB_rrt, wB_rrr, wB_tt, wB_rt, wB_rr, wB_t, wB_r, wB; simpl; field; auto]. }
  assert (K2 : JD (wB_t N c p q) t d (wB_tt N c p q t d) (wB_rt N c p q t d)).
  { unfold wB_t; jj; [try assumption..|unfold wB_ttt, wB_rtt, wB_rrt, wB_rrr, wB_tt, wB_rt, wB_rr, wB_t, wB_r; simpl; field; auto|unfold wB_ttt, wB_rtt, wB_rrt, wB_rrr, wB_tt, wB_rt, wB_rr, wB_t, wB_r; simpl; field; auto]. }
  assert (K3 : JD (wB_r N c p q) t d (wB_rt N c p q t d) (wB_rr N c p q t d)).
  { unfold wB_r; jj; [try assumption..|unfold wB_ttt, wB_rtt, wB_rrt, wB_rrr, wB_tt, wB_rt, wB_rr, wB_t, wB_r; simpl; field; auto|unfold wB_ttt, wB_rtt, wB_rrt, wB_rrr, wB_tt, wB_rt, wB_rr, wB_t, wB_r; simpl; field; auto]. }
  assert (K4 : JD (wB_tt N c p q) t d (wB_ttt N c p q t d) (wB_rtt N c p q t d)).
  { unfold wB_tt; jj; [try assumption..|unfold wB_ttt, wB_rtt, wB_rrt, wB_rrr, wB_tt, wB_rt, wB_rr, wB_t, wB_r; simpl; field; auto|unfold wB_ttt, wB_rtt, wB_rrt, wB_rrr, wB_tt, wB_rt, wB_rr, wB_t, wB_r; simpl; field; auto]. }
  assert (K5 : JD (wB_rt N c p q) t d (wB_rtt N c p q t d) (wB_rrt N c p q t d)).
  { unfold wB_rt; jj; [try assumption..|unfold wB_ttt, wB_rtt, wB_rrt, wB_rrr, wB_tt, wB_rt, wB_rr, wB_t, wB_r; simpl; field; auto|unfold wB_ttt, wB_rtt, wB_rrt, wB_rrr, wB_tt, wB_rt, wB_rr, wB_t, wB_r; simpl; field; auto]. }
  assert (K6 : JD (wB_rr N c p q) t d (wB_rrt N c p q t d) (wB_rrr N c p q t d)).
  { unfold wB_rr; jj; [try assumption..|unfold wB_ttt, wB_rtt, wB_rrt, wB_rrr, wB_tt, wB_rt, wB_rr, wB_t, wB_r; simpl; field; auto|unfold wB_ttt, wB_rtt, wB_rrt, wB_rrr, wB_tt, wB_rt, wB_rr, wB_t, wB_r; simpl; field; auto]. }
  split; assumption.
Qed.
Definition wC (N p q al be ga ep : R) (t d : R) : R := N * (Rpower (d) (p)) * (Rpower (t) (q)) * exp (-al * ((d - ep) ^ 2) - be * ((t - ga) ^ 2)).
Definition wC_r (N p q al be ga ep : R) (t d : R) : R := ((p / d - 2 * al * (d - ep))) * wC N p q al be ga ep t d.
Definition wC_t (N p q al be ga ep : R) (t d : R) : R := ((q / t - 2 * be * (t - ga))) * wC N p q al be ga ep t d.
Definition wC_rr (N p q al be ga ep : R) (t d : R) : R := ((p / d - 2 * al * (d - ep))) * wC_r N p q al be ga ep t d - ((p / ((d) ^ 2) + 2 * al)) * wC N p q al be ga ep t d.
Definition wC_tt (N p q al be ga ep : R) (t d : R) : R := ((q / t - 2 * be * (t - ga))) * wC_t N p q al be ga ep t d - ((q / ((t) ^ 2) + 2 * be)) * wC N p q al be ga ep t d.
Definition wC_rt (N p q al be ga ep : R) (t d : R) : R := ((p / d - 2 * al * (d - ep))) * ((q / t - 2 * be * (t - ga))) * wC N p q al be ga ep t d.
Definition wC_rrr (N p q al be ga ep : R) (t d : R) : R := ((p / d - 2 * al * (d - ep))) * wC_rr N p q al be ga ep t d - 2 * ((p / ((d) ^ 2) + 2 * al)) * wC_r N p q al be ga ep t d + 2 * p / ((d) ^ 3) * wC N p q al be ga ep t d.
Definition wC_ttt (N p q al be ga ep : R) (t d : R) : R := ((q / t - 2 * be * (t - ga))) * wC_tt N p q al be ga ep t d - 2 * ((q / ((t) ^ 2) + 2 * be)) * wC_t N p q al be ga ep t d + 2 * q / ((t) ^ 3) * wC N p q al be ga ep t d.
Definition wC_rtt (N p q al be ga ep : R) (t d : R) : R := ((q / t - 2 * be * (t - ga))) * wC_rt N p q al be ga ep t d - ((q / ((t) ^ 2) + 2 * be)) * wC_r N p q al be ga ep t d.
Definition wC_rrt (N p q al be ga ep : R) (t d : R) : R := ((p / d - 2 * al * (d - ep))) * wC_rt N p q al be ga ep t d - ((p / ((d) ^ 2) + 2 * al)) * wC_t N p q al be ga ep t d.

Lemma jets_wC N p q al be ga ep t d : 0 < t -> 0 < d ->
  Differentials (wC N p q al be ga ep) (wC_t N p q al be ga ep) (wC_r N p q al be ga ep) (wC_tt N p q al be ga ep) (wC_rt N p q al be ga ep) (wC_rr N p q al be ga ep) (wC_ttt N p q al be ga ep) (wC_rtt N p q al be ga ep) (wC_rrt N p q al be ga ep) (wC_rrr N p q al be ga ep) t d.
Proof.
  intros Ht Hd. assert (Ht' : t <> 0) by lra. assert (Hd' : d <> 0) by lra. assert (t * d <> 0) by nz. assert (d ^ 2 <> 0) by (apply pow_nonzero; lra). assert (d ^ 3 <> 0) by (apply pow_nonzero; lra). assert (t ^ 2 <> 0) by (apply pow_nonzero; lra). assert (t ^ 3 <> 0) by (apply pow_nonzero; lra).
  assert (K1 : JD (wC N p q al be ga ep) t d (wC_t N p q al be ga ep t d) (wC_r N p q al be ga ep t d)).
  { unfold wC; jj; [try assumption..|unfold wC_ttt, wC_rtt, wC_rrt, wC_rrr, wC_tt, wC_rt, wC_rr, wC_t, wC_r, wC; simpl; field; auto|unfold wC_ttt, wC_rtt, wC_rrt, wC_rrr, wC_tt, wC_rt, wC_rr, wC_t, wC_r, wC; simpl; field; auto]. }
  assert (K2 : JD (wC_t N p q al be ga ep) t d (wC_tt N p q al be ga ep t d) (wC_rt N p q al be ga ep t d)).
  { unfold wC_t; jj; [try assumption..|unfold wC_ttt, wC_rtt, wC_rrt, wC_rrr, wC_tt, wC_rt, wC_rr, wC_t, wC_r; simpl; field; auto|unfold wC_ttt, wC_rtt, wC_rrt, wC_rrr, wC_tt, wC_rt, wC_rr, wC_t, wC_r; simpl; field; auto]. }
  assert (K3 : JD (wC_r N p q al be ga ep) t d (wC_rt N p q al be ga ep t d) (wC_rr N p q al be ga ep t d)).
  { unfold wC_r; jj; [try assumption..|unfold wC_ttt, wC_rtt, wC_rrt, wC_rrr, wC_tt, wC_rt, wC_rr, wC_t, wC_r; simpl; field; auto|unfold wC_ttt, wC_rtt, wC_rrt, wC_rrr, wC_tt, wC_rt, wC_rr, wC_t, wC_r; simpl; field; auto]. }
  assert (K4 : JD (wC_tt N p q al be ga ep) t d (wC_ttt N p q al be ga ep t d) (wC_rtt N p q al be ga ep t d)).
  { unfold wC_tt; jj; [try assumption..|unfold wC_ttt, wC_rtt, wC_rrt, wC_rrr, wC_tt, wC_rt, wC_rr, wC_t, wC_r; simpl; field; auto|unfold wC_ttt, wC_rtt, wC_rrt, wC_rrr, wC_tt, wC_rt, wC_rr, wC_t, wC_r; simpl; field; auto]. }
  assert (K5 : JD (wC_rt N p q al be ga ep) t d (wC_rtt N p q al be ga ep t d) (wC_rrt N p q al be ga ep t d)).
  { unfold wC_rt; jj; [try assumption..|unfold wC_ttt, wC_rtt, wC_rrt, wC_rrr, wC_tt, wC_rt, wC_rr, wC_t, wC_r; simpl; field; auto|unfold wC_ttt, wC_rtt, wC_rrt, wC_rrr, wC_tt, wC_rt, wC_rr, wC_t, wC_r; simpl; field; auto]. }
  assert (K6 : JD (wC_rr N p q al be ga ep) t d (wC_rrt N p q al be ga ep t d) (wC_rrr N p q al be ga ep t d)).
  { unfold wC_rr; jj; [try assumption..|unfold wC_ttt, wC_rtt, wC_rrt, wC_rrr, wC_tt, wC_rt, wC_rr, wC_t, wC_r; simpl; field; auto|unfold wC_ttt, wC_rtt, wC_rrt, wC_rrr, wC_tt, wC_rt, wC_rr, wC_t, wC_r; simpl; field; auto]. }
  split; assumption.
Qed.

Lemma Derivs_phirA i t d : 0 < t -> 0 < d -> Derivs (fun t d => phirA t d i) t d.
Proof. intros Ht Hd. exact (jets_wA (at_ wp_n i) (at_ wp_d i) (at_ wp_t i) t d Ht Hd). Qed.
Lemma Derivs_phirB i t d : 0 < t -> 0 < d -> Derivs (fun t d => phirB t d i) t d.
Proof. intros Ht Hd. exact (jets_wB (at_ wp_n i) (at_ wp_c i) (at_ wp_d i) (at_ wp_t i) t d Ht Hd). Qed.
Lemma Derivs_phirC i t d : 0 < t -> 0 < d -> Derivs (fun t d => phirC t d i) t d.
Proof.
  intros Ht Hd. exact (jets_wC (at_ wp_n i) (at_ wp_d i) (at_ wp_t i) (at_ wp_alpha (i - 52)) (at_ wp_beta (i - 52))
    (at_ wp_gamma (i - 52)) (at_ wp_epsilon (i - 52)) t d Ht Hd).
Qed.

(* ---- The nonanalytic terms ---- *)
Section Nonanalytic.
Variables A B C F E a b n : R.
Definition vtheta (t d : R) : R := (1 - t) + A * (Rpower (((d - 1) ^ 2)) (0.5 / E)).
Definition vtheta_r (t d : R) : R := (vtheta t d + t - 1) / (d - 1) / E.
Definition vtheta_rr (t d : R) : R := (1 / E - 1) * vtheta_r t d / (d - 1).
Definition vtheta_rrr (t d : R) : R := (1 / E - 1) * (vtheta_rr t d / (d - 1) - vtheta_r t d / ((d - 1) ^ 2)).
Definition vpsi (t d : R) : R := exp (-C * ((d - 1) ^ 2) - F * ((t - 1) ^ 2)).
Definition vpsi_r (t d : R) : R := -2 * C * (d - 1) * vpsi t d.
Definition vpsi_t (t d : R) : R := -2 * F * (t - 1) * vpsi t d.
Definition vpsi_rr (t d : R) : R := -2 * C * (vpsi t d + (d - 1) * vpsi_r t d).
Definition vpsi_tt (t d : R) : R := -2 * F * (vpsi t d + (t - 1) * vpsi_t t d).
Definition vpsi_rt (t d : R) : R := 4 * C * F * (d - 1) * (t - 1) * vpsi t d.
Definition vpsi_rrr (t d : R) : R := -2 * C * (2 * vpsi_r t d + (d - 1) * vpsi_rr t d).
Definition vpsi_ttt (t d : R) : R := -2 * F * (2 * vpsi_t t d + (t - 1) * vpsi_tt t d).
Definition vpsi_rtt (t d : R) : R := -2 * F * (vpsi_r t d + (t - 1) * vpsi_rt t d).
Definition vpsi_rrt (t d : R) : R := -2 * C * (vpsi_t t d + (d - 1) * vpsi_rt t d).
Definition vDelta (t d : R) : R := vtheta t d * vtheta t d + B * (Rpower (((d - 1) ^ 2)) (a)).
Definition vDelta_r (t d : R) : R := 2 * (vtheta t d * vtheta_r t d + a * (vDelta t d - vtheta t d * vtheta t d) / (d - 1)).
Definition vDelta_t (t d : R) : R := -2 * vtheta t d.
Definition vDelta_rr (t d : R) : R := 2 * (vtheta_r t d * vtheta_r t d + vtheta t d * vtheta_rr t d + a * ((vDelta_r t d - 2 * vtheta t d * vtheta_r t d) / (d - 1) - (vDelta t d - vtheta t d * vtheta t d) / ((d - 1) ^ 2))).
Definition vDelta_tt (t d : R) : R := 2.
Definition vDelta_rt (t d : R) : R := -2 * vtheta_r t d.
Definition vDelta_rrr (t d : R) : R := 2 * (3 * vtheta_r t d * vtheta_rr t d + vtheta t d * vtheta_rrr t d + a * ((vDelta_rr t d - 2 * vtheta_r t d * vtheta_r t d - 2 * vtheta t d * vtheta_rr t d) / (d - 1) - 2 * (vDelta_r t d - 2 * vtheta t d * vtheta_r t d) / ((d - 1) ^ 2) + 2 * (vDelta t d - vtheta t d * vtheta t d) / ((d - 1) ^ 3))).
Definition vDelta_ttt (t d : R) : R := 0.
Definition vDelta_rtt (t d : R) : R := 0.
Definition vDelta_rrt (t d : R) : R := -2 * vtheta_rr t d.
Definition vDeltaPow (t d : R) : R := (Rpower (vDelta t d) (b)).
Definition vDeltaPow_r (t d : R) : R := b * vDelta_r t d / vDelta t d * vDeltaPow t d.
Definition vDeltaPow_t (t d : R) : R := b * vDelta_t t d / vDelta t d * vDeltaPow t d.
Definition vDeltaPow_rr (t d : R) : R := (b * vDelta_rr t d / vDelta t d + b * (b - 1) * ((vDelta_r t d / vDelta t d) ^ 2)) * vDeltaPow t d.
Definition vDeltaPow_tt (t d : R) : R := (b * vDelta_tt t d / vDelta t d + b * (b - 1) * ((vDelta_t t d / vDelta t d) ^ 2)) * vDeltaPow t d.
Definition vDeltaPow_rt (t d : R) : R := (b * vDelta_rt t d / vDelta t d + b * (b - 1) * vDelta_r t d * vDelta_t t d / vDelta t d / vDelta t d) * vDeltaPow t d.
Definition vDeltaPow_rrr (t d : R) : R := (b * vDelta_rrr t d / vDelta t d + 3 * b * (b - 1) * vDelta_r t d * vDelta_rr t d / vDelta t d / vDelta t d + b * (b - 1) * (b - 2) * ((vDelta_r t d / vDelta t d) ^ 3)) * vDeltaPow t d.
Definition vDeltaPow_ttt (t d : R) : R := (b * vDelta_ttt t d / vDelta t d + 3 * b * (b - 1) * vDelta_t t d * vDelta_tt t d / vDelta t d / vDelta t d + b * (b - 1) * (b - 2) * ((vDelta_t t d / vDelta t d) ^ 3)) * vDeltaPow t d.
Definition vDeltaPow_rtt (t d : R) : R := (b * vDelta_rtt t d / vDelta t d + b * (b - 1) * (vDelta_r t d * vDelta_tt t d + 2 * vDelta_t t d * vDelta_rt t d) / vDelta t d / vDelta t d + b * (b - 1) * (b - 2) * vDelta_t t d * vDelta_t t d * vDelta_r t d / ((vDelta t d) ^ 3)) * vDeltaPow t d.
Definition vDeltaPow_rrt (t d : R) : R := (b * vDelta_rrt t d / vDelta t d + b * (b - 1) * (vDelta_t t d * vDelta_rr t d + 2 * vDelta_r t d * vDelta_rt t d) / vDelta t d / vDelta t d + b * (b - 1) * (b - 2) * vDelta_r t d * vDelta_r t d * vDelta_t t d / ((vDelta t d) ^ 3)) * vDeltaPow t d.
Definition vD (t d : R) : R := n * vDeltaPow t d * d * vpsi t d.
Definition vD_r (t d : R) : R := n * (vDeltaPow t d * (vpsi t d + d * vpsi_r t d) + vDeltaPow_r t d * d * vpsi t d).
Definition vD_t (t d : R) : R := n * d * (vDeltaPow_t t d * vpsi t d + vDeltaPow t d * vpsi_t t d).
Definition vD_rr (t d : R) : R := n * (vDeltaPow t d * (2 * vpsi_r t d + d * vpsi_rr t d) + 2 * vDeltaPow_r t d * (vpsi t d + d * vpsi_r t d) + vDeltaPow_rr t d * d * vpsi t d).
Definition vD_tt (t d : R) : R := n * d * (vDeltaPow_tt t d * vpsi t d + 2 * vDeltaPow_t t d * vpsi_t t d + vDeltaPow t d * vpsi_tt t d).
Definition vD_rt (t d : R) : R := n * (vDeltaPow t d * (vpsi_t t d + d * vpsi_rt t d) + d * vDeltaPow_r t d * vpsi_t t d + vDeltaPow_t t d * (vpsi t d + d * vpsi_r t d) + vDeltaPow_rt t d * d * vpsi t d).
Definition vD_rrr (t d : R) : R := n * (vDeltaPow_rrr t d * d * vpsi t d + 3 * vDeltaPow_rr t d * (vpsi t d + d * vpsi_r t d) + 3 * vDeltaPow_r t d * (2 * vpsi_r t d + d * vpsi_rr t d) + vDeltaPow t d * (3 * vpsi_rr t d + d * vpsi_rrr t d)).
Definition vD_ttt (t d : R) : R := n * d * (vDeltaPow_ttt t d * vpsi t d + 3 * vDeltaPow_tt t d * vpsi_t t d + 3 * vDeltaPow_t t d * vpsi_tt t d + vDeltaPow t d * vpsi_ttt t d).
Definition vD_rtt (t d : R) : R := n * (vDeltaPow_tt t d * vpsi t d + 2 * vDeltaPow_t t d * vpsi_t t d + vDeltaPow t d * vpsi_tt t d) + n * d * (vDeltaPow_rtt t d * vpsi t d + vDeltaPow_tt t d * vpsi_r t d + 2 * vDeltaPow_rt t d * vpsi_t t d + 2 * vDeltaPow_t t d * vpsi_rt t d + vDeltaPow_r t d * vpsi_tt t d + vDeltaPow t d * vpsi_rtt t d).
Definition vD_rrt (t d : R) : R := n * (vDeltaPow_rrt t d * d * vpsi t d + 2 * vDeltaPow_rt t d * (vpsi t d + d * vpsi_r t d) + vDeltaPow_rr t d * d * vpsi_t t d + vDeltaPow_t t d * (2 * vpsi_r t d + d * vpsi_rr t d) + 2 * vDeltaPow_r t d * (vpsi_t t d + d * vpsi_rt t d) + vDeltaPow t d * (2 * vpsi_rt t d + d * vpsi_rrt t d)).
Definition vtheta_t (t d : R) : R := - 1.
Definition vtheta_zero (t d : R) : R := 0.
Hypotheses (HE : E <> 0) (HB : 0 < B).

Lemma jets_vtheta  t d : d <> 1 ->
  Differentials vtheta vtheta_t vtheta_r vtheta_zero vtheta_zero vtheta_rr vtheta_zero vtheta_zero vtheta_zero vtheta_rrr t d.
Proof.
  intros Hd. assert (Hd1 : d - 1 <> 0) by lra. assert (Hdd : 0 < (d - 1) ^ 2) by (apply pow2_gt_0; exact Hd1). assert (Hd2 : (d - 1) ^ 2 <> 0) by lra. assert (Hd3 : (d - 1) ^ 3 <> 0) by (apply pow_nonzero; lra).
  assert (K1 : JD vtheta t d (vtheta_t t d) (vtheta_r t d)).
  { unfold vtheta; jj; [try assumption..|unfold vtheta_rrr, vtheta_rr, vtheta_r, vtheta_t, vtheta_zero, vtheta; replace 0.5 with (1 / 2) by lra; simpl; field; auto|unfold vtheta_rrr, vtheta_rr, vtheta_r, vtheta_t, vtheta_zero, vtheta; replace 0.5 with (1 / 2) by lra; simpl; field; auto]. }
  assert (K2 : JD vtheta_t t d (vtheta_zero t d) (vtheta_zero t d)).
  { unfold vtheta_t; jj; [try assumption..|unfold vtheta_rrr, vtheta_rr, vtheta_r, vtheta_t, vtheta_zero; replace 0.5 with (1 / 2) by lra; simpl; field; auto|unfold vtheta_rrr, vtheta_rr, vtheta_r, vtheta_t, vtheta_zero; replace 0.5 with (1 / 2) by lra; simpl; field; auto]. }
  assert (K3 : JD vtheta_r t d (vtheta_zero t d) (vtheta_rr t d)).
  { unfold vtheta_r; jj; [try assumption..|unfold vtheta_rrr, vtheta_rr, vtheta_r, vtheta_t, vtheta_zero; replace 0.5 with (1 / 2) by lra; simpl; field; auto|unfold vtheta_rrr, vtheta_rr, vtheta_r, vtheta_t, vtheta_zero; replace 0.5 with (1 / 2) by lra; simpl; field; auto]. }
  assert (K4 : JD vtheta_zero t d (vtheta_zero t d) (vtheta_zero t d)).
  { unfold vtheta_zero; jj; [try assumption..|unfold vtheta_rrr, vtheta_rr, vtheta_r, vtheta_t, vtheta_zero; replace 0.5 with (1 / 2) by lra; simpl; field; auto|unfold vtheta_rrr, vtheta_rr, vtheta_r, vtheta_t, vtheta_zero; replace 0.5 with (1 / 2) by lra; simpl; field; auto]. }
  assert (K5 : JD vtheta_zero t d (vtheta_zero t d) (vtheta_zero t d)).
  { unfold vtheta_zero; jj; [try assumption..|unfold vtheta_rrr, vtheta_rr, vtheta_r, vtheta_t, vtheta_zero; replace 0.5 with (1 / 2) by lra; simpl; field; auto|unfold vtheta_rrr, vtheta_rr, vtheta_r, vtheta_t, vtheta_zero; replace 0.5 with (1 / 2) by lra; simpl; field; auto]. }
  assert (K6 : JD vtheta_rr t d (vtheta_zero t d) (vtheta_rrr t d)).
  { unfold vtheta_rr; jj; [try assumption..|unfold vtheta_rrr, vtheta_rr, vtheta_r, vtheta_t, vtheta_zero; replace 0.5 with (1 / 2) by lra; simpl; field; auto|unfold vtheta_rrr, vtheta_rr, vtheta_r, vtheta_t, vtheta_zero; replace 0.5 with (1 / 2) by lra; simpl; field; auto]. }
  split; assumption.
Qed.

Lemma jets_vpsi  t d : True ->
  Differentials vpsi vpsi_t vpsi_r vpsi_tt vpsi_rt vpsi_rr vpsi_ttt vpsi_rtt vpsi_rrt vpsi_rrr t d.
Proof.
  intros _.
  assert (K1 : JD vpsi t d (vpsi_t t d) (vpsi_r t d)).
  { unfold vpsi; jj; [try assumption..|unfold vpsi_ttt, vpsi_rtt, vpsi_rrt, vpsi_rrr, vpsi_tt, vpsi_rt, vpsi_rr, vpsi_t, vpsi_r, vpsi; simpl; ring|unfold vpsi_ttt, vpsi_rtt, vpsi_rrt, vpsi_rrr, vpsi_tt, vpsi_rt, vpsi_rr, vpsi_t, vpsi_r, vpsi; simpl; ring]. }
  assert (K2 : JD vpsi_t t d (vpsi_tt t d) (vpsi_rt t d)).
  { unfold vpsi_t; jj; [try assumption..|unfold vpsi_ttt, vpsi_rtt, vpsi_rrt, vpsi_rrr, vpsi_tt, vpsi_rt, vpsi_rr, vpsi_t, vpsi_r; simpl; ring|unfold vpsi_ttt, vpsi_rtt, vpsi_rrt, vpsi_rrr, vpsi_tt, vpsi_rt, vpsi_rr, vpsi_t, vpsi_r; simpl; ring]. }
  assert (K3 : JD vpsi_r t d (vpsi_rt t d) (vpsi_rr t d)).
  { unfold vpsi_r; jj; [try assumption..|unfold vpsi_ttt, vpsi_rtt, vpsi_rrt, vpsi_rrr, vpsi_tt, vpsi_rt, vpsi_rr, vpsi_t, vpsi_r; simpl; ring|unfold vpsi_ttt, vpsi_rtt, vpsi_rrt, vpsi_rrr, vpsi_tt, vpsi_rt, vpsi_rr, vpsi_t, vpsi_r; simpl; ring]. }
  assert (K4 : JD vpsi_tt t d (vpsi_ttt t d) (vpsi_rtt t d)).
  { unfold vpsi_tt; jj; [try assumption..|unfold vpsi_ttt, vpsi_rtt, vpsi_rrt, vpsi_rrr, vpsi_tt, vpsi_rt, vpsi_rr, vpsi_t, vpsi_r; simpl; ring|unfold vpsi_ttt, vpsi_rtt, vpsi_rrt, vpsi_rrr, vpsi_tt, vpsi_rt, vpsi_rr, vpsi_t, vpsi_r; simpl; ring]. }
  assert (K5 : JD vpsi_rt t d (vpsi_rtt t d) (vpsi_rrt t d)).
  { unfold vpsi_rt; jj; [try assumption..|unfold vpsi_ttt, vpsi_rtt, vpsi_rrt, vpsi_rrr, vpsi_tt, vpsi_rt, vpsi_rr, vpsi_t, vpsi_r; simpl; ring|unfold vpsi_ttt, vpsi_rtt, vpsi_rrt, vpsi_rrr, vpsi_tt, vpsi_rt, vpsi_rr, vpsi_t, vpsi_r; simpl; ring]. }
  assert (K6 : JD vpsi_rr t d (vpsi_rrt t d) (vpsi_rrr t d)).
  { unfold vpsi_rr; jj; [try assumption..|unfold vpsi_ttt, vpsi_rtt, vpsi_rrt, vpsi_rrr, vpsi_tt, vpsi_rt, vpsi_rr, vpsi_t, vpsi_r; simpl; ring|unfold vpsi_ttt, vpsi_rtt, vpsi_rrt, vpsi_rrr, vpsi_tt, vpsi_rt, vpsi_rr, vpsi_t, vpsi_r; simpl; ring]. }
  split; assumption.
Qed.

Lemma vpow_pos t d : d <> 1 -> 0 < vDelta t d.
Proof.
  intros Hd. unfold vDelta. apply Rplus_le_lt_0_compat; [apply Rle_0_sqr|].
  apply Rmult_lt_0_compat; [exact HB|apply exp_pos].
Qed.

Lemma jets_vDelta  t d : d <> 1 ->
  Differentials vDelta vDelta_t vDelta_r vDelta_tt vDelta_rt vDelta_rr vDelta_ttt vDelta_rtt vDelta_rrt vDelta_rrr t d.
Proof.
  intros Hd. assert (Hd1 : d - 1 <> 0) by lra. assert (Hdd : 0 < (d - 1) ^ 2) by (apply pow2_gt_0; exact Hd1). assert (Hd2 : (d - 1) ^ 2 <> 0) by lra. assert (Hd3 : (d - 1) ^ 3 <> 0) by (apply pow_nonzero; lra).
  pose proof (jets_vtheta t d Hd) as [?J1 ?J2 ?J3 ?J4 ?J5 ?J6].
  assert (K1 : JD vDelta t d (vDelta_t t d) (vDelta_r t d)).
  { unfold vDelta; jj; [try assumption..|unfold vDelta_ttt, vDelta_rtt, vDelta_rrt, vDelta_rrr, vDelta_tt, vDelta_rt, vDelta_rr, vDelta_t, vDelta_r, vDelta; unfold vtheta_t, vtheta_zero; simpl; field; auto|unfold vDelta_ttt, vDelta_rtt, vDelta_rrt, vDelta_rrr, vDelta_tt, vDelta_rt, vDelta_rr, vDelta_t, vDelta_r, vDelta; unfold vtheta_t, vtheta_zero; simpl; field; auto]. }
  assert (K2 : JD vDelta_t t d (vDelta_tt t d) (vDelta_rt t d)).
  { unfold vDelta_t; jj; [try assumption..|unfold vDelta_ttt, vDelta_rtt, vDelta_rrt, vDelta_rrr, vDelta_tt, vDelta_rt, vDelta_rr, vDelta_t, vDelta_r; unfold vtheta_t, vtheta_zero; simpl; field; auto|unfold vDelta_ttt, vDelta_rtt, vDelta_rrt, vDelta_rrr, vDelta_tt, vDelta_rt, vDelta_rr, vDelta_t, vDelta_r; unfold vtheta_t, vtheta_zero; simpl; field; auto]. }
  assert (K3 : JD vDelta_r t d (vDelta_rt t d) (vDelta_rr t d)).
  { unfold vDelta_r; jj; [try assumption..|unfold vDelta_ttt, vDelta_rtt, vDelta_rrt, vDelta_rrr, vDelta_tt, vDelta_rt, vDelta_rr, vDelta_t, vDelta_r; unfold vtheta_t, vtheta_zero; simpl; field; auto|unfold vDelta_ttt, vDelta_rtt, vDelta_rrt, vDelta_rrr, vDelta_tt, vDelta_rt, vDelta_rr, vDelta_t, vDelta_r; unfold vtheta_t, vtheta_zero; simpl; field; auto]. }
  assert (K4 : JD vDelta_tt t d (vDelta_ttt t d) (vDelta_rtt t d)).
  { unfold vDelta_tt; jj; [try assumption..|unfold vDelta_ttt, vDelta_rtt, vDelta_rrt, vDelta_rrr, vDelta_tt, vDelta_rt, vDelta_rr, vDelta_t, vDelta_r; unfold vtheta_t, vtheta_zero; simpl; field; auto|unfold vDelta_ttt, vDelta_rtt, vDelta_rrt, vDelta_rrr, vDelta_tt, vDelta_rt, vDelta_rr, vDelta_t, vDelta_r; unfold vtheta_t, vtheta_zero; simpl; field; auto]. }
  assert (K5 : JD vDelta_rt t d (vDelta_rtt t d) (vDelta_rrt t d)).
  { unfold vDelta_rt; jj; [try assumption..|unfold vDelta_ttt, vDelta_rtt, vDelta_rrt, vDelta_rrr, vDelta_tt, vDelta_rt, vDelta_rr, vDelta_t, vDelta_r; unfold vtheta_t, vtheta_zero; simpl; field; auto|unfold vDelta_ttt, vDelta_rtt, vDelta_rrt, vDelta_rrr, vDelta_tt, vDelta_rt, vDelta_rr, vDelta_t, vDelta_r; unfold vtheta_t, vtheta_zero; simpl; field; auto]. }
  assert (K6 : JD vDelta_rr t d (vDelta_rrt t d) (vDelta_rrr t d)).
  { unfold vDelta_rr; jj; [try assumption..|unfold vDelta_ttt, vDelta_rtt, vDelta_rrt, vDelta_rrr, vDelta_tt, vDelta_rt, vDelta_rr, vDelta_t, vDelta_r; unfold vtheta_t, vtheta_zero; simpl; field; auto|unfold vDelta_ttt, vDelta_rtt, vDelta_rrt, vDelta_rrr, vDelta_tt, vDelta_rt, vDelta_rr, vDelta_t, vDelta_r; unfold vtheta_t, vtheta_zero; simpl; field; auto]. }
  split; assumption.
Qed.

Lemma jets_vDeltaPow  t d : d <> 1 ->
  Differentials vDeltaPow vDeltaPow_t vDeltaPow_r vDeltaPow_tt vDeltaPow_rt vDeltaPow_rr vDeltaPow_ttt vDeltaPow_rtt vDeltaPow_rrt vDeltaPow_rrr t d.
Proof.
  intros Hd. pose proof (vpow_pos t d Hd) as HD. assert (HD' : vDelta t d <> 0) by lra. pose proof (jets_vDelta t d Hd) as [?J1 ?J2 ?J3 ?J4 ?J5 ?J6].
  assert (vDelta t d ^ 3 <> 0) by (apply pow_nonzero; lra).
  assert (K1 : JD vDeltaPow t d (vDeltaPow_t t d) (vDeltaPow_r t d)).
  { unfold vDeltaPow; jj; [try assumption..|unfold vDeltaPow_ttt, vDeltaPow_rtt, vDeltaPow_rrt, vDeltaPow_rrr, vDeltaPow_tt, vDeltaPow_rt, vDeltaPow_rr, vDeltaPow_t, vDeltaPow_r, vDeltaPow; simpl; field; auto|unfold vDeltaPow_ttt, vDeltaPow_rtt, vDeltaPow_rrt, vDeltaPow_rrr, vDeltaPow_tt, vDeltaPow_rt, vDeltaPow_rr, vDeltaPow_t, vDeltaPow_r, vDeltaPow; simpl; field; auto]. }
  assert (K2 : JD vDeltaPow_t t d (vDeltaPow_tt t d) (vDeltaPow_rt t d)).
  { unfold vDeltaPow_t; jj; [try assumption..|unfold vDeltaPow_ttt, vDeltaPow_rtt, vDeltaPow_rrt, vDeltaPow_rrr, vDeltaPow_tt, vDeltaPow_rt, vDeltaPow_rr, vDeltaPow_t, vDeltaPow_r; simpl; field; auto|unfold vDeltaPow_ttt, vDeltaPow_rtt, vDeltaPow_rrt, vDeltaPow_rrr, vDeltaPow_tt, vDeltaPow_rt, vDeltaPow_rr, vDeltaPow_t, vDeltaPow_r; simpl; field; auto]. }
  assert (K3 : JD vDeltaPow_r t d (vDeltaPow_rt t d) (vDeltaPow_rr t d)).
  { unfold vDeltaPow_r; jj; [try assumption..|unfold vDeltaPow_ttt, vDeltaPow_rtt, vDeltaPow_rrt, vDeltaPow_rrr, vDeltaPow_tt, vDeltaPow_rt, vDeltaPow_rr, vDeltaPow_t, vDeltaPow_r; simpl; field; auto|unfold vDeltaPow_ttt, vDeltaPow_rtt, vDeltaPow_rrt, vDeltaPow_rrr, vDeltaPow_tt, vDeltaPow_rt, vDeltaPow_rr, vDeltaPow_t, vDeltaPow_r; simpl; field; auto]. }
  assert (K4 : JD vDeltaPow_tt t d (vDeltaPow_ttt t d) (vDeltaPow_rtt t d)).
  { unfold vDeltaPow_tt; jj; [try assumption..|unfold vDeltaPow_ttt, vDeltaPow_rtt, vDeltaPow_rrt, vDeltaPow_rrr, vDeltaPow_tt, vDeltaPow_rt, vDeltaPow_rr, vDeltaPow_t, vDeltaPow_r; simpl; field; auto|unfold vDeltaPow_ttt, vDeltaPow_rtt, vDeltaPow_rrt, vDeltaPow_rrr, vDeltaPow_tt, vDeltaPow_rt, vDeltaPow_rr, vDeltaPow_t, vDeltaPow_r; simpl; field; auto]. }
  assert (K5 : JD vDeltaPow_rt t d (vDeltaPow_rtt t d) (vDeltaPow_rrt t d)).
  { unfold vDeltaPow_rt; jj; [try assumption..|unfold vDeltaPow_ttt, vDeltaPow_rtt, vDeltaPow_rrt, vDeltaPow_rrr, vDeltaPow_tt, vDeltaPow_rt, vDeltaPow_rr, vDeltaPow_t, vDeltaPow_r; simpl; field; auto|unfold vDeltaPow_ttt, vDeltaPow_rtt, vDeltaPow_rrt, vDeltaPow_rrr, vDeltaPow_tt, vDeltaPow_rt, vDeltaPow_rr, vDeltaPow_t, vDeltaPow_r; simpl; field; auto]. }
  assert (K6 : JD vDeltaPow_rr t d (vDeltaPow_rrt t d) (vDeltaPow_rrr t d)).
  { unfold vDeltaPow_rr; jj; [try assumption..|unfold vDeltaPow_ttt, vDeltaPow_rtt, vDeltaPow_rrt, vDeltaPow_rrr, vDeltaPow_tt, vDeltaPow_rt, vDeltaPow_rr, vDeltaPow_t, vDeltaPow_r; simpl; field; auto|unfold vDeltaPow_ttt, vDeltaPow_rtt, vDeltaPow_rrt, vDeltaPow_rrr, vDeltaPow_tt, vDeltaPow_rt, vDeltaPow_rr, vDeltaPow_t, vDeltaPow_r; simpl; field; auto]. }
  split; assumption.
Qed.

Lemma jets_vD  t d : d <> 1 ->
  Differentials vD vD_t vD_r vD_tt vD_rt vD_rr vD_ttt vD_rtt vD_rrt vD_rrr t d.
Proof.
  intros Hd. pose proof (jets_vDeltaPow t d Hd) as [?J1 ?J2 ?J3 ?J4 ?J5 ?J6]. pose proof (jets_vpsi t d I) as [?J1 ?J2 ?J3 ?J4 ?J5 ?J6].
  assert (K1 : JD vD t d (vD_t t d) (vD_r t d)).
  { unfold vD; jj; [try assumption..|unfold vD_ttt, vD_rtt, vD_rrt, vD_rrr, vD_tt, vD_rt, vD_rr, vD_t, vD_r, vD; ring|unfold vD_ttt, vD_rtt, vD_rrt, vD_rrr, vD_tt, vD_rt, vD_rr, vD_t, vD_r, vD; ring]. }
  assert (K2 : JD vD_t t d (vD_tt t d) (vD_rt t d)).
  { unfold vD_t; jj; [try assumption..|unfold vD_ttt, vD_rtt, vD_rrt, vD_rrr, vD_tt, vD_rt, vD_rr, vD_t, vD_r; ring|unfold vD_ttt, vD_rtt, vD_rrt, vD_rrr, vD_tt, vD_rt, vD_rr, vD_t, vD_r; ring]. }
  assert (K3 : JD vD_r t d (vD_rt t d) (vD_rr t d)).
  { unfold vD_r; jj; [try assumption..|unfold vD_ttt, vD_rtt, vD_rrt, vD_rrr, vD_tt, vD_rt, vD_rr, vD_t, vD_r; ring|unfold vD_ttt, vD_rtt, vD_rrt, vD_rrr, vD_tt, vD_rt, vD_rr, vD_t, vD_r; ring]. }
  assert (K4 : JD vD_tt t d (vD_ttt t d) (vD_rtt t d)).
  { unfold vD_tt; jj; [try assumption..|unfold vD_ttt, vD_rtt, vD_rrt, vD_rrr, vD_tt, vD_rt, vD_rr, vD_t, vD_r; ring|unfold vD_ttt, vD_rtt, vD_rrt, vD_rrr, vD_tt, vD_rt, vD_rr, vD_t, vD_r; ring]. }
  assert (K5 : JD vD_rt t d (vD_rtt t d) (vD_rrt t d)).
  { unfold vD_rt; jj; [try assumption..|unfold vD_ttt, vD_rtt, vD_rrt, vD_rrr, vD_tt, vD_rt, vD_rr, vD_t, vD_r; ring|unfold vD_ttt, vD_rtt, vD_rrt, vD_rrr, vD_tt, vD_rt, vD_rr, vD_t, vD_r; ring]. }
  assert (K6 : JD vD_rr t d (vD_rrt t d) (vD_rrr t d)).
  { unfold vD_rr; jj; [try assumption..|unfold vD_ttt, vD_rtt, vD_rrt, vD_rrr, vD_tt, vD_rt, vD_rr, vD_t, vD_r; ring|unfold vD_ttt, vD_rtt, vD_rrt, vD_rrr, vD_tt, vD_rt, vD_rr, vD_t, vD_r; ring]. }
  split; assumption.
Qed.
End Nonanalytic.
Lemma Derivs_phirD i t d : (55 <= i < 57)%nat -> d <> 1 -> Derivs (fun t d => phirD t d i) t d.
Proof.
  intros Hi Hd. assert (HE : at_ wp_E (i - 55) <> 0 /\ 0 < at_ wp_B (i - 55)).
  { assert (i = 55 \/ i = 56)%nat as [-> | ->] by lia; unfold at_, wp_E, wp_B; cbn [Nat.sub nth]; lra. }
  exact (jets_vD (at_ wp_A (i - 55)) (at_ wp_B (i - 55)) (at_ wp_C (i - 55)) (at_ wp_F (i - 55)) (at_ wp_E (i - 55))
    (at_ wp_a (i - 55)) (at_ wp_b (i - 55)) (at_ wp_n i) (proj1 HE) (proj2 HE) t d Hd).
Qed.
Lemma Derivs_phir t d : 0 < t -> 0 < d -> d <> 1 -> Derivs phir t d.
Proof.
  intros Ht Hd Hd1. unfold phir.
  apply (Derivs_accumulate phirD 55 2); [intros i Hi; apply Derivs_phirD; [lia|exact Hd1]|].
  apply (Derivs_accumulate phirC 52 3); [intros i _; apply Derivs_phirC; assumption|].
  apply (Derivs_accumulate phirB 8 44); [intros i _; apply Derivs_phirB; assumption|].
  apply (Derivs_accumulate phirA 1 7); [intros i _; apply Derivs_phirA; assumption|].
  apply Derivs_zero.
Qed.
