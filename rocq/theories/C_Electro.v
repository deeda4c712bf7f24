(* C88: the dielectric constant of water and the Born functions. *)
From Coq Require Import Reals List ZArith Lia Lra.
From Coquelicot Require Import Coquelicot.
Import ListNotations.
From Verif Require Import Base M_Helmholtz M_Water S_Water P_Helmholtz P_Water C_Helmholtz C_Water.
Local Open Scope R_scope.

Definition DE (E : R -> R -> Epsilons) (T P : R) : Prop :=
  Differentials2 (fun T P => eps (E T P)) (fun T P => epsT (E T P)) (fun T P => epsP (E T P))
    (fun T P => epsTT (E T P)) (fun T P => epsTP (E T P)) (fun T P => epsPP (E T P)) T P.
Lemma jn_k_d i t : t <> 0 -> is_derive (jn_k i) t (jn_k_t i t).
Proof.
  intros Ht. assert (t * t <> 0) by nz.
  do 4 (destruct i as [|i]; [unfold jn_k, jn_k_t; auto_derive; [auto|field; auto]|]).
  unfold jn_k, jn_k_t; auto_derive; [auto|field; auto].
Qed.
Lemma jn_k_td i t : t <> 0 -> is_derive (jn_k_t i) t (jn_k_tt i t).
Proof.
  intros Ht. assert (t * t <> 0) by nz. assert (t * t * t <> 0) by nz.
  do 4 (destruct i as [|i]; [unfold jn_k_t, jn_k_tt; auto_derive; [auto|field; auto]|]).
  unfold jn_k_t, jn_k_tt; auto_derive; [auto|field; auto].
Qed.
Ltac fin := field; repeat split; try assumption; lra.
Ltac fin0 := match goal with |- context [?a / ?k - 0 * _] => set (a / k) end; fin.
Lemma jn_step_D W E i T P : T <> 0 -> jn_k i (T / 298.15) <> 0 \/ i = 0%nat ->
  w_density (W T P) <> 0 -> w_densityP (W T P) <> 0 ->
  density_derivatives_hold W T P -> DE E T P -> DE (fun T P => jn_step T (W T P) (E T P) i) T P.
Proof.
  intros HT Hk Hr HrP [R1 R2 R3] [E1 E2 E3].
  assert (Ht : T / 298.15 <> 0) by (apply Rmult_integral_contrapositive_currified; [exact HT|lra]).
  assert (SC : JD (fun x _ : R => x / 298.15) T P (1 / 298.15) 0) by (jj; [lra|field; lra|field; lra]).
  assert (K : JD (fun x _ => jn_k i (x / 298.15)) T P (jn_k_t i (T / 298.15) / 298.15) 0).
  { eapply j_val; [apply (j_comp (jn_k i) (fun x _ => x / 298.15)); [apply jn_k_d, Ht|exact SC]|field; lra|field; lra]. }
  assert (K' : JD (fun x _ => jn_k_t i (x / 298.15)) T P (jn_k_tt i (T / 298.15) / 298.15) 0).
  { eapply j_val; [apply (j_comp (jn_k_t i) (fun x _ => x / 298.15)); [apply jn_k_td, Ht|exact SC]|field; lra|field; lra]. }
  assert (Hr1 : w_density (W T P) / 1000 <> 0) by (apply Rmult_integral_contrapositive_currified; [exact Hr|lra]).
  assert (SR : JD (fun x y => w_density (W x y) / 1000) T P (w_densityT (W T P) / 1000) (w_densityP (W T P) / 1000)) by (jj; [lra|field; lra|field; lra]).
  assert (PW : JD (fun x y => (w_density (W x y) / 1000) ^ i) T P
    (INR i * (w_density (W T P) / 1000) ^ i * w_densityT (W T P) / w_density (W T P))
    (INR i * (w_density (W T P) / 1000) ^ i * w_densityP (W T P) / w_density (W T P))).
  { eapply j_val; [apply (j_pow' (fun x y => w_density (W x y) / 1000)); [exact SR|exact Hr1]| |]; cbv beta; field; auto. }
  set (k := jn_k i) in *. set (kt := jn_k_t i) in *.
  split.
  - unfold jn_step; cbn [eps epsT epsP]. fold k kt. jj; try exact PW; try exact K; cbv beta.
    + fin.
    + fin.
  - unfold jn_step; cbn [epsT epsTT epsTP]. fold k kt. jj; try exact PW; try exact K; try exact K'; try exact Hr; try lra.
    + fin.
    + destruct Hk as [Hk|Hi]; [fin|subst i; cbn [INR]; fin0].
  - unfold jn_step; cbn [epsP epsTP epsPP]. fold k kt. jj; try exact PW; try exact K; try exact K'; try exact Hr; try lra.
    + destruct Hk as [Hk|Hi]; [fin|subst i; cbn [INR]; fin0].
    + fin.
Qed.

(* The coefficients of the powers of density in the dielectric constant, none of
   which may vanish: the code divides by them. *)
Definition coefficients_nonzero (T : R) : Prop :=
  let t := T / 298.15 in
  14.70333593 / t <> 0 /\
  212.8462733 / t - 115.4445173 + 19.55210915 * t <> 0 /\
  - 83.30347980 / t + 32.13240048 * t - 6.694098645 * t ^ 2 <> 0 /\
  - 37.86202045 / t ^ 2 + 68.87359646 / t - 27.29401652 <> 0.
(* The electrostatic state of water whose thermodynamic state is W. *)
Definition electro (W : R -> R -> WaterThermoState) (T P : R) : WaterElectroState := waterElectroStateJohnsonNorton T P (W T P).

Ltac coef Ht := unfold jn_k, at_, jn_a; cbn [nth]; cbv zeta in *; set (t := _ / 298.15) in *;
  unfold Rdiv; cbn [pow]; rewrite ?Rmult_1_r; try rewrite Rinv_mult; set (it := / t); lra.
Theorem C88_dielectric (W : R -> R -> WaterThermoState) (T P : R) :
  T <> 0 -> coefficients_nonzero T -> w_density (W T P) <> 0 -> w_densityP (W T P) <> 0 -> density_derivatives_hold W T P ->
  Differentials2 (fun T P => e_epsilon (electro W T P)) (fun T P => e_epsilonT (electro W T P)) (fun T P => e_epsilonP (electro W T P))
    (fun T P => e_epsilonTT (electro W T P)) (fun T P => e_epsilonTP (electro W T P)) (fun T P => e_epsilonPP (electro W T P)) T P.
Proof.
  intros HT (K1 & K2 & K3 & K4) Hr HrP HW.
  assert (Ht : T / 298.15 <> 0) by (apply Rmult_integral_contrapositive_currified; [exact HT|lra]).
  change (DE (fun T P => fold_left (jn_step T (W T P)) [0; 1; 2; 3; 4]%nat (mkEps 0 0 0 0 0 0)) T P).
  cbn [fold_left].
  apply (jn_step_D W (fun T P => jn_step T (W T P) (jn_step T (W T P) (jn_step T (W T P) (jn_step T (W T P) (mkEps 0 0 0 0 0 0) 0) 1) 2) 3)); try assumption.
  { left. intros Z. apply K4. rewrite <- Z. coef Ht. }
  apply (jn_step_D W (fun T P => jn_step T (W T P) (jn_step T (W T P) (jn_step T (W T P) (mkEps 0 0 0 0 0 0) 0) 1) 2)); try assumption.
  { left. intros Z. apply K3. rewrite <- Z. coef Ht. }
  apply (jn_step_D W (fun T P => jn_step T (W T P) (jn_step T (W T P) (mkEps 0 0 0 0 0 0) 0) 1)); try assumption.
  { left. intros Z. apply K2. rewrite <- Z. coef Ht. }
  apply (jn_step_D W (fun T P => jn_step T (W T P) (mkEps 0 0 0 0 0 0) 0)); try assumption.
  { left. intros Z. apply K1. rewrite <- Z. coef Ht. }
  apply (jn_step_D W (fun T P => mkEps 0 0 0 0 0 0)); try assumption.
  { right; reflexivity. }
  split; cbn [eps epsT epsP epsTT epsTP epsPP]; apply j_const.
Qed.
Print Assumptions C88_dielectric.

Lemma born_D (E : R -> R -> Epsilons) (T P : R) :
  let Z := fun T P => - 1 / eps (E T P) in
  let Y := fun T P => epsT (E T P) / (eps (E T P) * eps (E T P)) in
  let Q := fun T P => epsP (E T P) / (eps (E T P) * eps (E T P)) in
  JD (fun T P => eps (E T P)) T P (epsT (E T P)) (epsP (E T P)) ->
  JD (fun T P => epsT (E T P)) T P (epsTT (E T P)) (epsTP (E T P)) ->
  JD (fun T P => epsP (E T P)) T P (epsTP (E T P)) (epsPP (E T P)) ->
  eps (E T P) <> 0 ->
  Z T P = - / eps (E T P) /\
  JD Z T P (Y T P) (Q T P) /\
  JD Y T P (epsTT (E T P) / (eps (E T P) * eps (E T P)) - 2 * Y T P * Y T P * eps (E T P))
    (epsTP (E T P) / (eps (E T P) * eps (E T P)) - 2 * Y T P * Q T P * eps (E T P)) /\
  JD Q T P (epsTP (E T P) / (eps (E T P) * eps (E T P)) - 2 * Y T P * Q T P * eps (E T P))
    (epsPP (E T P) / (eps (E T P) * eps (E T P)) - 2 * Q T P * Q T P * eps (E T P)).
Proof.
  cbv zeta. intros A B C He. assert (He2 : eps (E T P) * eps (E T P) <> 0) by nz.
  split; [field; exact He|]. split; [|split].
  all: jj; try assumption; field; exact He.
Qed.

Theorem C88_born (W : R -> R -> WaterThermoState) (T P : R) :
  T <> 0 -> coefficients_nonzero T -> w_density (W T P) <> 0 -> w_densityP (W T P) <> 0 -> density_derivatives_hold W T P ->
  e_epsilon (electro W T P) <> 0 ->
  e_bornZ (electro W T P) = - / e_epsilon (electro W T P) /\
  Differentials2 (fun T P => e_bornZ (electro W T P)) (fun T P => e_bornY (electro W T P)) (fun T P => e_bornQ (electro W T P))
    (fun T P => e_bornX (electro W T P)) (fun T P => e_bornU (electro W T P)) (fun T P => e_bornN (electro W T P)) T P.
Proof.
  intros HT HK Hr HrP HW He. destruct (C88_dielectric W T P HT HK Hr HrP HW) as [A B C].
  unfold electro, waterElectroStateJohnsonNorton in *.
  set (E := fun T P => fold_left (jn_step T (W T P)) [0; 1; 2; 3; 4]%nat (mkEps 0 0 0 0 0 0)).
  destruct (born_D E T P A B C He) as (D0 & D1 & D2 & D3).
  split; [exact D0|]. split; [exact D1|exact D2|exact D3].
Qed.
Print Assumptions C88_born.

(* With the Wagner and Pruss equation of state for the density. *)
Theorem C88_wagner_pruss (r : R -> R -> R) (T P : R) :
  let W := state_with waterHelmholtzStateWagnerPruss r in
  0 < T -> coefficients_nonzero T -> r T P <> 322 -> solves_eos waterHelmholtzStateWagnerPruss r T P ->
  w_densityT (W T P) <> 0 -> e_epsilon (electro W T P) <> 0 ->
  Differentials2 (fun T P => e_bornZ (electro W T P)) (fun T P => e_bornY (electro W T P)) (fun T P => e_bornQ (electro W T P))
    (fun T P => e_bornX (electro W T P)) (fun T P => e_bornU (electro W T P)) (fun T P => e_bornN (electro W T P)) T P.
Proof.
  intros W HT HK Hr Hs Hn He. destruct (C50_wagner_pruss_partial r T P HT Hr Hs) as (Hd & _ & _ & HD). fold W in Hd, HD.
  apply (C88_born W T P ltac:(lra) HK); [| |exact (HD Hn)|exact He].
  - rewrite Hd. destruct Hs as (_ & [d Hd'] & _). apply Rgt_not_eq, (Hd' T P); rewrite Rminus_eq_0, Rabs_R0; apply cond_pos.
  - destruct (HD Hn) as [HD1 _ _]. intros Z.
    (* the derivative with respect to pressure is the reciprocal of a number *)
    apply Hn. unfold W, state_with, waterThermoState in Z |- *. cbv zeta in Z |- *. cbn [w_densityT w_densityP] in Z |- *.
    unfold Rdiv in Z |- *. rewrite Rmult_1_l in Z. rewrite Z. ring.
Qed.
Print Assumptions C88_wagner_pruss.

Lemma eps_step T wt e i : eps (jn_step T wt e i) = eps e + jn_k i (T / 298.15) * (w_density wt / 1000) ^ i.
Proof. reflexivity. Qed.
(* The ideal gas of C50_nonvacuous at 298.15 K. *)
Example C88_nonvacuous : let W := state_with ideal (fun T P => P / T) in
  298.15 <> 0 /\ coefficients_nonzero 298.15 /\ w_density (W 298.15 29815) = 100 /\ w_densityP (W 298.15 29815) <> 0 /\ e_epsilon (electro W 298.15 29815) <> 0.
Proof.
  cbv zeta.
  assert (HD : w_density (state_with ideal (fun T P => P / T) 298.15 29815) = 100).
  { unfold state_with, waterThermoState, ideal. cbv zeta. cbn [w_density]. proj.
    replace (29815 / (298.15 / (29815 / 298.15))) with (100 * 100) by lra. apply sqrt_square. lra. }
  split; [lra|]. split.
  - unfold coefficients_nonzero. cbv zeta. replace (298.15 / 298.15) with 1 by lra. repeat split; lra.
  - split; [exact HD|]. split.
    + unfold state_with, waterThermoState, ideal in *. cbv zeta in *. cbn [w_densityP w_density] in *. revert HD. proj. intros ->.
      replace (29815 / 298.15) with 100 by lra. apply Rmult_integral_contrapositive_currified; [lra|apply Rinv_neq_0_compat; lra].
    + unfold electro, waterElectroStateJohnsonNorton. cbv zeta. cbn [e_epsilon fold_left]. rewrite !eps_step, HD. cbn [eps].
      unfold jn_k, at_, jn_a; cbn [nth]. lra.
Qed.
