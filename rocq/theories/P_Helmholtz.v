(* The fields of the Helmholtz states of water are partial derivatives. *)
From Coq Require Import Reals List ZArith Lia Lra.
From Coquelicot Require Import Coquelicot.
Import ListNotations.
From Verif Require Import Base M_Helmholtz S_Water.
Local Open Scope R_scope.

(* ---- Differentiation of expressions ---- *)
Lemma d_id x : is_derive (fun x : R => x) x 1. Proof. auto_derive; [exact I|reflexivity]. Qed.
Lemma d_const (c x : R) : is_derive (fun _ : R => c) x 0. Proof. auto_derive; [exact I|reflexivity]. Qed.
Lemma d_add (f g : R -> R) (x a b : R) : is_derive f x a -> is_derive g x b -> is_derive (fun x => f x + g x) x (a + b).
Proof. intros; apply (is_derive_plus (V := R_NormedModule)); assumption. Qed.
Lemma d_opp (f : R -> R) (x a : R) : is_derive f x a -> is_derive (fun x => - f x) x (- a).
Proof. intros; apply (is_derive_opp (V := R_NormedModule)); assumption. Qed.
Lemma d_sub (f g : R -> R) (x a b : R) : is_derive f x a -> is_derive g x b -> is_derive (fun x => f x - g x) x (a - b).
Proof. intros; apply (is_derive_minus (V := R_NormedModule)); assumption. Qed.
Lemma d_mul (f g : R -> R) (x a b : R) : is_derive f x a -> is_derive g x b ->
  is_derive (fun x => f x * g x) x (a * g x + f x * b).
Proof. intros Hf Hg; apply (is_derive_mult f g x a b Hf Hg Rmult_comm). Qed.
Lemma d_inv (f : R -> R) (x a : R) : is_derive f x a -> f x <> 0 -> is_derive (fun x => / f x) x (- a / (f x) ^ 2).
Proof. intros; apply is_derive_inv; assumption. Qed.
Lemma d_div (f g : R -> R) (x a b : R) : is_derive f x a -> is_derive g x b -> g x <> 0 ->
  is_derive (fun x => f x / g x) x ((a * g x - f x * b) / (g x) ^ 2).
Proof. intros; apply is_derive_div; assumption. Qed.
Lemma d_comp (f g : R -> R) (x a b : R) : is_derive f (g x) a -> is_derive g x b -> is_derive (fun x => f (g x)) x (a * b).
Proof.
  intros Hf Hg. pose proof (is_derive_comp f g x a b Hf Hg) as H.
  replace (a * b) with (b * a) by ring. exact H.
Qed.
Lemma d_exp (f : R -> R) (x a : R) : is_derive f x a -> is_derive (fun x => exp (f x)) x (exp (f x) * a).
Proof. intros. apply (d_comp exp f); [apply is_derive_exp|assumption]. Qed.
Lemma d_ln (f : R -> R) (x a : R) : is_derive f x a -> 0 < f x -> is_derive (fun x => ln (f x)) x (/ f x * a).
Proof. intros. apply (d_comp ln f); [apply is_derive_ln; assumption|assumption]. Qed.
Lemma d_Rpower (f : R -> R) (x a p : R) : is_derive f x a -> 0 < f x ->
  is_derive (fun x => Rpower (f x) p) x (p * Rpower (f x) p / f x * a).
Proof.
  intros Hf H. unfold Rpower. replace (p * exp (p * ln (f x)) / f x * a) with (exp (p * ln (f x)) * (0 * ln (f x) + p * (/ f x * a))).
  - apply (d_exp (fun x => p * ln (f x))), (d_mul (fun _ => p) (fun x => ln (f x))); [apply d_const|apply d_ln; assumption].
  - field. lra.
Qed.
Lemma d_pow (f : R -> R) (x a : R) (n : nat) : is_derive f x a ->
  is_derive (fun x => f x ^ n) x (INR n * f x ^ pred n * a).
Proof. intros H. replace (INR n * f x ^ pred n * a) with (INR n * a * f x ^ pred n) by ring.
  apply is_derive_pow, H. Qed.
Lemma d_powerRZ (f : R -> R) (x a : R) (n : Z) : is_derive f x a -> f x <> 0 ->
  is_derive (fun x => powerRZ (f x) n) x (IZR n * powerRZ (f x) n / f x * a).
Proof.
  intros H Hx. destruct n as [|p|p]; simpl.
  - replace (0 * 1 / f x * a) with 0 by (field; exact Hx). apply d_const.
  - pose proof (d_pow f x a (Pos.to_nat p) H) as E. evar_last. exact E.
    rewrite INR_IPR. change (IPR p) with (IZR (Z.pos p)).
    destruct (Pos2Nat.is_succ p) as (m & Em). rewrite Em. simpl. field. exact Hx.
  - pose proof (d_inv (fun x => f x ^ Pos.to_nat p) x _ (d_pow f x a (Pos.to_nat p) H)) as E.
    evar_last. apply E. apply pow_nonzero, Hx.
    cbv beta. rewrite INR_IPR. change (IZR (Z.neg p)) with (- IPR p).
    destruct (Pos2Nat.is_succ p) as (m & Em). rewrite Em. simpl. field.
    split; [apply pow_nonzero, Hx|exact Hx].
Qed.
Lemma d_val (f : R -> R) (x a b : R) : is_derive f x a -> a = b -> is_derive f x b.
Proof. intros; subst; assumption. Qed.

Lemma d_pow' (f : R -> R) (x a : R) (n : nat) : is_derive f x a -> f x <> 0 ->
  is_derive (fun x => f x ^ n) x (INR n * f x ^ n / f x * a).
Proof.
  intros H Hx. apply (d_val _ _ _ _ (d_pow f x a n H)).
  destruct n as [|m]; [simpl; field; exact Hx|]. rewrite <- tech_pow_Rmult. simpl pred. field. exact Hx.
Qed.

Notation JD := differentiable_pt_lim.
Lemma j_val (f : R -> R -> R) (t d a b a' b' : R) : JD f t d a b -> a = a' -> b = b' -> JD f t d a' b'.
Proof. intros; subst; assumption. Qed.
Lemma j_const (c t d : R) : JD (fun _ _ => c) t d 0 0.
Proof. apply (differentiable_pt_lim_proj1_0 (fun _ => c)). apply is_derive_Reals, d_const. Qed.
Lemma j_fst (t d : R) : JD (fun t _ => t) t d 1 0.
Proof. apply (differentiable_pt_lim_proj1_0 (fun t => t)). apply is_derive_Reals, d_id. Qed.
Lemma j_snd (t d : R) : JD (fun _ d => d) t d 0 1.
Proof.
  intros eps. exists (mkposreal 1 Rlt_0_1). intros u v _ _.
  replace (v - d - (0 * (u - t) + 1 * (v - d))) with 0 by ring. rewrite Rabs_R0.
  apply Rmult_le_pos; [left; apply eps|]. apply Rle_trans with (Rabs (u - t)); [apply Rabs_pos|apply Rmax_l].
Qed.
Lemma j_plus0 (x y : R) : JD (fun u v => u + v) x y 1 1.
Proof.
  intros eps. exists (mkposreal 1 Rlt_0_1). intros u v _ _.
  replace (u + v - (x + y) - (1 * (u - x) + 1 * (v - y))) with 0 by ring. rewrite Rabs_R0.
  apply Rmult_le_pos; [left; apply eps|]. apply Rle_trans with (Rabs (u - x)); [apply Rabs_pos|apply Rmax_l].
Qed.
Lemma j_mult0 (x y : R) : JD (fun u v => u * v) x y y x.
Proof.
  intros eps. exists eps. intros u v Hu Hv.
  replace (u * v - x * y - (y * (u - x) + x * (v - y))) with ((u - x) * (v - y)) by ring. rewrite Rabs_mult.
  apply Rmult_le_compat; [apply Rabs_pos|apply Rabs_pos|left; exact Hu|apply Rmax_r].
Qed.
Lemma j_comp (g : R -> R) (f : R -> R -> R) (t d l a b : R) :
  is_derive g (f t d) l -> JD f t d a b -> JD (fun t d => g (f t d)) t d (l * a) (l * b).
Proof.
  intros Hg Hf. apply is_derive_Reals in Hg.
  pose proof (differentiable_pt_lim_comp (fun u _ => g u) f (fun _ _ => 0) t d l 0 a b 0 0
    (differentiable_pt_lim_proj1_0 g _ _ _ Hg) Hf (j_const 0 t d)) as H.
  eapply j_val; [exact H|ring|ring].
Qed.
Lemma j_add (f g : R -> R -> R) (t d a b a' b' : R) : JD f t d a b -> JD g t d a' b' ->
  JD (fun t d => f t d + g t d) t d (a + a') (b + b').
Proof.
  intros Hf Hg. pose proof (differentiable_pt_lim_comp _ f g t d _ _ _ _ _ _ (j_plus0 _ _) Hf Hg) as H.
  eapply j_val; [exact H|ring|ring].
Qed.
Lemma j_mul (f g : R -> R -> R) (t d a b a' b' : R) : JD f t d a b -> JD g t d a' b' ->
  JD (fun t d => f t d * g t d) t d (a * g t d + f t d * a') (b * g t d + f t d * b').
Proof.
  intros Hf Hg. pose proof (differentiable_pt_lim_comp _ f g t d _ _ _ _ _ _ (j_mult0 _ _) Hf Hg) as H.
  eapply j_val; [exact H|ring|ring].
Qed.
Lemma j_opp (f : R -> R -> R) (t d a b : R) : JD f t d a b -> JD (fun t d => - f t d) t d (- a) (- b).
Proof.
  intros Hf. eapply j_val; [apply (j_comp (fun x => - x) f _ _ _ _ _ (d_opp _ _ _ (d_id _)) Hf)|ring|ring].
Qed.
Lemma j_sub (f g : R -> R -> R) (t d a b a' b' : R) : JD f t d a b -> JD g t d a' b' ->
  JD (fun t d => f t d - g t d) t d (a - a') (b - b').
Proof. intros Hf Hg. apply (j_add f (fun t d => - g t d)); [exact Hf|apply j_opp, Hg]. Qed.
Lemma j_inv (f : R -> R -> R) (t d a b : R) : JD f t d a b -> f t d <> 0 ->
  JD (fun t d => / f t d) t d (- a / (f t d) ^ 2) (- b / (f t d) ^ 2).
Proof.
  intros Hf H0. eapply j_val; [apply (j_comp Rinv f _ _ _ _ _ (d_inv _ _ _ (d_id _) H0) Hf)|..]; unfold Rdiv; ring.
Qed.
Lemma j_div (f g : R -> R -> R) (t d a b a' b' : R) : JD f t d a b -> JD g t d a' b' -> g t d <> 0 ->
  JD (fun t d => f t d / g t d) t d ((a * g t d - f t d * a') / (g t d) ^ 2) ((b * g t d - f t d * b') / (g t d) ^ 2).
Proof.
  intros Hf Hg H0. eapply j_val; [apply (j_mul f (fun t d => / g t d)); [exact Hf|apply j_inv; [exact Hg|exact H0]]|..]; field; exact H0.
Qed.
Lemma j_exp (f : R -> R -> R) (t d a b : R) : JD f t d a b ->
  JD (fun t d => exp (f t d)) t d (exp (f t d) * a) (exp (f t d) * b).
Proof. intros Hf. apply (j_comp exp f); [apply is_derive_exp|exact Hf]. Qed.
Lemma j_ln (f : R -> R -> R) (t d a b : R) : JD f t d a b -> 0 < f t d ->
  JD (fun t d => ln (f t d)) t d (/ f t d * a) (/ f t d * b).
Proof. intros Hf H0. apply (j_comp ln f); [apply is_derive_ln, H0|exact Hf]. Qed.
Lemma j_sqrt (f : R -> R -> R) (t d a b : R) : JD f t d a b -> 0 < f t d ->
  JD (fun t d => sqrt (f t d)) t d (/ (2 * sqrt (f t d)) * a) (/ (2 * sqrt (f t d)) * b).
Proof. intros Hf H0. apply (j_comp sqrt f); [|exact Hf]. apply is_derive_Reals, derivable_pt_lim_sqrt, H0. Qed.
Lemma j_Rpower (f : R -> R -> R) (t d a b p : R) : JD f t d a b -> 0 < f t d ->
  JD (fun t d => Rpower (f t d) p) t d (p * Rpower (f t d) p / f t d * a) (p * Rpower (f t d) p / f t d * b).
Proof.
  intros Hf H0. eapply j_val; [apply (j_comp (fun x => Rpower x p) f); [apply (d_Rpower (fun x => x)); [apply d_id|exact H0]|exact Hf]|..]; ring.
Qed.
Lemma j_pow (f : R -> R -> R) (t d a b : R) (n : nat) : JD f t d a b ->
  JD (fun t d => f t d ^ n) t d (INR n * f t d ^ pred n * a) (INR n * f t d ^ pred n * b).
Proof.
  intros Hf. eapply j_val; [apply (j_comp (fun x => x ^ n) f); [apply (d_pow (fun x => x)), d_id|exact Hf]|..]; ring.
Qed.
Lemma j_pow' (f : R -> R -> R) (t d a b : R) (n : nat) : JD f t d a b -> f t d <> 0 ->
  JD (fun t d => f t d ^ n) t d (INR n * f t d ^ n / f t d * a) (INR n * f t d ^ n / f t d * b).
Proof.
  intros Hf H0. eapply j_val; [apply (j_comp (fun x => x ^ n) f); [apply (d_pow' (fun x => x)); [apply d_id|exact H0]|exact Hf]|..]; ring.
Qed.
Lemma j_powerRZ (f : R -> R -> R) (t d a b : R) (n : Z) : JD f t d a b -> f t d <> 0 ->
  JD (fun t d => powerRZ (f t d) n) t d (IZR n * powerRZ (f t d) n / f t d * a) (IZR n * powerRZ (f t d) n / f t d * b).
Proof.
  intros Hf H0. eapply j_val; [apply (j_comp (fun x => powerRZ x n) f); [apply (d_powerRZ (fun x => x)); [apply d_id|exact H0]|exact Hf]|..]; ring.
Qed.

(* Differentiate the function in the goal, using the differentials in the
   context for the functions that have one. *)
Ltac jstep :=
  match goal with
  | H : JD ?f ?t ?d _ _ |- JD ?f ?t ?d _ _ => exact H
  | |- JD ?f ?t ?d _ _ =>
    match f with
    | (fun x y => ?F x y) => match goal with H : JD F t d _ _ |- _ => exact H end
    | (fun x _ => x) => apply j_fst
    | (fun _ y => y) => apply j_snd
    | (fun _ _ => ?c) => apply j_const
    | (fun x y => @?f x y + @?g x y) => apply (j_add f g)
    | (fun x y => @?f x y - @?g x y) => apply (j_sub f g)
    | (fun x y => @?f x y * @?g x y) => apply (j_mul f g)
    | (fun x y => @?f x y / @?g x y) => apply (j_div f g)
    | (fun x y => - @?f x y) => apply (j_opp f)
    | (fun x y => / @?f x y) => apply (j_inv f)
    | (fun x y => exp (@?f x y)) => apply (j_exp f)
    | (fun x y => ln (@?f x y)) => apply (j_ln f)
    | (fun x y => sqrt (@?f x y)) => apply (j_sqrt f)
    | (fun x y => Rpower (@?f x y) ?p) => apply (j_Rpower f)
    | (fun x y => (@?f x y) ^ (S ?n)) => apply (j_pow f)
    | (fun x y => (@?f x y) ^ ?n) => apply (j_pow' f)
    | (fun x y => powerRZ (@?f x y) ?n) => apply (j_powerRZ f)
    end
  end.
Ltac jj := eapply j_val; [repeat jstep | | ].
Ltac proj := cbn [helmholtz helmholtzT helmholtzD helmholtzTT helmholtzTD helmholtzDD helmholtzTTT helmholtzTTD helmholtzTDD helmholtzDDD].
Ltac nz := repeat (apply Rmult_integral_contrapositive_currified || apply pow_nonzero || apply powerRZ_NOR); try assumption.

(* ---- Records of functions ---- *)
Definition Derivs (S : R -> R -> HelmholtzState) (t d : R) : Prop :=
  Differentials (fun t d => helmholtz (S t d)) (fun t d => helmholtzT (S t d)) (fun t d => helmholtzD (S t d))
    (fun t d => helmholtzTT (S t d)) (fun t d => helmholtzTD (S t d)) (fun t d => helmholtzDD (S t d))
    (fun t d => helmholtzTTT (S t d)) (fun t d => helmholtzTTD (S t d)) (fun t d => helmholtzTDD (S t d))
    (fun t d => helmholtzDDD (S t d)) t d.
Lemma Derivs_add S1 S2 t d : Derivs S1 t d -> Derivs S2 t d -> Derivs (fun t d => addH (S1 t d) (S2 t d)) t d.
Proof.
  intros [A1 A2 A3 A4 A5 A6] [B1 B2 B3 B4 B5 B6].
  split; unfold addH; proj; apply j_add; assumption.
Qed.
Lemma Derivs_zero t d : Derivs (fun _ _ => zeroH) t d.
Proof. split; cbn; apply j_const. Qed.
Lemma Derivs_accumulate term first count S t d :
  (forall i, (first <= i < first + count)%nat -> Derivs (fun t d => term t d i) t d) -> Derivs S t d ->
  Derivs (fun t d => accumulate (term t d) first count (S t d)) t d.
Proof.
  unfold accumulate. revert first S. induction count as [|n IH]; intros first S Ht HS; [exact HS|].
  cbn [seq fold_left]. apply (IH (Datatypes.S first) (fun t d => addH (S t d) (term t d first))).
  - intros i Hi. apply Ht. lia.
  - apply Derivs_add; [exact HS|apply Ht; lia].
Qed.

(* ---- The base function of the HGK equation ---- *)
Definition b_y (t d : R) : R := d * (at_ hgk_yc 0 + at_ hgk_yc 1 * ln t + at_ hgk_yc 2 * powerRZ t (-3) + at_ hgk_yc 3 * powerRZ t (-5)).
Definition b_y_r (t d : R) : R := b_y t d / d.
Definition b_y_t (t d : R) : R := d * (at_ hgk_yc 1 - 3 * at_ hgk_yc 2 * powerRZ t (-3) - 5 * at_ hgk_yc 3 * powerRZ t (-5)) / t.
Definition b_y_rr (t d : R) : R := 0.
Definition b_y_tt (t d : R) : R := d * (-at_ hgk_yc 1 + 12 * at_ hgk_yc 2 * powerRZ t (-3) + 30 * at_ hgk_yc 3 * powerRZ t (-5)) / (t * t).
Definition b_y_rt (t d : R) : R := b_y_t t d / d.
Definition b_y_rrr (t d : R) : R := 0.
Definition b_y_rrt (t d : R) : R := b_y_rt t d / d - b_y_t t d / (d * d).
Definition b_y_rtt (t d : R) : R := b_y_tt t d / d.
Definition b_y_ttt (t d : R) : R := d * (2 * at_ hgk_yc 1 - 60 * at_ hgk_yc 2 * powerRZ t (-3) - 210 * at_ hgk_yc 3 * powerRZ t (-5)) / (t * t * t).
Definition b_x (t d : R) : R := 1 / (1 - b_y t d).
Definition b_x_r (t d : R) : R := b_y_r t d * (b_x t d * b_x t d).
Definition b_x_t (t d : R) : R := b_y_t t d * (b_x t d * b_x t d).
Definition b_x_rr (t d : R) : R := b_y_rr t d * (b_x t d * b_x t d) + 2 * b_y_r t d * b_x_r t d * b_x t d.
Definition b_x_tt (t d : R) : R := b_y_tt t d * (b_x t d * b_x t d) + 2 * b_y_t t d * b_x_t t d * b_x t d.
Definition b_x_rt (t d : R) : R := b_y_rt t d * (b_x t d * b_x t d) + 2 * b_y_r t d * b_x_t t d * b_x t d.
Definition b_x_rrr (t d : R) : R := b_y_rrr t d * (b_x t d * b_x t d) + 4 * b_y_rr t d * b_x_r t d * b_x t d + 2 * b_y_r t d * (b_x_rr t d * b_x t d + b_x_r t d * b_x_r t d).
Definition b_x_rrt (t d : R) : R := b_y_rrt t d * (b_x t d * b_x t d) + 2 * (b_y_rt t d * b_x_r t d + b_y_rr t d * b_x_t t d) * b_x t d + 2 * b_y_r t d * (b_x_rt t d * b_x t d + b_x_r t d * b_x_t t d).
Definition b_x_rtt (t d : R) : R := b_y_rtt t d * (b_x t d * b_x t d) + 4 * b_y_rt t d * b_x_t t d * b_x t d + 2 * b_y_r t d * (b_x_tt t d * b_x t d + b_x_t t d * b_x_t t d).
Definition b_x_ttt (t d : R) : R := b_y_ttt t d * (b_x t d * b_x t d) + 4 * b_y_tt t d * b_x_t t d * b_x t d + 2 * b_y_t t d * (b_x_tt t d * b_x t d + b_x_t t d * b_x_t t d).
Definition b_u (t d : R) : R := ln (d * b_x t d).
Definition b_u_r (t d : R) : R := b_x_r t d / b_x t d + 1 / d.
Definition b_u_t (t d : R) : R := b_x_t t d / b_x t d.
Definition b_u_rr (t d : R) : R := b_x_rr t d / b_x t d - b_x_r t d * b_x_r t d / (b_x t d * b_x t d) - 1 / (d * d).
Definition b_u_rt (t d : R) : R := b_x_rt t d / b_x t d - b_x_r t d * b_x_t t d / (b_x t d * b_x t d).
Definition b_u_tt (t d : R) : R := b_x_tt t d / b_x t d - b_x_t t d * b_x_t t d / (b_x t d * b_x t d).
Definition b_u_rrr (t d : R) : R := b_x_rrr t d / b_x t d - 3 * b_x_rr t d * b_x_r t d / (b_x t d * b_x t d) + 2 * b_x_r t d * b_x_r t d * b_x_r t d / (b_x t d * b_x t d * b_x t d) + 2 / (d * d * d).
Definition b_u_rrt (t d : R) : R := b_x_rrt t d / b_x t d - (2 * b_x_rt t d * b_x_r t d + b_x_rr t d * b_x_t t d) / (b_x t d * b_x t d) + 2 * b_x_r t d * b_x_r t d * b_x_t t d / (b_x t d * b_x t d * b_x t d).
Definition b_u_rtt (t d : R) : R := b_x_rtt t d / b_x t d - (2 * b_x_rt t d * b_x_t t d + b_x_tt t d * b_x_r t d) / (b_x t d * b_x t d) + 2 * b_x_t t d * b_x_t t d * b_x_r t d / (b_x t d * b_x t d * b_x t d).
Definition b_u_ttt (t d : R) : R := b_x_ttt t d / b_x t d - 3 * b_x_tt t d * b_x_t t d / (b_x t d * b_x t d) + 2 * b_x_t t d * b_x_t t d * b_x_t t d / (b_x t d * b_x t d * b_x t d).
Definition b_h (t d : R) : R := hgk_A20 * t * (b_u t d + (- 130 / 3) * b_x t d  + (169 / 6) * b_x t d * b_x t d + (- 14) * b_y t d).
Definition b_h_r (t d : R) : R := hgk_A20 * t * (b_u_r t d + (- 130 / 3) * b_x_r t d + 2 * (169 / 6) * b_x t d * b_x_r t d + (- 14) * b_y_r t d).
Definition b_h_t (t d : R) : R := hgk_A20 * t * (b_u_t t d + (- 130 / 3) * b_x_t t d + 2 * (169 / 6) * b_x t d * b_x_t t d + (- 14) * b_y_t t d) + b_h t d / t.
Definition b_h_rr (t d : R) : R := hgk_A20 * t * (b_u_rr t d + (- 130 / 3) * b_x_rr t d + 2 * (169 / 6) * (b_x t d * b_x_rr t d + b_x_r t d * b_x_r t d) + (- 14) * b_y_rr t d).
Definition b_h_rt (t d : R) : R := hgk_A20 * t * (b_u_rt t d + (- 130 / 3) * b_x_rt t d + 2 * (169 / 6) * (b_x t d * b_x_rt t d + b_x_r t d * b_x_t t d) + (- 14) * b_y_rt t d) + b_h_r t d / t.
Definition b_h_tt (t d : R) : R := hgk_A20 * t * (b_u_tt t d + (- 130 / 3) * b_x_tt t d + 2 * (169 / 6) * (b_x t d * b_x_tt t d + b_x_t t d * b_x_t t d) + (- 14) * b_y_tt t d) + 2 * (b_h_t t d / t - b_h t d / (t * t)).
Definition b_h_rrr (t d : R) : R := hgk_A20 * t * (b_u_rrr t d + (- 130 / 3) * b_x_rrr t d + 2 * (169 / 6) * (3 * b_x_r t d * b_x_rr t d + b_x t d * b_x_rrr t d) + (- 14) * b_y_rrr t d).
Definition b_h_rrt (t d : R) : R := hgk_A20 * t * (b_u_rrt t d + (- 130 / 3) * b_x_rrt t d + 2 * (169 / 6) * (b_x_t t d * b_x_rr t d + 2 * b_x_r t d * b_x_rt t d + b_x t d * b_x_rrt t d) + (- 14) * b_y_rrt t d) + b_h_rr t d / t.
Definition b_h_rtt (t d : R) : R := hgk_A20 * t * (b_u_rtt t d + (- 130 / 3) * b_x_rtt t d + 2 * (169 / 6) * (b_x_r t d * b_x_tt t d + 2 * b_x_t t d * b_x_rt t d + b_x t d * b_x_rtt t d) + (- 14) * b_y_rtt t d) + 2 * (b_h_rt t d - b_h_r t d / t) / t.
Definition b_h_ttt (t d : R) : R := hgk_A20 * t * (b_u_ttt t d + (- 130 / 3) * b_x_ttt t d + 2 * (169 / 6) * (3 * b_x_t t d * b_x_tt t d + b_x t d * b_x_ttt t d) + (- 14) * b_y_ttt t d) + 3 * (b_h_tt t d - 2 * b_h_t t d / t + 2 * b_h t d / (t * t)) / t.


Lemma jets_b_y  t d : 0 < t -> d <> 0 ->
  Differentials b_y b_y_t b_y_r b_y_tt b_y_rt b_y_rr b_y_ttt b_y_rtt b_y_rrt b_y_rrr t d.
Proof.
  intros Ht Hd. assert (Ht' : t <> 0) by lra. assert (Htt : t * t <> 0) by (apply Rmult_integral_contrapositive_currified; assumption).
  assert (K1 : JD b_y t d (b_y_t t d) (b_y_r t d)).
  { unfold b_y; jj; [try assumption..|unfold b_y_ttt, b_y_rtt, b_y_rrt, b_y_rrr, b_y_tt, b_y_rt, b_y_rr, b_y_t, b_y_r, b_y; generalize (powerRZ t (-3)) (powerRZ t (-5)) (ln t); intros; field; auto|unfold b_y_ttt, b_y_rtt, b_y_rrt, b_y_rrr, b_y_tt, b_y_rt, b_y_rr, b_y_t, b_y_r, b_y; generalize (powerRZ t (-3)) (powerRZ t (-5)) (ln t); intros; field; auto]. }
  assert (K2 : JD b_y_t t d (b_y_tt t d) (b_y_rt t d)).
  { unfold b_y_t; jj; [try assumption..|unfold b_y_ttt, b_y_rtt, b_y_rrt, b_y_rrr, b_y_tt, b_y_rt, b_y_rr, b_y_t, b_y_r, b_y; generalize (powerRZ t (-3)) (powerRZ t (-5)) (ln t); intros; field; auto|unfold b_y_ttt, b_y_rtt, b_y_rrt, b_y_rrr, b_y_tt, b_y_rt, b_y_rr, b_y_t, b_y_r, b_y; generalize (powerRZ t (-3)) (powerRZ t (-5)) (ln t); intros; field; auto]. }
  assert (K3 : JD b_y_r t d (b_y_rt t d) (b_y_rr t d)).
  { unfold b_y_r; jj; [try assumption..|unfold b_y_ttt, b_y_rtt, b_y_rrt, b_y_rrr, b_y_tt, b_y_rt, b_y_rr, b_y_t, b_y_r, b_y; generalize (powerRZ t (-3)) (powerRZ t (-5)) (ln t); intros; field; auto|unfold b_y_ttt, b_y_rtt, b_y_rrt, b_y_rrr, b_y_tt, b_y_rt, b_y_rr, b_y_t, b_y_r, b_y; generalize (powerRZ t (-3)) (powerRZ t (-5)) (ln t); intros; field; auto]. }
  assert (K4 : JD b_y_tt t d (b_y_ttt t d) (b_y_rtt t d)).
  { unfold b_y_tt; jj; [try assumption..|unfold b_y_ttt, b_y_rtt, b_y_rrt, b_y_rrr, b_y_tt, b_y_rt, b_y_rr, b_y_t, b_y_r, b_y; generalize (powerRZ t (-3)) (powerRZ t (-5)) (ln t); intros; field; auto|unfold b_y_ttt, b_y_rtt, b_y_rrt, b_y_rrr, b_y_tt, b_y_rt, b_y_rr, b_y_t, b_y_r, b_y; generalize (powerRZ t (-3)) (powerRZ t (-5)) (ln t); intros; field; auto]. }
  assert (K5 : JD b_y_rt t d (b_y_rtt t d) (b_y_rrt t d)).
  { unfold b_y_rt; jj; [try assumption..|unfold b_y_ttt, b_y_rtt, b_y_rrt, b_y_rrr, b_y_tt, b_y_rt, b_y_rr, b_y_t, b_y_r, b_y; generalize (powerRZ t (-3)) (powerRZ t (-5)) (ln t); intros; field; auto|unfold b_y_ttt, b_y_rtt, b_y_rrt, b_y_rrr, b_y_tt, b_y_rt, b_y_rr, b_y_t, b_y_r, b_y; generalize (powerRZ t (-3)) (powerRZ t (-5)) (ln t); intros; field; auto]. }
  assert (K6 : JD b_y_rr t d (b_y_rrt t d) (b_y_rrr t d)).
  { unfold b_y_rr; jj; [try assumption..|unfold b_y_ttt, b_y_rtt, b_y_rrt, b_y_rrr, b_y_tt, b_y_rt, b_y_rr, b_y_t, b_y_r, b_y; generalize (powerRZ t (-3)) (powerRZ t (-5)) (ln t); intros; field; auto|unfold b_y_ttt, b_y_rtt, b_y_rrt, b_y_rrr, b_y_tt, b_y_rt, b_y_rr, b_y_t, b_y_r, b_y; generalize (powerRZ t (-3)) (powerRZ t (-5)) (ln t); intros; field; auto]. }
  split; assumption.
Qed.

Lemma jets_b_x  t d : 0 < t -> d <> 0 -> b_y t d <> 1 ->
  Differentials b_x b_x_t b_x_r b_x_tt b_x_rt b_x_rr b_x_ttt b_x_rtt b_x_rrt b_x_rrr t d.
Proof.
  intros Ht Hd Hy. assert (Hy' : 1 - b_y t d <> 0) by lra. pose proof (jets_b_y t d Ht Hd) as [?J1 ?J2 ?J3 ?J4 ?J5 ?J6].
  assert (K1 : JD b_x t d (b_x_t t d) (b_x_r t d)).
  { unfold b_x; jj; [try assumption..|unfold b_x_t, b_x_r, b_x; field; auto|unfold b_x_t, b_x_r, b_x; field; auto]. }
  assert (K2 : JD b_x_t t d (b_x_tt t d) (b_x_rt t d)).
  { unfold b_x_t; jj; [try assumption..|unfold b_x_ttt, b_x_rtt, b_x_rrt, b_x_rrr, b_x_tt, b_x_rt, b_x_rr, b_x_t, b_x_r; field; auto|unfold b_x_ttt, b_x_rtt, b_x_rrt, b_x_rrr, b_x_tt, b_x_rt, b_x_rr, b_x_t, b_x_r; field; auto]. }
  assert (K3 : JD b_x_r t d (b_x_rt t d) (b_x_rr t d)).
  { unfold b_x_r; jj; [try assumption..|unfold b_x_ttt, b_x_rtt, b_x_rrt, b_x_rrr, b_x_tt, b_x_rt, b_x_rr, b_x_t, b_x_r; field; auto|unfold b_x_ttt, b_x_rtt, b_x_rrt, b_x_rrr, b_x_tt, b_x_rt, b_x_rr, b_x_t, b_x_r; field; auto]. }
  assert (K4 : JD b_x_tt t d (b_x_ttt t d) (b_x_rtt t d)).
  { unfold b_x_tt; jj; [try assumption..|unfold b_x_ttt, b_x_rtt, b_x_rrt, b_x_rrr, b_x_tt, b_x_rt, b_x_rr, b_x_t, b_x_r; field; auto|unfold b_x_ttt, b_x_rtt, b_x_rrt, b_x_rrr, b_x_tt, b_x_rt, b_x_rr, b_x_t, b_x_r; field; auto]. }
  assert (K5 : JD b_x_rt t d (b_x_rtt t d) (b_x_rrt t d)).
  { unfold b_x_rt; jj; [try assumption..|unfold b_x_ttt, b_x_rtt, b_x_rrt, b_x_rrr, b_x_tt, b_x_rt, b_x_rr, b_x_t, b_x_r; field; auto|unfold b_x_ttt, b_x_rtt, b_x_rrt, b_x_rrr, b_x_tt, b_x_rt, b_x_rr, b_x_t, b_x_r; field; auto]. }
  assert (K6 : JD b_x_rr t d (b_x_rrt t d) (b_x_rrr t d)).
  { unfold b_x_rr; jj; [try assumption..|unfold b_x_ttt, b_x_rtt, b_x_rrt, b_x_rrr, b_x_tt, b_x_rt, b_x_rr, b_x_t, b_x_r; field; auto|unfold b_x_ttt, b_x_rtt, b_x_rrt, b_x_rrr, b_x_tt, b_x_rt, b_x_rr, b_x_t, b_x_r; field; auto]. }
  split; assumption.
Qed.

Lemma jets_b_u  t d : 0 < t -> 0 < d -> b_y t d < 1 ->
  Differentials b_u b_u_t b_u_r b_u_tt b_u_rt b_u_rr b_u_ttt b_u_rtt b_u_rrt b_u_rrr t d.
Proof.
  intros Ht Hd Hy. assert (Hx : 0 < b_x t d) by (unfold b_x; apply Rdiv_lt_0_compat; lra). assert (Hd' : d <> 0) by lra. assert (Hx' : b_x t d <> 0) by lra.
  assert (Hxx : b_x t d * b_x t d <> 0) by (apply Rmult_integral_contrapositive_currified; assumption). assert (Hdd : d * d <> 0) by (apply Rmult_integral_contrapositive_currified; assumption). assert (Hdx : 0 < d * b_x t d) by (apply Rmult_lt_0_compat; assumption).
  assert (Hy' : b_y t d <> 1) by lra. pose proof (jets_b_x t d Ht Hd' Hy') as [?J1 ?J2 ?J3 ?J4 ?J5 ?J6].
  assert (K1 : JD b_u t d (b_u_t t d) (b_u_r t d)).
  { unfold b_u; jj; [try assumption..|unfold b_u_ttt, b_u_rtt, b_u_rrt, b_u_rrr, b_u_tt, b_u_rt, b_u_rr, b_u_t, b_u_r; field; auto|unfold b_u_ttt, b_u_rtt, b_u_rrt, b_u_rrr, b_u_tt, b_u_rt, b_u_rr, b_u_t, b_u_r; field; auto]. }
  assert (K2 : JD b_u_t t d (b_u_tt t d) (b_u_rt t d)).
  { unfold b_u_t; jj; [try assumption..|unfold b_u_ttt, b_u_rtt, b_u_rrt, b_u_rrr, b_u_tt, b_u_rt, b_u_rr, b_u_t, b_u_r; field; auto|unfold b_u_ttt, b_u_rtt, b_u_rrt, b_u_rrr, b_u_tt, b_u_rt, b_u_rr, b_u_t, b_u_r; field; auto]. }
  assert (K3 : JD b_u_r t d (b_u_rt t d) (b_u_rr t d)).
  { unfold b_u_r; jj; [try assumption..|unfold b_u_ttt, b_u_rtt, b_u_rrt, b_u_rrr, b_u_tt, b_u_rt, b_u_rr, b_u_t, b_u_r; field; auto|unfold b_u_ttt, b_u_rtt, b_u_rrt, b_u_rrr, b_u_tt, b_u_rt, b_u_rr, b_u_t, b_u_r; field; auto]. }
  assert (K4 : JD b_u_tt t d (b_u_ttt t d) (b_u_rtt t d)).
  { unfold b_u_tt; jj; [try assumption..|unfold b_u_ttt, b_u_rtt, b_u_rrt, b_u_rrr, b_u_tt, b_u_rt, b_u_rr, b_u_t, b_u_r; field; auto|unfold b_u_ttt, b_u_rtt, b_u_rrt, b_u_rrr, b_u_tt, b_u_rt, b_u_rr, b_u_t, b_u_r; field; auto]. }
  assert (K5 : JD b_u_rt t d (b_u_rtt t d) (b_u_rrt t d)).
  { unfold b_u_rt; jj; [try assumption..|unfold b_u_ttt, b_u_rtt, b_u_rrt, b_u_rrr, b_u_tt, b_u_rt, b_u_rr, b_u_t, b_u_r; field; auto|unfold b_u_ttt, b_u_rtt, b_u_rrt, b_u_rrr, b_u_tt, b_u_rt, b_u_rr, b_u_t, b_u_r; field; auto]. }
  assert (K6 : JD b_u_rr t d (b_u_rrt t d) (b_u_rrr t d)).
  { unfold b_u_rr; jj; [try assumption..|unfold b_u_ttt, b_u_rtt, b_u_rrt, b_u_rrr, b_u_tt, b_u_rt, b_u_rr, b_u_t, b_u_r; field; auto|unfold b_u_ttt, b_u_rtt, b_u_rrt, b_u_rrr, b_u_tt, b_u_rt, b_u_rr, b_u_t, b_u_r; field; auto]. }
  split; assumption.
Qed.

Lemma jets_b_h  t d : 0 < t -> 0 < d -> b_y t d < 1 ->
  Differentials b_h b_h_t b_h_r b_h_tt b_h_rt b_h_rr b_h_ttt b_h_rtt b_h_rrt b_h_rrr t d.
Proof.
  intros Ht Hd Hy. assert (Ht' : t <> 0) by lra. assert (Htt : t * t <> 0) by (apply Rmult_integral_contrapositive_currified; assumption). pose proof (jets_b_u t d Ht Hd Hy) as [?J1 ?J2 ?J3 ?J4 ?J5 ?J6]. assert (Hd' : d <> 0) by lra. assert (Hy' : b_y t d <> 1) by lra. pose proof (jets_b_x t d Ht Hd' Hy') as [?J1 ?J2 ?J3 ?J4 ?J5 ?J6]. pose proof (jets_b_y t d Ht Hd') as [?J1 ?J2 ?J3 ?J4 ?J5 ?J6].
  assert (K1 : JD b_h t d (b_h_t t d) (b_h_r t d)).
  { unfold b_h; jj; [try assumption..|unfold b_h_ttt, b_h_rtt, b_h_rrt, b_h_rrr, b_h_tt, b_h_rt, b_h_rr, b_h_t, b_h_r, b_h; field; auto|unfold b_h_ttt, b_h_rtt, b_h_rrt, b_h_rrr, b_h_tt, b_h_rt, b_h_rr, b_h_t, b_h_r, b_h; field; auto]. }
  assert (K2 : JD b_h_t t d (b_h_tt t d) (b_h_rt t d)).
  { unfold b_h_t; jj; [try assumption..|unfold b_h_ttt, b_h_rtt, b_h_rrt, b_h_rrr, b_h_tt, b_h_rt, b_h_rr, b_h_t, b_h_r, b_h; field; auto|unfold b_h_ttt, b_h_rtt, b_h_rrt, b_h_rrr, b_h_tt, b_h_rt, b_h_rr, b_h_t, b_h_r, b_h; field; auto]. }
  assert (K3 : JD b_h_r t d (b_h_rt t d) (b_h_rr t d)).
  { unfold b_h_r; jj; [try assumption..|unfold b_h_ttt, b_h_rtt, b_h_rrt, b_h_rrr, b_h_tt, b_h_rt, b_h_rr, b_h_t, b_h_r, b_h; field; auto|unfold b_h_ttt, b_h_rtt, b_h_rrt, b_h_rrr, b_h_tt, b_h_rt, b_h_rr, b_h_t, b_h_r, b_h; field; auto]. }
  assert (K4 : JD b_h_tt t d (b_h_ttt t d) (b_h_rtt t d)).
  { unfold b_h_tt; jj; [try assumption..|unfold b_h_ttt, b_h_rtt, b_h_rrt, b_h_rrr, b_h_tt, b_h_rt, b_h_rr, b_h_t, b_h_r, b_h; field; auto|unfold b_h_ttt, b_h_rtt, b_h_rrt, b_h_rrr, b_h_tt, b_h_rt, b_h_rr, b_h_t, b_h_r, b_h; field; auto]. }
  assert (K5 : JD b_h_rt t d (b_h_rtt t d) (b_h_rrt t d)).
  { unfold b_h_rt; jj; [try assumption..|unfold b_h_ttt, b_h_rtt, b_h_rrt, b_h_rrr, b_h_tt, b_h_rt, b_h_rr, b_h_t, b_h_r, b_h; field; auto|unfold b_h_ttt, b_h_rtt, b_h_rrt, b_h_rrr, b_h_tt, b_h_rt, b_h_rr, b_h_t, b_h_r, b_h; field; auto]. }
  assert (K6 : JD b_h_rr t d (b_h_rrt t d) (b_h_rrr t d)).
  { unfold b_h_rr; jj; [try assumption..|unfold b_h_ttt, b_h_rtt, b_h_rrt, b_h_rrr, b_h_tt, b_h_rt, b_h_rr, b_h_t, b_h_r, b_h; field; auto|unfold b_h_ttt, b_h_rtt, b_h_rrt, b_h_rrr, b_h_tt, b_h_rt, b_h_rr, b_h_t, b_h_r, b_h; field; auto]. }
  split; assumption.
Qed.

Definition b_hgk2 (t d : R) : HelmholtzState :=
  mkH (b_h t d) (b_h_t t d) (b_h_r t d) (b_h_tt t d) (b_h_rt t d) (b_h_rr t d) (b_h_ttt t d) (b_h_rtt t d) (b_h_rrt t d) (b_h_rrr t d).
(* The fields that the code gets wrong, and by how much. *)
Definition err2_TDD (t d : R) : R :=
  hgk_A20 * t * (2 * b_y_rt t d * b_x_r t d * (1 - b_x t d)) * (1 / b_x t d + - 130 / 3 + 2 * (169 / 6) * b_x t d).
Definition err2_TTT (t d : R) : R := - 3 * b_h t d / t ^ 3.
Definition shift (S : HelmholtzState) (eTDD eTTT : R) : HelmholtzState :=
  mkH (helmholtz S) (helmholtzT S) (helmholtzD S) (helmholtzTT S) (helmholtzTD S) (helmholtzDD S)
      (helmholtzTTT S + eTTT) (helmholtzTTD S) (helmholtzTDD S + eTDD) (helmholtzDDD S).
Lemma mkH_eq a b c d e f g h i j a' b' c' d' e' f' g' h' i' j' :
  a = a' -> b = b' -> c = c' -> d = d' -> e = e' -> f = f' -> g = g' -> h = h' -> i = i' -> j = j' ->
  mkH a b c d e f g h i j = mkH a' b' c' d' e' f' g' h' i' j'.
Proof. intros; subst; reflexivity. Qed.
Lemma hgk2_eq t d : t <> 0 -> hgk2 t d = shift (b_hgk2 t d) (err2_TDD t d) (err2_TTT t d).
Proof.
  intros Ht. unfold shift, b_hgk2; cbn [helmholtz helmholtzT helmholtzD helmholtzTT helmholtzTD helmholtzDD helmholtzTTT helmholtzTTD helmholtzTDD helmholtzDDD].
  assert (E : hgk2 t d = mkH (b_h t d) (b_h_t t d) (b_h_r t d) (b_h_tt t d) (b_h_rt t d) (b_h_rr t d)
    (hgk_A20 * t * (b_u_ttt t d + (- 130 / 3) * b_x_ttt t d + 2 * (169 / 6) * (3 * b_x_t t d * b_x_tt t d + b_x t d * b_x_ttt t d) + (- 14) * b_y_ttt t d)
      + 3 * (b_h_tt t d - 2 * b_h_t t d / t + b_h t d / (t * t)) / t)
    (b_h_rtt t d)
    (let x_rrt := b_y_rrt t d * (b_x t d * b_x t d) + 2 * (b_y_rt t d * b_x_r t d + b_y_rr t d * b_x_t t d)
                  + 2 * b_y_r t d * (b_x_rt t d * b_x t d + b_x_r t d * b_x_t t d) in
     let u_rrt := x_rrt / b_x t d - (2 * b_x_rt t d * b_x_r t d + b_x_rr t d * b_x_t t d) / (b_x t d * b_x t d) + 2 * b_x_r t d * b_x_r t d * b_x_t t d / (b_x t d * b_x t d * b_x t d) in
     hgk_A20 * t * (u_rrt + (- 130 / 3) * x_rrt + 2 * (169 / 6) * (b_x_t t d * b_x_rr t d + 2 * b_x_r t d * b_x_rt t d + b_x t d * x_rrt) + (- 14) * b_y_rrt t d) + b_h_rr t d / t)
    (b_h_rrr t d)) by reflexivity.
  rewrite E. apply mkH_eq; try reflexivity.
  - unfold err2_TTT. unfold b_h_ttt. field. exact Ht.
  - cbv zeta. unfold err2_TDD, b_h_rrt, b_u_rrt, b_x_rrt, b_y_rr, Rdiv. ring.
Qed.
Lemma Derivs_b_hgk2 t d : 0 < t -> 0 < d -> b_y t d < 1 -> Derivs b_hgk2 t d.
Proof. intros Ht Hd Hy. exact (jets_b_h t d Ht Hd Hy). Qed.

(* ---- The ideal and linear parts ---- *)
Lemma Derivs_hgk0_term i t d : 0 < t -> Derivs (fun t d => hgk0_term t i) t d.
Proof.
  intros Ht. assert (Ht' : t <> 0) by lra. assert (t * t <> 0) by nz. assert (t * t * t <> 0) by nz.
  split; unfold hgk0_term, intR; proj; rewrite ?minus_IZR; jj; try assumption;
    rewrite ?minus_IZR; try ring; field; auto.
Qed.
Lemma Derivs_hgk0 t d : 0 < t -> Derivs hgk0 t d.
Proof.
  intros Ht. assert (Ht' : t <> 0) by lra. assert (t * t <> 0) by nz. assert (t * t * t <> 0) by nz.
  unfold hgk0. apply (Derivs_accumulate (fun t d => hgk0_term t)); [intros; apply Derivs_hgk0_term, Ht|].
  split; proj; jj; try assumption; field; auto.
Qed.

Definition linear1 (f : R -> HelmholtzState) (t d : R) : HelmholtzState :=
  mkH (d * helmholtz (f t)) (d * helmholtzT (f t)) (helmholtz (f t)) (d * helmholtzTT (f t)) (helmholtzT (f t)) 0
      (d * helmholtzTTT (f t)) (helmholtzTT (f t)) 0 0.
Definition hgk1_coef (t : R) (i : nat) : HelmholtzState := hgk1_term t 1 i.
Lemma hgk1_sum t d l s s' :
  helmholtz s = d * helmholtz s' -> helmholtzT s = d * helmholtzT s' -> helmholtzTT s = d * helmholtzTT s' ->
  helmholtzTTT s = d * helmholtzTTT s' ->
  helmholtzDD s = 0 -> helmholtzTDD s = 0 -> helmholtzDDD s = 0 ->
  let r := fold_left (fun acc i => addH acc (hgk1_term t d i)) l s in
  let r' := fold_left (fun acc i => addH acc (hgk1_term t 1 i)) l s' in
  helmholtz r = d * helmholtz r' /\ helmholtzT r = d * helmholtzT r' /\ helmholtzTT r = d * helmholtzTT r' /\
  helmholtzTTT r = d * helmholtzTTT r' /\ helmholtzDD r = 0 /\ helmholtzTDD r = 0 /\ helmholtzDDD r = 0.
Proof.
  revert s s'. induction l as [|i l IH]; intros s s' A B C D E F G; [cbn; tauto|].
  cbn [fold_left]. apply IH; unfold addH; proj; unfold hgk1_term; proj; rewrite ?A, ?B, ?C, ?D, ?E, ?F, ?G;
  unfold Rdiv; ring.
Qed.
Lemma hgk1_eq t d : d <> 0 -> hgk1 t d = linear1 (fun t => accumulate (hgk1_term t 1) 0 5 zeroH) t d.
Proof.
  intros Hd. unfold hgk1, linear1, accumulate.
  destruct (hgk1_sum t d (seq 0 5) zeroH zeroH) as (A & B & C & D & E & F & G); try (cbn [zeroH helmholtz helmholtzT helmholtzTT helmholtzTTT helmholtzDD helmholtzTDD helmholtzDDD]; ring).
  rewrite A, B, C, D, E, F, G. apply mkH_eq; try reflexivity; field; exact Hd.
Qed.
Lemma Derivs_hgk1_coef i t d : 0 < t -> Derivs (fun t d => hgk1_term t 1 i) t d.
Proof.
  intros Ht. assert (Ht' : t <> 0) by lra. assert (t * t <> 0) by nz. assert (t * t * t <> 0) by nz.
  split; unfold hgk1_term, intR; proj; rewrite ?minus_IZR, ?plus_IZR; jj; try assumption;
    rewrite ?minus_IZR, ?plus_IZR; try ring; field; auto.
Qed.
Lemma Derivs_linear1 f t d : Derivs (fun t _ => f t) t d ->
  helmholtzD (f t) = 0 -> helmholtzTD (f t) = 0 -> helmholtzTTD (f t) = 0 -> Derivs (linear1 f) t d.
Proof.
  intros [A1 A2 A3 A4 A5 A6] E1 E2 E3. rewrite ?E1, ?E2, ?E3 in *.
  split; unfold linear1; proj; jj; rewrite ?E1, ?E2, ?E3; try ring.
Qed.
Lemma locally_2d_pos t d : 0 < t -> 0 < d -> locally_2d (fun u v => 0 < u /\ 0 < v) t d.
Proof.
  intros Ht Hd. exists (mkposreal (Rmin t d) (Rmin_pos _ _ Ht Hd)). cbn. intros u v Hu Hv.
  pose proof (Rmin_l t d). pose proof (Rmin_r t d). apply Rabs_def2 in Hu, Hv. lra.
Qed.
Lemma Derivs_ext S S' t d : (forall t' d', 0 < t' -> 0 < d' -> S t' d' = S' t' d') -> 0 < t -> 0 < d -> Derivs S' t d -> Derivs S t d.
Proof.
  intros E Ht Hd [A1 A2 A3 A4 A5 A6]. destruct (locally_2d_pos t d Ht Hd) as (dl & Hdl).
  split; rewrite (E t d Ht Hd); eapply differentiable_pt_lim_ext; try eassumption;
    exists dl; intros u v Hu Hv; destruct (Hdl u v Hu Hv) as [P Q]; cbv beta; rewrite (E u v P Q); reflexivity.
Qed.
Lemma hgk1_flat t l s : helmholtzD s = 0 -> helmholtzTD s = 0 -> helmholtzTTD s = 0 ->
  let r := fold_left (fun acc i => addH acc (hgk1_term t 1 i)) l s in
  helmholtzD r = 0 /\ helmholtzTD r = 0 /\ helmholtzTTD r = 0.
Proof.
  revert s. induction l as [|i l IH]; intros s A B C; [cbn; tauto|].
  cbn [fold_left]. apply IH; unfold addH; proj; unfold hgk1_term; proj; rewrite ?A, ?B, ?C; ring.
Qed.
Lemma Derivs_hgk1 t d : 0 < t -> 0 < d -> Derivs hgk1 t d.
Proof.
  intros Ht Hd. apply (Derivs_ext _ (linear1 (fun t => accumulate (hgk1_term t 1) 0 5 zeroH))); auto.
  - intros t' d' _ Hd'. apply hgk1_eq; lra.
  - destruct (hgk1_flat t (seq 0 5) zeroH eq_refl eq_refl eq_refl) as (E1 & E2 & E3).
    apply Derivs_linear1; [|exact E1|exact E2|exact E3].
    apply (Derivs_accumulate (fun t (_ : R) => hgk1_term t 1) 0 5 (fun _ _ => zeroH)).
    + intros i _. apply Derivs_hgk1_coef, Ht.
    + apply Derivs_zero.
Qed.

(* ---- The residual function ---- *)
Definition z3 (d : R) : R := 1 - exp (- hgk_z0 * d).
Definition z3_r (d : R) : R := hgk_z0 * (1 - z3 d).
Definition z3_rr (d : R) : R := - hgk_z0 * z3_r d.
Definition z3_rrr (d : R) : R := - hgk_z0 * z3_rr d.
Lemma z3_d t d : JD (fun _ y => z3 y) t d 0 (z3_r d).
Proof. unfold z3_r, z3. jj; ring. Qed.
Lemma z3_rd t d : JD (fun _ y => z3_r y) t d 0 (z3_rr d).
Proof. pose proof (z3_d t d). unfold z3_rr, z3_r. jj; unfold z3_r; ring. Qed.
Lemma z3_rrd t d : JD (fun _ y => z3_rr y) t d 0 (z3_rrr d).
Proof. pose proof (z3_rd t d). unfold z3_rrr, z3_rr. jj; unfold z3_rr; ring. Qed.
Lemma z3_pos d : 0 < d -> 0 < z3 d.
Proof.
  intros Hd. unfold z3. assert (exp (- hgk_z0 * d) < exp 0); [|rewrite exp_0 in *; lra].
  apply exp_increasing. assert (0 < hgk_z0 * d) by (apply Rmult_lt_0_compat; [unfold hgk_z0; lra|exact Hd]). lra.
Qed.
Lemma z3_r_pos d : 0 < z3_r d.
Proof. unfold z3_r, z3. apply Rmult_lt_0_compat; [unfold hgk_z0; lra|]. pose proof (exp_pos (- hgk_z0 * d)). lra. Qed.
Definition lam (A : R) (l k : nat) (t d : R) : R := A * powerRZ t (- Z.of_nat l) * (z3 d) ^ k.
Definition lam_r (A : R) (l k : nat) (t d : R) : R := INR k * z3_r d * lam A l k t d / z3 d.
Definition lam_t (A : R) (l k : nat) (t d : R) : R := - INR l * lam A l k t d / t.
Definition lam_rr (A : R) (l k : nat) (t d : R) : R := lam_r A l k t d * (z3_rr d / z3_r d + lam_r A l k t d / lam A l k t d - z3_r d / z3 d).
Definition lam_rt (A : R) (l k : nat) (t d : R) : R := lam_r A l k t d * lam_t A l k t d / lam A l k t d.
Definition lam_tt (A : R) (l k : nat) (t d : R) : R := lam_t A l k t d * (lam_t A l k t d / lam A l k t d - 1 / t).
Definition lam_rrr (A : R) (l k : nat) (t d : R) : R := lam_rr A l k t d * (z3_rr d / z3_r d + lam_r A l k t d / lam A l k t d - z3_r d / z3 d) + lam_r A l k t d * (z3_rrr d / z3_r d - (z3_rr d / z3_r d) ^ 2 + lam_rr A l k t d / lam A l k t d - (lam_r A l k t d / lam A l k t d) ^ 2 - z3_rr d / z3 d + (z3_r d / z3 d) ^ 2).
Definition lam_rrt (A : R) (l k : nat) (t d : R) : R := - (lam_r A l k t d / lam A l k t d) ^ 2 * lam_t A l k t d + (lam_rr A l k t d * lam_t A l k t d + lam_rt A l k t d * lam_r A l k t d) / lam A l k t d.
Definition lam_rtt (A : R) (l k : nat) (t d : R) : R := - (lam_t A l k t d / lam A l k t d) ^ 2 * lam_r A l k t d + (lam_tt A l k t d * lam_r A l k t d + lam_rt A l k t d * lam_t A l k t d) / lam A l k t d.
Definition lam_ttt (A : R) (l k : nat) (t d : R) : R := lam_tt A l k t d * (lam_t A l k t d / lam A l k t d - 1 / t) + lam_t A l k t d * (lam_tt A l k t d / lam A l k t d - (lam_t A l k t d / lam A l k t d) ^ 2 + 1 / (t * t)).

Lemma jets_lam A l k t d : A <> 0 -> 0 < t -> 0 < d ->
  Differentials (lam A l k) (lam_t A l k) (lam_r A l k) (lam_tt A l k) (lam_rt A l k) (lam_rr A l k) (lam_ttt A l k) (lam_rtt A l k) (lam_rrt A l k) (lam_rrr A l k) t d.
Proof.
  intros HA Ht Hd. assert (Ht' : t <> 0) by lra. pose proof (z3_pos d Hd) as Hz. pose proof (z3_r_pos d) as Hzr.
  assert (Hz' : z3 d <> 0) by lra. assert (Hzr' : z3_r d <> 0) by lra.
  pose proof (z3_d t d). pose proof (z3_rd t d). pose proof (z3_rrd t d).
  assert (Hl : lam A l k t d <> 0) by (unfold lam; repeat apply Rmult_integral_contrapositive_currified; [exact HA|apply powerRZ_NOR; exact Ht'|apply pow_nonzero; exact Hz']).
  assert (t * t <> 0) by nz.
  assert (K1 : JD (lam A l k) t d (lam_t A l k t d) (lam_r A l k t d)).
  { unfold lam; jj; [try assumption..|unfold lam_ttt, lam_rtt, lam_rrt, lam_rrr, lam_tt, lam_rt, lam_rr, lam_t, lam_r, lam; rewrite ?opp_IZR, <- ?INR_IZR_INZ; field; auto|unfold lam_ttt, lam_rtt, lam_rrt, lam_rrr, lam_tt, lam_rt, lam_rr, lam_t, lam_r, lam; rewrite ?opp_IZR, <- ?INR_IZR_INZ; field; auto]. }
  assert (K2 : JD (lam_t A l k) t d (lam_tt A l k t d) (lam_rt A l k t d)).
  { unfold lam_t; jj; [try assumption..|unfold lam_ttt, lam_rtt, lam_rrt, lam_rrr, lam_tt, lam_rt, lam_rr, lam_t, lam_r; field; auto|unfold lam_ttt, lam_rtt, lam_rrt, lam_rrr, lam_tt, lam_rt, lam_rr, lam_t, lam_r; field; auto]. }
  assert (K3 : JD (lam_r A l k) t d (lam_rt A l k t d) (lam_rr A l k t d)).
  { unfold lam_r; jj; [try assumption..|unfold lam_ttt, lam_rtt, lam_rrt, lam_rrr, lam_tt, lam_rt, lam_rr, lam_t, lam_r; field; auto|unfold lam_ttt, lam_rtt, lam_rrt, lam_rrr, lam_tt, lam_rt, lam_rr, lam_t, lam_r; field; auto]. }
  assert (K4 : JD (lam_tt A l k) t d (lam_ttt A l k t d) (lam_rtt A l k t d)).
  { unfold lam_tt; jj; [try assumption..|unfold lam_ttt, lam_rtt, lam_rrt, lam_rrr, lam_tt, lam_rt, lam_rr, lam_t, lam_r; field; auto|unfold lam_ttt, lam_rtt, lam_rrt, lam_rrr, lam_tt, lam_rt, lam_rr, lam_t, lam_r; field; auto]. }
  assert (K5 : JD (lam_rt A l k) t d (lam_rtt A l k t d) (lam_rrt A l k t d)).
  { unfold lam_rt; jj; [try assumption..|unfold lam_ttt, lam_rtt, lam_rrt, lam_rrr, lam_tt, lam_rt, lam_rr, lam_t, lam_r; field; auto|unfold lam_ttt, lam_rtt, lam_rrt, lam_rrr, lam_tt, lam_rt, lam_rr, lam_t, lam_r; field; auto]. }
  assert (K6 : JD (lam_rr A l k) t d (lam_rrt A l k t d) (lam_rrr A l k t d)).
  { unfold lam_rr; jj; [try assumption..|unfold lam_ttt, lam_rtt, lam_rrt, lam_rrr, lam_tt, lam_rt, lam_rr, lam_t, lam_r; field; auto|unfold lam_ttt, lam_rtt, lam_rrt, lam_rrr, lam_tt, lam_rt, lam_rr, lam_t, lam_r; field; auto]. }
  split; assumption.
Qed.

Lemma hgk3_term_eq t d i : hgk3_term t d i =
  let A := at_ hgk_A3 i in let l := int_at hgk_li i in let k := int_at hgk_ki i in
  mkH (lam A l k t d) (lam_t A l k t d) (lam_r A l k t d) (lam_tt A l k t d) (lam_rt A l k t d) (lam_rr A l k t d)
      (lam_ttt A l k t d) (lam_rtt A l k t d) (lam_rrt A l k t d) (lam_rrr A l k t d).
Proof. reflexivity. Qed.
Lemma hgk_A3_nonzero i : (i < 36)%nat -> at_ hgk_A3 i <> 0.
Proof. intros Hi. do 36 (destruct i as [|i]; [unfold at_, hgk_A3; cbn [nth]; lra|]). lia. Qed.
Lemma Derivs_hgk3 t d : 0 < t -> 0 < d -> Derivs hgk3 t d.
Proof.
  intros Ht Hd. unfold hgk3. apply (Derivs_accumulate hgk3_term 0 36 (fun _ _ => zeroH)); [|apply Derivs_zero].
  intros i Hi. exact (jets_lam _ _ _ t d (hgk_A3_nonzero i ltac:(lia)) Ht Hd).
Qed.

(* ---- The correction function ---- *)
Section Correction.
Variables (A r ti alpha beta : R) (mi ni : nat).
Let m := INR mi.
Let n := INR ni.
Definition de (d : R) : R := (d - r) / r.
Definition ta (t : R) : R := (t - ti) / ti.
Definition psi (d : R) : R := (n - alpha * m * de d ^ mi) * (1 / r) / de d.
Definition psi_r (d : R) : R := - (n + alpha * m * (m - 1) * de d ^ mi) * ((1 / r) / de d) ^ 2.
Definition psi_rr (d : R) : R := (2 * n - alpha * m * (m - 1) * (m - 2) * de d ^ mi) * ((1 / r) / de d) ^ 3.
Definition the (t d : R) : R := A * de d ^ ni * exp (- alpha * de d ^ mi - beta * ta t * ta t).
Definition the_r (t d : R) : R := psi d * the t d.
Definition the_t (t d : R) : R := - 2 * beta * ta t * (1 / ti) * the t d.
Definition the_rr (t d : R) : R := psi_r d * the t d + psi d * the_r t d.
Definition the_tt (t d : R) : R := 2 * beta * (2 * beta * ta t * ta t - 1) * (1 / ti) * (1 / ti) * the t d.
Definition the_rt (t d : R) : R := - 2 * beta * ta t * (1 / ti) * the_r t d.
Definition the_rrr (t d : R) : R := psi_rr d * the t d + 2 * psi_r d * the_r t d + psi d * the_rr t d.
Definition the_rrt (t d : R) : R := psi_r d * the_t t d + psi d * the_rt t d.
Definition the_rtt (t d : R) : R := psi d * the_tt t d.
Definition the_ttt (t d : R) : R := - 2 * beta * (2 * (1 / ti) * (1 / ti) * the_t t d + ta t * (1 / ti) * the_tt t d).
Hypotheses (Hr : r <> 0) (Hti : ti <> 0).
Lemma de_d t d : JD (fun _ y => de y) t d 0 (1 / r). Proof. unfold de; jj; [assumption|field; assumption|field; assumption]. Qed.
Lemma ta_t t d : JD (fun x _ => ta x) t d (1 / ti) 0. Proof. unfold ta; jj; [assumption|field; assumption|field; assumption]. Qed.
Lemma psi_d t d : de d <> 0 -> JD (fun _ y => psi y) t d 0 (psi_r d).
Proof.
  intros H. pose proof (de_d t d). unfold psi. jj; try assumption; unfold psi_r; fold m; generalize (de d) H; intros; field; auto.
Qed.
Lemma psi_rd t d : de d <> 0 -> JD (fun _ y => psi_r y) t d 0 (psi_rr d).
Proof.
  intros H. pose proof (de_d t d). unfold psi_r. jj; try assumption; unfold psi_rr; fold m; generalize (de d) H; intros; simpl; field; auto.
Qed.

Lemma jets_the  t d : de d <> 0 ->
  Differentials the the_t the_r the_tt the_rt the_rr the_ttt the_rtt the_rrt the_rrr t d.
Proof.
  intros Hde. pose proof (de_d t d). pose proof (ta_t t d). pose proof (psi_d t d Hde). pose proof (psi_rd t d Hde).
  assert (K1 : JD the t d (the_t t d) (the_r t d)).
  { unfold the; jj; [try assumption..|unfold the_ttt, the_rtt, the_rrt, the_rrr, the_tt, the_rt, the_rr, the_t, the_r, the, psi; fold m n; generalize (de d) Hde; intros; field; auto|unfold the_ttt, the_rtt, the_rrt, the_rrr, the_tt, the_rt, the_rr, the_t, the_r, the, psi; fold m n; generalize (de d) Hde; intros; field; auto]. }
  assert (K2 : JD the_t t d (the_tt t d) (the_rt t d)).
  { unfold the_t; jj; [try assumption..|unfold the_ttt, the_rtt, the_rrt, the_rrr, the_tt, the_rt, the_rr, the_t, the_r; field; auto|unfold the_ttt, the_rtt, the_rrt, the_rrr, the_tt, the_rt, the_rr, the_t, the_r; field; auto]. }
  assert (K3 : JD the_r t d (the_rt t d) (the_rr t d)).
  { unfold the_r; jj; [try assumption..|unfold the_ttt, the_rtt, the_rrt, the_rrr, the_tt, the_rt, the_rr, the_t, the_r; field; auto|unfold the_ttt, the_rtt, the_rrt, the_rrr, the_tt, the_rt, the_rr, the_t, the_r; field; auto]. }
  assert (K4 : JD the_tt t d (the_ttt t d) (the_rtt t d)).
  { unfold the_tt; jj; [try assumption..|unfold the_ttt, the_rtt, the_rrt, the_rrr, the_tt, the_rt, the_rr, the_t, the_r; field; auto|unfold the_ttt, the_rtt, the_rrt, the_rrr, the_tt, the_rt, the_rr, the_t, the_r; field; auto]. }
  assert (K5 : JD the_rt t d (the_rtt t d) (the_rrt t d)).
  { unfold the_rt; jj; [try assumption..|unfold the_ttt, the_rtt, the_rrt, the_rrr, the_tt, the_rt, the_rr, the_t, the_r; field; auto|unfold the_ttt, the_rtt, the_rrt, the_rrr, the_tt, the_rt, the_rr, the_t, the_r; field; auto]. }
  assert (K6 : JD the_rr t d (the_rrt t d) (the_rrr t d)).
  { unfold the_rr; jj; [try assumption..|unfold the_ttt, the_rtt, the_rrt, the_rrr, the_tt, the_rt, the_rr, the_t, the_r; field; auto|unfold the_ttt, the_rtt, the_rrt, the_rrr, the_tt, the_rt, the_rr, the_t, the_r; field; auto]. }
  split; assumption.
Qed.

Definition the_record (t d : R) : HelmholtzState :=
  mkH (the t d) (the_t t d) (the_r t d) (the_tt t d) (the_rt t d) (the_rr t d) (the_ttt t d) (the_rtt t d) (the_rrt t d) (the_rrr t d).
(* What the code adds to the mixed third derivative. *)
Definition the_err (t d : R) : R := psi_r d * (the_r t d - the_t t d).
End Correction.
Definition hgk4_true (t d : R) (i : nat) : HelmholtzState :=
  the_record (at_ hgk_A4 i) (at_ hgk_ri i) (at_ hgk_ti i) (at_ hgk_alpha i) (at_ hgk_beta i) (int_at hgk_mi i) (int_at hgk_ni i) t d.
Definition hgk4_err (t d : R) (i : nat) : R :=
  the_err (at_ hgk_A4 i) (at_ hgk_ri i) (at_ hgk_ti i) (at_ hgk_alpha i) (at_ hgk_beta i) (int_at hgk_mi i) (int_at hgk_ni i) t d.
Lemma hgk4_term_eq t d i : hgk4_term t d i = shift (hgk4_true t d i) (hgk4_err t d i) 0.
Proof.
  unfold shift, hgk4_true, the_record; proj. unfold hgk4_term. cbv zeta.
  apply mkH_eq; try reflexivity.
  - unfold the_ttt. rewrite Rplus_0_r. reflexivity.
  - unfold hgk4_err, the_err, the_rrt.
    match goal with |- ?a * ?b + ?c = _ => change (psi_r (at_ hgk_ri i) (at_ hgk_alpha i) (int_at hgk_mi i) (int_at hgk_ni i) d * b + c = psi_r (at_ hgk_ri i) (at_ hgk_alpha i) (int_at hgk_mi i) (int_at hgk_ni i) d * the_t (at_ hgk_A4 i) (at_ hgk_ri i) (at_ hgk_ti i) (at_ hgk_alpha i) (at_ hgk_beta i) (int_at hgk_mi i) (int_at hgk_ni i) t d + c + psi_r (at_ hgk_ri i) (at_ hgk_alpha i) (int_at hgk_mi i) (int_at hgk_ni i) d * (b - the_t (at_ hgk_A4 i) (at_ hgk_ri i) (at_ hgk_ti i) (at_ hgk_alpha i) (at_ hgk_beta i) (int_at hgk_mi i) (int_at hgk_ni i) t d)) end.
    ring.
Qed.
Definition err4_TDD (t d : R) : R := 0 + hgk4_err t d 0 + hgk4_err t d 1 + hgk4_err t d 2 + hgk4_err t d 3.
Definition b_hgk4 (t d : R) : HelmholtzState := accumulate (hgk4_true t d) 0 4 zeroH.
Lemma hgk4_eq t d : hgk4 t d = shift (b_hgk4 t d) (err4_TDD t d) 0.
Proof.
  unfold hgk4, b_hgk4, accumulate, err4_TDD. cbn [seq fold_left]. rewrite !hgk4_term_eq.
  unfold shift, addH; proj. apply mkH_eq; ring.
Qed.
(* The density is none of those at which the code divides by zero. *)
Definition regular (d : R) : Prop := forall i, (i < 4)%nat -> d <> at_ hgk_ri i.
Lemma Derivs_b_hgk4 t d : regular d -> Derivs b_hgk4 t d.
Proof.
  intros Hd. unfold b_hgk4. apply (Derivs_accumulate hgk4_true 0 4 (fun _ _ => zeroH)); [|apply Derivs_zero].
  intros i Hi. assert (Hr : at_ hgk_ri i <> 0 /\ at_ hgk_ti i <> 0).
  { do 4 (destruct i as [|i]; [unfold at_, hgk_ri, hgk_ti; cbn [nth]; lra|]). lia. }
  apply (jets_the (at_ hgk_A4 i) (at_ hgk_ri i) (at_ hgk_ti i) (at_ hgk_alpha i) (at_ hgk_beta i) (int_at hgk_mi i) (int_at hgk_ni i)); try tauto.
  unfold de. apply Rmult_integral_contrapositive_currified; [|apply Rinv_neq_0_compat, Hr].
  specialize (Hd i ltac:(lia)). lra.
Qed.
