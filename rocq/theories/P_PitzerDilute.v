(* The Pitzer model at infinite dilution: orders of magnitude of its sums. *)
From Coq Require Import Reals List Bool Lia Lra.
From Coquelicot Require Import Coquelicot.
Import ListNotations.
From Verif Require Import Base M_CubicEOS P_Helmholtz P_CubicEOS M_Aqueous M_Pitzer P_PitzerSum P_PitzerJ.
Local Open Scope R_scope.

(* At most a multiple of s ^ k for small positive s. *)
Definition tame (k : nat) (f : R -> R) : Prop := exists K d, 0 < d /\ 0 <= K /\ forall s, 0 < s < d -> Rabs (f s) <= K * s ^ k.
Lemma tame_ext k d f g : 0 < d -> (forall s, 0 < s < d -> f s = g s) -> tame k g -> tame k f.
Proof.
  intros Hd E (K & d' & Hd' & HK & H). exists K, (Rmin d d'). split; [apply Rmin_pos; assumption|]. split; [exact HK|].
  intros s Hs. pose proof (Rmin_l d d'). pose proof (Rmin_r d d'). rewrite E by lra. apply H. lra.
Qed.
Lemma tame_const c : tame 0 (fun _ => c).
Proof. exists (Rabs c), 1. split; [lra|]. split; [apply Rabs_pos|]. intros s _. cbn. lra. Qed.
Lemma tame_zero k : tame k (fun _ => 0).
Proof. exists 0, 1. split; [lra|]. split; [lra|]. intros s _. rewrite Rabs_R0. lra. Qed.
Lemma tame_id : tame 1 (fun s => s).
Proof. exists 1, 1. split; [lra|]. split; [lra|]. intros s Hs. rewrite Rabs_pos_eq by lra. cbn. lra. Qed.
Lemma tame_weak k f : tame (S k) f -> tame k f.
Proof.
  intros (K & d & Hd & HK & H). exists (K * d), d. split; [exact Hd|]. split; [apply Rmult_le_pos; lra|]. intros s Hs. specialize (H s Hs). cbn [pow] in H.
  assert (0 <= s ^ k) by (apply pow_le; lra). assert (K * (s * s ^ k) <= K * (d * s ^ k)); [|lra]. apply Rmult_le_compat_l; [exact HK|]. apply Rmult_le_compat_r; lra.
Qed.
Lemma tame_add k f g : tame k f -> tame k g -> tame k (fun s => f s + g s).
Proof.
  intros (K & d & Hd & HK & H) (K' & d' & Hd' & HK' & H'). exists (K + K'), (Rmin d d'). split; [apply Rmin_pos; assumption|]. split; [lra|].
  intros s Hs. pose proof (Rmin_l d d'). pose proof (Rmin_r d d'). pose proof (Rabs_triang (f s) (g s)). specialize (H s ltac:(lra)). specialize (H' s ltac:(lra)). lra.
Qed.
Lemma tame_mul j k f g : tame j f -> tame k g -> tame (j + k) (fun s => f s * g s).
Proof.
  intros (K & d & Hd & HK & H) (K' & d' & Hd' & HK' & H'). exists (K * K'), (Rmin d d'). split; [apply Rmin_pos; assumption|]. split; [apply Rmult_le_pos; assumption|].
  intros s Hs. pose proof (Rmin_l d d'). pose proof (Rmin_r d d'). specialize (H s ltac:(lra)). specialize (H' s ltac:(lra)). rewrite Rabs_mult, pow_add.
  replace (K * K' * (s ^ j * s ^ k)) with ((K * s ^ j) * (K' * s ^ k)) by ring. apply Rmult_le_compat; try apply Rabs_pos; assumption.
Qed.
Lemma tame_Sum k n (f : nat -> R -> R) : (forall i, (i < n)%nat -> tame k (f i)) -> tame k (fun s => Sum n (fun i => f i s)).
Proof.
  induction n as [|n IH]; cbn [Sum]; intros H; [apply tame_zero|]. apply (tame_add k (fun s => Sum n (fun i => f i s)) (f n)); [apply IH; intros; apply H; lia|apply H; lia].
Qed.
Lemma tame_Pairs k n (f : nat -> nat -> R -> R) : (forall i j, (i < j)%nat -> (j < n)%nat -> tame k (f i j)) -> tame k (fun s => Pairs n (fun i j => f i j s)).
Proof.
  induction n as [|n IH]; cbn [Pairs]; intros H; [apply tame_zero|]. apply (tame_add k (fun s => Pairs n (fun i j => f i j s)) (fun s => Sum n (fun i => f i n s))); [apply IH; intros; apply H; lia|].
  apply (tame_Sum k n (fun i => f i n)). intros; apply H; lia.
Qed.
Lemma tame_mul01 f g : tame 0 f -> tame 1 g -> tame 1 (fun s => f s * g s). Proof. exact (tame_mul 0 1 f g). Qed.
Lemma tame_mul10 f g : tame 1 f -> tame 0 g -> tame 1 (fun s => f s * g s). Proof. exact (tame_mul 1 0 f g). Qed.
Lemma tame_mul11 f g : tame 1 f -> tame 1 g -> tame 2 (fun s => f s * g s). Proof. exact (tame_mul 1 1 f g). Qed.
Lemma tame_mul20 f g : tame 2 f -> tame 0 g -> tame 2 (fun s => f s * g s). Proof. exact (tame_mul 2 0 f g). Qed.
Lemma tame_mul00 f g : tame 0 f -> tame 0 g -> tame 0 (fun s => f s * g s). Proof. exact (tame_mul 0 0 f g). Qed.
Lemma below {i j n : nat} : (i < j)%nat -> (j < n)%nat -> (i < n)%nat. Proof. lia. Qed.
Ltac leaf := solve [auto with nocore | apply tame_weak; auto with nocore].
Ltac tm := lazymatch goal with
  | |- tame 0 (fun _ => ?c) => apply (tame_const c)
  | |- tame ?k (fun s => Rplus (@?f s) (@?g s)) => apply (tame_add k f g); tm
  | |- tame ?k (fun s => Sum ?n (fun i => @?f s i)) => apply (tame_Sum k n (fun i s => f s i)); intros; cbv beta; tm
  | |- tame ?k (fun s => Pairs ?n (fun i j => @?f s i j)) => apply (tame_Pairs k n (fun i j s => f s i j)); let L := fresh in let L' := fresh in (intros ? ? L L'; pose proof (below L L')); cbv beta; tm
  | |- tame 0 (fun s => Rmult (@?f s) (@?g s)) => apply (tame_mul00 f g); solve [tm]
  | |- tame 1 (fun s => Rmult (@?f s) (@?g s)) => first [leaf | apply (tame_mul10 f g); solve [tm] | apply (tame_mul01 f g); solve [tm]]
  | |- tame 2 (fun s => Rmult (@?f s) (@?g s)) => first [apply (tame_mul20 f g); solve [tm] | apply (tame_mul11 f g); solve [tm]]
  | |- tame _ _ => leaf
  end.

Section Sums.
Variables (nc na nn : nat) (mc ma mn : nat -> R -> R) (zc za : nat -> R).
Variables (B Bp Bf : nat -> nat -> R -> R) (C : nat -> nat -> R) (PC PCp PCf PA PAp PAf : nat -> nat -> R -> R).
Variables (sC sA : nat -> nat -> nat -> R) (lC lA : nat -> nat -> R) (zt : nat -> nat -> nat -> R) (F0 S0 Z : R -> R).
Hypotheses (Hc : forall i, (i < nc)%nat -> tame 1 (mc i)) (Ha : forall i, (i < na)%nat -> tame 1 (ma i)) (Hn : forall i, (i < nn)%nat -> tame 1 (mn i)) (HZ : tame 1 Z).
Hypotheses (HB : forall i j, (i < nc)%nat -> (j < na)%nat -> tame 0 (B i j)) (HBf : forall i j, (i < nc)%nat -> (j < na)%nat -> tame 0 (Bf i j)).
Hypotheses (HBp : forall i j, (i < nc)%nat -> (j < na)%nat -> tame 1 (fun s => mc i s * ma j s * Bp i j s)).
Hypotheses (HPC : forall i j, (i < nc)%nat -> (j < nc)%nat -> tame 0 (PC i j)) (HPCp : forall i j, (i < nc)%nat -> (j < nc)%nat -> tame 0 (PCp i j)) (HPCf : forall i j, (i < nc)%nat -> (j < nc)%nat -> tame 0 (PCf i j)).
Hypotheses (HPA : forall i j, (i < na)%nat -> (j < na)%nat -> tame 0 (PA i j)) (HPAp : forall i j, (i < na)%nat -> (j < na)%nat -> tame 0 (PAp i j)) (HPAf : forall i j, (i < na)%nat -> (j < na)%nat -> tame 0 (PAf i j)).
Definition restF (s : R) : R := Sum nc (fun c => Sum na (fun a => mc c s * ma a s * Bp c a s)) + Pairs nc (fun i j => mc i s * mc j s * PCp i j s) + Pairs na (fun i j => ma i s * ma j s * PAp i j s).
Lemma tame_restF : tame 1 restF.
Proof. unfold restF. tm. Qed.
Lemma vF_rest s : vF nc na (fun c => mc c s) (fun a => ma a s) (fun i j => Bp i j s) (fun i j => PCp i j s) (fun i j => PAp i j s) (F0 s) = F0 s + restF s.
Proof. unfold vF, restF. ring. Qed.
Definition restC (M : nat) (s : R) : R :=
  Sum na (fun a => ma a s * (2 * B M a s + Z s * C M a)) + Sum nc (fun c => mc c s * (2 * PC M c s + Sum na (fun a => ma a s * sC M c a)))
  + Pairs na (fun i j => ma i s * ma j s * sA i j M)
  + Sum nc (fun c => Sum na (fun a => Rabs (zc M) * mc c s * ma a s * C c a))
  + Sum nn (fun n => 2 * mn n s * lC n M) + zc M * zc M * restF s.
Lemma tame_vC M : (M < nc)%nat -> tame 1 (fun s => vC nc na nn (fun c => mc c s) (fun a => ma a s) (fun n => mn n s) zc (fun i j => B i j s) (fun i j => Bp i j s) C (fun i j => PC i j s) (fun i j => PCp i j s) (fun i j => PAp i j s) sC sA lC (F0 s) (Z s) M - zc M * zc M * F0 s).
Proof.
  intros HM. pose proof tame_restF as HF. apply (tame_ext 1 1 _ (restC M)); [lra|intros s _; unfold vC, restC; rewrite vF_rest; ring|]. unfold restC. tm.
Qed.
Definition restA (X : nat) (s : R) : R :=
  Sum nc (fun c => mc c s * (2 * B c X s + Z s * C c X)) + Sum na (fun a => ma a s * (2 * PA X a s + Sum nc (fun c => mc c s * sA X a c)))
  + Pairs nc (fun i j => mc i s * mc j s * sC i j X)
  + Sum nc (fun c => Sum na (fun a => Rabs (za X) * mc c s * ma a s * C c a))
  + Sum nn (fun n => 2 * mn n s * lA n X) + za X * za X * restF s.
Lemma tame_vA X : (X < na)%nat -> tame 1 (fun s => vA nc na nn (fun c => mc c s) (fun a => ma a s) (fun n => mn n s) za (fun i j => B i j s) (fun i j => Bp i j s) C (fun i j => PCp i j s) (fun i j => PA i j s) (fun i j => PAp i j s) sC sA lA (F0 s) (Z s) X - za X * za X * F0 s).
Proof.
  intros HM. pose proof tame_restF as HF. apply (tame_ext 1 1 _ (restA X)); [lra|intros s _; unfold vA, restA; rewrite vF_rest; ring|]. unfold restA. tm.
Qed.
Lemma tame_vN N : tame 1 (fun s => vN nc na (fun c => mc c s) (fun a => ma a s) lC lA zt N).
Proof. unfold vN. tm. Qed.
Definition restS (s : R) : R :=
  Sum nc (fun c => Sum na (fun a => mc c s * ma a s * (Bf c a s + Z s * C c a)))
  + Pairs nc (fun i j => mc i s * mc j s * (PCf i j s + Sum na (fun a => ma a s * sC i j a)))
  + Pairs na (fun i j => ma i s * ma j s * (PAf i j s + Sum nc (fun c => mc c s * sA i j c)))
  + Sum nn (fun n => Sum nc (fun c => mn n s * mc c s * lC n c))
  + Sum nn (fun n => Sum na (fun a => mn n s * ma a s * lA n a))
  + Sum nn (fun n => Sum nc (fun c => Sum na (fun a => mn n s * mc c s * ma a s * zt n c a))).
Lemma tame_vS : tame 2 (fun s => vS nc na nn (fun c => mc c s) (fun a => ma a s) (fun n => mn n s) (fun i j => Bf i j s) C (fun i j => PCf i j s) (fun i j => PAf i j s) sC sA lC lA zt (S0 s) (Z s) - S0 s).
Proof. apply (tame_ext 2 1 _ restS); [lra|intros s _; unfold vS, restS; ring|]. unfold restS. tm. Qed.
End Sums.

(* ---- The functions of the ionic strength ---- *)
Lemma exp_bounds x : 0 < x -> 1 - x <= exp (- x) /\ exp (- x) * (1 + x) <= 1.
Proof.
  intros Hx. pose proof (exp_ineq1_le (- x)). split; [lra|]. pose proof (exp_ineq1_le x). pose proof (exp_pos (- x)). assert (exp (- x) * exp x = 1) by (rewrite <- exp_plus, Rplus_opp_l, exp_0; reflexivity).
  assert (exp (- x) * (1 + x) <= exp (- x) * exp x) by (apply Rmult_le_compat_l; lra). lra.
Qed.
Lemma g_bound x : 0 < x -> Rabs (pz_g x) <= 2.
Proof.
  intros Hx. destruct (exp_bounds x Hx) as [L U]. assert (X : 0 < x * x) by (apply Rmult_lt_0_compat; assumption). unfold pz_g. set (e := exp (- x)) in *.
  assert (D : 0 <= 1 - (1 + x) * e <= x * x). { split; [lra|]. assert ((1 + x) * (1 - x) <= (1 + x) * e) by (apply Rmult_le_compat_l; lra). lra. }
  rewrite Rabs_pos_eq. 2: { apply Rmult_le_pos; [lra|apply Rlt_le, Rinv_0_lt_compat, X]. }
  apply (Rmult_le_reg_r (x * x)); [exact X|]. unfold Rdiv. rewrite Rmult_assoc, Rinv_l by lra. lra.
Qed.
Lemma gprime_bound x : 0 < x < 1 -> Rabs (pz_gprime x) <= 2.
Proof.
  intros Hx. destruct (exp_bounds x ltac:(lra)) as [L U]. assert (X : 0 < x * x) by (apply Rmult_lt_0_compat; lra). unfold pz_gprime. set (e := exp (- x)) in *.
  assert (E0 : 0 < e) by apply exp_pos. assert (E1 : e <= 1) by (assert (0 < e * x) by (apply Rmult_lt_0_compat; lra); lra).
  assert (D : - (x * x) <= 1 - (1 + x + 0.5 * x * x) * e <= x * x).
  { split.
    - assert (x * x * e <= x * x * 1) by (apply Rmult_le_compat_l; lra). lra.
    - assert ((1 + x + 0.5 * x * x) * (1 - x) <= (1 + x + 0.5 * x * x) * e) by (apply Rmult_le_compat_l; lra). assert (x * x * x <= x * x * 1) by (apply Rmult_le_compat_l; lra). lra. }
  unfold Rdiv. rewrite Rabs_mult, (Rabs_pos_eq (/ _)) by (apply Rlt_le, Rinv_0_lt_compat, X). apply (Rmult_le_reg_r (x * x)); [exact X|]. rewrite Rmult_assoc, Rinv_l, Rmult_1_r by lra.
  apply Rabs_le. lra.
Qed.
Lemma limit_bound A r : 0 <= A -> 0 < r -> Rabs (- A * (r / (1 + 1.2 * r) + 2 / 1.2 * ln (1 + 1.2 * r)) / r + 3 * A) <= 3.6 * A * r.
Proof.
  intros HA Hr. set (y := 1.2 * r). assert (Y : 0 < y) by (unfold y; lra). assert (L1 : ln (1 + y) <= y) by (rewrite <- (ln_exp y) at 2; apply ln_le; [lra|apply exp_ineq1_le]).
  assert (L2 : y / (1 + y) <= ln (1 + y)).
  { pose proof (exp_ineq1_le (- (y / (1 + y)))) as E. assert (F : 1 + - (y / (1 + y)) = / (1 + y)) by (field; lra). rewrite F in E. assert (ln (/ (1 + y)) <= - (y / (1 + y))) by (rewrite <- (ln_exp (- (y / (1 + y)))); apply ln_le; [apply Rinv_0_lt_compat; lra|exact E]).
    rewrite ln_Rinv in H by lra. lra. }
  replace (1 + 1.2 * r) with (1 + y) by reflexivity. set (q := ln (1 + y)) in *. assert (E : - A * (r / (1 + y) + 2 / 1.2 * q) / r + 3 * A = A * (3 - / (1 + y) - 2 * (q / y))).
  { unfold y at 3. replace 1.2 with (6 / 5) by lra. field. lra. }
  rewrite E. assert (Q1 : q / y <= 1) by (apply (Rmult_le_reg_r y); [exact Y|]; unfold Rdiv; rewrite Rmult_assoc, Rinv_l by lra; lra).
  assert (Q2 : / (1 + y) <= q / y). { apply (Rmult_le_reg_r y); [exact Y|]. unfold Rdiv at 1. unfold Rdiv in L2. unfold Rdiv. rewrite (Rmult_assoc q), Rinv_l by lra. lra. }
  assert (Q3 : 1 - y <= / (1 + y) <= 1). { assert (/ (1 + y) * (1 + y) = 1) by (field; lra). assert (0 < / (1 + y)) by (apply Rinv_0_lt_compat; lra). assert (0 < / (1 + y) * y) by (apply Rmult_lt_0_compat; lra). assert (/ (1 + y) * y <= 1 * y) by (apply Rmult_le_compat_r; lra). lra. }
  rewrite Rabs_pos_eq by (apply Rmult_le_pos; lra). replace (3.6 * A * r) with (A * (3 * y)) by (unfold y; lra). apply Rmult_le_compat_l; lra.
Qed.
