(* Lemmas about the sums of the Pitzer model and its Gibbs-Duhem equation. *)
From Coq Require Import Reals List Bool Lia Lra.
From Coquelicot Require Import Coquelicot.
Import ListNotations.
From Verif Require Import Base M_CubicEOS P_Helmholtz P_CubicEOS M_Aqueous M_Pitzer.
Local Open Scope R_scope.

(* ---- Sums that may fail ---- *)
Lemma sumM_ok n f g : (forall i, (i < n)%nat -> f i = Ok (g i)) -> sumM n f = Ok (Sum n g).
Proof.
  induction n as [|n IH]; intros H; [reflexivity|]. cbn [sumM Sum]. rewrite IH by (intros; apply H; lia). cbn [bind].
  rewrite H by lia. reflexivity.
Qed.
Fixpoint Pairs (n : nat) (g : nat -> nat -> R) : R := match n with O => 0 | S k => Pairs k g + Sum k (fun i => g i k) end.
Lemma Sum_S n f : Sum (S n) f = Sum n f + f n. Proof. reflexivity. Qed.
Lemma Pairs_loops n g : Sum (n - 1) (fun i => Sum (n - S i) (fun d => g i (S i + d)%nat)) = Pairs n g.
Proof.
  induction n as [|n IH]; [reflexivity|]. cbn [Pairs]. rewrite <- IH. destruct n as [|n]; [cbn; ring|].
  replace (S (S n) - 1)%nat with (S n) by lia. replace (S n - 1)%nat with n by lia. rewrite !Sum_S.
  replace (S (S n) - S n)%nat with 1%nat by lia. cbn [Sum]. rewrite Nat.add_0_r.
  rewrite (Sum_ext n (fun i => Sum (S (S n) - S i) _) (fun i => Sum (S n - S i) (fun d => g i (S i + d)%nat) + g i (S n))).
  - rewrite Sum_add. ring.
  - intros k Hk. replace (S (S n) - S k)%nat with (S (S n - S k)) by lia. rewrite Sum_S. do 2 f_equal. lia.
Qed.
Lemma pairsM_ok n f g : (0 < n)%nat -> (forall i j, (i < j)%nat -> (j < n)%nat -> f i j = Ok (g i j)) -> pairsM n f = Ok (Pairs n g).
Proof.
  intros Hn H. rewrite <- Pairs_loops. destruct n as [|k]; [lia|]. cbn [pairsM]. replace (S k - 1)%nat with k by lia.
  apply sumM_ok. intros i Hi. apply sumM_ok. intros d Hd. apply H; lia.
Qed.
Lemma Pairs_ext n f g : (forall i j, (i < j)%nat -> (j < n)%nat -> f i j = g i j) -> Pairs n f = Pairs n g.
Proof.
  induction n as [|n IH]; cbn; intros H; [reflexivity|]. rewrite IH by (intros; apply H; lia). f_equal. apply Sum_ext. intros. apply H; lia.
Qed.
Lemma Pairs_add n f g : Pairs n (fun i j => f i j + g i j) = Pairs n f + Pairs n g.
Proof. induction n as [|n IH]; cbn; [ring|]. rewrite IH, Sum_add. ring. Qed.
Lemma Pairs_scal n c f : Pairs n (fun i j => c * f i j) = c * Pairs n f.
Proof. induction n as [|n IH]; cbn; [ring|]. rewrite IH, Sum_scal. ring. Qed.
Lemma Pairs_square n h : Sum n (fun i => Sum n (fun j => h i j)) = Pairs n (fun i j => h i j + h j i) + Sum n (fun i => h i i).
Proof.
  induction n as [|n IH]; [cbn; ring|]. cbn [Pairs]. rewrite !Sum_S, Sum_add. rewrite (Sum_ext n (fun i => Sum (S n) _) (fun i => Sum n (fun j => h i j) + h i n)) by (intros; apply Sum_S).
  rewrite Sum_add, IH. change (Sum n (h n)) with (Sum n (fun j => h n j)). ring.
Qed.
Lemma Pairs_Sum n m f : Pairs n (fun i j => Sum m (fun k => f i j k)) = Sum m (fun k => Pairs n (fun i j => f i j k)).
Proof.
  induction n as [|n IH]; cbn; [rewrite (Sum_ext m _ (fun _ => 0 * 0)); [rewrite Sum_scal; ring|intros; ring]|]. rewrite IH, Sum_swap, <- Sum_add. reflexivity.
Qed.
Lemma d_Pairs n (f : nat -> nat -> R -> R) (f' : nat -> nat -> R) x : (forall i j, (i < j)%nat -> (j < n)%nat -> is_derive (f i j) x (f' i j)) ->
  is_derive (fun x => Pairs n (fun i j => f i j x)) x (Pairs n f').
Proof.
  induction n as [|n IH]; cbn [Pairs]; intros H; [apply d_const|].
  apply (d_add (fun x => Pairs n (fun i j => f i j x)) (fun x => Sum n (fun i => f i n x))); [apply IH; intros; apply H; lia|].
  apply (d_Sum n (fun i => f i n)). intros; apply H; lia.
Qed.
Lemma Sum_0 n f : (forall i, (i < n)%nat -> f i = 0) -> Sum n f = 0.
Proof. induction n as [|n IH]; cbn; intros H; [reflexivity|]. rewrite IH, H by (intros; try apply H; lia). ring. Qed.
Lemma Pairs_0 n f : (forall i j, (i < j)%nat -> (j < n)%nat -> f i j = 0) -> Pairs n f = 0.
Proof. induction n as [|n IH]; cbn; intros H; [reflexivity|]. rewrite IH, Sum_0 by (intros; apply H; lia). ring. Qed.

(* ---- The excess functions as sums over pairs and triplets ---- *)
Section Weighted.
Variables (nc na nn : nat).
(* Molalities, and the weights of the coefficients. *)
Variables (mc uc ma ua mn un : nat -> R) (zc za : nat -> R).
Variables (B Bp Bf C : nat -> nat -> R) (PC PCp PCf PA PAp PAf : nat -> nat -> R).
Variables (sC sA : nat -> nat -> nat -> R) (lC lA : nat -> nat -> R) (zt : nat -> nat -> nat -> R) (F0 S0 Z : R).
Definition vF : R := F0 + Sum nc (fun c => Sum na (fun a => mc c * ma a * Bp c a)) + Pairs nc (fun i j => mc i * mc j * PCp i j) + Pairs na (fun i j => ma i * ma j * PAp i j).
Definition vC (M : nat) : R :=
  Sum na (fun a => ma a * (2 * B M a + Z * C M a)) + Sum nc (fun c => mc c * (2 * PC M c + Sum na (fun a => ma a * sC M c a)))
  + Pairs na (fun i j => ma i * ma j * sA i j M)
  + Sum nc (fun c => Sum na (fun a => Rabs (zc M) * mc c * ma a * C c a))
  + Sum nn (fun n => 2 * mn n * lC n M) + zc M * zc M * vF.
Definition vA (X : nat) : R :=
  Sum nc (fun c => mc c * (2 * B c X + Z * C c X)) + Sum na (fun a => ma a * (2 * PA X a + Sum nc (fun c => mc c * sA X a c)))
  + Pairs nc (fun i j => mc i * mc j * sC i j X)
  + Sum nc (fun c => Sum na (fun a => Rabs (za X) * mc c * ma a * C c a))
  + Sum nn (fun n => 2 * mn n * lA n X) + za X * za X * vF.
Definition vN (N : nat) : R :=
  Sum nc (fun c => 2 * mc c * lC N c) + Sum na (fun a => 2 * ma a * lA N a) + Sum nc (fun c => Sum na (fun a => mc c * ma a * zt N c a)).
Definition vS : R :=
  S0 + Sum nc (fun c => Sum na (fun a => mc c * ma a * (Bf c a + Z * C c a)))
  + Pairs nc (fun i j => mc i * mc j * (PCf i j + Sum na (fun a => ma a * sC i j a)))
  + Pairs na (fun i j => ma i * ma j * (PAf i j + Sum nc (fun c => mc c * sA i j c)))
  + Sum nn (fun n => Sum nc (fun c => mn n * mc c * lC n c))
  + Sum nn (fun n => Sum na (fun a => mn n * ma a * lA n a))
  + Sum nn (fun n => Sum nc (fun c => Sum na (fun a => mn n * mc c * ma a * zt n c a))).
Definition wI : R := / 2 * (Sum nc (fun c => uc c * (zc c * zc c)) + Sum na (fun a => ua a * (za a * za a))).
Definition wZ : R := Sum nc (fun c => uc c * Rabs (zc c)) + Sum na (fun a => ua a * Rabs (za a)).
Definition tCA (c a : nat) : R :=
  2 * wI * (mc c * ma a * Bp c a) + 2 * (uc c * ma a + ua a * mc c) * B c a - 2 * (mc c * ma a * Bf c a)
  + (wZ * (mc c * ma a) + Z * (uc c * ma a + ua a * mc c) - 2 * Z * (mc c * ma a)) * C c a.
Definition tCC (i j : nat) : R :=
  2 * wI * (mc i * mc j * PCp i j) + 2 * (uc i * mc j + uc j * mc i) * PC i j - 2 * (mc i * mc j * PCf i j)
  + Sum na (fun a => (uc i * mc j * ma a + uc j * mc i * ma a + ua a * mc i * mc j - 2 * (mc i * mc j * ma a)) * sC i j a).
Definition tAA (i j : nat) : R :=
  2 * wI * (ma i * ma j * PAp i j) + 2 * (ua i * ma j + ua j * ma i) * PA i j - 2 * (ma i * ma j * PAf i j)
  + Sum nc (fun c => (ua i * ma j * mc c + ua j * ma i * mc c + uc c * ma i * ma j - 2 * (ma i * ma j * mc c)) * sA i j c).
Definition tNC (n c : nat) : R := (2 * (uc c * mn n) + 2 * (un n * mc c) - 2 * (mn n * mc c)) * lC n c.
Definition tNA (n a : nat) : R := (2 * (ua a * mn n) + 2 * (un n * ma a) - 2 * (mn n * ma a)) * lA n a.
Definition tNCA (n c a : nat) : R := (un n * mc c * ma a - 2 * (mn n * mc c * ma a)) * zt n c a.
Hypotheses (HPC : forall i j, (i < nc)%nat -> (j < nc)%nat -> PC i j = PC j i) (HPC0 : forall i, (i < nc)%nat -> PC i i = 0).
Hypotheses (HPA : forall i j, (i < na)%nat -> (j < na)%nat -> PA i j = PA j i) (HPA0 : forall i, (i < na)%nat -> PA i i = 0).
Hypotheses (HsC : forall i j k, sC i j k = sC j i k) (HsC0 : forall i k, sC i i k = 0).
Hypotheses (HsA : forall i j k, sA i j k = sA j i k) (HsA0 : forall i k, sA i i k = 0).

Lemma square_pairs (n : nat) (u m : nat -> R) (P : nat -> nat -> R) :
  (forall i j, (i < n)%nat -> (j < n)%nat -> P i j = P j i) -> (forall i, (i < n)%nat -> P i i = 0) ->
  Sum n (fun i => u i * Sum n (fun j => m j * P i j)) = Pairs n (fun i j => (u i * m j + u j * m i) * P i j).
Proof.
  intros Hs H0. rewrite (Sum_ext n _ (fun i => Sum n (fun j => u i * m j * P i j))).
  2: { intros i _. rewrite <- Sum_scal. apply Sum_ext. intros; ring. }
  rewrite Pairs_square, (Sum_0 n (fun i => u i * m i * P i i)) by (intros i Hi; rewrite H0 by exact Hi; ring). rewrite Rplus_0_r.
  apply Pairs_ext. intros i j Hij Hj. rewrite (Hs j i) by lia. ring.
Qed.
Lemma weighted_ions (n k l : nat) (u m : nat -> R) (z : nat -> R) (v : nat -> R) (X P : nat -> nat -> R) (s : nat -> nat -> nat -> R) (q r : nat -> R) (w1 : nat -> R) (w2 F : R) :
  (forall i j, (i < n)%nat -> (j < n)%nat -> P i j = P j i) -> (forall i, (i < n)%nat -> P i i = 0) ->
  (forall i j a, s i j a = s j i a) -> (forall i a, s i i a = 0) ->
  Sum n (fun M => u M * (Sum k (fun a => v a * X M a) + Sum n (fun c => m c * (2 * P M c + Sum k (fun a => v a * s M c a))) + q M + Rabs (z M) * w2 + r M + z M * z M * F)) =
  Sum n (fun M => Sum k (fun a => u M * v a * X M a)) + Pairs n (fun i j => 2 * (u i * m j + u j * m i) * P i j + Sum k (fun a => (u i * m j * v a + u j * m i * v a) * s i j a))
  + Sum n (fun M => u M * q M) + Sum n (fun M => u M * r M) + Sum n (fun M => u M * Rabs (z M)) * w2 + Sum n (fun M => u M * (z M * z M)) * F.
Proof.
  intros Hs H0 Hs' H0'.
  rewrite (Sum_ext n (fun M => u M * (_ + _ + _ + _ + _ + _)) (fun M => Sum k (fun a => u M * v a * X M a) + u M * Sum n (fun c => m c * (2 * P M c + Sum k (fun a => v a * s M c a))) + u M * q M + u M * r M + w2 * (u M * Rabs (z M)) + F * (u M * (z M * z M)))).
  2: { intros M _. rewrite (Sum_ext k (fun a => u M * v a * X M a) (fun a => u M * (v a * X M a))) by (intros; ring). rewrite Sum_scal. ring. }
  rewrite !Sum_add, !Sum_scal. rewrite (square_pairs n u m (fun i j => 2 * P i j + Sum k (fun a => v a * s i j a))).
  - rewrite (Pairs_ext n (fun i j => (u i * m j + u j * m i) * _) (fun i j => 2 * (u i * m j + u j * m i) * P i j + Sum k (fun a => (u i * m j * v a + u j * m i * v a) * s i j a))); [ring|].
    intros i j _ _. rewrite (Sum_ext k (fun a => (u i * m j * v a + u j * m i * v a) * s i j a) (fun a => (u i * m j + u j * m i) * (v a * s i j a))) by (intros; ring). rewrite Sum_scal. ring.
  - intros i j Hi Hj. rewrite (Hs i j Hi Hj). f_equal. apply Sum_ext. intros a _. rewrite Hs'. reflexivity.
  - intros i Hi. rewrite H0 by exact Hi. rewrite Sum_0; [ring|]. intros a _. rewrite H0'. ring.
Qed.
Lemma weighted : Sum nc (fun M => uc M * vC M) + Sum na (fun X => ua X * vA X) + Sum nn (fun N => un N * vN N) - 2 * vS =
  (2 * wI * F0 - 2 * S0) + Sum nc (fun c => Sum na (fun a => tCA c a)) + Pairs nc tCC + Pairs na tAA
  + Sum nn (fun n => Sum nc (fun c => tNC n c)) + Sum nn (fun n => Sum na (fun a => tNA n a)) + Sum nn (fun n => Sum nc (fun c => Sum na (fun a => tNCA n c a))).
Proof.
  set (w2 := Sum nc (fun c => Sum na (fun a => mc c * ma a * C c a))).
  assert (E2 : forall z, Sum nc (fun c => Sum na (fun a => z * mc c * ma a * C c a)) = z * w2).
  { intros z. unfold w2. rewrite <- Sum_scal. apply Sum_ext. intros c _. rewrite <- Sum_scal. apply Sum_ext. intros a _. ring. }
  assert (Ec : Sum nc (fun M => uc M * vC M) = Sum nc (fun M => Sum na (fun a => uc M * ma a * (2 * B M a + Z * C M a)))
    + Pairs nc (fun i j => 2 * (uc i * mc j + uc j * mc i) * PC i j + Sum na (fun a => (uc i * mc j * ma a + uc j * mc i * ma a) * sC i j a))
    + Sum nc (fun M => uc M * Pairs na (fun i j => ma i * ma j * sA i j M)) + Sum nc (fun M => uc M * Sum nn (fun n => 2 * mn n * lC n M))
    + Sum nc (fun M => uc M * Rabs (zc M)) * w2 + Sum nc (fun M => uc M * (zc M * zc M)) * vF).
  { rewrite <- (weighted_ions nc na nn uc mc zc ma (fun M a => 2 * B M a + Z * C M a) PC sC (fun M => Pairs na (fun i j => ma i * ma j * sA i j M)) (fun M => Sum nn (fun n => 2 * mn n * lC n M)) un w2 vF HPC HPC0 HsC HsC0).
    apply Sum_ext. intros M _. unfold vC. rewrite E2. reflexivity. }
  assert (Ea : Sum na (fun X => ua X * vA X) = Sum na (fun X => Sum nc (fun c => ua X * mc c * (2 * B c X + Z * C c X)))
    + Pairs na (fun i j => 2 * (ua i * ma j + ua j * ma i) * PA i j + Sum nc (fun c => (ua i * ma j * mc c + ua j * ma i * mc c) * sA i j c))
    + Sum na (fun X => ua X * Pairs nc (fun i j => mc i * mc j * sC i j X)) + Sum na (fun X => ua X * Sum nn (fun n => 2 * mn n * lA n X))
    + Sum na (fun X => ua X * Rabs (za X)) * w2 + Sum na (fun X => ua X * (za X * za X)) * vF).
  { rewrite <- (weighted_ions na nc nn ua ma za mc (fun X c => 2 * B c X + Z * C c X) PA sA (fun X => Pairs nc (fun i j => mc i * mc j * sC i j X)) (fun X => Sum nn (fun n => 2 * mn n * lA n X)) un w2 vF HPA HPA0 HsA HsA0).
    apply Sum_ext. intros X _. unfold vA. rewrite E2. reflexivity. }
  assert (En : Sum nn (fun N => un N * vN N) = Sum nn (fun n => Sum nc (fun c => 2 * (un n * mc c) * lC n c)) + Sum nn (fun n => Sum na (fun a => 2 * (un n * ma a) * lA n a))
    + Sum nn (fun n => Sum nc (fun c => Sum na (fun a => un n * mc c * ma a * zt n c a)))).
  { rewrite <- !Sum_add. apply Sum_ext. intros n _. unfold vN. rewrite !Rmult_plus_distr_l, <- !Sum_scal. f_equal; [f_equal|]; apply Sum_ext; intros c _; [ring|ring|].
    rewrite <- Sum_scal. apply Sum_ext. intros a _. ring. }
  rewrite Ec, Ea, En. clear Ec Ea En.
  assert (Eq1 : Sum nc (fun M => uc M * Pairs na (fun i j => ma i * ma j * sA i j M)) = Pairs na (fun i j => Sum nc (fun c => uc c * ma i * ma j * sA i j c))).
  { rewrite Pairs_Sum. apply Sum_ext. intros M _. rewrite <- Pairs_scal. apply Pairs_ext. intros; ring. }
  assert (Eq2 : Sum na (fun X => ua X * Pairs nc (fun i j => mc i * mc j * sC i j X)) = Pairs nc (fun i j => Sum na (fun a => ua a * mc i * mc j * sC i j a))).
  { rewrite Pairs_Sum. apply Sum_ext. intros X _. rewrite <- Pairs_scal. apply Pairs_ext. intros; ring. }
  assert (Er1 : Sum nc (fun M => uc M * Sum nn (fun n => 2 * mn n * lC n M)) = Sum nn (fun n => Sum nc (fun c => 2 * (uc c * mn n) * lC n c))).
  { rewrite (Sum_swap nn nc). apply Sum_ext. intros c _. rewrite <- Sum_scal. apply Sum_ext. intros; ring. }
  assert (Er2 : Sum na (fun X => ua X * Sum nn (fun n => 2 * mn n * lA n X)) = Sum nn (fun n => Sum na (fun a => 2 * (ua a * mn n) * lA n a))).
  { rewrite (Sum_swap nn na). apply Sum_ext. intros c _. rewrite <- Sum_scal. apply Sum_ext. intros; ring. }
  rewrite Eq1, Eq2, Er1, Er2. clear Eq1 Eq2 Er1 Er2 E2.
  assert (ECA : Sum nc (fun c => Sum na (fun a => tCA c a)) = 2 * wI * Sum nc (fun c => Sum na (fun a => mc c * ma a * Bp c a)) + Sum nc (fun M => Sum na (fun a => uc M * ma a * (2 * B M a + Z * C M a)))
    + Sum na (fun X => Sum nc (fun c => ua X * mc c * (2 * B c X + Z * C c X))) + wZ * w2 - 2 * Sum nc (fun c => Sum na (fun a => mc c * ma a * (Bf c a + Z * C c a)))).
  { rewrite (Sum_swap na nc). unfold w2. unfold Rminus. rewrite Ropp_mult_distr_l. rewrite <- !Sum_scal, <- !Sum_add. apply Sum_ext. intros c _. rewrite <- !Sum_scal, <- !Sum_add. apply Sum_ext. intros a _. unfold tCA. ring. }
  assert (ECC : Pairs nc tCC = 2 * wI * Pairs nc (fun i j => mc i * mc j * PCp i j) + Pairs nc (fun i j => 2 * (uc i * mc j + uc j * mc i) * PC i j + Sum na (fun a => (uc i * mc j * ma a + uc j * mc i * ma a) * sC i j a))
    + Pairs nc (fun i j => Sum na (fun a => ua a * mc i * mc j * sC i j a)) - 2 * Pairs nc (fun i j => mc i * mc j * (PCf i j + Sum na (fun a => ma a * sC i j a)))).
  { unfold Rminus. rewrite Ropp_mult_distr_l. rewrite <- !Pairs_scal, <- !Pairs_add. apply Pairs_ext. intros i j _ _. unfold tCC.
    rewrite (Sum_ext na (fun a => (_ + _ + _ - _) * _) (fun a => (uc i * mc j * ma a + uc j * mc i * ma a) * sC i j a + ua a * mc i * mc j * sC i j a + (- 2 * (mc i * mc j)) * (ma a * sC i j a))) by (intros; ring).
    rewrite !Sum_add, Sum_scal. ring. }
  assert (EAA : Pairs na tAA = 2 * wI * Pairs na (fun i j => ma i * ma j * PAp i j) + Pairs na (fun i j => 2 * (ua i * ma j + ua j * ma i) * PA i j + Sum nc (fun c => (ua i * ma j * mc c + ua j * ma i * mc c) * sA i j c))
    + Pairs na (fun i j => Sum nc (fun c => uc c * ma i * ma j * sA i j c)) - 2 * Pairs na (fun i j => ma i * ma j * (PAf i j + Sum nc (fun c => mc c * sA i j c)))).
  { unfold Rminus. rewrite Ropp_mult_distr_l. rewrite <- !Pairs_scal, <- !Pairs_add. apply Pairs_ext. intros i j _ _. unfold tAA.
    rewrite (Sum_ext nc (fun a => (_ + _ + _ - _) * _) (fun a => (ua i * ma j * mc a + ua j * ma i * mc a) * sA i j a + uc a * ma i * ma j * sA i j a + (- 2 * (ma i * ma j)) * (mc a * sA i j a))) by (intros; ring).
    rewrite !Sum_add, Sum_scal. ring. }
  assert (ENC : Sum nn (fun n => Sum nc (fun c => tNC n c)) = Sum nn (fun n => Sum nc (fun c => 2 * (uc c * mn n) * lC n c)) + Sum nn (fun n => Sum nc (fun c => 2 * (un n * mc c) * lC n c)) - 2 * Sum nn (fun n => Sum nc (fun c => mn n * mc c * lC n c))).
  { unfold Rminus. rewrite Ropp_mult_distr_l. rewrite <- !Sum_scal, <- !Sum_add. apply Sum_ext. intros n _. rewrite <- !Sum_scal, <- !Sum_add. apply Sum_ext. intros c _. unfold tNC. ring. }
  assert (ENA : Sum nn (fun n => Sum na (fun a => tNA n a)) = Sum nn (fun n => Sum na (fun a => 2 * (ua a * mn n) * lA n a)) + Sum nn (fun n => Sum na (fun a => 2 * (un n * ma a) * lA n a)) - 2 * Sum nn (fun n => Sum na (fun a => mn n * ma a * lA n a))).
  { unfold Rminus. rewrite Ropp_mult_distr_l. rewrite <- !Sum_scal, <- !Sum_add. apply Sum_ext. intros n _. rewrite <- !Sum_scal, <- !Sum_add. apply Sum_ext. intros c _. unfold tNA. ring. }
  assert (ENCA : Sum nn (fun n => Sum nc (fun c => Sum na (fun a => tNCA n c a))) = Sum nn (fun n => Sum nc (fun c => Sum na (fun a => un n * mc c * ma a * zt n c a))) - 2 * Sum nn (fun n => Sum nc (fun c => Sum na (fun a => mn n * mc c * ma a * zt n c a)))).
  { unfold Rminus. rewrite Ropp_mult_distr_l. rewrite <- !Sum_scal, <- !Sum_add. apply Sum_ext. intros n _. rewrite <- !Sum_scal, <- !Sum_add. apply Sum_ext. intros c _. rewrite <- !Sum_scal, <- !Sum_add. apply Sum_ext. intros a _. unfold tNCA. ring. }
  rewrite ECA, ECC, EAA, ENC, ENA, ENCA. clear ECA ECC EAA ENC ENA ENCA.
  unfold vS, vF, wZ. unfold wI. field.
Qed.
End Weighted.
