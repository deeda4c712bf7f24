(* The Gibbs-Duhem equation of the Pitzer model. *)
From Coq Require Import Reals Qreals List Bool Lia Lra Permutation.
From Coquelicot Require Import Coquelicot.
Import ListNotations.
From Verif Require Import Base M_Strings M_Formula M_Chem M_System M_Registry M_CubicEOS P_Helmholtz P_CubicEOS M_Aqueous S_Activity P_Aqueous P_Activity M_Pitzer P_PitzerSum.
Local Open Scope R_scope.

(* ---- Existence of derivatives ---- *)
Lemma exd_const (c x : R) : ex_derive (fun _ : R => c) x. Proof. exists 0. apply d_const. Qed.
Lemma exd_add f g x : ex_derive f x -> ex_derive g x -> ex_derive (fun x : R => f x + g x) x.
Proof. intros [a H] [b K]. exists (a + b). apply d_add; assumption. Qed.
Lemma exd_mul f g x : ex_derive f x -> ex_derive g x -> ex_derive (fun x : R => f x * g x) x.
Proof. intros [a H] [b K]. eexists. apply d_mul; eassumption. Qed.
Lemma exd_Sum n (f : nat -> R -> R) x : (forall i, (i < n)%nat -> ex_derive (f i) x) -> ex_derive (fun x => Sum n (fun i => f i x)) x.
Proof.
  induction n as [|n IH]; cbn [Sum]; intros H; [apply exd_const|].
  apply (exd_add (fun x => Sum n (fun i => f i x)) (f n)); [apply IH; intros; apply H; lia|apply H; lia].
Qed.
Lemma exd_Pairs n (f : nat -> nat -> R -> R) x : (forall i j, (i < j)%nat -> (j < n)%nat -> ex_derive (f i j) x) -> ex_derive (fun x => Pairs n (fun i j => f i j x)) x.
Proof.
  induction n as [|n IH]; cbn [Pairs]; intros H; [apply exd_const|].
  apply (exd_add (fun x => Pairs n (fun i j => f i j x)) (fun x => Sum n (fun i => f i n x))); [apply IH; intros; apply H; lia|].
  apply (exd_Sum n (fun i => f i n)). intros; apply H; lia.
Qed.
Ltac exd_step := lazymatch goal with
  | |- ex_derive (fun s => Rplus _ _) _ => apply exd_add
  | |- ex_derive (fun s => Rmult _ _) _ => apply exd_mul
  | |- ex_derive (fun s => Sum ?n (fun i => @?f s i)) _ => apply (exd_Sum n (fun i s => f s i)); intros; cbv beta
  | |- ex_derive (fun s => Pairs ?n (fun i j => @?f s i j)) _ => apply (exd_Pairs n (fun i j s => f s i j)); intros; cbv beta
  | |- ex_derive (fun s => ?c) _ => apply exd_const
  end.
Ltac exd := repeat exd_step.

Section Path.
Variables (nc na nn : nat) (mc ma mn : nat -> R -> R) (mc' ma' mn' : nat -> R) (t : R) (zc za : nat -> R).
Variables (B Bp Bf : nat -> nat -> R -> R) (C : nat -> nat -> R) (PC PCp PCf PA PAp PAf : nat -> nat -> R -> R).
Variables (sC sA : nat -> nat -> nat -> R) (lC lA : nat -> nat -> R) (zt : nat -> nat -> nat -> R) (F0 S0 Z : R -> R).
Variables (Bpp PCd PCpp PAd PApp : nat -> nat -> R) (F0' : R).
Definition pI (s : R) : R := wI nc na (fun c => mc c s) (fun a => ma a s) zc za.
Definition pI' : R := wI nc na mc' ma' zc za.
Definition pC (M : nat) (s : R) : R := vC nc na nn (fun c => mc c s) (fun a => ma a s) (fun n => mn n s) zc (fun c a => B c a s) (fun c a => Bp c a s) C
  (fun i j => PC i j s) (fun i j => PCp i j s) (fun i j => PAp i j s) sC sA lC (F0 s) (Z s) M.
Definition pA (X : nat) (s : R) : R := vA nc na nn (fun c => mc c s) (fun a => ma a s) (fun n => mn n s) za (fun c a => B c a s) (fun c a => Bp c a s) C
  (fun i j => PCp i j s) (fun i j => PA i j s) (fun i j => PAp i j s) sC sA lA (F0 s) (Z s) X.
Definition pN (N : nat) (s : R) : R := vN nc na (fun c => mc c s) (fun a => ma a s) lC lA zt N.
Definition pS (s : R) : R := vS nc na nn (fun c => mc c s) (fun a => ma a s) (fun n => mn n s) (fun c a => Bf c a s) C
  (fun i j => PCf i j s) (fun i j => PAf i j s) sC sA lC lA zt (S0 s) (Z s).
Hypotheses (Hc : forall c, (c < nc)%nat -> is_derive (mc c) t (mc' c)) (Ha : forall a, (a < na)%nat -> is_derive (ma a) t (ma' a)) (Hn : forall n, (n < nn)%nat -> is_derive (mn n) t (mn' n)).
Hypotheses (HB : forall c a, (c < nc)%nat -> (a < na)%nat -> is_derive (B c a) t (Bp c a t * pI') /\ is_derive (Bp c a) t (Bpp c a) /\
  is_derive (Bf c a) t (2 * pI' * Bp c a t + pI t * Bpp c a) /\ Bf c a t = B c a t + pI t * Bp c a t).
Hypotheses (HP : forall i j, (i < nc)%nat -> (j < nc)%nat -> is_derive (PC i j) t (PCd i j) /\ is_derive (PCp i j) t (PCpp i j) /\
  is_derive (PCf i j) t (PCd i j + pI' * PCp i j t + pI t * PCpp i j) /\ PCf i j t = PC i j t + pI t * PCp i j t).
Hypotheses (HQ : forall i j, (i < na)%nat -> (j < na)%nat -> is_derive (PA i j) t (PAd i j) /\ is_derive (PAp i j) t (PApp i j) /\
  is_derive (PAf i j) t (PAd i j + pI' * PAp i j t + pI t * PApp i j) /\ PAf i j t = PA i j t + pI t * PAp i j t).
Hypotheses (HPC : forall s i j, (i < nc)%nat -> (j < nc)%nat -> PC i j s = PC j i s) (HPC0 : forall s i, (i < nc)%nat -> PC i i s = 0).
Hypotheses (HPA : forall s i j, (i < na)%nat -> (j < na)%nat -> PA i j s = PA j i s) (HPA0 : forall s i, (i < na)%nat -> PA i i s = 0).
Hypotheses (HsC : forall i j k, sC i j k = sC j i k) (HsC0 : forall i k, sC i i k = 0).
Hypotheses (HsA : forall i j k, sA i j k = sA j i k) (HsA0 : forall i k, sA i i k = 0).
Hypotheses (HF : is_derive F0 t F0') (HS : is_derive S0 t (pI t * F0')).
Hypothesis HZ : forall s, Z s = wZ nc na (fun c => mc c s) (fun a => ma a s) zc za.

Lemma Z_derive : exists Z', is_derive Z t Z'.
Proof.
  assert (ex_derive Z t) as [Z' H]; [|exists Z'; exact H].
  apply (ex_derive_ext (fun s => wZ nc na (fun c => mc c s) (fun a => ma a s) zc za)); [intros s; symmetry; apply HZ|].
  unfold wZ. exd; eexists; [apply Hc|apply Ha]; assumption.
Qed.
Let total (s : R) : R := Sum nc (fun M => mc M t * pC M s) + Sum na (fun X => ma X t * pA X s) + Sum nn (fun N => mn N t * pN N s) - 2 * pS s.
Definition excess : R := Pairs nc (fun i j => 2 * (mc i t * mc j t) * (PCd i j - pI' * PCp i j t)) + Pairs na (fun i j => 2 * (ma i t * ma j t) * (PAd i j - pI' * PAp i j t))
  - Sum nn (fun n => Sum nc (fun c => Sum na (fun a => zt n c a * (mn n t * (mc' c * ma a t + mc c t * ma' a) + 2 * (mn' n * mc c t * ma a t))))).
Lemma d_total_excess : is_derive total t excess.
Proof.
  destruct Z_derive as [Z' DZ].
  apply (is_derive_ext (fun s => (2 * pI t * F0 s - 2 * S0 s)
    + Sum nc (fun c => Sum na (fun a => tCA nc na (fun c => mc c s) (fun c => mc c t) (fun a => ma a s) (fun a => ma a t) zc za (fun c a => B c a s) (fun c a => Bp c a s) (fun c a => Bf c a s) C (Z s) c a))
    + Pairs nc (fun i j => tCC nc na (fun c => mc c s) (fun c => mc c t) (fun a => ma a s) (fun a => ma a t) zc za (fun i j => PC i j s) (fun i j => PCp i j s) (fun i j => PCf i j s) sC i j)
    + Pairs na (fun i j => tAA nc na (fun c => mc c s) (fun c => mc c t) (fun a => ma a s) (fun a => ma a t) zc za (fun i j => PA i j s) (fun i j => PAp i j s) (fun i j => PAf i j s) sA i j)
    + Sum nn (fun n => Sum nc (fun c => tNC (fun c => mc c s) (fun c => mc c t) (fun n => mn n s) (fun n => mn n t) lC n c))
    + Sum nn (fun n => Sum na (fun a => tNA (fun a => ma a s) (fun a => ma a t) (fun n => mn n s) (fun n => mn n t) lA n a))
    + Sum nn (fun n => Sum nc (fun c => Sum na (fun a => tNCA (fun c => mc c s) (fun a => ma a s) (fun n => mn n s) (fun n => mn n t) zt n c a))))).
  { intros s. symmetry. unfold total, pC, pA, pN, pS. apply weighted; auto. }
  eapply d_val.
  - apply d_add; [apply d_add; [apply d_add; [apply d_add; [apply d_add; [apply d_add|]|]|]|]|].
    + apply d_sub; [apply d_mul; [apply d_const|exact HF]|apply d_mul; [apply d_const|exact HS]].
    + apply (d_Sum nc (fun c s => Sum na (fun a => tCA nc na (fun c => mc c s) (fun c => mc c t) (fun a => ma a s) (fun a => ma a t) zc za (fun c a => B c a s) (fun c a => Bp c a s) (fun c a => Bf c a s) C (Z s) c a)) (fun _ => 0)).
      intros c Lc. eapply d_val; [apply (d_Sum na (fun a s => tCA nc na (fun c => mc c s) (fun c => mc c t) (fun a => ma a s) (fun a => ma a t) zc za (fun c a => B c a s) (fun c a => Bp c a s) (fun c a => Bf c a s) C (Z s) c a) (fun _ => 0))|apply Sum_0; reflexivity].
      intros a La. destruct (HB c a Lc La) as (D1 & D2 & D3 & E). specialize (Hc c Lc). specialize (Ha a La). unfold tCA. fold (pI t). rewrite <- HZ.
      eapply d_val; [apply d_add; [apply d_sub; [apply d_add; [apply d_mul; [apply d_const|apply d_mul; [apply d_mul; [exact Hc|exact Ha]|exact D2]]|apply d_mul; [apply d_mul; [apply d_const|apply d_add; [apply d_mul; [apply d_const|exact Ha]|apply d_mul; [apply d_const|exact Hc]]]|exact D1]]|apply d_mul; [apply d_const|apply d_mul; [apply d_mul; [exact Hc|exact Ha]|exact D3]]]|apply d_mul; [apply d_sub; [apply d_add; [apply d_mul; [apply d_const|apply d_mul; [exact Hc|exact Ha]]|apply d_mul; [exact DZ|apply d_add; [apply d_mul; [apply d_const|exact Ha]|apply d_mul; [apply d_const|exact Hc]]]]|apply d_mul; [apply d_mul; [apply d_const|exact DZ]|apply d_mul; [exact Hc|exact Ha]]]|apply d_const]]|].
      cbv beta. rewrite E. ring.
    + apply (d_Pairs nc (fun i j s => tCC nc na (fun c => mc c s) (fun c => mc c t) (fun a => ma a s) (fun a => ma a t) zc za (fun i j => PC i j s) (fun i j => PCp i j s) (fun i j => PCf i j s) sC i j) (fun i j => 2 * (mc i t * mc j t) * (PCd i j - pI' * PCp i j t))).
      intros i j Lij Lj. destruct (HP i j ltac:(lia) Lj) as (D1 & D2 & D3 & E). pose proof (Hc i ltac:(lia)) as Hi. pose proof (Hc j Lj) as Hj. unfold tCC. fold (pI t).
      eapply d_val; [apply d_add; [apply d_sub; [apply d_add; [apply d_mul; [apply d_const|apply d_mul; [apply d_mul; [exact Hi|exact Hj]|exact D2]]|apply d_mul; [apply d_mul; [apply d_const|apply d_add; [apply d_mul; [apply d_const|exact Hj]|apply d_mul; [apply d_const|exact Hi]]]|exact D1]]|apply d_mul; [apply d_const|apply d_mul; [apply d_mul; [exact Hi|exact Hj]|exact D3]]]|]|].
      * apply (d_Sum na (fun a s => (mc i t * mc j s * ma a s + mc j t * mc i s * ma a s + ma a t * mc i s * mc j s - 2 * (mc i s * mc j s * ma a s)) * sC i j a) (fun _ => 0)).
        intros a La. specialize (Ha a La). eapply d_val; [apply d_mul; [apply d_sub; [apply d_add; [apply d_add|]|apply d_mul; [apply d_const|]]|apply d_const]|].
        { apply d_mul; [apply d_mul; [apply d_const|exact Hj]|exact Ha]. } { apply d_mul; [apply d_mul; [apply d_const|exact Hi]|exact Ha]. } { apply d_mul; [apply d_mul; [apply d_const|exact Hi]|exact Hj]. } { apply d_mul; [apply d_mul; [exact Hi|exact Hj]|exact Ha]. }
        cbv beta. ring.
      * cbv beta. rewrite E. rewrite Sum_0 by reflexivity. ring.
    + apply (d_Pairs na (fun i j s => tAA nc na (fun c => mc c s) (fun c => mc c t) (fun a => ma a s) (fun a => ma a t) zc za (fun i j => PA i j s) (fun i j => PAp i j s) (fun i j => PAf i j s) sA i j) (fun i j => 2 * (ma i t * ma j t) * (PAd i j - pI' * PAp i j t))).
      intros i j Lij Lj. destruct (HQ i j ltac:(lia) Lj) as (D1 & D2 & D3 & E). pose proof (Ha i ltac:(lia)) as Hi. pose proof (Ha j Lj) as Hj. unfold tAA. fold (pI t).
      eapply d_val; [apply d_add; [apply d_sub; [apply d_add; [apply d_mul; [apply d_const|apply d_mul; [apply d_mul; [exact Hi|exact Hj]|exact D2]]|apply d_mul; [apply d_mul; [apply d_const|apply d_add; [apply d_mul; [apply d_const|exact Hj]|apply d_mul; [apply d_const|exact Hi]]]|exact D1]]|apply d_mul; [apply d_const|apply d_mul; [apply d_mul; [exact Hi|exact Hj]|exact D3]]]|]|].
      * apply (d_Sum nc (fun c s => (ma i t * ma j s * mc c s + ma j t * ma i s * mc c s + mc c t * ma i s * ma j s - 2 * (ma i s * ma j s * mc c s)) * sA i j c) (fun _ => 0)).
        intros c Lc. specialize (Hc c Lc). eapply d_val; [apply d_mul; [apply d_sub; [apply d_add; [apply d_add|]|apply d_mul; [apply d_const|]]|apply d_const]|].
        { apply d_mul; [apply d_mul; [apply d_const|exact Hj]|exact Hc]. } { apply d_mul; [apply d_mul; [apply d_const|exact Hi]|exact Hc]. } { apply d_mul; [apply d_mul; [apply d_const|exact Hi]|exact Hj]. } { apply d_mul; [apply d_mul; [exact Hi|exact Hj]|exact Hc]. }
        cbv beta. ring.
      * cbv beta. rewrite E. rewrite Sum_0 by reflexivity. ring.
    + apply (d_Sum nn (fun n s => Sum nc (fun c => tNC (fun c => mc c s) (fun c => mc c t) (fun n => mn n s) (fun n => mn n t) lC n c)) (fun _ => 0)).
      intros n Ln. eapply d_val; [apply (d_Sum nc (fun c s => tNC (fun c => mc c s) (fun c => mc c t) (fun n => mn n s) (fun n => mn n t) lC n c) (fun _ => 0))|apply Sum_0; reflexivity].
      intros c Lc. specialize (Hc c Lc). specialize (Hn n Ln). unfold tNC.
      eapply d_val; [apply d_mul; [apply d_sub; [apply d_add; [apply d_mul; [apply d_const|apply d_mul; [apply d_const|exact Hn]]|apply d_mul; [apply d_const|apply d_mul; [apply d_const|exact Hc]]]|apply d_mul; [apply d_const|apply d_mul; [exact Hn|exact Hc]]]|apply d_const]|]. cbv beta. ring.
    + apply (d_Sum nn (fun n s => Sum na (fun c => tNA (fun c => ma c s) (fun c => ma c t) (fun n => mn n s) (fun n => mn n t) lA n c)) (fun _ => 0)).
      intros n Ln. eapply d_val; [apply (d_Sum na (fun c s => tNA (fun c => ma c s) (fun c => ma c t) (fun n => mn n s) (fun n => mn n t) lA n c) (fun _ => 0))|apply Sum_0; reflexivity].
      intros a La. specialize (Ha a La). specialize (Hn n Ln). unfold tNA.
      eapply d_val; [apply d_mul; [apply d_sub; [apply d_add; [apply d_mul; [apply d_const|apply d_mul; [apply d_const|exact Hn]]|apply d_mul; [apply d_const|apply d_mul; [apply d_const|exact Ha]]]|apply d_mul; [apply d_const|apply d_mul; [exact Hn|exact Ha]]]|apply d_const]|]. cbv beta. ring.
    + apply (d_Sum nn (fun n s => Sum nc (fun c => Sum na (fun a => tNCA (fun c => mc c s) (fun a => ma a s) (fun n => mn n s) (fun n => mn n t) zt n c a)))
        (fun n => Sum nc (fun c => Sum na (fun a => - (zt n c a * (mn n t * (mc' c * ma a t + mc c t * ma' a) + 2 * (mn' n * mc c t * ma a t))))))).
      intros n Ln. apply (d_Sum nc (fun c s => Sum na (fun a => tNCA (fun c => mc c s) (fun a => ma a s) (fun n => mn n s) (fun n => mn n t) zt n c a))).
      intros c Lc. apply (d_Sum na (fun a s => tNCA (fun c => mc c s) (fun a => ma a s) (fun n => mn n s) (fun n => mn n t) zt n c a)).
      intros a La. specialize (Hc c Lc). specialize (Ha a La). specialize (Hn n Ln). unfold tNCA.
      eapply d_val; [apply d_mul; [apply d_sub; [apply d_mul; [apply d_mul; [apply d_const|exact Hc]|exact Ha]|apply d_mul; [apply d_const|apply d_mul; [apply d_mul; [exact Hn|exact Hc]|exact Ha]]]|apply d_const]|]. cbv beta. ring.
  - cbv beta. unfold excess. rewrite !Sum_0 by reflexivity.
    assert (N : forall k f, Sum k (fun i => - f i) = - Sum k f).
    { intros k f. rewrite (Sum_ext k _ (fun i => (- 1) * f i)) by (intros; ring). rewrite Sum_scal. ring. }
    rewrite (Sum_ext nn (fun n => Sum nc _) (fun n => - Sum nc (fun c => Sum na (fun a => zt n c a * (mn n t * (mc' c * ma a t + mc c t * ma' a) + 2 * (mn' n * mc c t * ma a t)))))).
    + rewrite N. ring.
    + intros n _. rewrite <- N. apply Sum_ext. intros c _. rewrite N. reflexivity.
Qed.
Ltac leaf := lazymatch goal with
    | |- ex_derive F0 _ => exists F0'; exact HF
    | |- ex_derive S0 _ => exists (pI t * F0'); exact HS
    | H : is_derive Z t ?d |- ex_derive Z _ => exists d; exact H
    | |- ex_derive (mc ?c) _ => exists (mc' c); apply Hc; lia
    | |- ex_derive (ma ?c) _ => exists (ma' c); apply Ha; lia
    | |- ex_derive (mn ?c) _ => exists (mn' c); apply Hn; lia
    | |- ex_derive (B ?c ?a) _ => eexists; apply (proj1 (HB c a ltac:(lia) ltac:(lia)))
    | |- ex_derive (Bp ?c ?a) _ => eexists; apply (proj1 (proj2 (HB c a ltac:(lia) ltac:(lia))))
    | |- ex_derive (Bf ?c ?a) _ => eexists; apply (proj1 (proj2 (proj2 (HB c a ltac:(lia) ltac:(lia)))))
    | |- ex_derive (PC ?c ?a) _ => eexists; apply (proj1 (HP c a ltac:(lia) ltac:(lia)))
    | |- ex_derive (PCp ?c ?a) _ => eexists; apply (proj1 (proj2 (HP c a ltac:(lia) ltac:(lia))))
    | |- ex_derive (PCf ?c ?a) _ => eexists; apply (proj1 (proj2 (proj2 (HP c a ltac:(lia) ltac:(lia)))))
    | |- ex_derive (PA ?c ?a) _ => eexists; apply (proj1 (HQ c a ltac:(lia) ltac:(lia)))
    | |- ex_derive (PAp ?c ?a) _ => eexists; apply (proj1 (proj2 (HQ c a ltac:(lia) ltac:(lia))))
    | |- ex_derive (PAf ?c ?a) _ => eexists; apply (proj1 (proj2 (proj2 (HQ c a ltac:(lia) ltac:(lia)))))
    end.
Lemma exd_F : ex_derive (fun s => vF nc na (fun c => mc c s) (fun a => ma a s) (fun c a => Bp c a s) (fun i j => PCp i j s) (fun i j => PAp i j s) (F0 s)) t.
Proof.
  unfold vF. exd; leaf.
Qed.
Lemma duhem_path : exists (dC dA dN : nat -> R) (dS : R),
  (forall M, (M < nc)%nat -> is_derive (pC M) t (dC M)) /\ (forall X, (X < na)%nat -> is_derive (pA X) t (dA X)) /\ (forall N, (N < nn)%nat -> is_derive (pN N) t (dN N)) /\ is_derive pS t dS /\
  Sum nc (fun M => mc M t * dC M) + Sum na (fun X => ma X t * dA X) + Sum nn (fun N => mn N t * dN N) - 2 * dS = excess.
Proof.
  destruct Z_derive as [Z' DZ]. pose proof exd_F as EF.
  assert (EC : forall M, (M < nc)%nat -> ex_derive (pC M) t).
  { intros M LM. unfold pC, vC. exd; first [leaf | exact EF]. }
  assert (EA : forall X, (X < na)%nat -> ex_derive (pA X) t).
  { intros X LX. unfold pA, vA. exd; first [leaf | exact EF]. }
  assert (EN : forall N, (N < nn)%nat -> ex_derive (pN N) t).
  { intros N LN. unfold pN, vN. exd; leaf. }
  assert (ES : ex_derive pS t).
  { unfold pS, vS. exd; leaf. }
  exists (fun M => Derive (pC M) t), (fun X => Derive (pA X) t), (fun N => Derive (pN N) t), (Derive pS t).
  split; [intros M LM; apply Derive_correct, EC, LM|]. split; [intros X LX; apply Derive_correct, EA, LX|]. split; [intros N LN; apply Derive_correct, EN, LN|]. split; [apply Derive_correct, ES|].
  rewrite <- (is_derive_unique _ _ _ d_total_excess). symmetry. apply is_derive_unique. unfold total.
  apply d_sub; [apply d_add; [apply d_add|]|].
  - apply (d_Sum nc (fun M s => mc M t * pC M s)). intros M LM. eapply d_val; [apply d_mul; [apply d_const|apply Derive_correct, EC, LM]|cbv beta; ring].
  - apply (d_Sum na (fun M s => ma M t * pA M s)). intros M LM. eapply d_val; [apply d_mul; [apply d_const|apply Derive_correct, EA, LM]|cbv beta; ring].
  - apply (d_Sum nn (fun M s => mn M t * pN M s)). intros M LM. eapply d_val; [apply d_mul; [apply d_const|apply Derive_correct, EN, LM]|cbv beta; ring].
  - eapply d_val; [apply d_mul; [apply d_const|apply Derive_correct, ES]|cbv beta; ring].
Qed.
End Path.
