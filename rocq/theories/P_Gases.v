(* Lemmas about the virial equation of Spycher and Reed. *)
From Coq Require Import Reals List Bool Lia Lra Permutation.
From Coquelicot Require Import Coquelicot.
Import ListNotations.
From Verif Require Import Base M_Strings M_Formula M_Chem M_Algorithms M_System M_Roots M_CubicEOS M_Aqueous P_Algorithms P_Helmholtz P_CubicEOS P_Aqueous P_Activity M_Gases.
Local Open Scope R_scope.

Lemma d_B T i j : T <> 0 -> is_derive (fun T => computeB T i j) T (computeBT T i j).
Proof. intros H. unfold computeB, computeBT. auto_derive; [repeat split; auto; apply Rmult_integral_contrapositive; auto|]. field. exact H. Qed.
Lemma d_BT T i j : T <> 0 -> is_derive (fun T => computeBT T i j) T (computeBTT T i j).
Proof. intros H. unfold computeBT, computeBTT. auto_derive; [repeat split; auto; apply Rmult_integral_contrapositive; auto|]. field. exact H. Qed.
Lemma d_C T i j k : T <> 0 -> is_derive (fun T => computeC T i j k) T (computeCT T i j k).
Proof. intros H. unfold computeC, computeCT. auto_derive; [repeat split; auto; apply Rmult_integral_contrapositive; auto|]. field. exact H. Qed.
Lemma d_CT T i j k : T <> 0 -> is_derive (fun T => computeCT T i j k) T (computeCTT T i j k).
Proof. intros H. unfold computeCT, computeCTT. auto_derive; [repeat split; auto; apply Rmult_integral_contrapositive; auto|]. field. exact H. Qed.
Lemma d_mix2 y (B B' : R -> nat -> nat -> R) T : (forall i j, is_derive (fun T => B T i j) T (B' T i j)) -> is_derive (fun T => mix2 y (B T)) T (mix2 y (B' T)).
Proof.
  intros H. unfold mix2. apply (d_Sum 3 (fun i T => Sum 3 (fun k => y i * y k * B T i k))). intros i _. apply (d_Sum 3 (fun k T => y i * y k * B T i k)). intros k _.
  eapply d_val; [apply d_mul; [apply d_const|apply H]|]. cbn beta. ring.
Qed.
Lemma d_mix3 y (C C' : R -> nat -> nat -> nat -> R) T : (forall i j k, is_derive (fun T => C T i j k) T (C' T i j k)) -> is_derive (fun T => mix3 y (C T)) T (mix3 y (C' T)).
Proof.
  intros H. unfold mix3. apply (d_Sum 3 (fun i T => Sum 3 (fun k => Sum 3 (fun l => y i * y k * y l * C T i k l)))). intros i _. apply (d_Sum 3 (fun k T => Sum 3 (fun l => y i * y k * y l * C T i k l))). intros k _.
  apply (d_Sum 3 (fun l T => y i * y k * y l * C T i k l)). intros l _. eapply d_val; [apply d_mul; [apply d_const|apply H]|]. cbn beta. ring.
Qed.
(* The tables are symmetric. *)
Lemma B_sym T i j : (i < 3)%nat -> (j < 3)%nat -> computeB T i j = computeB T j i.
Proof. intros Hi Hj. destruct i as [|[|[|]]], j as [|[|[|]]]; try lia; reflexivity. Qed.
Lemma C_sym T i j k : (i < 3)%nat -> (j < 3)%nat -> (k < 3)%nat -> computeC T i j k = computeC T j i k /\ computeC T i j k = computeC T i k j.
Proof. intros Hi Hj Hk. destruct i as [|[|[|]]], j as [|[|[|]]], k as [|[|[|]]]; try lia; split; reflexivity. Qed.

Section Derivatives.
Variables (y : nat -> R).
(* Reduced Gibbs energy, volume and enthalpy. *)
Definition gred (T P : R) : R := (mix2 y (computeB T) + 0.5 * mix3 y (computeC T) * (1e-5 * P)) * (1e-5 * P).
Lemma d_gred_P T P : is_derive (fun P => gred T P) P (1e-5 * (mix2 y (computeB T) + mix3 y (computeC T) * (1e-5 * P))).
Proof. unfold gred. generalize (mix2 y (computeB T)) (mix3 y (computeC T)). intros b c. replace 0.5 with (/ 2) by lra. auto_derive; [exact I|]. field. Qed.
Lemma d_gred_T T P : T <> 0 -> is_derive (fun T => gred T P) T ((mix2 y (computeBT T) + 0.5 * mix3 y (computeCT T) * (1e-5 * P)) * (1e-5 * P)).
Proof.
  intros H. unfold gred. eapply d_val; [apply d_mul; [apply d_add; [apply (d_mix2 y computeB computeBT); intros; apply d_B; exact H|apply d_mul; [apply d_mul; [apply d_const|apply (d_mix3 y computeC computeCT); intros; apply d_C; exact H]|apply d_const]]|apply d_const]|]. cbn beta. ring.
Qed.
Definition gredT (T P : R) : R := (mix2 y (computeBT T) + 0.5 * mix3 y (computeCT T) * (1e-5 * P)) * (1e-5 * P).
Lemma d_gredT_T T P : T <> 0 -> is_derive (fun T => gredT T P) T ((mix2 y (computeBTT T) + 0.5 * mix3 y (computeCTT T) * (1e-5 * P)) * (1e-5 * P)).
Proof.
  intros H. unfold gredT. eapply d_val; [apply d_mul; [apply d_add; [apply (d_mix2 y computeBT computeBTT); intros; apply d_BT; exact H|apply d_mul; [apply d_mul; [apply d_const|apply (d_mix3 y computeCT computeCTT); intros; apply d_CT; exact H]|apply d_const]]|apply d_const]|]. cbn beta. ring.
Qed.
Lemma d_Z_T T P : T <> 0 -> is_derive (fun T => sr_Z T P y) T (sr_ZT T P y).
Proof.
  intros H. unfold sr_Z, sr_ZT. cbn zeta. eapply d_val; [apply d_add; [apply d_add; [apply d_const|apply d_mul; [apply (d_mix2 y computeB computeBT); intros; apply d_B; exact H|apply d_const]]|apply d_mul; [apply d_mul; [apply (d_mix3 y computeC computeCT); intros; apply d_C; exact H|apply d_const]|apply d_const]]|]. cbn beta. ring.
Qed.
Lemma d_Z_P T P : is_derive (fun P => sr_Z T P y) P (sr_ZP T P y).
Proof. unfold sr_Z, sr_ZP. cbn zeta. generalize (mix2 y (computeB T)) (mix3 y (computeC T)). intros b c. auto_derive; [exact I|]. ring. Qed.
End Derivatives.

(* ---- Fugacity coefficients ---- *)
Lemma pick_one g (f : nat -> R) : (g < 3)%nat -> Sum 3 (fun i => (if Nat.eqb i g then 1 else 0) * f i) = f g.
Proof. intros H. destruct g as [|[|[|]]]; try lia; cbn; ring. Qed.
Section Molar.
Variables (T P : R).
Let B := computeB T.
Let C := computeC T.
Let p := 1e-5 * P.
(* The gas with index g has amount s, the others M. *)
Definition amount (M : nat -> R) (g : nat) (s : R) : nat -> R := fun i => if Nat.eqb i g then s else M i.
Lemma d_amount M g s i : is_derive (fun s => amount M g s i) s (if Nat.eqb i g then 1 else 0).
Proof. unfold amount. destruct (Nat.eqb i g); [apply d_id|apply d_const]. Qed.
Definition total_gred (M : nat -> R) : R := Sum 3 M * gred (fun i => M i / Sum 3 M) T P.
Lemma total_gred_eq M : Sum 3 M <> 0 -> total_gred M = (mix2 M B / Sum 3 M + 0.5 * mix3 M C * p / (Sum 3 M * Sum 3 M)) * p.
Proof.
  intros H. unfold total_gred, gred. fold p.
  assert (E2 : mix2 (fun i => M i / Sum 3 M) B = mix2 M B / (Sum 3 M * Sum 3 M)).
  { set (N := Sum 3 M) in *. unfold mix2. cbn [Sum]. field. exact H. }
  assert (E3 : mix3 (fun i => M i / Sum 3 M) C = mix3 M C / (Sum 3 M * Sum 3 M * Sum 3 M)).
  { set (N := Sum 3 M) in *. unfold mix3. cbn [Sum]. field. exact H. }
  fold B C. rewrite E2, E3. field. exact H.
Qed.
Lemma d_mix2_y (Y : R -> nat -> R) (Y' : nat -> R) t : (forall i, (i < 3)%nat -> is_derive (fun s => Y s i) t (Y' i)) ->
  is_derive (fun s => mix2 (Y s) B) t (2 * Sum 3 (fun i => Y' i * Sum 3 (fun k => Y t k * B i k))).
Proof.
  intros H. unfold mix2. eapply d_val; [apply (d_Sum 3 (fun i s => Sum 3 (fun k => Y s i * Y s k * B i k))); intros i Hi; apply (d_Sum 3 (fun k s => Y s i * Y s k * B i k)); intros k Hk; apply d_mul; [apply d_mul; [apply H; exact Hi|apply H; exact Hk]|apply d_const]|].
  cbn beta. cbn [Sum]. unfold B. rewrite (B_sym T 1 0), (B_sym T 2 0), (B_sym T 2 1) by lia. ring.
Qed.
Lemma d_mix3_y (Y : R -> nat -> R) (Y' : nat -> R) t : (forall i, (i < 3)%nat -> is_derive (fun s => Y s i) t (Y' i)) ->
  is_derive (fun s => mix3 (Y s) C) t (3 * Sum 3 (fun i => Y' i * Sum 3 (fun k => Sum 3 (fun l => Y t k * Y t l * C i k l)))).
Proof.
  intros H. unfold mix3. eapply d_val; [apply (d_Sum 3 (fun i s => Sum 3 (fun k => Sum 3 (fun l => Y s i * Y s k * Y s l * C i k l)))); intros i Hi; apply (d_Sum 3 (fun k s => Sum 3 (fun l => Y s i * Y s k * Y s l * C i k l))); intros k Hk;
    apply (d_Sum 3 (fun l s => Y s i * Y s k * Y s l * C i k l)); intros l Hl; apply d_mul; [apply d_mul; [apply d_mul; [apply H; exact Hi|apply H; exact Hk]|apply H; exact Hl]|apply d_const]|].
  cbn beta. cbn [Sum]. unfold C.
  change (computeC T 1 0 0) with (computeC T 0 0 1). change (computeC T 0 1 0) with (computeC T 0 0 1). change (computeC T 2 0 0) with (computeC T 0 0 2). change (computeC T 0 2 0) with (computeC T 0 0 2).
  change (computeC T 1 0 1) with (computeC T 0 1 1). change (computeC T 1 1 0) with (computeC T 0 1 1). change (computeC T 2 0 2) with (computeC T 0 2 2). change (computeC T 2 2 0) with (computeC T 0 2 2).
  change (computeC T 2 1 1) with (computeC T 1 1 2). change (computeC T 1 2 1) with (computeC T 1 1 2). change (computeC T 2 1 2) with (computeC T 1 2 2). change (computeC T 2 2 1) with (computeC T 1 2 2).
  change (computeC T 0 2 1) with (computeC T 0 1 2). change (computeC T 1 0 2) with (computeC T 0 1 2). change (computeC T 1 2 0) with (computeC T 0 1 2). change (computeC T 2 0 1) with (computeC T 0 1 2). change (computeC T 2 1 0) with (computeC T 0 1 2).
  ring.
Qed.
Lemma d_total_gred M g : (g < 3)%nat -> Sum 3 M <> 0 ->
  is_derive (fun s => total_gred (amount M g s)) (M g) (sr_lnphi T P (fun i => M i / Sum 3 M) g).
Proof.
  intros Hg H. assert (Es : forall i, amount M g (M g) i = M i) by (intros i; unfold amount; destruct (Nat.eqb_spec i g); [subst; reflexivity|reflexivity]).
  assert (DN : is_derive (fun s => Sum 3 (amount M g s)) (M g) 1).
  { eapply d_val; [apply (d_Sum 3 (fun i s => amount M g s i)); intros i _; apply d_amount|]. apply eq_trans with (2 := pick_one g (fun _ => 1) Hg). apply Sum_ext. intros i _. rewrite Rmult_1_r. reflexivity. }
  assert (N0 : Sum 3 (amount M g (M g)) = Sum 3 M) by (apply Sum_ext; intros; apply Es).
  assert (L : locally (M g) (fun s => Sum 3 (amount M g s) <> 0)).
  { assert (Cn : continuous (fun s => Sum 3 (amount M g s)) (M g)) by (apply (ex_derive_continuous (fun s => Sum 3 (amount M g s))); exists 1; exact DN).
    apply (Cn (fun u => u <> 0)). rewrite N0. destruct (Rtotal_order (Sum 3 M) 0) as [Hl|[He|Hg']]; [|contradiction|].
    - apply (filter_imp (fun u => u < 0)); [intros; lra|]. apply (open_lt 0). exact Hl.
    - apply (filter_imp (fun u => 0 < u)); [intros; lra|]. apply (open_gt 0). exact Hg'. }
  apply (is_derive_ext_loc (fun s => (mix2 (amount M g s) B / Sum 3 (amount M g s) + 0.5 * mix3 (amount M g s) C * p / (Sum 3 (amount M g s) * Sum 3 (amount M g s))) * p)).
  { apply (filter_imp _ _ (fun s Hs => eq_sym (total_gred_eq (amount M g s) Hs)) L). }
  assert (D2 := d_mix2_y (fun s => amount M g s) (fun i => if Nat.eqb i g then 1 else 0) (M g) (fun i _ => d_amount M g (M g) i)).
  assert (D3 := d_mix3_y (fun s => amount M g s) (fun i => if Nat.eqb i g then 1 else 0) (M g) (fun i _ => d_amount M g (M g) i)).
  cbn beta in D2, D3.
  rewrite (pick_one g (fun i => Sum 3 (fun k => amount M g (M g) k * B i k)) Hg) in D2. rewrite (pick_one g (fun i => Sum 3 (fun k => Sum 3 (fun l => amount M g (M g) k * amount M g (M g) l * C i k l))) Hg) in D3.
  eapply d_val.
  { apply d_mul; [apply d_add; [apply d_div; [exact D2|exact DN|rewrite N0; exact H]|apply d_div; [apply d_mul; [apply d_mul; [apply d_const|exact D3]|apply d_const]|apply d_mul; [exact DN|exact DN]|rewrite N0; apply Rmult_integral_contrapositive; auto]]|apply d_const]. }
  cbn beta. rewrite N0. set (N := Sum 3 M) in *.
  assert (E2 : mix2 (amount M g (M g)) B = mix2 M B) by (unfold mix2; apply Sum_ext; intros; apply Sum_ext; intros; rewrite !Es; reflexivity).
  assert (E3 : mix3 (amount M g (M g)) C = mix3 M C) by (unfold mix3; apply Sum_ext; intros; apply Sum_ext; intros; apply Sum_ext; intros; rewrite !Es; reflexivity).
  rewrite E2, E3. rewrite (Sum_ext 3 (fun k => amount M g (M g) k * B g k) (fun k => M k * B g k)) by (intros; rewrite Es; reflexivity).
  rewrite (Sum_ext 3 (fun k => Sum 3 (fun l => amount M g (M g) k * amount M g (M g) l * C g k l)) (fun k => Sum 3 (fun l => M k * M l * C g k l))) by (intros; apply Sum_ext; intros; rewrite !Es; reflexivity).
  unfold sr_lnphi, sr_Z. cbn zeta. fold p. fold B C.
  assert (F2 : mix2 (fun i => M i / N) B = mix2 M B / (N * N)) by (unfold mix2; cbn [Sum]; field; exact H).
  assert (F3 : mix3 (fun i => M i / N) C = mix3 M C / (N * N * N)) by (unfold mix3; cbn [Sum]; field; exact H).
  rewrite F2, F3. generalize (mix2 M B) (mix3 M C). intros b c.
  rewrite (Sum_ext 3 (fun k => 2 * (M k / N) * B g k * p + Sum 3 (fun l => 1.5 * (M k / N) * (M l / N) * C g k l * p * p)) (fun k => 2 * p / N * (M k * B g k) + 1.5 * (p * p) / (N * N) * Sum 3 (fun l => M k * M l * C g k l))).
  2: { intros k _. rewrite <- Sum_scal. f_equal; [field; exact H|]. apply Sum_ext. intros l _. field. exact H. }
  rewrite Sum_add, !Sum_scal. generalize (Sum 3 (fun k => M k * B g k)) (Sum 3 (fun k => Sum 3 (fun l => M k * M l * C g k l))). intros u v. replace 0.5 with (/ 2) by lra. replace 1.5 with (3 / 2) by lra. field. exact H.
Qed.
(* The derivative of a fugacity coefficient along a path. *)
Lemma d_lnphi (Y : R -> nat -> R) (Y' : nat -> R) t i : (i < 3)%nat -> (forall i, (i < 3)%nat -> is_derive (fun s => Y s i) t (Y' i)) ->
  is_derive (fun s => sr_lnphi T P (Y s) i) t
    (- (2 * Sum 3 (fun i => Y' i * Sum 3 (fun k => Y t k * B i k)) * p + 3 * Sum 3 (fun i => Y' i * Sum 3 (fun k => Sum 3 (fun l => Y t k * Y t l * C i k l))) * p * p)
     + Sum 3 (fun k => 2 * Y' k * B i k * p + Sum 3 (fun l => 1.5 * (Y' k * Y t l + Y t k * Y' l) * C i k l * p * p))).
Proof.
  intros Hi H. unfold sr_lnphi, sr_Z. cbn zeta. fold p B C. eapply d_val.
  { apply d_add; [apply d_sub; [apply d_const|apply d_add; [apply d_add; [apply d_const|apply d_mul; [apply (d_mix2_y Y Y' t H)|apply d_const]]|apply d_mul; [apply d_mul; [apply (d_mix3_y Y Y' t H)|apply d_const]|apply d_const]]]|].
    apply (d_Sum 3 (fun k s => 2 * Y s k * B i k * p + Sum 3 (fun l => 1.5 * Y s k * Y s l * C i k l * p * p)) (fun k => 2 * Y' k * B i k * p + Sum 3 (fun l => 1.5 * (Y' k * Y t l + Y t k * Y' l) * C i k l * p * p))).
    intros k Hk. apply d_add.
    - eapply d_val; [apply d_mul; [apply d_mul; [apply d_mul; [apply d_const|apply H; exact Hk]|apply d_const]|apply d_const]|]. cbn beta. ring.
    - apply (d_Sum 3 (fun l s => 1.5 * Y s k * Y s l * C i k l * p * p)). intros l Hl.
      eapply d_val; [apply d_mul; [apply d_mul; [apply d_mul; [apply d_mul; [apply d_mul; [apply d_const|apply H; exact Hk]|apply H; exact Hl]|apply d_const]|apply d_const]|apply d_const]|]. cbn beta. ring. }
  cbn beta. ring.
Qed.
Lemma duhem_gases (Y Y' : nat -> R) : Sum 3 Y = 1 ->
  Sum 3 (fun i => Y i * (- (2 * Sum 3 (fun i => Y' i * Sum 3 (fun k => Y k * B i k)) * p + 3 * Sum 3 (fun i => Y' i * Sum 3 (fun k => Sum 3 (fun l => Y k * Y l * C i k l))) * p * p)
     + Sum 3 (fun k => 2 * Y' k * B i k * p + Sum 3 (fun l => 1.5 * (Y' k * Y l + Y k * Y' l) * C i k l * p * p)))) = 0.
Proof.
  intros H. set (D := 2 * Sum 3 (fun i => Y' i * Sum 3 (fun k => Y k * B i k)) * p + 3 * Sum 3 (fun i => Y' i * Sum 3 (fun k => Sum 3 (fun l => Y k * Y l * C i k l))) * p * p).
  rewrite (Sum_ext 3 _ (fun i => - D * Y i + Y i * Sum 3 (fun k => 2 * Y' k * B i k * p + Sum 3 (fun l => 1.5 * (Y' k * Y l + Y k * Y' l) * C i k l * p * p)))) by (intros; ring).
  rewrite Sum_add, Sum_scal, H. unfold D. cbn [Sum]. unfold B, C. rewrite (B_sym T 1 0), (B_sym T 2 0), (B_sym T 2 1) by lia.
  change (computeC T 1 0 0) with (computeC T 0 0 1). change (computeC T 0 1 0) with (computeC T 0 0 1). change (computeC T 2 0 0) with (computeC T 0 0 2). change (computeC T 0 2 0) with (computeC T 0 0 2).
  change (computeC T 1 0 1) with (computeC T 0 1 1). change (computeC T 1 1 0) with (computeC T 0 1 1). change (computeC T 2 0 2) with (computeC T 0 2 2). change (computeC T 2 2 0) with (computeC T 0 2 2).
  change (computeC T 2 1 1) with (computeC T 1 1 2). change (computeC T 1 2 1) with (computeC T 1 1 2). change (computeC T 2 1 2) with (computeC T 1 2 2). change (computeC T 2 2 1) with (computeC T 1 2 2).
  change (computeC T 0 2 1) with (computeC T 0 1 2). change (computeC T 1 0 2) with (computeC T 0 1 2). change (computeC T 1 2 0) with (computeC T 0 1 2). change (computeC T 2 0 1) with (computeC T 0 1 2). change (computeC T 2 1 0) with (computeC T 0 1 2).
  generalize (computeB T 0 0) (computeB T 0 1) (computeB T 0 2) (computeB T 1 1) (computeB T 1 2) (computeB T 2 2). intros.
  generalize (computeC T 0 0 0) (computeC T 0 0 1) (computeC T 0 0 2) (computeC T 0 1 1) (computeC T 0 1 2) (computeC T 0 2 2) (computeC T 1 1 1) (computeC T 1 1 2) (computeC T 1 2 2) (computeC T 2 2 2). intros. clearbody p. replace 1.5 with (3 / 2) by lra. field.
Qed.
End Molar.
