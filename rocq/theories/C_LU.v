(* Property theorems: the decomposition held by an LU object. *)
From Verif Require Import Base M_LU.
Set Implicit Arguments.

(* ======================== C80 ======================== *)
Section C80.
Variable Factors : Type.
Variable decompose : Mat -> Factors.
Variable decomposeWeighted : Mat -> list Q -> Factors.
Notation run := (run decompose decomposeWeighted).
(* Matrices of equal numbers, and their decompositions. *)
Definition SameMat (a b : Mat) : Prop := m_rows a = m_rows b /\ m_cols a = m_cols b /\ Forall2 Qeq (m_data a) (m_data b).
Definition Respects : Prop := (forall a b, SameMat a b -> decompose a = decompose b) /\ (forall a b v w, SameMat a b -> Forall2 Qeq v w -> decomposeWeighted a v = decomposeWeighted b w).
(* What the last call asks for. *)
Definition wanted (c : Call) : Factors := match c with Compute A => decompose A | ComputeWeighted A W => decomposeWeighted A W end.
(* After any calls the object holds the decomposition asked for last. *)
Definition C80_statement_for : Prop := forall calls c, factors (run (calls ++ [c])) = Some (wanted c).

Lemma same_data_spec : forall a b, same_data a b = true <-> Forall2 Qeq a b.
Proof.
  induction a as [|x a IH]; intros [|y b]; cbn; split; intro H; try discriminate; try constructor; try (inversion H; fail); auto.
  - apply andb_true_iff in H as [H _]. apply Qeq_bool_iff. auto.
  - apply andb_true_iff in H as [_ H]. apply IH. auto.
  - inversion H; subst. apply andb_true_iff. split; [apply Qeq_bool_iff; auto|apply IH; auto].
Qed.
Lemma equal_spec a b : equal a b = true <-> SameMat a b.
Proof. unfold equal, SameMat. rewrite !andb_true_iff, !Nat.eqb_eq, same_data_spec. tauto. Qed.

(* A call is proper if the matrix has entries and there is a weight per column. *)
Definition Proper (c : Call) : Prop := match c with Compute A => 0 < m_cols A | ComputeWeighted A W => 0 < m_cols A /\ length W = m_cols A end.
Definition holds (s : LU Factors) : Prop :=
  (A_last s = noMat /\ W_last s = [] /\ factors s = None) \/
  (0 < m_cols (A_last s) /\ ((W_last s = [] /\ factors s = Some (decompose (A_last s))) \/ (W_last s <> [] /\ factors s = Some (decomposeWeighted (A_last s) (W_last s))))).
Lemma step_holds s c : Respects -> holds s -> Proper c -> holds (step decompose decomposeWeighted s c) /\ factors (step decompose decomposeWeighted s c) = Some (wanted c).
Proof.
  intros [R1 R2] H P. destruct c as [A|A W]; cbn [step wanted Proper] in *.
  - unfold compute. destruct (equal A (A_last s)) eqn:E; cbn [andb].
    2:{ split; auto. right. split; [exact P|]. left. auto. }
    apply equal_spec in E. destruct (Nat.eqb_spec (length (W_last s)) 0) as [L|L].
    + apply length_zero_iff_nil in L. destruct H as [(H1 & _)|(H1 & [(_ & H2)|(H2 & _)])]; [|..|contradiction].
      * rewrite H1 in E. destruct E as (_ & E & _). cbn in E. lia.
      * split; [right; split; [exact H1|left; auto]|]. rewrite H2. f_equal. symmetry. apply R1. exact E.
    + split; auto. right. split; [exact P|]. left. auto.
  - destruct P as [P PW]. assert (NW : W <> []) by (intros ->; cbn in PW; lia). unfold computeWeighted. destruct (equal A (A_last s)) eqn:E; cbn [andb].
    2:{ split; auto. right. split; [exact P|]. right. auto. }
    apply equal_spec in E. destruct ((length W =? length (W_last s)) && same_data W (W_last s)) eqn:EW.
    + apply andb_true_iff in EW as [_ EW]. apply same_data_spec in EW.
      destruct H as [(H1 & _)|(H1 & [(H2 & _)|(H2 & H3)])].
      * rewrite H1 in E. destruct E as (_ & E & _). cbn in E. lia.
      * rewrite H2 in EW. inversion EW. congruence.
      * split; [right; split; [exact H1|right; auto]|]. rewrite H3. f_equal. symmetry. apply R2; auto.
    + split; auto. right. split; [exact P|]. right. auto.
Qed.
Lemma run_holds : Respects -> forall calls, Forall Proper calls -> holds (run calls).
Proof.
  intros R calls. unfold M_LU.run. assert (G : forall calls s, holds s -> Forall Proper calls -> holds (fold_left (step decompose decomposeWeighted) calls s)).
  { induction calls0 as [|c cs IH]; intros s H F; cbn; auto. inversion F; subst. apply IH; auto. apply step_holds; auto. }
  apply G. left. auto.
Qed.
(* For matrices with columns and as many weights. *)
Theorem C80_cache_partial : Respects -> forall calls c, Forall Proper calls -> Proper c -> factors (run (calls ++ [c])) = Some (wanted c).
Proof. intros R calls c F P. unfold M_LU.run. rewrite fold_left_app. cbn [fold_left]. apply step_holds; auto. apply run_holds; auto. Qed.
(* A matrix with no entries is taken for the one of a new object, and nothing is
   computed. *)
Theorem C80_cache_refuted : ~ C80_statement_for.
Proof. intro H. specialize (H [] (Compute noMat)). discriminate. Qed.
(* The test for emptiness is inverted: an object is reported empty exactly when
   it holds a matrix with entries. *)
Definition C80_empty_for (size : Factors -> nat) : Prop := forall s, empty size s = true <-> (factors s = None \/ exists f, factors s = Some f /\ size f = 0).
Theorem C80_empty_refuted (size : Factors -> nat) : ~ C80_empty_for size.
Proof. intro H. specialize (H (newLU Factors)). destruct H as [_ H]. discriminate H. left. reflexivity. Qed.
Theorem C80_empty_partial (size : Factors -> nat) : forall s, empty size s = false <-> (factors s = None \/ exists f, factors s = Some f /\ size f = 0).
Proof.
  intro s. unfold empty. destruct (factors s) as [f|]; [|split; auto]. rewrite negb_false_iff, Nat.eqb_eq. split; [intro; right; eauto|].
  intros [K|(g & K & Z)]; [discriminate|]. injection K as ->. auto.
Qed.
End C80.
Print Assumptions C80_cache_partial.
Print Assumptions C80_cache_refuted.
Print Assumptions C80_empty_refuted.
Print Assumptions C80_empty_partial.
Example C80_nonvacuous : 
  let A := mkMat 1 2 [1%Q; 2%Q] in
  Forall Proper [ComputeWeighted A [1%Q; 3%Q]; Compute A] /\
  factors (run (fun m => (m, [])) (fun m w => (m, w)) [ComputeWeighted A [1%Q; 3%Q]; Compute A; Compute A]) = Some (A, []) /\
  factors (run (fun m => (m, [])) (fun m w => (m, w)) [Compute A; ComputeWeighted A [1%Q; 3%Q]]) = Some (A, [1%Q; 3%Q]).
Proof. cbn zeta. repeat split; auto. repeat constructor. Qed.
