(* Property theorems: updated inverses and solving with LU factors. *)
From mathcomp Require Import all_ssreflect all_fingroup all_algebra.
From Verif Require Import M_Matrix.
Set Implicit Arguments.
Unset Strict Implicit.
Unset Printing Implicit Defensive.
Import GRing.Theory.
Local Open Scope ring_scope.

(* ======================== C42 ======================== *)
Section C42.
Variables (F : fieldType) (n : nat).
(* The matrix with one diagonal entry increased. *)
Definition bumped (M : 'M[F]_n) (i : 'I_n) (x : F) : 'M[F]_n := M + x *: delta_mx i i.

Lemma delta_col_row (i : 'I_n) : delta_mx i i = delta_mx i (0 : 'I_1) *m delta_mx (0 : 'I_1) i :> 'M[F]_n.
Proof. by rewrite mul_delta_mx. Qed.
Lemma sm_step (A M : 'M[F]_n) (i : 'I_n) (x : F) : M *m A = 1%:M -> 1 + x * M i i != 0 ->
  (M - (x / (1 + x * M i i)) *: (col i M *m row i M)) *m bumped A i x = 1%:M.
Proof.
move=> MA p0. set p := 1 + _ in p0 *. rewrite /bumped mulmxDr !mulmxBl MA -!scalemxAl -!scalemxAr -!mulmxA.
have RA : row i M *m A = delta_mx 0 i by rewrite -row_mul MA row1.
rewrite RA. have RD : row i M *m delta_mx i i = M i i *: delta_mx (0 : 'I_1) i.
  apply/matrixP => a b. rewrite !mxE (bigD1 i) //= big1 ?addr0; last by move=> j ji; rewrite !mxE (negbTE ji) mulr0.
  by rewrite !mxE eqxx ord1 eqxx /=.
have CD : M *m delta_mx i i = col i M *m delta_mx (0 : 'I_1) i by rewrite colE -mulmxA mul_delta_mx.
rewrite RD -!scalemxAr CD !scalerA. set K := col i M *m _.
rewrite -addrA -[RHS]addr0. congr (_ + _). rewrite -scaleNr -scalerBl -scalerDl.
have -> : x * M i i = p - 1 by rewrite /p addrC addKr.
by rewrite mulrBr mulr1 divfK // subKr addNr scale0r.
Qed.
Lemma sm_none (D : 'rV[F]_n) s : foldl (smStep D) None s = None.
Proof. by elim: s. Qed.
Lemma sm_fold (D : 'rV[F]_n) s : forall A M R : 'M[F]_n, M *m A = 1%:M -> foldl (smStep D) (Some M) s = Some R ->
  R *m (A + \sum_(i <- s) D 0 i *: delta_mx i i) = 1%:M.
Proof.
elim: s => [|i s IH] A M R MA /=.
  by case=> <-; rewrite big_nil addr0.
case: ifP => [_|/negbT p0]; first by rewrite sm_none.
move=> H. rewrite big_cons addrA. exact: (IH _ _ _ (sm_step MA p0) H).
Qed.
Lemma sum_diag (D : 'rV[F]_n) : \sum_(i <- enum 'I_n) D 0 i *: delta_mx i i = diag_mx D.
Proof.
rewrite big_enum /=. apply/matrixP => a b. rewrite summxE !mxE (bigD1 a) //= big1 ?addr0; last first.
  by move=> j ja; rewrite !mxE [a == j]eq_sym (negbTE ja) mulr0.
by rewrite !mxE eqxx /= [b == a]eq_sym; case: eqP => [->|_]; rewrite ?mulr1 ?mulr0 ?mulr1n ?mulr0n.
Qed.
(* With the inverse of A and non-zero pivots, the result inverts A + D on both
   sides. *)
Theorem C42_proved (A invA R : 'M[F]_n) (D : 'rV[F]_n) : A *m invA = 1%:M -> inverseShermanMorrison invA D = Some R ->
  R *m (A + diag_mx D) = 1%:M /\ (A + diag_mx D) *m R = 1%:M.
Proof.
move=> AI H. have L : R *m (A + diag_mx D) = 1%:M.
  rewrite -sum_diag. apply: sm_fold H. exact: mulmx1C.
split=> //. exact: mulmx1C.
Qed.
(* A division by zero happens exactly when a matrix on the way is singular. *)
Lemma det_bumped (A M : 'M[F]_n) (i : 'I_n) (x : F) : M *m A = 1%:M -> 1 + x * M i i = 0 -> \det (bumped A i x) = 0.
Proof.
move=> MA p0. have AM : A *m M = 1%:M by exact: mulmx1C.
(* The column i of M is sent to zero. *)
apply/eqP. apply/det0P. exists (row i M).
  apply/negP => /eqP Z. have : M i i = 0 by move/rowP/(_ i): Z; rewrite !mxE.
  by move=> Mz; move: p0; rewrite Mz mulr0 addr0 => /eqP; rewrite oner_eq0.
have RA : row i M *m A = delta_mx 0 i by rewrite -row_mul MA row1.
rewrite /bumped mulmxDr RA -scalemxAr.
have -> : row i M *m delta_mx i i = M i i *: delta_mx (0 : 'I_1) i.
  apply/matrixP => a b. rewrite !mxE (bigD1 i) //= big1 ?addr0; last by move=> j ji; rewrite !mxE (negbTE ji) mulr0.
  by rewrite !mxE eqxx ord1 eqxx /=.
by rewrite scalerA -[X in X + _]scale1r -scalerDl p0 scale0r.
Qed.
Lemma sm_fold_none (D : 'rV[F]_n) s : forall A M : 'M[F]_n, M *m A = 1%:M -> foldl (smStep D) (Some M) s = None ->
  exists s1 s2, s = s1 ++ s2 /\ \det (A + \sum_(i <- s1) D 0 i *: delta_mx i i) = 0.
Proof.
elim: s => [|i s IH] A M MA //=. case: ifP => [/eqP p0 _|/negbT p0 H].
  exists [:: i], s. split=> //. rewrite big_seq1. exact: det_bumped MA p0.
have [s1 [s2 [-> Z]]] := IH _ _ (sm_step MA p0) H. exists (i :: s1), s2. by split=> //; rewrite big_cons addrA.
Qed.
Theorem C42_complete (A invA : 'M[F]_n) (D : 'rV[F]_n) : A *m invA = 1%:M -> inverseShermanMorrison invA D = None ->
  exists s1 s2, enum 'I_n = s1 ++ s2 /\ \det (A + \sum_(i <- s1) D 0 i *: delta_mx i i) = 0.
Proof. move=> AI H. apply: sm_fold_none H. exact: mulmx1C. Qed.
End C42.
Print Assumptions C42_proved.
Print Assumptions C42_complete.
(* The identity of order 2 and the diagonal (1, 2). *)
Example C42_nonvacuous : exists R : 'M[rat]_2, inverseShermanMorrison 1%:M (\row_(i < 2) (i.+1)%:R) = Some R.
Proof.
have E : enum 'I_2 = [:: 0; 1] by apply: (inj_map val_inj); rewrite val_enum_ord.
rewrite /inverseShermanMorrison E /=. case: ifP => [|_] /=; first by rewrite !mxE.
case: ifP => [|_]; last by eexists. by rewrite !mxE big_ord1 !mxE.
Qed.

(* ======================== C78 ======================== *)
Section C78.
Variables (F : fieldType) (r m' n' : nat).
Lemma permutation_unit k (s : 'S_k) : permutation F s \in unitmx.
Proof. exact: unitmx_perm. Qed.
Lemma permutation_inv k (s : 'S_k) : invmx (permutation F s) = permutation F s^-1%g.
Proof. apply: (can_inj (mulKmx (permutation_unit s))). by rewrite mulmxV ?permutation_unit // /permutation -perm_mxM mulgV perm_mx1. Qed.
Lemma permutation_tr k (s : 'S_k) : (permutation F s)^T = permutation F s^-1%g.
Proof. by rewrite /permutation tr_perm_mx. Qed.
(* The factors decompose A, and their leading blocks are triangular without
   zeros on the diagonal. *)
Definition Decomposes (f : Factors F r m' n') (A : 'M[F]_(r + m', r + n')) : Prop :=
  [/\ permutation F (lu_P f) *m A *m permutation F (lu_Q f) = lu_L f *m lu_U f,
      is_trig_mx (usubmx (lu_L f)) /\ (forall i, usubmx (lu_L f) i i != 0) &
      is_trig_mx (lsubmx (lu_U f))^T /\ (forall i, lsubmx (lu_U f) i i != 0)].
Lemma trig_unit k (T : 'M[F]_k) : is_trig_mx T -> (forall i, T i i != 0) -> T \in unitmx.
Proof. move=> t d. by rewrite unitmxE det_trig // unitfE; apply/prodf_neq0 => i _. Qed.

Theorem C78_solve f A k (B : 'M[F]_(r + m', k)) : Decomposes f A -> (exists X0, A *m X0 = B) -> A *m solve f B = B.
Proof.
case=> LU [tL dL] [tU dU] [X0 <-]. have uL := trig_unit tL dL. have uU : lsubmx (lu_U f) \in unitmx.
  by rewrite -unitmx_tr; apply: trig_unit => // i; rewrite mxE.
set P := permutation F (lu_P f) in LU *. set Q := permutation F (lu_Q f) in LU *.
have uP : P \in unitmx := permutation_unit _. have uQ : Q \in unitmx := permutation_unit _.
have PA : P *m A = lu_L f *m lu_U f *m invmx Q by rewrite -LU mulmxK.
apply: (can_inj (mulKmx uP)). rewrite /solve -/P -/Q !mulmxA PA -!mulmxA (mulmxA (invmx Q)) mulVmx // mul1mx.
set w := lu_U f *m (invmx Q *m X0).
have -> : usubmx (lu_L f *m w) = usubmx (lu_L f) *m w by rewrite -{1}(vsubmxK (lu_L f)) mul_col_mx col_mxKu.
rewrite (mulmxA (invmx (usubmx _))) mulVmx // mul1mx -{1}(hsubmxK (lu_U f)) mul_row_col mulmx0 addr0.
by rewrite mulKVmx.
Qed.
Theorem C78_trsolve f A k (B : 'M[F]_(r + n', k)) : Decomposes f A -> (exists X0, A^T *m X0 = B) -> A^T *m trsolve f B = B.
Proof.
case=> LU [tL dL] [tU dU] [X0 <-]. have uL := trig_unit tL dL. have uU : lsubmx (lu_U f) \in unitmx.
  by rewrite -unitmx_tr; apply: trig_unit => // i; rewrite mxE.
set P := permutation F (lu_P f) in LU *. set Q := permutation F (lu_Q f) in LU *.
have uP : P \in unitmx := permutation_unit _. have uQ : Q \in unitmx := permutation_unit _.
have AQ : A *m Q = invmx P *m (lu_L f *m lu_U f) by rewrite -LU -mulmxA mulKmx.
have TA : Q^T *m A^T = (lu_U f)^T *m (lu_L f)^T *m (invmx P)^T by rewrite -trmx_mul AQ !trmx_mul -mulmxA.
have uQT : Q^T \in unitmx by rewrite unitmx_tr.
have TQ : perm_mx (lu_Q f) = Q^T by rewrite /Q /permutation tr_perm_mx invgK.
have IP : invmx P = P^T by rewrite /P permutation_inv permutation_tr.
apply: (can_inj (mulKmx uQT)). rewrite /trsolve -/P.
set xx := \matrix_(i, j) _. have -> : xx = usubmx (Q^T *m (A^T *m X0)) by rewrite -TQ -row_permE; apply/matrixP => i j; rewrite !mxE.
rewrite !mulmxA TA -!mulmxA {}IP trmxK. rewrite (mulmxA P) (_ : P *m P^T = 1%:M) ?mul1mx; last first.
  by rewrite /P /permutation tr_perm_mx -perm_mxM mulgV perm_mx1.
set w := (lu_L f)^T *m (P *m X0).
have -> : usubmx ((lu_U f)^T *m w) = (lsubmx (lu_U f))^T *m w by rewrite -{1}(hsubmxK (lu_U f)) tr_row_mx mul_col_mx col_mxKu.
have uUT : (lsubmx (lu_U f))^T \in unitmx by rewrite unitmx_tr. have uLT : (usubmx (lu_L f))^T \in unitmx by rewrite unitmx_tr.
rewrite (mulmxA (invmx (lsubmx _)^T)) mulVmx // mul1mx -{1}(vsubmxK (lu_L f)) tr_col_mx mul_row_col mulmx0 addr0.
by rewrite mulKVmx.
Qed.
(* Entries of the solution at the columns not chosen as pivots are zero. *)
Theorem C78_basic (f : Factors F r m' n') k (B : 'M[F]_(r + m', k)) (i : 'I_n') j : solve f B (lu_Q f (rshift r i)) j = 0.
Proof.
rewrite /solve /permutation -row_permE mxE. by rewrite permK col_mxEd mxE.
Qed.
(* The solution does not depend on the rows beyond the rank. *)
Theorem C78_rows (f : Factors F r m' n') k (B B' : 'M[F]_(r + m', k)) : (forall i j, B ((lu_P f)^-1%g (lshift m' i)) j = B' ((lu_P f)^-1%g (lshift m' i)) j) -> solve f B = solve f B'.
Proof.
move=> H. rewrite /solve /permutation -!row_permE. congr (row_perm _ (col_mx (_ *m (_ *m _)) _)).
by apply/matrixP => i j; rewrite !mxE H.
Qed.
End C78.
Print Assumptions C78_solve.
Print Assumptions C78_trsolve.
Print Assumptions C78_basic.

(* The matrix [[1, 2], [3, 6]] of rank one. *)
Example C78_nonvacuous : exists (f : Factors [fieldType of rat] 1 1 1) (A : 'M[rat]_(1 + 1)) (B : 'M[rat]_(1 + 1, 1)),
  [/\ Decomposes f A, (exists X0, A *m X0 = B), B != 0 & solve f B != 0].
Proof.
pose L : 'M[rat]_(1 + 1, 1) := col_mx 1%:M (3%:R)%:M. pose U : 'M[rat]_(1, 1 + 1) := row_mx 1%:M (2%:R)%:M.
exists (mkFactors L U 1%g 1%g), (L *m U), (L *m U *m col_mx 1%:M 0). 
have D : Decomposes (mkFactors L U 1%g 1%g) (L *m U).
  split=> /=; first by rewrite /permutation invg1 !perm_mx1 mul1mx mulmx1.
  - split; first by apply/is_trig_mxP => i j; rewrite !ord1.
    by move=> i; rewrite /L col_mxKu mxE eqxx.
  - split; first by apply/is_trig_mxP => i j; rewrite !ord1.
    by move=> i; rewrite /U row_mxKl mxE eqxx.
have B0 : L *m U *m col_mx 1%:M (0 : 'M_1) != 0.
  rewrite -mulmxA /U mul_row_col mulmx0 addr0 mulmx1 mulmx1 /L. apply/negP => /eqP /(congr1 usubmx). rewrite col_mxKu linear0 => /matrixP /(_ 0 0). by rewrite !mxE.
split=> //; first by eexists.
apply/negP => /eqP Z. have := C78_solve D (ex_intro _ _ (erefl _)) : _ *m solve _ (L *m U *m col_mx 1%:M (0 : 'M_1)) = _.
by rewrite Z mulmx0 => E; rewrite -E eqxx in B0.
Qed.

(* ======================== C80: weighted factors ======================== *)
Section C80.
Variables (F : fieldType) (r m' n' : nat).
Lemma permuted_diag k (s : 'S_k) (D : 'rV[F]_k) : invmx (permutation F s) *m diag_mx D *m permutation F s = diag_mx (\row_i D 0 (s i)).
Proof.
rewrite permutation_inv {1}/permutation invgK /permutation -col_permE -row_permE. apply/matrixP => a b. by rewrite !mxE (inj_eq perm_inj).
Qed.
(* From a decomposition of the transpose of A W, one of A with the same
   triangular shapes. *)
Theorem C80_weighted (g : Factors F r n' m') (A : 'M[F]_(r + m', r + n')) (W : 'rV[F]_(r + n')) :
  (forall i, W 0 i != 0) -> Decomposes g (A *m diag_mx W)^T -> Decomposes (weightedFactors g W) A.
Proof.
move=> W0 [LU [tL dL] [tU dU]]. split.
- rewrite /weightedFactors /=. set P := permutation F (lu_P g) in LU *. set Q := permutation F (lu_Q g) in LU *.
  have : (P *m (A *m diag_mx W)^T *m Q)^T = (lu_L g *m lu_U g)^T by rewrite LU.
  rewrite !trmx_mul trmxK !permutation_tr -/P -/Q. 
  set P' := permutation F (lu_P g)^-1%g. set Q' := permutation F (lu_Q g)^-1%g. move=> E.
  rewrite !mulmxA -E -!mulmxA. congr (_ *m (_ *m _)).
  have PI : P' *m invmx P' = 1%:M by rewrite mulmxV // /P' unitmx_perm.
  rewrite (mulmxA P') PI mul1mx mulmxA -[LHS]mul1mx. congr (_ *m _).
  rewrite trmxK mulmx_diag. apply/matrixP => a b. rewrite !mxE. by rewrite mulfV.
- split; [by rewrite /= -[usubmx _]trmxK; move: tU; congr is_trig_mx; apply/matrixP => a b; rewrite !mxE|].
  by move=> i; move: (dU i); rewrite !mxE.
- rewrite /weightedFactors /= -!mulmxA (mulmxA (invmx _)) permuted_diag.
  set E := (\row__ _). have E0 i : E 0 i != 0 by rewrite !mxE invr_eq0.
  have UE i j : ((lsubmx ((lu_L g)^T *m diag_mx E))^T : 'M[F]_r) i j = usubmx (lu_L g) i j * E 0 (lshift n' i) by rewrite mxE mxE mul_mx_diag !mxE.
  split.
    apply/is_trig_mxP => i j ij. by rewrite UE (is_trig_mxP tL) // mul0r.
  move=> i. have := UE i i. rewrite mxE => ->. by rewrite mulf_neq0.
Qed.
End C80.
Print Assumptions C80_weighted.
