(* Model of Reaktoro/Math: the inverse of a diagonally updated matrix
   (MathUtils.cpp) and solving with LU factors (LU.cpp), over any field. *)
From mathcomp Require Import all_ssreflect all_fingroup all_algebra.
Set Implicit Arguments.
Unset Strict Implicit.
Unset Printing Implicit Defensive.
Import GRing.Theory.
Local Open Scope ring_scope.

Section Update.
Variables (F : fieldType) (n : nat).
(* MathUtils.cpp:68: None if the division is by zero. *)
Definition smStep (D : 'rV[F]_n) (invM : option 'M[F]_n) (i : 'I_n) : option 'M[F]_n :=
  if invM is Some M then
    let pivot := 1 + D 0 i * M i i in
    if pivot == 0 then None else Some (M - (D 0 i / pivot) *: (col i M *m row i M))
  else None.
(* MathUtils.cpp:64-70, for as many diagonal entries as rows. *)
Definition inverseShermanMorrison (invA : 'M[F]_n) (D : 'rV[F]_n) : option 'M[F]_n :=
  foldl (smStep D) (Some invA) (enum 'I_n).
End Update.

Section Factors.
(* r is the rank; the matrix has r + m' rows and r + n' columns. *)
Variables (F : fieldType) (r m' n' : nat).
(* LU.hpp:59-72.  The indices of a permutation tell where each row goes.  The
   columns of L and the rows of U beyond the rank are never read. *)
Record Factors := mkFactors {
  lu_L : 'M[F]_(r + m', r);
  lu_U : 'M[F]_(r, r + n');
  lu_P : 'S_(r + m');
  lu_Q : 'S_(r + n') }.
(* Eigen's permutation matrix: row indices[i] of the product is row i. *)
Definition permutation k (s : 'S_k) : 'M[F]_k := perm_mx (s^-1)%g.
(* LU.cpp:115-134; solving with a triangular matrix is multiplying by its
   inverse. *)
Definition solve (f : Factors) k (B : 'M[F]_(r + m', k)) : 'M[F]_(r + n', k) :=
  let xx := usubmx (permutation (lu_P f) *m B) in
  let xx := invmx (usubmx (lu_L f)) *m xx in
  let xx := invmx (lsubmx (lu_U f)) *m xx in
  permutation (lu_Q f) *m col_mx xx 0.
(* LU.cpp:136-157. *)
Definition trsolve (f : Factors) k (B : 'M[F]_(r + n', k)) : 'M[F]_(r + m', k) :=
  let xx := \matrix_(i < r, j < k) B (lu_Q f (lshift n' i)) j in
  let xx := invmx (lsubmx (lu_U f))^T *m xx in
  let xx := invmx (usubmx (lu_L f))^T *m xx in
  invmx (permutation (lu_P f)) *m col_mx xx 0.
End Factors.

Section Weighted.
Variables (F : fieldType) (r m' n' : nat).
(* LU.cpp:81-113: from a decomposition of the transpose of A diag(W). *)
Definition weightedFactors (g : Factors F r n' m') (W : 'rV[F]_(r + n')) : Factors F r m' n' :=
  let P := (lu_Q g)^-1%g in
  let Q := (lu_P g)^-1%g in
  let L := (lu_U g)^T in
  let U := (lu_L g)^T in
  mkFactors L (U *m invmx (permutation F Q) *m diag_mx (\row_i (W 0 i)^-1) *m permutation F Q) P Q.
End Weighted.
