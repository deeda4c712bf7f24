(* Model of the cubic roots of Reaktoro/Math/Roots.hpp over the reals.  A square
   root of a negative number, an arc cosine outside [-1,1] and a division by zero
   give no number in the code and are UB here. *)
From Coq Require Import Reals.
From Coquelicot Require Import Complex.
From Verif Require Import Base.
Local Open Scope R_scope.

Definition sqrtR (x : R) : outcome R := if Rlt_dec x 0 then UB else Ok (sqrt x).
Definition acosR (x : R) : outcome R := if Rlt_dec x (-1) then UB else if Rlt_dec 1 x then UB else Ok (acos x).
Definition divR (x y : R) : outcome R := if Req_EM_T y 0 then UB else Ok (x / y).
(* std::cbrt is defined for all reals. *)
Definition cbrt (x : R) : R := if Rlt_dec x 0 then - Rpower (- x) (1 / 3) else if Req_EM_T x 0 then 0 else Rpower x (1 / 3).

(* Roots.hpp:64: a hundred times the machine epsilon of double. *)
Definition eps : R := 100 * / 2 ^ 52.
Definition CubicRoots : Type := C * C * C.
(* Roots.hpp:44-95; the decimal literal for pi is taken as pi. *)
Definition cardano (b c d : R) : outcome CubicRoots :=
  let xn := - b / 3 in
  let yn := d + xn * (c + xn * (b + xn)) in
  let delta2 := (b * b - 3 * c) / 9 in
  let u := yn * yn in
  let v := 4 * delta2 * delta2 * delta2 in
  let discr := u - v in
  if Rlt_dec eps discr then
    bind (sqrtR discr) (fun sqrtdiscr =>
    let aux1 := cbrt (/ 2 * (- yn + sqrtdiscr)) in
    let aux2 := cbrt (/ 2 * (- yn - sqrtdiscr)) in
    let alpha := xn + aux1 + aux2 in
    let z1 := alpha - xn in
    bind (sqrtR (3 * (z1 * z1 - 4 * delta2))) (fun root =>
    let aux3 := / 2 * root in
    let aux4 := xn - / 2 * z1 in
    Ok ((alpha, 0), (aux4, - aux3), (aux4, aux3))))
  else if Rlt_dec discr (- eps) then
    bind (sqrtR delta2) (fun delta =>
    let h := 2 * delta2 * delta in
    bind (divR (- yn) h) (fun ratio =>
    bind (acosR ratio) (fun angle =>
    let theta := angle / 3 in
    let alpha := xn + 2 * delta * cos theta in
    let beta := xn + 2 * delta * cos (2 * PI / 3 - theta) in
    let gamma := xn + 2 * delta * cos (2 * PI / 3 + theta) in
    Ok ((gamma, 0), (beta, 0), (alpha, 0)))))
  else
    let delta := cbrt (/ 2 * yn) in
    let alpha := xn + delta in
    let gamma := xn - 2 * delta in
    if Rlt_dec alpha gamma then Ok ((alpha, 0), (alpha, 0), (gamma, 0)) else Ok ((gamma, 0), (alpha, 0), (alpha, 0)).

(* Roots.hpp:124-136. *)
Definition realRoots (r : CubicRoots) : list R :=
  let '(r0, r1, r2) := r in
  flat_map (fun z : C => if Req_EM_T (snd z) 0 then [fst z] else []) [r0; r1; r2].
