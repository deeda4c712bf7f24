(* Model of Reaktoro/Math: BilinearInterpolator.cpp, LagrangeInterpolator.cpp,
   MathUtils.cpp (rational numbers, compensated sums), Derivatives.cpp and the
   Newton iteration and root selection of Roots.hpp.  Numbers are exact
   rationals; a result that is not finite is UB. *)
From Verif Require Import Base M_Chem M_System M_Algorithms M_State M_Specs M_Setup.

(* ---- BilinearInterpolator ---- *)
Record Grid := mkGrid { g_x : list Q; g_y : list Q; g_z : list Q }.
(* BilinearInterpolator.cpp:34-45: endless recursion is UB. *)
Fixpoint binarySearchHelper (fuel : nat) (p : Q) (l : list Q) (b e : nat) : outcome nat :=
  match fuel with
  | 0 => UB
  | S fuel =>
    if e - b =? 1 then Ok b
    else let mid := (b + e) / 2 in
      bind (read l mid) (fun c => if Qltb p c then binarySearchHelper fuel p l b mid else binarySearchHelper fuel p l mid e)
  end.
(* BilinearInterpolator.cpp:47-50. *)
Definition binarySearch (p : Q) (l : list Q) : outcome nat := binarySearchHelper (S (length l)) p l 0 (length l).
(* BilinearInterpolator.cpp:66-78. *)
Definition gridOf (xs ys : list Q) (f : Q -> Q -> Q) : Grid := mkGrid xs ys (flat_map (fun y => map (fun x => f x y) xs) ys).
(* BilinearInterpolator.cpp:132 and 135: one is subtracted from an unsigned
   number, so that zero becomes an index far out of range. *)
Definition leftCorner (idx size : nat) : outcome nat :=
  if idx =? size - 1 then match idx with 0 => UB | S i => Ok i end else Ok idx.
Definition front (l : list Q) : outcome Q := match l with [] => UB | x :: _ => Ok x end.
Definition back (l : list Q) : outcome Q := match rev l with [] => UB | x :: _ => Ok x end.
(* BilinearInterpolator.cpp:115-156. *)
Definition bilinear (g : Grid) (x y : Q) : outcome Q :=
  match g_z g with
  | [z] => Ok z
  | _ =>
    bind (front (g_x g)) (fun xA => bind (back (g_x g)) (fun xB => bind (front (g_y g)) (fun yA => bind (back (g_y g)) (fun yB =>
    if Qltb x xA || Qltb xB x then Err else if Qltb y yA || Qltb yB y then Err else
    let nx := length (g_x g) in let ny := length (g_y g) in
    bind (binarySearch x (g_x g)) (fun ix => bind (leftCorner ix nx) (fun i =>
    bind (binarySearch y (g_y g)) (fun iy => bind (leftCorner iy ny) (fun j =>
    let k i j := i + j * nx in
    bind (read (g_x g) i) (fun x1 => bind (read (g_x g) (i + 1)) (fun x2 =>
    bind (read (g_y g) j) (fun y1 => bind (read (g_y g) (j + 1)) (fun y2 =>
    bind (read (g_z g) (k i j)) (fun z11 => bind (read (g_z g) (k (i + 1) j)) (fun z21 =>
    bind (read (g_z g) (k i (j + 1))) (fun z12 => bind (read (g_z g) (k (i + 1) (j + 1))) (fun z22 =>
    (let f11 := z11 * (x2 - x) * (y2 - y) in
     let f12 := - z12 * (x2 - x) * (y1 - y) in
     let f21 := - z21 * (x1 - x) * (y2 - y) in
     let f22 := z22 * (x1 - x) * (y1 - y) in
     divide (f11 + f12 + f21 + f22) ((x2 - x1) * (y2 - y1)))%Q))))))))))))))))
  end.

(* ---- LagrangeInterpolator ---- *)
Definition prodQ (l : list Q) : Q := fold_left Qmult l 1%Q.
(* LagrangeInterpolator.cpp:23-38, on the points from the first one used. *)
Definition interpolate (x : Q) (xi yi : list Q) (npoints : nat) : outcome Q :=
  omap sumQ (mapM (fun i =>
    bind (mapM (fun j => if i =? j then Ok 1%Q
                         else bind (read xi j) (fun xj => bind (read xi i) (fun xii => divide (x - xj) (xii - xj)))) (seq 0 npoints)) (fun l =>
    bind (read yi i) (fun y => Ok (y * prodQ l)%Q))) (seq 0 npoints)).
(* LagrangeInterpolator.cpp:49-67. *)
Definition lagrange (xi yi : list Q) (order : nat) (x : Q) : outcome Q :=
  bind (front xi) (fun x0 =>
  if Qle_bool x x0 then front yi else
  bind (back xi) (fun xn =>
  if Qle_bool xn x then back yi else
  let size := length xi in
  let i := indexfn xi (fun a => negb (Qltb a x)) in
  let npoints := if size <? i + order + 1 then size - i else order + 1 in
  interpolate x (skipn i xi) (skipn i yi) npoints)).

(* ---- Rational numbers ---- *)
(* MathUtils.cpp:76-99; [fuel] bounds the number of iterations. *)
Fixpoint farey_loop (fuel : nat) (x : Q) (maxden a b c d : Z) : outcome (Z * Z) :=
  match fuel with
  | 0 => UB
  | S fuel =>
    if (b <=? maxden)%Z && (d <=? maxden)%Z then
      let mediant := (inject_Z (a + c) / inject_Z (b + d))%Q in
      if Qeq_bool x mediant then
        if (b + d <=? maxden)%Z then Ok (a + c, b + d)%Z
        else if (b <? d)%Z then Ok (c, d) else Ok (a, b)
      else if Qltb mediant x then farey_loop fuel x maxden (a + c) (b + d) c d
      else farey_loop fuel x maxden a b (a + c) (b + d)
    else if (maxden <? b)%Z then Ok (c, d) else Ok (a, b)
  end.
Definition farey (x : Q) (maxden : Z) : outcome (Z * Z) := farey_loop (Z.to_nat (2 * maxden + 1)) x maxden 0 1 1 1.
(* MathUtils.cpp:101-112. *)
Definition rationalize (x : Q) (maxden : Z) : outcome (Z * Z) :=
  let sign := if Qle_bool 0 x then 1%Z else (-1)%Z in
  if Qltb 1 (Qabs.Qabs x) then omap (fun r => (sign * snd r, fst r)%Z) (farey (1 / Qabs.Qabs x) maxden)
  else omap (fun r => (sign * fst r, snd r)%Z) (farey (Qabs.Qabs x) maxden).
(* MathUtils.cpp:114-127. *)
Definition cleanRationalNumbers (maxden : Z) : list Q -> outcome (list Q) :=
  mapM (fun x => bind (rationalize x maxden) (fun r => divide (inject_Z (fst r)) (inject_Z (snd r)))).

(* ---- Compensated sums ---- *)
Section Compensated.
(* Conversion to single precision and back; arithmetic in double precision is
   taken as exact. *)
Variable single : Q -> Q.
(* MathUtils.cpp:129-157. *)
Fixpoint dot3p_loop (x y : list Q) (shi slo : Q) : outcome Q :=
  match x, y with
  | [], _ => Ok (shi + slo)%Q
  | xk :: x', yk :: y' =>
    let xhi := single xk in
    let xlo := (xk - xhi)%Q in
    let yhi := single yk in
    let ylo := (yk - yhi)%Q in
    let tmp := (xhi * yhi)%Q in
    let zhi := single tmp in
    let zlo := (tmp - zhi + xhi * ylo + xlo * yhi + xlo * ylo)%Q in
    let tmp := (shi + zhi)%Q in
    let del := (tmp - shi - zhi)%Q in
    let shi := single tmp in
    let slo := (tmp - shi + slo + zlo - del)%Q in
    dot3p_loop x' y' shi slo
  | _ :: _, [] => UB
  end.
Definition dot3p (x y : list Q) (s : Q) : outcome Q := dot3p_loop x y (single s) (s - single s)%Q.
(* MathUtils.cpp:159-166. *)
Definition residual3p (A : list (list Q)) (x b : list Q) : outcome (list Q) :=
  mapM (fun k => match nth_error A k with
                 | Some row => bind (read b k) (fun bk => dot3p row x (- bk)%Q)
                 | None => UB
                 end) (seq 0 (length A)).
End Compensated.

(* ---- Derivatives ---- *)
Inductive Scheme := Forward | Backward | Central.
(* Derivatives.cpp:24 and 27. *)
Definition increment (s : Scheme) (xi : Q) : Q :=
  let eps := match s with Central => 1 # 1000000 | _ => 1 # 100000000 end in
  (eps * (if Qeq_bool xi 0 then 1 else Qabs.Qabs xi))%Q.
Definition bump (x : list Q) (i : nat) (h : Q) : list Q := upd x i (nth i x 0%Q + h)%Q.
(* Derivatives.cpp:31-45, 47-61 and 63-78. *)
Definition derivative (s : Scheme) (f : list Q -> Q) (x : list Q) : list Q :=
  let fx := f x in
  map (fun i => let h := increment s (nth i x 0%Q) in
    match s with
    | Forward => (f (bump x i h) - fx) / h
    | Backward => (fx - f (bump x i (- h))) / h
    | Central => (f (bump x i h) - f (bump x i (- h))) / (2 * h)
    end)%Q (seq 0 (length x)).
(* Derivatives.cpp:80-95, 97-112 and 114-131: the matrix as its columns. *)
Definition jacobian (s : Scheme) (f : list Q -> list Q) (x : list Q) : list (list Q) :=
  let fx := f x in
  map (fun i => let h := increment s (nth i x 0%Q) in
    match s with
    | Forward => map (fun d => d / h) (vsub (f (bump x i h)) fx)
    | Backward => map (fun d => d / h) (vsub fx (f (bump x i (- h))))
    | Central => map (fun d => d / (2 * h)) (vsub (f (bump x i h)) (f (bump x i (- h))))
    end)%Q (seq 0 (length x)).

(* ---- Newton ---- *)
(* Roots.hpp:103-119; a zero derivative is UB. *)
Fixpoint newton_loop (f : Q -> Q * Q) (x epsilon : Q) (i todo : nat) : outcome (Q * nat * bool) :=
  match todo with
  | 0 => Ok (x, i, false)
  | S todo =>
    let '(fx, dfx) := f x in
    bind (divide fx dfx) (fun step =>
    let x' := (x - step)%Q in
    if Qltb (Qabs.Qabs fx) epsilon then Ok (x', i, true) else newton_loop f x' epsilon (S i) todo)
  end.
Definition newton (f : Q -> Q * Q) (x0 epsilon : Q) (maxiter : nat) : outcome (Q * nat * bool) :=
  newton_loop f x0 epsilon 0 maxiter.
