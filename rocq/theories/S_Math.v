(* What interpolation, rational approximation and roots should satisfy, stated
   without the model. *)
From Coq Require Import Qabs.
From Verif Require Import Base.
Local Open Scope Q_scope.

(* Strictly increasing coordinates. *)
Definition Increasing (l : list Q) : Prop := forall i a b, nth_error l i = Some a -> nth_error l (S i) = Some b -> a < b.
Definition Between (a b x : Q) : Prop := a <= x /\ x <= b.
(* Convex combination. *)
Definition mix (s a b : Q) : Q := (1 - s) * a + s * b.
(* A polynomial by its coefficients, lowest degree first. *)
Fixpoint peval (c : list Q) (x : Q) : Q := match c with [] => 0 | a :: c' => a + x * peval c' x end.
(* p/q is a fraction with a denominator within the limit. *)
Definition fraction (p q : Z) : Q := inject_Z p / inject_Z q.
Definition Allowed (maxden q : Z) : Prop := (1 <= q <= maxden)%Z.
(* No allowed fraction is closer to x. *)
Definition Closest (maxden : Z) (x r : Q) : Prop := forall p q, Allowed maxden q -> Qabs (x - r) <= Qabs (x - fraction p q).
(* No allowed fraction lies strictly between x and r, or at x unless r does. *)
Definition ClosestOnItsSide (maxden : Z) (x r : Q) : Prop := forall p q, Allowed maxden q ->
  ~ (r < fraction p q /\ fraction p q <= x) /\ ~ (x <= fraction p q /\ fraction p q < r).
