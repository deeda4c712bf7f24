(* Specification of memoized functions and of parameter handles. *)
From Verif Require Import Base M_Memo.
Set Implicit Arguments.

(* The calls of a sequence of events, in order. *)
Fixpoint calls {A} (evs : list (event A)) : list A :=
  match evs with [] => [] | Toggle _ :: r => calls r | Call a :: r => a :: calls r end.
(* Memoization is never switched off. *)
Definition never_off {A} (evs : list (event A)) : Prop := ~ In (Toggle false) evs.

Section Alias.
Variables V A R : Type.
(* Number of parameter variables declared by a program; the most recent
   statement comes first. *)
Fixpoint nvars (rh : list (op V A R)) : nat :=
  match rh with
  | [] => 0
  | (PNew _ | PCopy _ | PClone _) :: r => S (nvars r)
  | _ :: r => nvars r
  end.
(* Two variables are handles of the same parameter: a declaration `Param p(v)`
   or `p = x.clone()` makes a handle of a new parameter, `Param p = x` makes one
   more handle of x, and `x = y` turns x into a handle of y. *)
Fixpoint alias (rh : list (op V A R)) (i j : nat) : Prop :=
  match rh with
  | [] => False
  | (PNew _ | PClone _) :: r => (i = nvars r /\ j = nvars r) \/ (i < nvars r /\ j < nvars r /\ alias r i j)
  | PCopy k :: r => i <= nvars r /\ j <= nvars r /\ alias r (if i =? nvars r then k else i) (if j =? nvars r then k else j)
  | PBind k l :: r => alias r (if i =? k then l else i) (if j =? k then l else j)
  | _ :: r => alias r i j
  end.

(* Models are copied only before they are evaluated. *)
Definition early_copies (h : list (op V A R)) : Prop := forall h1 m h2, h = h1 ++ MCopy m :: h2 -> forall a, ~ In (MEval m a) h1.
(* No model function fails. *)
Definition total_fns (h : list (op V A R)) : Prop := forall ps f b, In (MNew ps f b) h -> forall a l, exists r, f a l = Ok r.
End Alias.
