(* Model of Reaktoro/Equilibrium/EquilibriumSolver.cpp: whole calculations, from
   the state, conditions and restrictions given to the state returned, around an
   arbitrary optimizer (the library Optima is not in the repository), with the
   derivative parts of numbers of type autodiff::real. *)
From Verif Require Import Base M_Strings M_Formula M_Chem M_Algorithms M_System M_Units M_State M_Specs M_Setup.
Local Open Scope nat_scope.

(* Common/Real.hpp: a value and a derivative. *)
Record dual := mkD { val : Q; der : Q }.
Definition plain (v : Q) : dual := mkD v 0.
(* autodiff::seed and autodiff::unseed of one entry of a vector. *)
Definition seed (l : list dual) (j : nat) : list dual := match nth_error l j with Some d => upd l j (mkD (val d) 1) | None => l end.
Definition unseed (l : list dual) (j : nat) : list dual := match nth_error l j with Some d => upd l j (mkD (val d) 0) | None => l end.

(* Optima::State: the size of x it was made for, x, p, and everything else. *)
Record OptState := mkOpt { o_dim : nat; o_x : list Q; o_p : list Q; o_rest : list Q }.
(* Core/ChemicalState.cpp:387-421: the data of an equilibrium calculation. *)
Record EqData := mkEqData { e_inputs : list str; e_w : list Q; e_b : list Q; e_q : list Q; e_opt : OptState }.
(* Core/ChemicalState.cpp:35-54, without the properties, which calculations
   neither read nor write; the derivative parts of amounts are left out, since
   calculations convert amounts to numbers without derivatives. *)
Record DState := mkDS { d_T : dual; d_P : dual; d_n : list Q; d_eq : EqData }.
(* EquilibriumConditions.hpp:217-230. *)
Record DConditions := mkDC { dc_inputs : list str; dc_w : list dual; dc_species : list Q; dc_components : list Q }.
(* What is asked from the functions of an optimization problem: the objective or
   the constraints at x and p, with the derivatives in x, p and the inputs that
   are wanted. *)
Record Request := mkReq { rq_objective : bool; rq_x : list Q; rq_p : list Q; rq_ddx : bool; rq_ddp : bool; rq_ddw : bool }.
(* The values and the columns of the matrices that were wanted. *)
Record Answer := mkAns { a_values : list Q; a_x : option (list (list Q)); a_p : option (list (list Q)); a_w : option (list (list Q)) }.
(* Optima::Problem, with the inputs kept by its functions. *)
Record Problem := mkPr { pr_aex : list (list Q); pr_aep : list (list Q); pr_be : list Q;
  pr_lower : list (option Q); pr_upper : list (option Q); pr_w : list dual }.
(* The temperature and pressure of the properties kept by the solver. *)
Definition Kept : Type := dual * dual.

Section Solve.
Variable ndebug : bool.
Variable sys : ChemicalSystem.
Variable s : Specs.
(* EquilibriumOptions::epsilon. *)
Variable eps : Q.
(* The objective value, its gradient and the residuals of the constraints as
   functions of amounts, temperature, pressure and inputs, with derivatives. *)
Variable objective : list dual -> dual -> dual -> list dual -> outcome dual.
Variable gradient : list dual -> dual -> dual -> list dual -> outcome (list dual).
Variable constraints : list dual -> dual -> dual -> list dual -> outcome (list dual).
(* The state that Optima makes for the given numbers of variables. *)
Variable fresh : nat -> nat -> OptState.
(* Optima::Solver: from the problem and the start, with or without
   sensitivities, the requests made, the last state and the success. *)
Variable optimizer : bool -> Problem -> OptState -> list Request * OptState * bool.

Definition Nn : nat := length (sys_species sys).
Definition Nx : nat := Nn + numControlVariablesQ s.
Definition Np : nat := numControlVariablesP s.

(* EquilibriumProps.cpp:35-58. *)
Definition getD (nm : str) (p w : list dual) : outcome dual :=
  let iw := M_Algorithms.index str_eqb (q_inputs s) nm in
  let ip := M_Algorithms.index str_eqb (namesControlVariables s) nm in
  let v := if iw <? numInputs s then nth_error w iw else nth_error p ip in
  match v with Some d => Ok d | None => UB end.
(* EquilibriumSetup.cpp:218-222 with EquilibriumProps.cpp:126-148, then one of the
   functions of the properties (EquilibriumSetup.cpp:224-263 and 299-312). *)
Definition evaluate {A} (fn : list dual -> dual -> dual -> list dual -> outcome A) (x p w : list dual) (k : Kept) : outcome A * Kept :=
  if negb (Nn <=? length x) then (UB, k) else
  match getD $"T" p w, getD $"P" p w with
  | Ok T, Ok P => (fn (firstn Nn x) T P w, (T, P))
  | _, _ => (UB, k)
  end.
(* autodiff::jacobian: one evaluation for each variable, seeded in turn. *)
Fixpoint jacobian (fn : list dual -> Kept -> outcome (list dual) * Kept) (l : list dual) (js : list nat) (k : Kept) : outcome (list (list Q)) * Kept :=
  match js with
  | [] => (Ok [], k)
  | j :: js' =>
    match fn (seed l j) k with
    | (Ok r, k1) => let '(cols, k2) := jacobian fn (unseed l j) js' k1 in (bind cols (fun cs => Ok (map der r :: cs)), k2)
    | (Err, k1) => (Err, k1)
    | (UB, k1) => (UB, k1)
    end
  end.
Definition wanted (b : bool) (fn : list dual -> Kept -> outcome (list dual) * Kept) (l : list dual) (k : Kept) : outcome (option (list (list Q))) * Kept :=
  if b then let '(cols, k1) := jacobian fn l (seq 0 (length l)) k in (bind cols (fun cs => Ok (Some cs)), k1) else (Ok None, k).
(* EquilibriumSolver.cpp:163-184 and 187-201, with EquilibriumSetup.cpp:265-296 and
   314-346. *)
Definition ask (w : list dual) (r : Request) (k : Kept) : outcome Answer * Kept :=
  let x := map plain (rq_x r) in let p := map plain (rq_p r) in
  let '(f, k0) := if rq_objective r then evaluate objective x p w k else (Ok (plain 0), k) in
  let fn := if rq_objective r then gradient else constraints in
  match f with
  | Err => (Err, k0) | UB => (UB, k0)
  | Ok _ =>
    let '(v, k1) := evaluate fn x p w k0 in
    match v with
    | Err => (Err, k1) | UB => (UB, k1)
    | Ok v =>
      let '(jx, k2) := wanted (rq_ddx r) (fun x => evaluate fn x p w) x k1 in
      match jx with
      | Err => (Err, k2) | UB => (UB, k2)
      | Ok jx =>
        let '(jp, k3) := wanted (rq_ddp r) (fun p => evaluate fn x p w) p k2 in
        match jp with
        | Err => (Err, k3) | UB => (UB, k3)
        | Ok jp =>
          let '(jw, k4) := wanted (rq_ddw r) (fun w => evaluate fn x p w) w k3 in
          (bind jw (fun jw => Ok (mkAns (map val v) jx jp jw)), k4)
        end
      end
    end
  end.
Fixpoint asked (w : list dual) (rs : list Request) (k : Kept) : outcome unit * Kept :=
  match rs with
  | [] => (Ok tt, k)
  | r :: rs' => match ask w r k with
                | (Ok _, k1) => asked w rs' k1
                | (Err, k1) => (Err, k1)
                | (UB, k1) => (UB, k1)
                end
  end.

(* EquilibriumSolver.cpp:133-145 on the amounts. *)
Definition initialAmounts (c : DConditions) (n : list Q) : outcome (list Q) :=
  bind (maxCoeff n) (fun m =>
    let uninitialized := Qeq_bool m 0 in
    let has_n0 := negb (length (dc_species c) =? 0) in
    if uninitialized && negb has_n0 then Err
    else if uninitialized && has_n0 then (if ndebug || (length n =? length (dc_species c)) && forallb (Qle_bool 0) (dc_species c) then Ok (dc_species c) else UB)
    else Ok n).
(* EquilibriumSolver.cpp:147-221. *)
Definition optProblem (c : DConditions) (r : Restrictions) (n : list Q) : outcome Problem :=
  bind (assembleMatrixAex sys s) (fun aex => bind (assembleMatrixAep sys s) (fun aep =>
  bind (initialComponentAmounts sys (mkC (dc_inputs c) (map val (dc_w c)) (dc_species c) (dc_components c))) (fun be =>
  bind (assembleLowerBounds sys eps s r n) (fun lower => bind (assembleUpperBounds sys eps s r n) (fun upper =>
  Ok (mkPr aex aep be lower upper (dc_w c))))))).
(* EquilibriumSolver.cpp:224-232. *)
Definition optStart (n : list Q) (o : OptState) : outcome OptState :=
  let o := if o_dim o =? Nx then o else fresh Nx Np in
  if (Nn <=? length (o_x o)) && (length n =? Nn) then Ok (mkOpt (o_dim o) (n ++ skipn Nn (o_x o)) (o_p o) (o_rest o)) else UB.
(* Core/ChemicalState.cpp:470-475: Nq is computed from the size of x. *)
Definition setOptimaState (o : OptState) (e : EqData) : outcome EqData :=
  if Nn <=? length (o_x o) then Ok (mkEqData (e_inputs e) (e_w e) (e_b e) (skipn Nn (o_x o)) o) else UB.
(* EquilibriumSolver.cpp:235-246 with Core/ChemicalState.cpp:63-68, 75-80 and 103-108. *)
Definition finish (c : DConditions) (be : list Q) (o : OptState) (k : Kept) (st : DState) : outcome unit * DState :=
  let '(T, P) := k in
  if Qle_bool (val T) 0 then (Err, st) else
  let st1 := mkDS T (d_P st) (d_n st) (d_eq st) in
  if Qle_bool (val P) 0 then (Err, st1) else
  let st2 := mkDS T P (d_n st) (d_eq st) in
  if negb (Nn <=? length (o_x o)) then (UB, st2) else
  let n := firstn Nn (o_x o) in
  if negb (ndebug || (length n =? length (d_n st)) && forallb (Qle_bool 0) n) then (UB, st2) else
  let st3 := mkDS T P n (mkEqData (dc_inputs c) (map val (dc_w c)) be (e_q (d_eq st)) (e_opt (d_eq st))) in
  match setOptimaState o (d_eq st3) with
  | Ok e => (Ok tt, mkDS T P n e)
  | Err => (Err, st3) | UB => (UB, st3)
  end.
(* EquilibriumSolver.cpp:306-319 and 346-360: the state may have been changed
   when an error is thrown. *)
Definition solve (sensitivity : bool) (c : DConditions) (r : Restrictions) (k : Kept) (st : DState) : outcome bool * Kept * DState :=
  match initialAmounts c (d_n st) with
  | Err => (Err, k, st) | UB => (UB, k, st)
  | Ok n =>
    let st1 := mkDS (d_T st) (d_P st) n (d_eq st) in
    match bind (optProblem c r n) (fun pr => bind (optStart n (e_opt (d_eq st))) (fun o => Ok (pr, o))) with
    | Err => (Err, k, st1) | UB => (UB, k, st1)
    | Ok (pr, o) =>
      let '(rs, o', ok) := optimizer sensitivity pr o in
      match asked (pr_w pr) rs k with
      | (Err, k1) => (Err, k1, st1)
      | (UB, k1) => (UB, k1, st1)
      | (Ok _, k1) => match finish c (pr_be pr) o' k1 st1 with
                      | (Ok _, st2) => (Ok ok, k1, st2)
                      | (Err, st2) => (Err, k1, st2)
                      | (UB, st2) => (UB, k1, st2)
                      end
      end
    end
  end.

(* EquilibriumConditions.cpp:55-69 for values in kelvin and pascal, which
   Common/Units.hpp:46-50 returns as they are. *)
Definition setInput (wid : str) (v : dual) (c : DConditions) : outcome DConditions :=
  if contains str_eqb (dc_inputs c) wid
  then Ok (mkDC (dc_inputs c) (upd (dc_w c) (M_Algorithms.index str_eqb (dc_inputs c) wid) v) (dc_species c) (dc_components c)) else Err.
(* EquilibriumSolver.cpp:291-294 and 331-334, with EquilibriumConditions.cpp:45-53
   and 135-142; [cells] are the values of the parameters. *)
Definition stateConditions (cells : nat -> Q) (st : DState) : outcome DConditions :=
  bind (newConditions cells s) (fun c0 =>
  bind (setInput $"T" (d_T st) (mkDC (c_inputs c0) (map plain (c_values c0)) [] [])) (fun c1 =>
  bind (setInput $"P" (d_P st) c1) (fun c2 =>
  if length (d_n st) =? Nn then Ok (mkDC (dc_inputs c2) (dc_w c2) (d_n st) []) else Err))).
(* EquilibriumSolver.cpp:289-296 and 329-336. *)
Definition solveState (sensitivity : bool) (cells : nat -> Q) (r : Restrictions) (k : Kept) (st : DState) : outcome bool * Kept * DState :=
  match stateConditions cells st with
  | Ok c => solve sensitivity c r k st
  | Err => (Err, k, st) | UB => (UB, k, st)
  end.
End Solve.

(* EquilibriumSolver.cpp:48-54. *)
Definition defaultSpecs : Specs := snd (pressure (snd (temperature newSpecs))).
