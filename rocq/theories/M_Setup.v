(* Model of Reaktoro/Equilibrium/EquilibriumSetup.cpp, EquilibriumProps.cpp,
   EquilibriumPredictor.cpp, EquilibriumSensitivity.cpp, EquilibriumHessian.cpp,
   the parts of EquilibriumSolver.cpp around the optimization library, and
   ChemicalState::Equilibrium.  Matrices are lists of rows. *)
From Verif Require Import Base M_Strings M_Formula M_Chem M_Algorithms M_System M_Units M_State M_Specs.

Definition matvec (a : list (list Q)) (v : list Q) : list Q := map (fun row => sumQ (zip_with Qmult row v)) a.
Definition vadd : list Q -> list Q -> list Q := zip_with Qplus.
Definition vsub : list Q -> list Q -> list Q := zip_with Qminus.
(* The rows of the matrix with the given columns of [n] entries each. *)
Definition of_columns (n : nat) (cols : list (list Q)) : list (list Q) :=
  map (fun k => map (fun c => nth k c 0%Q) cols) (seq 0 n).

(* ---- EquilibriumSetup ---- *)
Section Setup.
Variable sys : ChemicalSystem.

(* Core/ElementList.hpp:95-118. *)
Definition element_index (symbol : str) : outcome nat :=
  let idx := indexfn (sys_elements sys) (fun e => str_eqb (el_symbol e) symbol) in
  if length (sys_elements sys) <=? idx then Err else Ok idx.
(* EquilibriumSetup.cpp:123-134. *)
Fixpoint fill_elements (vec : list Q) (l : list (str * Q)) : outcome (list Q) :=
  match l with
  | [] => Ok vec
  | (e, c) :: l' => bind (element_index e) (fun i => fill_elements (upd vec i c) l')
  end.
Definition assembleFormulaVector (f : ChemicalFormula) : outcome (list Q) :=
  let ne := length (sys_elements sys) + 1 in
  fill_elements (upd (repeat 0%Q ne) (ne - 1) (cf_charge f)) (cf_elements f).
(* EquilibriumSetup.cpp:137-159: the formula matrix, then one column per implicit
   titrant. *)
Definition assembleMatrixAex (s : Specs) : outcome (list (list Q)) :=
  let ne := length (sys_elements sys) + 1 in
  omap (fun cols => zip_with (@app Q) (sys_matrix sys) (of_columns ne cols)) (mapM assembleFormulaVector (q_implicit s)).
(* EquilibriumSetup.cpp:162-179: zero columns for temperature and pressure when
   unknown, then one column per explicit titrant. *)
Definition assembleMatrixAep (s : Specs) : outcome (list (list Q)) :=
  let ne := length (sys_elements sys) + 1 in
  let j := b2n (q_unknownT s) + b2n (q_unknownP s) in
  omap (fun cols => of_columns ne (repeat (repeat 0%Q ne) j ++ cols)) (mapM assembleFormulaVector (q_explicit s)).

(* Bounds: None stands for the infinite one. *)
Definition max_bound (inf_wins : bool) (eps : Q) (b : option Q) : option Q :=
  match b with
  | Some v => Some (if Qle_bool eps v then v else eps)
  | None => if inf_wins then None else Some eps
  end.
Fixpoint set_table (l : list (option Q)) (t : list (nat * Q)) : outcome (list (option Q)) :=
  match t with
  | [] => Ok l
  | (i, v) :: t' => if i <? length l then set_table (upd l i (Some v)) t' else UB
  end.
Fixpoint set_frozen (l : list (option Q)) (t : list nat) (n0 : list Q) : outcome (list (option Q)) :=
  match t with
  | [] => Ok l
  | i :: t' => match nth_error n0 i with
               | Some v => if i <? length l then set_frozen (upd l i (Some v)) t' n0 else UB
               | None => UB
               end
  end.
(* EquilibriumSetup.cpp:188-200 and 203-215; [lower] selects the first. *)
Definition assembleBounds (lower : bool) (eps : Q) (s : Specs) (limited : list (nat * Q)) (frozen : list nat) (n0 : list Q)
  : outcome (list (option Q)) :=
  bind (set_table (repeat None (length (sys_species sys))) limited) (fun l =>
  bind (set_frozen l frozen n0) (fun l =>
    Ok (map (max_bound (negb lower) eps) l ++ repeat None (numControlVariablesQ s)))).
Definition assembleLowerBounds (eps : Q) (s : Specs) (r : Restrictions) (n0 : list Q) :=
  assembleBounds true eps s (r_below r) (r_dec r) n0.
Definition assembleUpperBounds (eps : Q) (s : Specs) (r : Restrictions) (n0 : list Q) :=
  assembleBounds false eps s (r_above r) (r_inc r) n0.

(* EquilibriumSetup.cpp:224-235: the value, without the terms of the implicit
   titrants; [ln] is the logarithm.  Dividing by zero is UB. *)
Definition evalObjectiveValue (ln : Q -> Q) (tau : Q) (cp : Props) : outcome Q :=
  bind (divide (sumQ (zip_with Qmult (p_n cp) (p_u cp))) (gasConstant * p_T cp)%Q) (fun g =>
    Ok (g + - tau * sumQ (map ln (p_n cp)))%Q).
(* EquilibriumSetup.cpp:237-263, after the properties have been updated. *)
Definition evalObjectiveGradX (tau : Q) (s : Specs) (cp : Props) (w : list Q) : outcome (list Q) :=
  let RT := (gasConstant * p_T cp)%Q in
  bind (mapM (fun un => bind (divide (fst un) RT) (fun g => bind (divide tau (snd un)) (fun b => Ok (g - b)%Q)))
         (combine (p_u cp) (p_n cp))) (fun gn =>
  bind (mapM (fun i => match nth_error (q_ucons s) i with
                       | Some u => match u_fn u with Some fn => bind (fn cp w) (fun v => divide v RT) | None => Err end
                       | None => UB
                       end) (seq 0 (numControlVariablesQ s))) (fun gq => Ok (gn ++ gq))).
(* EquilibriumSetup.cpp:299-312, after the properties have been updated. *)
Definition evalEquationConstraints (s : Specs) (cp : Props) (w : list Q) : outcome (list Q) :=
  mapM (fun i => match nth_error (q_econs s) i with
                 | Some e => match e_fn e with Some fn => fn cp w | None => Err end
                 | None => UB
                 end) (seq 0 (numControlVariablesP s)).
End Setup.

(* ---- EquilibriumProps ---- *)
Definition read (v : list Q) (i : nat) : outcome Q := match nth_error v i with Some x => Ok x | None => UB end.
(* EquilibriumProps.cpp:35-58. *)
Definition getter (nm : str) (s : Specs) (p w : list Q) : outcome Q :=
  let iw := M_Algorithms.index str_eqb (q_inputs s) nm in
  let ip := M_Algorithms.index str_eqb (namesControlVariables s) nm in
  if iw <? numInputs s then read w iw else read p ip.
Definition getT := getter $"T".
Definition getP := getter $"P".

(* EquilibriumProps.cpp:61-86: the derivative parts of the variables. *)
Definition seeded (l : list Q) : nat := indexfn l (fun g => Qeq_bool g 1).
Definition indexOfSeededVariable (gn gp gw : list Q) : nat :=
  if seeded gn <? length gn then seeded gn
  else if seeded gp <? length gp then length gn + seeded gp
  else length gn + length gp + seeded gw.

(* EquilibriumProps.cpp:126-153.  [cells] holds the values of the model
   parameters; the evaluation of the properties may read them. *)
Definition store := nat -> Q.
Definition write (c : store) (i : nat) (v : Q) : store := fun j => if j =? i then v else c j.
Fixpoint write_all (c : store) (params : list Param) (vs : list Q) : outcome store :=
  match params, vs with
  | [], _ => Ok c
  | p :: params', v :: vs' => write_all (write c (pa_cell p) v) params' vs'
  | _ :: _, [] => UB
  end.
Section Update.
Context {A : Type}.
Variable evaluate : store -> Q -> Q -> list Q -> outcome A.
Definition props_evaluated (s : Specs) (n p w : list Q) (cells : store) : outcome A * store :=
  match getT s p w with
  | Err => (Err, cells) | UB => (UB, cells)
  | Ok T => match getP s p w with
    | Err => (Err, cells) | UB => (UB, cells)
    | Ok P =>
      let params0 := map (fun q => cells (pa_cell q)) (q_params s) in
      match bind (mapM (read w) (q_idxs s)) (write_all cells (q_params s)) with
      | Err => (Err, cells) | UB => (UB, cells)
      | Ok cells1 => match evaluate cells1 T P n with
        | Err => (Err, cells1) | UB => (UB, cells1)
        | Ok a => match write_all cells1 (q_params s) params0 with
          | Ok cells2 => (Ok a, cells2) | Err => (Err, cells1) | UB => (UB, cells1)
          end
        end
      end
    end
  end.
End Update.

(* EquilibriumProps.cpp:154-189: the matrix as its columns; resizing to another
   size leaves unspecified entries, here absent columns. *)
Definition Jacobian := list (option (list Q)).
Definition record_column (nn np nw : nat) (J : Jacobian) (gn gp gw du : list Q) : Jacobian :=
  let idx := indexOfSeededVariable gn gp gw in
  if idx <? nn + np + nw
  then upd (if length J =? nn + np + nw then J else repeat None (nn + np + nw)) idx (Some du) else J.
Definition dudn (nn np nw : nat) (J : Jacobian) : Jacobian := segment J 0 nn.
Definition dudp (nn np nw : nat) (J : Jacobian) : Jacobian := segment J nn np.
Definition dudw (nn np nw : nat) (J : Jacobian) : Jacobian := skipn (length J - nw) J.

(* ---- ChemicalState::Equilibrium (Core/ChemicalState.cpp:387-421) ---- *)
Record EqState := mkEq { eq_inputs : list str; eq_w : list Q; eq_b : list Q; eq_p : list Q; eq_q : list Q }.
(* Core/ChemicalState.cpp:537-545. *)
Definition explicitTitrantAmounts (e : EqState) : list Q := eq_p e.
Definition implicitTitrantAmounts (e : EqState) : list Q := eq_q e.

(* ---- EquilibriumSensitivity ---- *)
Record Sens := mkSens { z_inputs : list str; z_dndw : list (list Q); z_dpdw : list (list Q); z_dqdw : list (list Q);
  z_dndb : list (list Q); z_dpdb : list (list Q); z_dqdb : list (list Q); z_dudw : list (list Q); z_dudb : list (list Q) }.
Definition column (a : list (list Q)) (j : nat) : outcome (list Q) := mapM (fun row => read row j) a.
(* EquilibriumSensitivity.cpp:118-122, 142-146 and 166-170: the column of a
   matrix of [nw] columns. *)
Definition named_column (z : Sens) (a : list (list Q)) (nw : nat) (wid : str) : outcome (list Q) :=
  let idx := M_Algorithms.index str_eqb (z_inputs z) wid in
  if idx <? nw then column a idx else UB.
(* EquilibriumSensitivity.cpp:134-140, 158-164, 182-188, 195-201, 208-214 and
   221-227: [rows] and [cols] are those of the stored matrix. *)
Definition set_checked (rows cols : nat) (data : list (list Q)) (drows dcols : nat) (old : list (list Q)) : outcome unit * list (list Q) :=
  if negb (rows =? drows) then (Err, old) else if negb (cols =? dcols) then (Err, old) else (Ok tt, data).
(* EquilibriumSensitivity.cpp:239-247. *)
Definition set_unchecked (data old : list (list Q)) : outcome unit * list (list Q) := (Ok tt, data).

(* ---- EquilibriumPredictor ---- *)
(* EquilibriumPredictor.cpp:33-53. *)
Definition predT (inputs : list str) (p w : list Q) : outcome Q :=
  let iT := M_Algorithms.index str_eqb inputs $"T" in
  if iT <? length inputs then read w iT else read p 0.
Definition predP (inputs : list str) (p w : list Q) : outcome Q :=
  let iP := M_Algorithms.index str_eqb inputs $"P" in
  if iP <? length inputs then read w iP
  else if M_Algorithms.index str_eqb inputs $"T" <? length inputs then read p 0 else read p 1.

(* A state with its serialized properties and equilibrium data. *)
Record FullState := mkFull { fs_state : State; fs_u : list Q; fs_eq : EqState }.
Record Reference := mkRef { rf_state : FullState; rf_sens : Sens }.
(* EquilibriumPredictor.cpp:74-89. *)
Definition mkPredictor (st : FullState) (z : Sens) : outcome Reference :=
  match eq_inputs (fs_eq st) with [] => Err | _ => Ok (mkRef st z) end.
Definition taylor (x0 : list Q) (dw : list (list Q)) (w : list Q) (db : list (list Q)) (b : list Q) : list Q :=
  vadd (vadd x0 (matvec dw w)) (matvec db b).
Section Predict.
(* The setters of the state may reject values and stop midway. *)
Variable ndebug : bool.
(* EquilibriumPredictor.cpp:92-124; [b] is what initialComponentAmounts gives. *)
Definition predict (r : Reference) (w : list Q) (b : outcome (list Q)) (st : FullState) : outcome unit * FullState :=
  match b with
  | Err => (Err, st) | UB => (UB, st)
  | Ok b =>
    let z := rf_sens r in let s0 := rf_state r in let e0 := fs_eq s0 in
    let dw := vsub w (eq_w e0) in let db := vsub b (eq_b e0) in
    let n := taylor (st_n (fs_state s0)) (z_dndw z) dw (z_dndb z) db in
    let p := taylor (eq_p e0) (z_dpdw z) dw (z_dpdb z) db in
    let q := taylor (eq_q e0) (z_dqdw z) dw (z_dqdb z) db in
    let u := taylor (fs_u s0) (z_dudw z) dw (z_dudb z) db in
    match bind (predT (eq_inputs e0) p w) (fun T => bind (predP (eq_inputs e0) p w) (fun P => Ok (T, P))) with
    | Err => (Err, st) | UB => (UB, st)
    | Ok (T, P) =>
      match setTemperature T (fs_state st) with
      | (Ok _, s1) => match setPressure P s1 with
        | (Ok _, s2) => match setSpeciesAmounts ndebug n s2 with
          | (Ok _, s3) => (Ok tt, mkFull s3 u (mkEq (eq_inputs e0) (eq_w e0) (eq_b e0) p q))
          | (r, s3) => (r, mkFull s3 (fs_u st) (fs_eq st))
          end
        | (r, s2) => (r, mkFull s2 (fs_u st) (fs_eq st))
        end
      | (r, s1) => (r, mkFull s1 (fs_u st) (fs_eq st))
      end
    end
  end.
End Predict.

(* ---- EquilibriumSolver, around the optimization library ---- *)
Definition maxCoeff (l : list Q) : outcome Q :=
  match l with [] => UB | x :: l' => Ok (fold_left (fun m y => if Qle_bool y m then m else y) l' x) end.
(* EquilibriumSolver.cpp:133-145. *)
Definition updateInitialState (ndebug : bool) (n0 : list Q) (st : State) : outcome unit * State :=
  with_value (maxCoeff (st_n st)) st (fun m =>
    let uninitialized := Qeq_bool m 0 in
    let has_n0 := negb (length n0 =? 0) in
    if uninitialized && negb has_n0 then fail st
    else if uninitialized && has_n0 then setSpeciesAmounts ndebug n0 st else (Ok tt, st)).

Definition block (a : list (list Q)) (r0 c0 nr nc : nat) : list (list Q) := map (fun row => segment row c0 nc) (segment a r0 nr).
(* a * b for a matrix [b] of [nc] columns. *)
Definition matmul (nc : nat) (a b : list (list Q)) : list (list Q) :=
  map (fun row => map (fun j => sumQ (zip_with Qmult row (map (fun r => nth j r 0%Q) b))) (seq 0 nc)) a.
Definition madd (a b : list (list Q)) : list (list Q) := zip_with vadd a b.
(* EquilibriumSolver.cpp:249-279: [xc] has Nn + Nq rows, [pc] has Np rows, both
   with Nw + Nb columns. *)
Definition updateEquilibriumSensitivity (inputs : list str) (nn nq nb nw : nat) (xc pc dun dup duw : list (list Q)) : Sens :=
  let nx := length xc in
  let nc := nw + nb in
  let dndw := block xc 0 0 nn nw in
  let dqdw := block xc (nx - nq) 0 nq nw in
  let dpdw := block pc 0 0 (length pc) nw in
  let dndb := block xc 0 (nc - nb) nn nb in
  let dqdb := block xc (nx - nq) (nc - nb) nq nb in
  let dpdb := block pc 0 (nc - nb) (length pc) nb in
  mkSens inputs dndw dpdw dqdw dndb dpdb dqdb
    (madd (madd duw (matmul nw dun dndw)) (matmul nw dup dpdw))
    (madd (matmul nb dun dndb) (matmul nb dup dpdb)).

(* EquilibriumSolver.cpp:99-130, without the names given to variables: the
   minimum amount kept by the solver and by its setup. *)
Definition setOptions (eps : Q) (old : Q * Q) : outcome unit * (Q * Q) :=
  let new := (eps, eps) in if Qle_bool eps 0 then (Err, new) else (Ok tt, new).

(* ---- EquilibriumHessian ---- *)
Section Hessian.
(* The derivatives of all chemical potentials with respect to one amount. *)
Variable derivatives : Q -> Q -> list Q -> nat -> list Q.
(* EquilibriumHessian.cpp:61-66: the argument is not used, [own] are the
   properties of the object. *)
Definition hessian_update (own given : Props) : Q * Q * list Q := (p_T own, p_P own, p_n own).
(* EquilibriumHessian.cpp:69-79. *)
Definition exact (own given : Props) (N : nat) : list (list Q) :=
  let '(T, P, n) := hessian_update own own in map (derivatives T P n) (seq 0 N).
(* EquilibriumHessian.cpp:101-124: each block is copied before it is written, so
   that the returned matrix keeps the zeros it was filled with. *)
Definition approx (given : Props) (N : nat) : list (list Q) := repeat (repeat 0%Q N) N.
(* EquilibriumHessian.cpp:82-98. *)
Definition partiallyExact (own given : Props) (indices : list nat) (N : nat) : list (list Q) :=
  let '(T, P, n) := hessian_update own own in
  fold_left (fun H i => upd H i (derivatives T P n i)) indices (approx own N).
(* EquilibriumHessian.cpp:127-147: an amount of zero gives a number that is not
   finite, modelled as UB. *)
Definition diagonalApprox (given : Props) (N : nat) : outcome (list (list Q)) :=
  let RT := (gasConstant * p_T given)%Q in
  mapM (fun i => bind (read (p_x given) i) (fun xi => bind (read (p_n given) i) (fun ni =>
         bind (divide (RT * (1 - xi)) ni) (fun h => Ok (upd (repeat 0%Q N) i h))))) (seq 0 N).
End Hessian.
