(* Model of the state of a Phreeqc object right after a script is executed:
   Reaktoro/Extensions/Phreeqc/Phreeqc.cpp and PhreeqcUtils.cpp.  The species of the
   object are those of M_PhreeqcObject.v, here given by their names; the properties
   computed afterwards are in M_PhreeqcState.v. *)
From Verif Require Import Base M_Strings M_Formula M_Algorithms.
Local Open Scope nat_scope.

(* What PHREEQC holds: temperature in K, pressure in atm, the moles of aqueous species, the
   moles_x of phases, the unknowns in order with their phase (if any) and moles, the critical
   temperature, pressure and acentric factor of phases; and the sorted names found by
   Phreeqc.cpp:375-399.  Species and phases are told apart by their names; in the code by
   their addresses. *)
Record Pq := mkPq {
  tk_x : Q; patm_x : Q; moles : str -> Q; moles_x : str -> Q; unknowns : list (option str * Q);
  critical : str -> Q * Q * Q; aqueous : list str; gaseous : list str; minerals : list str }.

(* The object: Phreeqc.cpp:74-84 and the PHREEQC instance. *)
Record Object := mkObject { o_T : Q; o_P : Q; o_n : list Q; o_pq : Pq }.

(* Phreeqc.cpp:39-40. *)
Definition pascal_to_atm : Q := 986923267 # 100000000000000.
Definition atm_to_pascal : Q := 1 / pascal_to_atm.
(* Reaktoro/Common/ConvertUtils.hpp:64-65. *)
Definition convertBarToAtm (p : Q) : Q := (p * (986923267 # 1000000000))%Q.

(* PhreeqcUtils.cpp:422-429. *)
Definition amountsOfSpecies (pq : Pq) (l : list str) : list Q := map (moles pq) l.

(* PhreeqcUtils.cpp:443-451: the loop over the unknowns, which stops at the first with the phase. *)
Fixpoint fromUnknowns (l : list (option str * Q)) (p : str) (n : Q) : Q :=
  match l with
  | [] => n
  | (Some q, m) :: l' => if str_eqb p q then m else fromUnknowns l' p n
  | (None, _) :: l' => fromUnknowns l' p n
  end.
(* PhreeqcUtils.cpp:431-456. *)
Definition amountOfPhase (pq : Pq) (p : str) : Q :=
  let n := moles_x pq p in
  if Qle_bool n 0 then fromUnknowns (unknowns pq) p n else n.
Definition amountsOfPhases (pq : Pq) (l : list str) : list Q := map (amountOfPhase pq) l.

Definition upd (f : str -> Q) (k : str) (v : Q) : str -> Q := fun x => if str_eqb x k then v else f x.
Fixpoint writes (f : str -> Q) (ks : list str) (vs : list Q) : str -> Q :=
  match ks, vs with
  | k :: ks', v :: vs' => writes (upd f k v) ks' vs'
  | _, _ => f
  end.

(* Phreeqc.cpp:696-719 and 903-937: set(T, P, n) writes the conditions and the amounts in PHREEQC,
   gases before minerals; amounts of another number are read or copied out of range.  The ionic
   strength and what is computed from it are in M_PhreeqcState.v. *)
Definition set (pq : Pq) (t p : Q) (n : list Q) : outcome Object :=
  let na := length (aqueous pq) in
  let ng := length (gaseous pq) in
  let nm := length (minerals pq) in
  if Nat.eqb (length n) (na + ng + nm) then
    Ok (mkObject t p n (mkPq t (p * pascal_to_atm)%Q
      (writes (moles pq) (aqueous pq) (firstn na n))
      (writes (writes (moles_x pq) (gaseous pq) (firstn ng (skipn na n))) (minerals pq) (skipn (na + ng) n))
      (unknowns pq) (critical pq) (aqueous pq) (gaseous pq) (minerals pq)))
  else UB.

(* Phreeqc.cpp:660-675, initializeChemicalState. *)
Definition initializeChemicalState (pq : Pq) : outcome Object :=
  let t := tk_x pq in
  let p := (patm_x pq * atm_to_pascal)%Q in
  set pq t p (amountsOfSpecies pq (aqueous pq) ++ amountsOfPhases pq (gaseous pq) ++ amountsOfPhases pq (minerals pq)).

(* Phreeqc.cpp:45-65: critical temperature in K, pressure in bar, acentric factor. *)
Definition critical_properties : list (str * (Q * Q * Q)) := [
  ($"Ar(g)",    (1509 # 10, 4898 # 100,  0 # 1));
  ($"CH4(g)",   (1906 # 10, 4599 # 100,  12 # 1000));
  ($"C6H6O(g)", (6943 # 10, 613 # 10,    444 # 1000));
  ($"CO(g)",    (1329 # 10, 3499 # 100,  48 # 1000));
  ($"CO2(g)",   (3042 # 10, 7383 # 100,  224 # 1000));
  ($"C2H4(g)",  (2823 # 10, 504 # 10,    87 # 1000));
  ($"H2(g)",    (3319 # 100, 1313 # 100, (-216) # 1000));
  ($"H2O(g)",   (6471 # 10, 22055 # 100, 345 # 1000));
  ($"H2S(g)",   (3735 # 10, 8963 # 100,  94 # 1000));
  ($"He(g)",    (52 # 10, 228 # 100,     (-39) # 100));
  ($"Kr(g)",    (2094 # 10, 5502 # 100,  0 # 1));
  ($"N2(g)",    (1262 # 10, 340 # 10,    38 # 1000));
  ($"Ne(g)",    (440 # 10, 270 # 10,     0 # 1));
  ($"NH3(g)",   (4057 # 10, 1128 # 10,   253 # 1000));
  ($"O2(g)",    (1546 # 10, 5043 # 100,  22 # 1000));
  ($"Rn(g)",    (3770 # 10, 628 # 10,    0 # 1));
  ($"SO2(g)",   (4308 # 10, 7884 # 100,  245 # 1000));
  ($"Xe(g)",    (2897 # 10, 584 # 10,    0 # 1)) ]%Q.
Fixpoint lookup (t : list (str * (Q * Q * Q))) (g : str) : option (Q * Q * Q) :=
  match t with
  | [] => None
  | (k, v) :: t' => if str_eqb g k then Some v else lookup t' g
  end.

(* Phreeqc.cpp:639-658: each of the three is set when it is zero. *)
Definition completed (c : Q * Q * Q) (g : str) : Q * Q * Q :=
  match lookup critical_properties g with
  | Some (t, p, w) =>
      let '(tc, pc, om) := c in
      (if Qeq_bool tc 0 then t else tc, if Qeq_bool pc 0 then convertBarToAtm p else pc, if Qeq_bool om 0 then w else om)
  | None => c
  end.
Definition initializeCritical (pq : Pq) : Pq :=
  mkPq (tk_x pq) (patm_x pq) (moles pq) (moles_x pq) (unknowns pq)
    (fold_left (fun f g => fun x => if str_eqb x g then completed (f g) g else f x) (gaseous pq) (critical pq))
    (aqueous pq) (gaseous pq) (minerals pq).

(* Phreeqc.cpp:327-373, execute: [run] is PHREEQC's work on the script, PhreeqcUtils.cpp:56-86,
   with the search of the species. *)
Definition execute (run : Pq -> Pq) (pq : Pq) : outcome Object := initializeChemicalState (initializeCritical (run pq)).
