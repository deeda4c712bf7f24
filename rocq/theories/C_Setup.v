(* Properties C34 - C38 and C71 - C77: assembling equilibrium problems, their
   derivatives, predictions and sensitivities. *)
From Coq Require Import Lqa.
From Verif Require Import Base S_System S_State S_Chem M_Strings M_Formula M_Chem M_Algorithms M_System M_Units M_State M_Specs M_Setup
  S_Equilibrium P_Algorithms P_System P_Phases P_State P_State2 P_State3 P_Props P_Specs P_Specs2 P_Restrictions P_Conditions
  P_Setup P_Setup2 P_Setup3 P_Linear P_Predict C_State C_Specs.
Local Open Scope nat_scope.

(* ---- C34: conservation and bounds ---- *)
(* The number of unknowns among temperature and pressure, which come first in p. *)
Definition leading (s : Specs) : nat := (if q_unknownT s then 1 else 0) + (if q_unknownP s then 1 else 0).

Lemma sys_facts phases : let sys := mkChemicalSystem phases in
  NoDup (map el_symbol (sys_elements sys)) /\ length (sys_matrix sys) = length (sys_elements sys) + 1 /\
  (forall k e, nth_error (sys_elements sys) k = Some e ->
     nth_error (sys_matrix sys) k = Some (map (fun sp => el_coefficient (sp_elements sp) (el_symbol e)) (sys_species sys))) /\
  nth_error (sys_matrix sys) (length (sys_elements sys)) = Some (map sp_charge (sys_species sys)).
Proof.
  cbv zeta. unfold mkChemicalSystem. cbn [sys_species sys_elements sys_matrix].
  set (l := collectSpecies phases). set (E := collectElements l).
  assert (PR : forall B (f : Species -> B), (forall x n, f (with_name x n) = f x) -> map f (fixDuplicateSpeciesNames l) = map f l).
  { intros B f H. apply rename_proj. exact H. }
  destruct (collectElements_spec l) as (ND & _). split; [exact ND|]. unfold formulaMatrix. fold E.
  split; [rewrite app_length, map_length; reflexivity|]. split.
  - intros k e He. rewrite nth_error_app1 by (rewrite map_length; apply nth_error_Some; congruence). rewrite nth_error_map, He. cbn [option_map]. f_equal.
    symmetry. apply (PR _ (fun s => el_coefficient (sp_elements s) (el_symbol e))). reflexivity.
  - rewrite nth_error_app2 by (rewrite map_length; lia). rewrite map_length, Nat.sub_diag. cbn [nth_error]. f_equal. symmetry. apply PR. reflexivity.
Qed.

(* The assembled equations hold exactly when elements and charge are conserved. *)
Theorem C34_conservation : forall phases log stdprops db h s Aex Aep n q p b, let sys := mkChemicalSystem phases in
  (forall sp, In sp (sys_species sys) -> listed_once (composition sp)) ->
  db_ok db -> Forall call_ok h -> srun log stdprops sys db newSpecs h = Some s ->
  assembleMatrixAex sys s = Ok Aex -> assembleMatrixAep sys s = Ok Aep ->
  length n = length (sys_species sys) -> length b = length (sys_elements sys) + 1 ->
  length Aex = length b /\ length Aep = length b /\
  ((forall k rx rp bk, nth_error Aex k = Some rx -> nth_error Aep k = Some rp -> nth_error b k = Some bk ->
      (dotQ rx (n ++ q) + dotQ rp p == bk)%Q) <->
   Conserved sys (q_implicit s) (q_explicit s) n q (skipn (leading s) p) b).
Proof.
  intros phases log stdprops db h s Aex Aep n q p b sys HS D C R EX EP Ln Lb. destruct (sys_facts phases) as (ND & LM & ROW & CH). fold sys in ND, LM, ROW, CH.
  destruct (srun_titrants _ _ _ _ _ _ D C R) as [_ T]. apply Forall_app in T as [T1 T2].
  split; [rewrite (Aex_length sys LM s Aex EX); auto|]. split; [rewrite (Aep_length sys s Aep EP); auto|].
  apply (rows_conserved sys ND LM s Aex Aep n q p b HS ROW CH T2 T1 EX EP Ln Lb).
Qed.
Print Assumptions C34_conservation.

(* They can be assembled unless a titrant has an element that the system lacks,
   which is reported. *)
Theorem C34_assembled : forall phases s, let sys := mkChemicalSystem phases in
  (Forall (composed_in sys) (q_implicit s) <-> exists A, assembleMatrixAex sys s = Ok A) /\
  (Forall (composed_in sys) (q_explicit s) <-> exists A, assembleMatrixAep sys s = Ok A) /\
  assembleMatrixAex sys s <> UB /\ assembleMatrixAep sys s <> UB.
Proof.
  intros phases s sys. destruct (sys_facts phases) as (ND & LM & _). fold sys in ND, LM. unfold assembleMatrixAex, assembleMatrixAep. rewrite <- !(vectors_ok sys ND).
  pose proof (vectors_noUB sys ND (q_implicit s)) as U1. pose proof (vectors_noUB sys ND (q_explicit s)) as U2.
  assert (G : forall m (k : list (list Q) -> list (list Q)), m <> UB -> ((exists cols, m = Ok cols) <-> exists A, omap k m = Ok A) /\ omap k m <> UB).
  { intros [c| |] k U; cbn; (split; [split|]); try congruence; intros; eauto; match goal with H : exists _, Err = Ok _ |- _ => destruct H; discriminate end. }
  split; [apply G; exact U1|]. split; [apply G; exact U2|]. split; apply G; auto.
Qed.
Print Assumptions C34_assembled.

(* What a limit requires of the bound of a species that has amount [x]; the
   smallest amount considered is [eps]. *)
Definition LowerBound (eps : Q) (l : Limit) (x : Q) (b : option Q) : Prop :=
  match l with
  | Unlimited => b = Some eps
  | Frozen => exists m, b = Some m /\ Larger x eps m
  | UpTo v => exists m, b = Some m /\ Larger v eps m
  end.
Definition UpperBound (eps : Q) (l : Limit) (x : Q) (b : option Q) : Prop :=
  match l with
  | Unlimited => b = None
  | Frozen => exists m, b = Some m /\ Larger x eps m
  | UpTo v => exists m, b = Some m /\ Larger v eps m
  end.
(* The bounds of each species are those of the last restriction about it, and
   implicit titrants have none. *)
Theorem C34_bounds : forall sys eps s h r n0, rrun sys newRestrictions h = Some r -> length n0 = length (sys_species sys) ->
  exists lo up, assembleLowerBounds sys eps s r n0 = Ok lo /\ assembleUpperBounds sys eps s r n0 = Ok up /\
    length lo = length n0 + length (q_implicit s) /\ length up = length n0 + length (q_implicit s) /\
    (forall i x, nth_error n0 i = Some x ->
       (exists b l, nth_error lo i = Some b /\ InForce (Lower sys) h i l /\ LowerBound eps l x b) /\
       (exists b l, nth_error up i = Some b /\ InForce (Upper sys) h i l /\ UpperBound eps l x b)) /\
    (forall j, j < length (q_implicit s) -> nth_error lo (length n0 + j) = Some None /\ nth_error up (length n0 + j) = Some None).
Proof.
  intros sys eps s h r n0 R L. destruct (rrun_shows sys h r R) as [U D]. destruct (rrun_ok sys h _ _ R (new_ok _)) as [KU KD].
  destruct (bounds_ok sys true eps s _ _ n0 KD L) as (lo & E1 & L1 & B1 & Q1). destruct (bounds_ok sys false eps s _ _ n0 KU L) as (up & E2 & L2 & B2 & Q2).
  exists lo, up. rewrite L. split; [exact E1|]. split; [exact E2|]. split; [exact L1|]. split; [exact L2|]. split.
  - intros i x N. split.
    + destruct (D i) as (l & F & S). destruct (B1 i l x N S) as (b & Nb & B). exists b, l. split; [exact Nb|]. split; [exact F|]. destruct l; exact B.
    + destruct (U i) as (l & F & S). destruct (B2 i l x N S) as (b & Nb & B). exists b, l. split; [exact Nb|]. split; [exact F|]. destruct l; exact B.
  - intros j Lj. split; auto.
Qed.
Print Assumptions C34_bounds.

Example C34_nonvacuous :
  (forall sp, In sp (sys_species sample) -> listed_once (composition sp)) /\
  match srun (fun x => x) noprops sample emptyDB newSpecs [STemperature; SVolume; SChemicalPotential $"CO2"; SOpenTo (Build_ChemicalFormula $"O2" [($"O", 2%Q)] 0%Q)] with
  | Some s => is_ok (assembleMatrixAex sample s) = true /\ assembleMatrixAep sample s = Ok [[0; 0]; [0; 0]; [0; 2]; [0; 0]]%Q /\
      assembleUpperBounds sample (1 # 10) s (mkR [0] [] [(1, 7%Q)] []) [2; 3; 4]%Q = Ok [Some 2; Some 7; None; None]%Q
  | None => False end.
Proof.
  split.
  - intros sp I. vm_compute in I. destruct I as [<-|[<-|[<-|[]]]]; repeat (constructor; [cbn; intuition discriminate|]); constructor.
  - vm_compute. repeat split.
Qed.

(* Every constraint is evaluated, once and in order, when the dimensions agree. *)
Theorem C30_evaluated : forall log stdprops sys db h s d cp w v, srun log stdprops sys db newSpecs h = Some s ->
  mkEquilibriumDims sys s = Ok d -> evalEquationConstraints s cp w = Ok v ->
  Forall2 (fun e r => exists fn, e_fn e = Some fn /\ fn cp w = Ok r) (q_econs s) v.
Proof.
  intros log stdprops sys db h s d cp w v R D E. pose proof (inv_imp _ (srun_Inv _ _ _ _ _ _ R)) as I.
  assert (L : length (q_implicit s) = length (q_ucons s)) by (rewrite I; apply map_length).
  assert (N : numControlVariablesP s = length (q_econs s)).
  { unfold mkEquilibriumDims in D. destruct (Nat.eqb_spec (numControlVariablesP s + numControlVariablesQ s) (numConstraints s)) as [K|]; [|discriminate].
    unfold numControlVariablesQ, numTitrantsImplicit, numConstraints in K. lia. }
  unfold evalEquationConstraints in E. rewrite N in E. clear R D N I L. apply mapM_Forall2 in E.
  assert (G : forall (l : list EConstraint) k, skipn k (q_econs s) = l -> forall v,
    Forall2 (fun i r => match nth_error (q_econs s) i with Some e => match e_fn e with Some fn => fn cp w | None => Err end | None => UB end = Ok r) (seq k (length l)) v ->
    Forall2 (fun e r => exists fn, e_fn e = Some fn /\ fn cp w = Ok r) l v).
  { induction l as [|e l IH]; intros k S u F; cbn [seq length] in F; inversion F; subst; constructor.
    - assert (X : nth_error (q_econs s) k = Some e). { rewrite <- (firstn_skipn k (q_econs s)) at 1. rewrite S. rewrite nth_error_app2; rewrite firstn_length.
        2:lia. assert (k < length (q_econs s)). { destruct (Nat.lt_ge_cases k (length (q_econs s))); auto. rewrite skipn_all2 in S by auto. discriminate. }
        rewrite Nat.min_l by lia. rewrite Nat.sub_diag. reflexivity. }
      rewrite X in H1. destruct (e_fn e) as [fn|]; [|discriminate]. eauto.
    - apply (IH (Datatypes.S k)); auto. replace (Datatypes.S k) with (1 + k) by lia. rewrite skipn_add, S. reflexivity. }
  apply (G (q_econs s) 0); auto.
Qed.
Print Assumptions C30_evaluated.

(* ---- C32, continued: the component amounts handed to the solver ---- *)
(* Given component amounts are handed over as they are; otherwise the amounts of
   elements and of charge in the given species amounts; an error when neither
   was given. *)
Theorem C32_components : forall phases c, let sys := mkChemicalSystem phases in
  (c_components c <> [] -> initialComponentAmounts sys c = Ok (c_components c)) /\
  (c_components c = [] -> c_species c = [] -> initialComponentAmounts sys c = Err) /\
  (c_components c = [] -> c_species c <> [] -> length (c_species c) = length (sys_species sys) ->
     exists b, initialComponentAmounts sys c = Ok b /\ length b = length (sys_elements sys) + 1 /\
       (forall k e, nth_error (sys_elements sys) k = Some e ->
          nth_error b k = Some (sumQ (zip_with Qmult (map (fun sp => el_coefficient (sp_elements sp) (el_symbol e)) (sys_species sys)) (c_species c)))) /\
       nth_error b (length (sys_elements sys)) = Some (sumQ (zip_with Qmult (map sp_charge (sys_species sys)) (c_species c)))).
Proof.
  intros phases c sys. destruct (sys_facts phases) as (_ & LM & ROW & CH). fold sys in LM, ROW, CH. unfold initialComponentAmounts. split; [|split].
  - destruct (c_components c); [congruence|reflexivity].
  - intros -> ->. reflexivity.
  - intros -> N L. cbn [length Nat.eqb negb]. destruct (Nat.eqb_spec (length (c_species c)) 0) as [Z|_]; [destruct (c_species c); [congruence|discriminate]|].
    rewrite L, Nat.eqb_refl. eexists. split; [reflexivity|]. rewrite map_length. split; [exact LM|]. split.
    + intros k e H. rewrite nth_error_map, (ROW k e H). reflexivity.
    + rewrite nth_error_map, CH. reflexivity.
Qed.
Print Assumptions C32_components.
(* Every condition reached by calls meets the third case or one of the others. *)
Theorem C32_components_reached : forall phases log fresh cells s h c, let sys := mkChemicalSystem phases in Inv s ->
  (exists c0, newConditions cells s = Ok c0 /\ crun log fresh sys c0 h = Some c) -> initialComponentAmounts sys c <> UB.
Proof.
  intros phases log fresh cells s h c sys I (c0 & E0 & R).
  destruct (newConditions_ok log fresh cells s I) as (c1 & E1 & I1 & L1 & N1 & M1 & _). rewrite E0 in E1. injection E1 as <-.
  destruct (crun_shaped log fresh sys h c0 c R) as [[L S] _]. { split; [exact L1|]. left. auto. }
  destruct (C32_components phases c) as (H1 & H2 & H3). fold sys in H1, H2, H3. destruct S as [[A B]|[[A B]|[A B]]].
  - rewrite H2 by auto. discriminate.
  - destruct (c_species c) eqn:E; [rewrite H2 by auto; discriminate|]. destruct H3 as (b & -> & _); [auto|discriminate|auto|discriminate].
  - rewrite H1; [discriminate|]. intro Z. rewrite Z in B. cbn in B. lia.
Qed.
Print Assumptions C32_components_reached.
Example C32_components_nonvacuous : let sys := mkChemicalSystem twoPhases in
  exists b, initialComponentAmounts sys (mkC [] [] (map (fun _ => 2%Q) (sys_species sys)) []) = Ok b /\ b <> [].
Proof. eexists. split; [vm_compute; reflexivity|discriminate]. Qed.

(* ---- C35: temperature and pressure ---- *)
(* Where temperature and pressure stand: among the inputs if given, else first
   among the unknowns. *)
Definition ReadsT (s : Specs) (get : list Q -> list Q -> outcome Q) : Prop := forall p w,
  (q_unknownT s = true -> get p w = read p 0) /\
  (q_unknownT s = false -> exists i, nth_error (q_inputs s) i = Some $"T" /\ get p w = read w i).
Definition ReadsP (s : Specs) (get : list Q -> list Q -> outcome Q) : Prop := forall p w,
  (q_unknownP s = true -> get p w = read p (if q_unknownT s then 1 else 0)) /\
  (q_unknownP s = false -> exists i, nth_error (q_inputs s) i = Some $"P" /\ get p w = read w i).
Definition reads_right (s : Specs) : Prop :=
  ReadsT s (getT s) /\ ReadsP s (getP s) /\ ReadsT s (predT (q_inputs s)) /\ ReadsP s (predP (q_inputs s)).
Definition C35_statement : Prop := forall log stdprops sys db h s, srun log stdprops sys db newSpecs h = Some s -> reads_right s.

(* An input of the user named "T" does not make the temperature known, but is
   taken for it. *)
Theorem C35_refuted : ~ C35_statement.
Proof.
  intro H. destruct (srun (fun x => x) noprops sample emptyDB newSpecs [SAddInput $"T"]) as [s|] eqn:E; [|vm_compute in E; discriminate].
  destruct (H _ _ _ _ _ _ E) as (A & _). vm_compute in E. injection E as <-. destruct (A [1%Q] [2%Q]) as [K _]. specialize (K eq_refl). vm_compute in K. discriminate.
Qed.
Print Assumptions C35_refuted.
(* The predictor and the evaluation of properties then disagree about pressure. *)
Theorem C35_disagree_refuted : exists s p w, srun (fun x => x) noprops sample emptyDB newSpecs [SAddInput $"T"] = Some s /\
  is_ok (getP s p w) = true /\ is_ok (predP (q_inputs s) p w) = true /\ getP s p w <> predP (q_inputs s) p w.
Proof. eexists. exists [300; 100000]%Q, [350%Q]. split; [vm_compute; reflexivity|]. repeat split; try reflexivity. vm_compute. discriminate. Qed.
Print Assumptions C35_disagree_refuted.

(* Missing: histories with an input or parameter of the user named T or P. *)
Theorem C35_partial : forall log stdprops sys db h s, Forall no_TP h -> srun log stdprops sys db newSpecs h = Some s -> reads_right s.
Proof.
  intros log stdprops sys db h s N R. pose proof (srun_flags _ _ _ _ _ _ N R) as F. pose proof (inv_inputs _ (srun_Inv _ _ _ _ _ _ R)) as D.
  assert (T : ReadsT s (getT s)).
  { intros p w. split; intro U; [apply getT_unknown; auto|]. destruct F as [FT _]. apply FT in U. apply In_nth_error in U as (i & U). exists i. split; auto. apply TP_inputs; auto. }
  assert (P : ReadsP s (getP s)).
  { intros p w. split; intro U; [rewrite getP_unknown by auto; reflexivity|]. destruct F as [_ FP]. apply FP in U. apply In_nth_error in U as (i & U). exists i. split; auto. apply TP_inputs; auto. }
  split; [exact T|]. split; [exact P|]. split; intros p w; rewrite ?predT_same, ?predP_same by auto; auto.
Qed.
Print Assumptions C35_partial.
Example C35_nonvacuous : Forall no_TP [SPressure; SVolume; SpE; SAddInput $"pump"] /\
  match srun (fun x => x) noprops sample emptyDB newSpecs [SPressure; SVolume; SpE; SAddInput $"pump"] with
  | Some s => getT s [300]%Q [5; 6; 7; 8]%Q = Ok 300%Q /\ getP s [300]%Q [5; 6; 7; 8]%Q = Ok 5%Q
  | None => False end.
Proof. split; [repeat (constructor; [cbn; try exact I; split; discriminate|]); constructor|]. vm_compute. repeat split. Qed.

(* ---- C36: the first-order predictor ---- *)
Definition sens_shape (r : Reference) (nw nb : nat) : Prop :=
  let z := rf_sens r in let s0 := rf_state r in let e0 := fs_eq s0 in
  shape (length (st_n (fs_state s0))) nw (z_dndw z) /\ shape (length (st_n (fs_state s0))) nb (z_dndb z) /\
  shape (length (eq_p e0)) nw (z_dpdw z) /\ shape (length (eq_p e0)) nb (z_dpdb z) /\
  shape (length (eq_q e0)) nw (z_dqdw z) /\ shape (length (eq_q e0)) nb (z_dqdb z) /\
  shape (length (fs_u s0)) nw (z_dudw z) /\ shape (length (fs_u s0)) nb (z_dudb z) /\
  length (eq_w e0) = nw /\ length (eq_b e0) = nb.

(* At the reference conditions the reference state is returned. *)
Theorem C36_reference : forall ndebug r w b st st' nw nb T0 P0, sens_shape r nw nb ->
  let s0 := rf_state r in let e0 := fs_eq s0 in
  Qsame w (eq_w e0) -> Qsame b (eq_b e0) ->
  predT (eq_inputs e0) (eq_p e0) (eq_w e0) = Ok T0 -> (T0 == st_T (fs_state s0))%Q ->
  predP (eq_inputs e0) (eq_p e0) (eq_w e0) = Ok P0 -> (P0 == st_P (fs_state s0))%Q ->
  predict ndebug r w (Ok b) st = (Ok tt, st') ->
  (st_T (fs_state st') == st_T (fs_state s0))%Q /\ (st_P (fs_state st') == st_P (fs_state s0))%Q /\
  Qsame (st_n (fs_state st')) (st_n (fs_state s0)) /\ Qsame (fs_u st') (fs_u s0) /\
  Qsame (eq_p (fs_eq st')) (eq_p e0) /\ Qsame (eq_q (fs_eq st')) (eq_q e0) /\
  eq_inputs (fs_eq st') = eq_inputs e0 /\ Qsame (eq_w (fs_eq st')) w /\ Qsame (eq_b (fs_eq st')) b.
Proof.
  intros ndebug r w b st st' nw nb T0 P0 S s0 e0 W B ET T EP P H.
  destruct S as ([L1 _] & [L2 _] & [L3 _] & [L4 _] & [L5 _] & [L6 _] & [L7 _] & [L8 _] & _ & _).
  destruct (predict_inv _ _ _ _ _ _ H) as (N & Hp & Hq & Hu & Hi & Hw & Hb & HT & HP). clear H.
  pose proof (vsub_same _ _ W) as ZW. pose proof (vsub_same _ _ B) as ZB.
  assert (Sp : Qsame (eq_p (fs_eq st')) (eq_p e0)) by (rewrite Hp; apply taylor_null; auto).
  destruct (predT_Qsame _ _ _ _ _ _ Sp W HT) as (T1 & E1 & K1). destruct (predP_Qsame _ _ _ _ _ _ Sp W HP) as (P1 & E2 & K2).
  pose proof (eq_trans (eq_sym E1) ET) as Z1. pose proof (eq_trans (eq_sym E2) EP) as Z2. injection Z1 as ->. injection Z2 as ->.
  split; [rewrite K1; auto|]. split; [rewrite K2; auto|]. split; [rewrite N; apply taylor_null; auto|]. split; [rewrite Hu; apply taylor_null; auto|].
  split; auto. split; [rewrite Hq; apply taylor_null; auto|]. split; auto. split; [rewrite Hw; apply Qsame_sym; auto|rewrite Hb; apply Qsame_sym; auto].
Qed.
Print Assumptions C36_reference.

(* Predictions change linearly with the conditions, with the stored slopes. *)
Definition Slopes (dw db : list (list Q)) (w1 w2 b1 b2 : list Q) (x0 x1 x2 : list Q) : Prop :=
  length x1 = length x0 /\ length x2 = length x0 /\
  forall i rw rb, nth_error dw i = Some rw -> nth_error db i = Some rb ->
    exists y1 y2, nth_error x1 i = Some y1 /\ nth_error x2 i = Some y2 /\ (y1 - y2 == dotQ rw (vsub w1 w2) + dotQ rb (vsub b1 b2))%Q.
Theorem C36_affine : forall ndebug r w1 b1 w2 b2 sa sa' sb sb' nw nb, sens_shape r nw nb ->
  length w1 = nw -> length w2 = nw -> length b1 = nb -> length b2 = nb ->
  predict ndebug r w1 (Ok b1) sa = (Ok tt, sa') -> predict ndebug r w2 (Ok b2) sb = (Ok tt, sb') ->
  let z := rf_sens r in let s0 := rf_state r in
  Slopes (z_dndw z) (z_dndb z) w1 w2 b1 b2 (st_n (fs_state s0)) (st_n (fs_state sa')) (st_n (fs_state sb')) /\
  Slopes (z_dpdw z) (z_dpdb z) w1 w2 b1 b2 (eq_p (fs_eq s0)) (eq_p (fs_eq sa')) (eq_p (fs_eq sb')) /\
  Slopes (z_dqdw z) (z_dqdb z) w1 w2 b1 b2 (eq_q (fs_eq s0)) (eq_q (fs_eq sa')) (eq_q (fs_eq sb')) /\
  Slopes (z_dudw z) (z_dudb z) w1 w2 b1 b2 (fs_u s0) (fs_u sa') (fs_u sb').
Proof.
  intros ndebug r w1 b1 w2 b2 sa sa' sb sb' nw nb S W1 W2 B1 B2 H1 H2 z s0.
  destruct S as ([L1 _] & [L2 _] & [L3 _] & [L4 _] & [L5 _] & [L6 _] & [L7 _] & [L8 _] & LW & LB).
  destruct (predict_inv _ _ _ _ _ _ H1) as (N & Hp & Hq & Hu & _). destruct (predict_inv _ _ _ _ _ _ H2) as (N2 & Hp2 & Hq2 & Hu2 & _).
  assert (G : forall x0 J K, length J = length x0 -> length K = length x0 ->
    Slopes J K w1 w2 b1 b2 x0 (taylor x0 J (vsub w1 (eq_w (fs_eq s0))) K (vsub b1 (eq_b (fs_eq s0)))) (taylor x0 J (vsub w2 (eq_w (fs_eq s0))) K (vsub b2 (eq_b (fs_eq s0))))).
  { intros x0 J K A B. unfold Slopes. rewrite !taylor_length by auto. split; auto. split; auto. intros i rw rb Hw Hb.
    assert (X : exists x, nth_error x0 i = Some x). { destruct (nth_error x0 i) eqn:Z; eauto. apply nth_error_None in Z. assert (i < length J) by (apply nth_error_Some; congruence). lia. }
    destruct X as (x & X). apply (taylor_diff x0 J K _ _ _ _ _ _ i x rw rb); auto; unfold s0; congruence. }
  rewrite N, N2, Hp, Hp2, Hq, Hq2, Hu, Hu2. split; [|split; [|split]]; apply G; auto.
Qed.
Print Assumptions C36_affine.

(* A conserved component (coefficients an, aq, ap in species and titrants) is
   conserved in the prediction when sensitivities conserve it. *)
Theorem C36_conservation : forall ndebug r w b st st' nw nb k an aq ap, sens_shape r nw nb -> length w = nw -> length b = nb -> k < nb ->
  let z := rf_sens r in let s0 := rf_state r in let e0 := fs_eq s0 in
  (forall j, (j < nw)%nat -> dotQ an (col j (z_dndw z)) + dotQ aq (col j (z_dqdw z)) + dotQ ap (col j (z_dpdw z)) == 0)%Q ->
  (forall j, (j < nb)%nat -> dotQ an (col j (z_dndb z)) + dotQ aq (col j (z_dqdb z)) + dotQ ap (col j (z_dpdb z)) == delta k j)%Q ->
  (dotQ an (st_n (fs_state s0)) + dotQ aq (eq_q e0) + dotQ ap (eq_p e0) == nth k (eq_b e0) 0)%Q ->
  predict ndebug r w (Ok b) st = (Ok tt, st') ->
  (dotQ an (st_n (fs_state st')) + dotQ aq (eq_q (fs_eq st')) + dotQ ap (eq_p (fs_eq st')) == nth k b 0)%Q.
Proof.
  intros ndebug r w b st st' nw nb k an aq ap S W B Lk z s0 e0 HW HB H0 H.
  destruct S as (S1 & S2 & S3 & S4 & S5 & S6 & _ & _ & LW & LB). destruct (predict_inv _ _ _ _ _ _ H) as (N & Hp & Hq & _). rewrite N, Hp, Hq.
  apply (balance nw nb k an aq ap); auto.
Qed.
Print Assumptions C36_conservation.

(* Only a solved state can be a reference. *)
Theorem C36_solved : forall st z, eq_inputs (fs_eq st) = [] <-> mkPredictor st z = Err.
Proof. intros st z. unfold mkPredictor. destruct (eq_inputs (fs_eq st)); split; congruence. Qed.
Print Assumptions C36_solved.

Definition refEq := mkEq [$"T"; $"P"] [300; 2]%Q [5; 7]%Q [] [].
Definition refState := mkFull (mkState 300%Q 2%Q [1; 2; 3]%Q) [10%Q] refEq.
Definition refSens := mkSens [$"T"; $"P"] [[0; 1]; [0; -(1)]; [0; 0]]%Q [] [] [[1; 0]; [0; 0]; [0; 1]]%Q [] [] [[2; 3]]%Q [[4; 5]]%Q.
Definition reference := mkRef refState refSens.
Example C36_nonvacuous : sens_shape reference 2 2 /\
  predT (eq_inputs refEq) (eq_p refEq) (eq_w refEq) = Ok 300%Q /\ predP (eq_inputs refEq) (eq_p refEq) (eq_w refEq) = Ok 2%Q /\
  fst (predict false reference [300; 2]%Q (Ok [5; 7]%Q) refState) = Ok tt /\
  fst (predict false reference [310; 2]%Q (Ok [6; 7]%Q) refState) = Ok tt /\
  map Qred (st_n (fs_state (snd (predict false reference [310; (5 # 2)]%Q (Ok [6; 7]%Q) refState)))) = [5 # 2; 3 # 2; 3]%Q /\
  (* an = (1, 1, 0) is component 0 *)
  (forall j, (j < 2)%nat -> dotQ [1; 1; 0] (col j (z_dndw refSens)) == 0)%Q /\ (forall j, (j < 2)%nat -> dotQ [1; 1; 0] (col j (z_dndb refSens)) == delta 0 j)%Q.
Proof.
  split. { repeat split; repeat constructor. } repeat split; try (vm_compute; reflexivity).
  - intros [|[|j]] L; try reflexivity. lia. - intros [|[|j]] L; try reflexivity. lia.
Qed.

(* ---- C37: parameters ---- *)
Definition C37_statement : Prop := forall (A : Type) (ev : store -> Q -> Q -> list Q -> outcome A) s n p w cells r cells',
  props_evaluated ev s n p w cells = (r, cells') -> r <> UB -> forall j, cells' j = cells j.
(* When the evaluation throws, the values of the inputs stay in the parameters. *)
Definition oneParam : Specs := mkSpecs false false [$"T"; $"P"; $"k"] [mkParam $"k" 0] [2] [] [] [] [].
Theorem C37_refuted : ~ C37_statement.
Proof.
  intro H. specialize (H unit (fun _ _ _ _ => Err) oneParam [] [] [300; 2; 5]%Q (fun _ => 1%Q) Err (write (fun _ => 1%Q) 0 5%Q) eq_refl ltac:(discriminate) 0).
  discriminate.
Qed.
Print Assumptions C37_refuted.
(* Missing: evaluations that throw. *)
Theorem C37_partial : forall (A : Type) (ev : store -> Q -> Q -> list Q -> outcome A) s n p w cells a cells',
  props_evaluated ev s n p w cells = (Ok a, cells') -> forall j, cells' j = cells j.
Proof. intros A ev s n p w cells a cells' H. apply (restored ev s n p w cells a cells' H). Qed.
Print Assumptions C37_partial.
(* The evaluation itself sees the values of the inputs. *)
Theorem C37_substituted : forall (A : Type) (ev : store -> Q -> Q -> list Q -> outcome A) s n p w cells a cells',
  NoDup (map pa_cell (q_params s)) -> length (q_idxs s) = length (q_params s) ->
  props_evaluated ev s n p w cells = (Ok a, cells') ->
  exists seen T P, getT s p w = Ok T /\ getP s p w = Ok P /\ ev seen T P n = Ok a /\
    (forall k q i, nth_error (q_params s) k = Some q -> nth_error (q_idxs s) k = Some i -> nth_error w i = Some (seen (pa_cell q))) /\
    (forall j, ~ In j (map pa_cell (q_params s)) -> seen j = cells j).
Proof.
  intros A ev s n p w cells a cells' ND LN. unfold props_evaluated.
  destruct (getT s p w) as [T| |]; try discriminate. destruct (getP s p w) as [P| |]; try discriminate.
  destruct (mapM (read w) (q_idxs s)) as [vs| |] eqn:EV; cbn [bind]; try discriminate.
  destruct (write_all cells (q_params s) vs) as [c1| |] eqn:W1; try discriminate.
  destruct (ev c1 T P n) as [a'| |] eqn:EE; try discriminate. destruct (write_all c1 (q_params s) _) as [c2| |]; try discriminate.
  intro H. injection H as <- _. exists c1, T, P. repeat split; auto.
  - intros k q i Hq Hi. apply mapM_Forall2 in EV. assert (X : exists v, nth_error vs k = Some v /\ read w i = Ok v).
    { clear -EV Hi. revert k Hi. induction EV; intros [|k] Hi; try discriminate; cbn in *; [injection Hi as <-; eauto|eauto]. }
    destruct X as (v & Hv & Rv). apply read_spec in Rv. rewrite Rv. f_equal. symmetry.
    destruct (write_all_spec _ _ _ _ W1 (pa_cell q) (fun x => x = v)) as [E|[N _]]; auto.
    + intros k' q' v' Hq' Hv' EC. assert (k' = k). { apply (proj1 (NoDup_nth_error (map pa_cell (q_params s))) ND).
        - rewrite map_length. apply nth_error_Some. congruence. - rewrite !nth_error_map, Hq, Hq'. cbn. congruence. } subst. congruence.
    + exfalso. apply (N q); auto. eapply nth_error_In; eauto.
  - intros j N. destruct (write_all_spec _ _ _ _ W1 j (fun _ => False)) as [[]|[_ E]]; auto.
    intros k q v Hq _ <-. apply N. apply in_map. eapply nth_error_In; eauto.
Qed.
Print Assumptions C37_substituted.
Example C37_nonvacuous : NoDup (map pa_cell (q_params oneParam)) /\
  exists c, props_evaluated (fun c T _ _ => Ok (c 0%nat + T)%Q) oneParam [] [] [300; 2; 5]%Q (fun _ => 1%Q) = (Ok (5 + 300)%Q, c) /\ c 0 = 1%Q.
Proof. split; [repeat constructor; intros []|]. eexists. split; reflexivity. Qed.

(* ---- C38: sensitivities by name ---- *)
Definition C38_names : Prop := forall z a wid, Forall (fun row => length row = length (z_inputs z)) a -> NoDup (z_inputs z) ->
  (forall j, nth_error (z_inputs z) j = Some wid -> named_column z a (length (z_inputs z)) wid = Ok (col j a)) /\
  (~ In wid (z_inputs z) -> named_column z a (length (z_inputs z)) wid = Err).
Definition C38_sizes : Prop := forall rows cols data old, (length data <> rows \/ ~ Forall (fun row => length row = cols) data) ->
  fst (set_unchecked data old) = Err /\ forall drows dcols, (drows <> rows \/ dcols <> cols) -> set_checked rows cols data drows dcols old = (Err, old).
(* An unknown name reads past the matrix; dudw and dudb accept any matrix. *)
Theorem C38_refuted : ~ C38_names /\ ~ C38_sizes.
Proof.
  split; intro H.
  - destruct (H refSens (z_dndw refSens) $"V") as [_ K]; [repeat constructor|repeat constructor; cbn; intuition discriminate|].
    assert (N : ~ In $"V" (z_inputs refSens)) by (cbn; intuition discriminate). specialize (K N). vm_compute in K. discriminate.
  - destruct (H 1 1 [] []) as [K _]; [left; discriminate|]. discriminate.
Qed.
Print Assumptions C38_refuted.
Lemma column_col a j n : Forall (fun row => length row = n) a -> j < n -> column a j = Ok (col j a).
Proof.
  intros F L. unfold column, col. induction F as [|row a E F IH]; [reflexivity|]. cbn [mapM map]. unfold read at 1.
  rewrite (nth_error_nth' _ (0%Q : Q)) by lia. cbn [bind]. rewrite IH. reflexivity.
Qed.
(* Missing: unknown names, and the sizes given to dudw and dudb. *)
Theorem C38_partial :
  (forall z a wid j, Forall (fun row => length row = length (z_inputs z)) a -> NoDup (z_inputs z) ->
     nth_error (z_inputs z) j = Some wid -> named_column z a (length (z_inputs z)) wid = Ok (col j a)) /\
  (forall rows cols data drows dcols old, (drows <> rows \/ dcols <> cols -> set_checked rows cols data drows dcols old = (Err, old)) /\
     (drows = rows -> dcols = cols -> set_checked rows cols data drows dcols old = (Ok tt, data))).
Proof.
  split.
  - intros z a wid j F D N. assert (L : j < length (z_inputs z)) by (apply nth_error_Some; congruence).
    unfold named_column. assert (E : M_Algorithms.index str_eqb (z_inputs z) wid = j).
    { assert (I : In wid (z_inputs z)) by (eapply nth_error_In; eauto). destruct (index_at _ _ I) as [((x & E & ->) & _) L2].
      apply (proj1 (NoDup_nth_error _) D); auto. congruence. }
    rewrite E. destruct (Nat.ltb_spec j (length (z_inputs z))); [|lia]. apply (column_col a j (length (z_inputs z))); auto.
  - intros rows cols data drows dcols old. unfold set_checked. destruct (Nat.eqb_spec rows drows), (Nat.eqb_spec cols dcols); cbn [negb]; split; try reflexivity; intros; try congruence; exfalso; intuition congruence.
Qed.
Print Assumptions C38_partial.
Example C38_nonvacuous : named_column refSens (z_dndw refSens) 2 $"P" = Ok [1; -(1); 0]%Q.
Proof. reflexivity. Qed.

(* ---- C71: derivatives collected while variables are seeded in turn ---- *)
(* After any sequence of evaluations, in each of which at most one variable among
   (n, p, w) is seeded, the column of a variable holds the derivatives of its
   last seeded evaluation. *)
Theorem C71_columns : forall nn np nw l J, Forall (sized nn np nw) l -> Forall one_seed l ->
  let R := collect nn np nw J l in
  forall a e b i, l = a ++ e :: b -> Seeded (grads e) i -> (forall x, In x b -> ~ Seeded (grads x) i) ->
  (i < nn -> nth_error (dudn nn np nw R) i = Some (Some (ev_du e))) /\
  (forall j, i = nn + j -> j < np -> nth_error (dudp nn np nw R) j = Some (Some (ev_du e))) /\
  (forall j, i = nn + np + j -> j < nw -> nth_error (dudw nn np nw R) j = Some (Some (ev_du e))).
Proof.
  intros nn np nw l J S O R a e b i E Se N. destruct (collect_spec nn np nw l S O J i e a b E Se N) as [L K]. fold R in L, K.
  destruct (dud_columns nn np nw R L) as (A & B & C & _). repeat split.
  - intro H. rewrite A by auto. exact K. - intros j -> H. rewrite B by auto. exact K. - intros j -> H. rewrite C by auto. exact K.
Qed.
Print Assumptions C71_columns.
Example C71_nonvacuous :
  let l := [mkEv [0; 1] [0] [0] [7; 8]; mkEv [0; 0] [1] [0] [9; 9]; mkEv [0; 0] [0] [0] [5; 5]; mkEv [0; 0] [0] [1] [1; 2]]%Q in
  Forall (sized 2 1 1) l /\ Forall one_seed l /\ dudp 2 1 1 (collect 2 1 1 [] l) = [Some [9; 9]%Q] /\ dudw 2 1 1 (collect 2 1 1 [] l) = [Some [1; 2]%Q].
Proof.
  cbv zeta. split; [repeat constructor|]. split; [|split; reflexivity].
  assert (SD : forall l i, i < length l -> (forall j, (j < length l)%nat -> nth j l 0 == if (j =? i)%nat then 1 else 0)%Q -> Seeded l i).
  { intros l i L H. split.
    - exists (nth i l 0%Q). split; [apply nth_error_nth'; auto|]. rewrite (H i L), Nat.eqb_refl. reflexivity.
    - intros j g D N. assert (Lj : j < length l) by (apply nth_error_Some; congruence). rewrite (nth_error_nth' _ 0%Q Lj) in N. injection N as <-.
      rewrite (H j Lj). destruct (Nat.eqb_spec j i); [contradiction|reflexivity]. }
  apply Forall_forall. intros e I. repeat destruct I as [<-|I]; try contradiction.
  - right. exists 1. apply SD; [cbn; lia|]. intros [|[|[|[|j]]]] L; try reflexivity. cbn in L. lia.
  - right. exists 2. apply SD; [cbn; lia|]. intros [|[|[|[|j]]]] L; try reflexivity. cbn in L. lia.
  - left. cbn. repeat constructor.
  - right. exists 3. apply SD; [cbn; lia|]. intros [|[|[|[|j]]]] L; try reflexivity. cbn in L. lia.
Qed.

(* ---- C72: Hessian matrices ---- *)
Definition C72_statement : Prop := forall (derivatives : Q -> Q -> list Q -> nat -> list Q) own given N,
  exact derivatives own given N = map (derivatives (p_T given) (p_P given) (p_n given)) (seq 0 N).
(* The exact Hessian is not that of the given properties but of the object's own;
   the approximate one is always zero. *)
Definition warm : Props := mkProps 300%Q 2%Q [] [] [1; 2]%Q [3%Q] [1 # 3; 2 # 3]%Q [] [] [] [] [] [] [] [] [] [] [] [] [] [] [].
Theorem C72_exact_refuted : ~ C72_statement.
Proof. intro H. specialize (H (fun T _ _ _ => [T]) (newProps twoPhases) warm 1). vm_compute in H. discriminate. Qed.
Print Assumptions C72_exact_refuted.
(* The entry between species of one phase with amounts [ni] of [t] in all. *)
Definition C72_approximation : Prop := forall given N i row h ni t, nth_error (approx given N) i = Some row -> nth_error row i = Some h ->
  nth_error (p_n given) i = Some ni -> p_nsum given = [t] -> (0 < ni)%Q -> (0 < t)%Q -> (h == (83144621 # 10000000) * p_T given * (/ ni - / t))%Q.
Theorem C72_approximation_refuted : ~ C72_approximation.
Proof. intro H. specialize (H warm 2 0 [0; 0]%Q 0%Q 1%Q 3%Q eq_refl eq_refl eq_refl eq_refl eq_refl eq_refl). vm_compute in H. discriminate. Qed.
Print Assumptions C72_approximation_refuted.
(* The diagonal approximation is right.  Missing: the other three. *)
Theorem C72_diagonal_partial : forall given N H, diagonalApprox given N = Ok H ->
  length H = N /\
  forall i j row h, nth_error H i = Some row -> nth_error row j = Some h ->
    (i <> j -> h = 0%Q) /\
    (forall xi ni t, i = j -> nth_error (p_x given) i = Some xi -> nth_error (p_n given) i = Some ni -> (xi * t == ni)%Q -> ~ (t == 0)%Q ->
       (h == (83144621 # 10000000) * p_T given * (/ ni - / t))%Q).
Proof.
  intros given N H E. unfold diagonalApprox in E. apply mapM_Forall2 in E. assert (L : length H = N) by (rewrite <- (Forall2_len _ _ _ E), seq_length; reflexivity).
  split; [exact L|]. intros i j row h Hr Hh. assert (Li : i < N) by (rewrite <- L; apply nth_error_Some; congruence).
  assert (K : (bind (read (p_x given) i) (fun xi => bind (read (p_n given) i) (fun ni =>
         bind (divide (gasConstant * p_T given * (1 - xi)) ni) (fun h => Ok (upd (repeat 0%Q N) i h))))) = Ok row).
  { clear -E Hr Li. assert (G : forall l H, Forall2 (fun i row => (bind (read (p_x given) i) (fun xi => bind (read (p_n given) i) (fun ni =>
         bind (divide (gasConstant * p_T given * (1 - xi)) ni) (fun h => Ok (upd (repeat 0%Q N) i h))))) = Ok row) l H -> forall k i row, nth_error l k = Some i -> nth_error H k = Some row ->
         (bind (read (p_x given) i) (fun xi => bind (read (p_n given) i) (fun ni => bind (divide (gasConstant * p_T given * (1 - xi)) ni) (fun h => Ok (upd (repeat 0%Q N) i h))))) = Ok row).
    { intros l H0 F. induction F; intros [|k] i0 r0 A B; try discriminate; cbn in A, B; [injection A as <-; injection B as <-; auto|eauto]. }
    apply (G (seq 0 N) H E i); auto. rewrite <- (map_id (seq 0 N)). apply (nth_seq_map (fun x => x)). auto. }
  unfold read in K. destruct (nth_error (p_x given) i) as [xi|] eqn:EX; [|discriminate]. destruct (nth_error (p_n given) i) as [ni|] eqn:EN; [|discriminate].
  cbn [bind] in K. unfold divide in K. destruct (Qeq_bool ni 0) eqn:Z; [discriminate|]. cbn [bind] in K. injection K as <-. rewrite upd_nth in Hh. split.
  - intro D. destruct (Nat.eqb_spec j i); [congruence|]. apply nth_error_In, repeat_spec in Hh. auto.
  - intros xi' ni' t <- [= <-] [= <-] X T. rewrite Nat.eqb_refl, repeat_length in Hh. destruct (Nat.ltb_spec i N); [|lia]. injection Hh as <-.
    apply Qeq_bool_neq in Z. change gasConstant with (83144621 # 10000000). assert (Q1 : (xi == ni / t)%Q) by (rewrite <- X; field; auto). rewrite Q1. field. auto.
Qed.
Print Assumptions C72_diagonal_partial.
(* The partially exact Hessian: derivatives (of the object's own properties) in
   the rows asked for, zeros elsewhere.  Missing: the approximation there. *)
Theorem C72_partially_partial : forall (derivatives : Q -> Q -> list Q -> nat -> list Q) own given indices N,
  let H := partiallyExact derivatives own given indices N in
  length H = N /\ forall i, i < N ->
    (In i indices -> nth_error H i = Some (derivatives (p_T own) (p_P own) (p_n own) i)) /\
    (~ In i indices -> nth_error H i = Some (repeat 0%Q N)).
Proof.
  intros derivatives own given indices N. cbn zeta. unfold partiallyExact, hessian_update. set (f := derivatives (p_T own) (p_P own) (p_n own)).
  assert (G : forall l H0, length H0 = N -> length (fold_left (fun H i => upd H i (f i)) l H0) = N /\ forall i, i < N ->
    (In i l -> nth_error (fold_left (fun H i => upd H i (f i)) l H0) i = Some (f i)) /\
    (~ In i l -> nth_error (fold_left (fun H i => upd H i (f i)) l H0) i = nth_error H0 i)).
  { induction l as [|j l IH]; intros H0 L; cbn [fold_left]; [split; [exact L|]; intros i Hi; split; [intros []|auto]|].
    destruct (IH (upd H0 j (f j))) as [A B]; [rewrite upd_length; auto|]. split; [exact A|]. intros i Hi. destruct (B i Hi) as [B1 B2]. split.
    - intros I. destruct (in_dec Nat.eq_dec i l) as [K|K]; [auto|]. destruct I as [->|I]; [|contradiction]. rewrite (B2 K), upd_nth, Nat.eqb_refl, L.
      destruct (Nat.ltb_spec i N); [reflexivity|lia].
    - intro I. rewrite B2 by (intro; apply I; right; auto). rewrite upd_nth. destruct (Nat.eqb_spec i j); [exfalso; apply I; left; auto|reflexivity]. }
  destruct (G indices (approx own N)) as [A B]; [apply repeat_length|]. split; [exact A|]. intros i Hi. destruct (B i Hi) as [B1 B2]. split; [exact B1|].
  intro I. rewrite (B2 I). unfold approx. rewrite nth_error_repeat; auto.
Qed.
Print Assumptions C72_partially_partial.
Example C72_nonvacuous : exists H, diagonalApprox warm 2 = Ok H /\ ((1 # 3) * 3 == 1)%Q /\ is_ok (diagonalApprox warm 2) = true.
Proof. eexists. split; [vm_compute; reflexivity|]. split; reflexivity. Qed.

(* ---- C73: sensitivities handed to the user ---- *)
(* In every direction (dw, db) the amounts, titrants and unknowns change as the
   optimizer says, and the properties by the chain rule. *)
Theorem C73_chain_rule : forall inputs nn np nq nu nw nb xc pc dun dup duw,
  shape (nn + nq) (nw + nb) xc -> shape np (nw + nb) pc -> shape nu nn dun -> shape nu np dup -> shape nu nw duw ->
  let z := updateEquilibriumSensitivity inputs nn nq nb nw xc pc dun dup duw in
  z_inputs z = inputs /\
  forall dw db, length dw = nw -> length db = nb ->
  let dx := matvec xc (dw ++ db) in let dp := matvec pc (dw ++ db) in
  Qsame (vadd (matvec (z_dndw z) dw) (matvec (z_dndb z) db)) (firstn nn dx) /\
  Qsame (vadd (matvec (z_dqdw z) dw) (matvec (z_dqdb z) db)) (skipn nn dx) /\
  Qsame (vadd (matvec (z_dpdw z) dw) (matvec (z_dpdb z) db)) dp /\
  Qsame (vadd (matvec (z_dudw z) dw) (matvec (z_dudb z) db)) (vadd (vadd (matvec duw dw) (matvec dun (firstn nn dx))) (matvec dup dp)).
Proof.
  intros inputs nn np nq nu nw nb xc pc dun dup duw SX SP SN SU SW z. split; [reflexivity|]. intros dw db LW LB dx dp.
  assert (LX : length xc = nn + nq) by apply SX. assert (LP : length pc = np) by apply SP.
  assert (E1 : nw + nb - nb = nw) by lia. assert (E2 : length xc - nq = nn) by lia.
  unfold z, updateEquilibriumSensitivity. cbn [z_dndw z_dndb z_dqdw z_dqdb z_dpdw z_dpdb z_dudw z_dudb]. rewrite E1, E2, LP.
  assert (A1 := blocks_vec xc 0 nn nw nb dw db (nn + nq) SX ltac:(lia) LW LB).
  assert (A2 := blocks_vec xc nn nq nw nb dw db (nn + nq) SX ltac:(lia) LW LB).
  assert (A3 := blocks_vec pc 0 np nw nb dw db np SP ltac:(lia) LW LB).
  fold dx in A1, A2. fold dp in A3.
  assert (X1 : segment dx 0 nn = firstn nn dx) by reflexivity. rewrite X1 in A1.
  assert (LDX : length dx = nn + nq) by (unfold dx; rewrite matvec_length; auto).
  assert (X2 : segment dx nn nq = skipn nn dx). { unfold segment. apply firstn_all2. rewrite skipn_length. lia. } rewrite X2 in A2.
  assert (X3 : segment dp 0 np = dp). { apply segment_full. unfold dp. rewrite matvec_length. auto. } rewrite X3 in A3.
  split; [exact A1|]. split; [exact A2|]. split; [exact A3|].
  assert (B1 := block_shape xc 0 0 nn nw _ _ SX ltac:(lia) ltac:(lia)). assert (B2 := block_shape xc 0 nw nn nb _ _ SX ltac:(lia) ltac:(lia)).
  assert (B3 := block_shape pc 0 0 np nw _ _ SP ltac:(lia) ltac:(lia)). assert (B4 := block_shape pc 0 nw np nb _ _ SP ltac:(lia) ltac:(lia)).
  set (dnw := block xc 0 0 nn nw) in *. set (dnb := block xc 0 nw nn nb) in *. set (dpw := block pc 0 0 np nw) in *. set (dpb := block pc 0 nw np nb) in *.
  assert (LN : length dun = nu) by apply SN. assert (LU : length dup = nu) by apply SU. assert (LDW : length duw = nu) by apply SW.
  assert (M1 := matmul_shape nw dun dnw). assert (M2 := matmul_shape nw dup dpw). assert (M3 := matmul_shape nb dun dnb). assert (M4 := matmul_shape nb dup dpb).
  rewrite LN in M1, M3. rewrite LU in M2, M4.
  assert (M5 : shape nu nw (madd duw (matmul nw dun dnw))) by (apply madd_shape; auto).
  (* entry by entry *)
  assert (V1 : Qsame (matvec (madd (madd duw (matmul nw dun dnw)) (matmul nw dup dpw)) dw)
                     (vadd (vadd (matvec duw dw) (matvec dun (matvec dnw dw))) (matvec dup (matvec dpw dw)))).
  { eapply Qsame_trans. { apply (madd_vec nw); [destruct M2 as [-> _]; auto|destruct M5 as [-> _]; auto]. }
    apply vadd_Qsame; [|apply matmul_vec; apply B3]. eapply Qsame_trans. { apply (madd_vec nw); [destruct M1 as [-> _]; auto|rewrite LDW; auto]. }
    apply vadd_Qsame; [apply Qsame_refl|apply matmul_vec; apply B1]. }
  assert (V2 : Qsame (matvec (madd (matmul nb dun dnb) (matmul nb dup dpb)) db) (vadd (matvec dun (matvec dnb db)) (matvec dup (matvec dpb db)))).
  { eapply Qsame_trans. { apply (madd_vec nb); [destruct M4 as [-> _]; auto|destruct M3 as [-> _]; auto]. } apply vadd_Qsame; apply matmul_vec; [apply B2|apply B4]. }
  eapply Qsame_trans; [apply vadd_Qsame; [exact V1|exact V2]|].
  (* linearity of dun and dup *)
  assert (LIN : forall m a b c, length a = length b -> Qsame (vadd a b) c -> Qsame (vadd (matvec m a) (matvec m b)) (matvec m c)).
  { intros m a b c L S. induction m as [|row m IH]; [constructor|]. constructor; [|exact IH].
    change (sumQ (zip_with Qmult row a) + sumQ (zip_with Qmult row b) == sumQ (zip_with Qmult row c))%Q. rewrite !sum_zip, <- dotQ_vadd by auto. apply dotQ_Qsame. exact S. }
  assert (L1 : length (matvec dnw dw) = length (matvec dnb db)) by (rewrite !matvec_length; destruct B1, B2; congruence).
  assert (L2 : length (matvec dpw dw) = length (matvec dpb db)) by (rewrite !matvec_length; destruct B3, B4; congruence).
  eapply Qsame_trans; [|apply vadd_Qsame; [apply vadd_Qsame; [apply Qsame_refl|apply (LIN dun _ _ _ L1 A1)]|apply (LIN dup _ _ _ L2 A3)]].
  assert (REARR : forall a b c d e, length b = length a -> length c = length a -> length d = length a -> length e = length a ->
    Qsame (vadd (vadd (vadd a b) c) (vadd d e)) (vadd (vadd a (vadd b d)) (vadd c e))).
  { induction a as [|x a IH]; intros [|y b] [|u c] [|v d] [|t e] Lb Lc Ld Le; cbn in Lb, Lc, Ld, Le; try discriminate; [constructor|].
    rewrite !vadd_cons. constructor; [ring|]. apply IH; lia. }
  apply REARR; rewrite !matvec_length; congruence.
Qed.
Print Assumptions C73_chain_rule.
Example C73_nonvacuous :
  let z := updateEquilibriumSensitivity [$"T"] 2 1 1 1 [[1; 2]; [3; 4]; [5; 6]]%Q [[7; 8]]%Q [[1; 1]]%Q [[2]]%Q [[10]]%Q in
  z_dndw z = [[1]; [3]]%Q /\ z_dqdb z = [[6]]%Q /\ map (map Qred) (z_dudw z) = [[28]]%Q /\ map (map Qred) (z_dudb z) = [[22]]%Q /\
  shape 3 2 [[1; 2]; [3; 4]; [5; 6]]%Q.
Proof. repeat split; try reflexivity. repeat constructor. Qed.

(* The amounts of the initial state are replaced only when all are zero (as far
   as the largest one tells), by the starting amounts of the conditions. *)
Theorem C73_initial_state : forall ndebug n0 st r st', updateInitialState ndebug n0 st = (r, st') -> r <> UB ->
  exists m, maxCoeff (st_n st) = Ok m /\
  ((~ (m == 0)%Q /\ r = Ok tt /\ st' = st) \/
   ((m == 0)%Q /\ n0 = [] /\ r = Err /\ st' = st) \/
   ((m == 0)%Q /\ n0 <> [] /\ r = Ok tt /\ st' = mkState (st_T st) (st_P st) n0)).
Proof.
  intros ndebug n0 st r st' H NU. unfold updateInitialState, with_value in H. destruct (maxCoeff (st_n st)) as [m| |] eqn:E.
  2:{ unfold maxCoeff in E. destruct (st_n st); discriminate. } 2:{ injection H as <- _. contradiction. }
  exists m. split; [reflexivity|]. destruct (Qeq_bool m 0) eqn:Z; cbn [andb] in H.
  - apply Qeq_bool_iff in Z. destruct n0 as [|x n0]; cbn [length Nat.eqb negb] in H.
    + injection H as <- <-. right. left. repeat split; auto.
    + unfold setSpeciesAmounts, asserted in H. destruct (_ || ndebug); [|injection H as <- _; contradiction]. destruct (_ || ndebug); [|injection H as <- _; contradiction].
      injection H as <- <-. right. right. repeat split; auto. discriminate.
  - injection H as <- <-. apply Qeq_bool_neq in Z. auto.
Qed.
Print Assumptions C73_initial_state.

(* ---- C74: amounts of explicit titrants ---- *)
Definition C74_statement : Prop := forall s e, length (eq_p e) = numControlVariablesP s -> explicitTitrantAmounts e = skipn (leading s) (eq_p e).
(* Temperature and pressure are returned among the titrants. *)
Theorem C74_refuted : ~ C74_statement.
Proof. intro H. specialize (H newSpecs (mkEq [$"V"] [1]%Q [] [300; 5]%Q []) eq_refl). discriminate. Qed.
Print Assumptions C74_refuted.
(* Missing: unknown temperature or pressure. *)
Theorem C74_partial : forall s e, q_unknownT s = false -> q_unknownP s = false -> length (eq_p e) = numControlVariablesP s ->
  explicitTitrantAmounts e = skipn (leading s) (eq_p e) /\ length (explicitTitrantAmounts e) = length (q_explicit s).
Proof.
  intros s e T P L. unfold leading, explicitTitrantAmounts. rewrite T, P. split; [reflexivity|]. rewrite L. unfold numControlVariablesP, b2n. rewrite T, P. reflexivity.
Qed.
Print Assumptions C74_partial.
Example C74_nonvacuous : let s := mkSpecs false false [$"T"; $"P"] [] [] [own_pE] [] [fCO2] [] in
  explicitTitrantAmounts (mkEq [$"T"; $"P"] [300; 2]%Q [] [7]%Q []) = [7%Q] /\ numControlVariablesP s = 1.
Proof. split; reflexivity. Qed.

(* ---- C75: conditions reported by a predicted state ---- *)
Definition C75_statement : Prop := forall ndebug r w b st st', predict ndebug r w (Ok b) st = (Ok tt, st') ->
  Qsame (eq_w (fs_eq st')) w /\ Qsame (eq_b (fs_eq st')) b.
Theorem C75_refuted : ~ C75_statement.
Proof.
  intro H. destruct (H false reference [310; 2]%Q [6; 7]%Q refState (snd (predict false reference [310; 2]%Q (Ok [6; 7]%Q) refState))) as [K _].
  - apply injective_projections; vm_compute; reflexivity.
  - vm_compute in K. inversion K as [|? ? ? ? E _]; subst. discriminate.
Qed.
Print Assumptions C75_refuted.
(* They are those of the reference.  Missing: other conditions. *)
Theorem C75_partial : forall ndebug r w b st st', predict ndebug r w (Ok b) st = (Ok tt, st') ->
  eq_w (fs_eq st') = eq_w (fs_eq (rf_state r)) /\ eq_b (fs_eq st') = eq_b (fs_eq (rf_state r)) /\ eq_inputs (fs_eq st') = eq_inputs (fs_eq (rf_state r)) /\
  (Qsame (eq_w (fs_eq (rf_state r))) w -> Qsame (eq_b (fs_eq (rf_state r))) b -> Qsame (eq_w (fs_eq st')) w /\ Qsame (eq_b (fs_eq st')) b).
Proof.
  intros ndebug r w b st st' H. destruct (predict_inv _ _ _ _ _ _ H) as (_ & _ & _ & _ & A & B & C & _). rewrite A, B, C. auto.
Qed.
Print Assumptions C75_partial.

(* ---- C76: rejected solver options ---- *)
Definition C76_statement : Prop := forall eps old new, setOptions eps old = (Err, new) -> new = old.
Theorem C76_refuted : ~ C76_statement.
Proof. intro H. specialize (H (-1)%Q (1, 1)%Q (-1, -1)%Q eq_refl). discriminate. Qed.
Print Assumptions C76_refuted.
(* Options are accepted exactly when the minimum amount is positive, and are then
   used by both the solver and its setup.  Missing: rejected options, which are
   kept. *)
Theorem C76_partial : forall eps old new r, setOptions eps old = (r, new) ->
  (r = Ok tt <-> (0 < eps)%Q) /\ (r = Err <-> (eps <= 0)%Q) /\ (r = Ok tt -> new = (eps, eps)).
Proof.
  intros eps old new r H. unfold setOptions in H. destruct (Qle_bool eps 0) eqn:Z; injection H as <- <-.
  - apply Qle_bool_iff in Z. repeat split; try discriminate; auto. intro. exfalso. lra.
  - assert (0 < eps)%Q. { destruct (Qlt_le_dec 0 eps); auto. apply Qle_bool_iff in q. congruence. } repeat split; try discriminate; auto. intro. exfalso. lra.
Qed.
Print Assumptions C76_partial.
Example C76_nonvacuous : setOptions (1 # 100) (1, 1)%Q = (Ok tt, (1 # 100, 1 # 100)%Q).
Proof. reflexivity. Qed.

(* ---- C77: the objective function and its gradient ---- *)
(* With everything else fixed the objective is linear in the amounts q of the
   implicit titrants, its slopes being the entries of the gradient. *)
Definition C77_statement : Prop := forall ln tau sys s (value : list Q -> outcome Q) cp w q q' f f' g,
  (forall q, value q = evalObjectiveValue ln tau cp) -> Inv s -> length (p_n cp) = length (sys_species sys) -> length (p_u cp) = length (sys_species sys) ->
  length q = length (q_implicit s) -> length q' = length (q_implicit s) ->
  value q = Ok f -> value q' = Ok f' -> evalObjectiveGradX tau s cp w = Ok g ->
  (f' - f == dotQ (skipn (length (sys_species sys)) g) (vsub q' q))%Q.
Definition onePotential : Specs :=
  mkSpecs true true [] [] [] [] [mkU $"mu" fCO2 (Some (fun _ _ => Ok 1%Q))] [] [fCO2].
Lemma onePotential_Inv : Inv onePotential.
Proof.
  split; cbn [onePotential q_inputs q_econs q_ucons q_implicit q_idxs q_params q_unknownT q_unknownP map length]; try (repeat constructor; cbn; intuition discriminate); try (intros; contradiction); try discriminate; try reflexivity.
  - split; [intros ? []|]. intros u [<-|[]]. split; discriminate.
  - intros [|k]; discriminate.
Qed.
Definition hot : Props := mkProps 300%Q 2%Q [] [] [1; 2; 1]%Q [] [] [] [] [] [] [] [] [] [] [] [] [] [] [] [] [1; 1; 1]%Q.
Theorem C77_refuted : ~ C77_statement.
Proof.
  intro H. destruct (evalObjectiveGradX 0%Q onePotential hot []) as [g| |] eqn:G; try (vm_compute in G; discriminate).
  destruct (evalObjectiveValue (fun x => x) 0%Q hot) as [f| |] eqn:F; try (vm_compute in F; discriminate).
  specialize (H (fun x => x) 0%Q sample onePotential (fun _ => evalObjectiveValue (fun x => x) 0%Q hot) hot [] [0%Q] [1%Q] f f g (fun _ => eq_refl) onePotential_Inv eq_refl eq_refl eq_refl eq_refl F F G).
  assert (Z : (f - f == 0)%Q) by ring. rewrite Z in H. vm_compute in G. injection G as <-. vm_compute in H. discriminate.
Qed.
Print Assumptions C77_refuted.
(* The entries of the gradient for species and titrants.  Missing: the terms of
   the titrants in the value. *)
Theorem C77_partial : forall tau s cp w g, evalObjectiveGradX tau s cp w = Ok g -> Inv s -> length (p_u cp) = length (p_n cp) ->
  length g = length (p_n cp) + length (q_implicit s) /\
  (forall i u n x, nth_error (p_u cp) i = Some u -> nth_error (p_n cp) i = Some n -> nth_error g i = Some x ->
     (x == u / ((83144621 # 10000000) * p_T cp) - tau / n)%Q) /\
  (forall k c x, nth_error (q_ucons s) k = Some c -> nth_error g (length (p_n cp) + k) = Some x ->
     exists fn v, u_fn c = Some fn /\ fn cp w = Ok v /\ (x == v / ((83144621 # 10000000) * p_T cp))%Q).
Proof.
  intros tau s cp w g H I L. unfold evalObjectiveGradX in H.
  destruct (mapM _ (combine (p_u cp) (p_n cp))) as [gn| |] eqn:EN; cbn [bind] in H; try discriminate.
  destruct (mapM _ (seq 0 (numControlVariablesQ s))) as [gq| |] eqn:EQ; cbn [bind] in H; try discriminate. injection H as <-.
  apply mapM_Forall2 in EN. apply mapM_Forall2 in EQ.
  assert (LN : length gn = length (p_n cp)) by (rewrite <- (Forall2_len _ _ _ EN), combine_length; lia).
  assert (LQ : length gq = length (q_implicit s)) by (rewrite <- (Forall2_len _ _ _ EQ), seq_length; reflexivity).
  split; [rewrite app_length; lia|]. split.
  - intros i u n x Hu Hn Hx. rewrite nth_error_app1 in Hx by (rewrite LN; apply nth_error_Some; congruence).
    assert (G : forall us ns gs, Forall2 (fun un y => bind (divide (fst un) (gasConstant * p_T cp)) (fun g => bind (divide tau (snd un)) (fun b => Ok (g - b)%Q)) = Ok y) (combine us ns) gs ->
      forall i, nth_error us i = Some u -> nth_error ns i = Some n -> nth_error gs i = Some x ->
      bind (divide u (gasConstant * p_T cp)) (fun g => bind (divide tau n) (fun b => Ok (g - b)%Q)) = Ok x).
    { induction us as [|u0 us IH]; intros [|n0 ns] gs F j A B C; try (destruct j; discriminate). cbn [combine] in F. inversion F as [|? y ? gs' E F']; subst.
      destruct j as [|j]; cbn in A, B, C; [injection A as ->; injection B as ->; injection C as ->; exact E|eauto]. }
    specialize (G _ _ _ EN i Hu Hn Hx). unfold divide in G. destruct (Qeq_bool (gasConstant * p_T cp) 0); [discriminate|]. cbn [bind] in G.
    destruct (Qeq_bool n 0); [discriminate|]. injection G as <-. reflexivity.
  - intros k c x Hc Hx. rewrite nth_error_app2 in Hx by lia. rewrite LN in Hx. replace (length (p_n cp) + k - length (p_n cp)) with k in Hx by lia.
    assert (Lk : k < numControlVariablesQ s). { unfold numControlVariablesQ, numTitrantsImplicit. rewrite <- LQ. apply nth_error_Some. congruence. }
    assert (G : forall l gs, Forall2 (fun i y => match nth_error (q_ucons s) i with Some u => match u_fn u with Some fn => bind (fn cp w) (fun v => divide v (gasConstant * p_T cp)) | None => Err end | None => UB end = Ok y) l gs ->
      forall j i, nth_error l j = Some i -> nth_error gs j = Some x -> match nth_error (q_ucons s) i with Some u => match u_fn u with Some fn => bind (fn cp w) (fun v => divide v (gasConstant * p_T cp)) | None => Err end | None => UB end = Ok x).
    { intros l gs F. induction F; intros [|j] i A B; try discriminate; cbn in A, B; [injection A as ->; injection B as ->; auto|eauto]. }
    assert (SK : nth_error (seq 0 (numControlVariablesQ s)) k = Some k) by (rewrite <- (map_id (seq 0 _)); apply (nth_seq_map (fun x => x)); auto).
    specialize (G _ _ EQ k k SK Hx). rewrite Hc in G. destruct (u_fn c) as [fn|]; [|discriminate]. exists fn. destruct (fn cp w) as [v| |]; try discriminate. exists v.
    cbn [bind] in G. unfold divide in G. destruct (Qeq_bool (gasConstant * p_T cp) 0); [discriminate|]. injection G as <-. split; auto. split; reflexivity.
Qed.
Print Assumptions C77_partial.
Example C77_nonvacuous : is_ok (evalObjectiveGradX (1 # 10) onePotential hot []) = true /\ length (p_u hot) = length (p_n hot).
Proof. split; vm_compute; reflexivity. Qed.
