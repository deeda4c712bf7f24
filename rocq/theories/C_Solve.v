(* C132: whole equilibrium calculations. *)
From Coq Require Import Lqa.
From Verif Require Import Base M_Strings S_Strings P_Strings M_Formula M_Chem M_Algorithms P_Algorithms M_System M_Units M_State M_Specs M_Setup M_Solve S_Equilibrium P_State C_State C_Setup.
Local Open Scope nat_scope.
Set Implicit Arguments.

(* ---- Specification ---- *)
(* The first place of a name in a list. *)
Definition first_at (l : list str) (nm : str) (i : nat) : Prop := nth_error l i = Some nm /\ forall j, j < i -> nth_error l j <> Some nm.
Definition is_input (s : Specs) (nm : str) (i : nat) : Prop := first_at (q_inputs s) nm i.
Definition is_unknown (s : Specs) (nm : str) (i : nat) : Prop := ~ In nm (q_inputs s) /\ first_at (namesControlVariables s) nm i.
Definition all_plain (w : list dual) : Prop := Forall (fun d => der d = 0%Q) w.
(* Component amounts: those given, or those of the given amounts of species. *)
Definition components (sys : ChemicalSystem) (c : DConditions) (b : list Q) : Prop :=
  match dc_components c with
  | [] => length (dc_species c) = length (sys_species sys) /\ b = matvec (sys_matrix sys) (dc_species c)
  | given => b = given
  end.
Definition last_request (rs : list Request) (r : Request) : Prop := exists pre, rs = pre ++ [r].

(* Functions evaluated with derivatives: the values depend on the values; the
   derivatives are those along the direction of the arguments. *)
Record Direction := mkDir { dn : list Q; dT : Q; dP : Q; dw : list Q }.
Definition unit_vector (n j : nat) : list Q := map (fun i => if i =? j then 1%Q else 0%Q) (seq 0 n).
Definition forward (fn : list dual -> dual -> dual -> list dual -> outcome (list dual)) (g : list Q -> Q -> Q -> list Q -> list Q)
  (J : list Q -> Q -> Q -> list Q -> Direction -> list Q) : Prop :=
  forall n T P w r, fn n T P w = Ok r ->
    map val r = g (map val n) (val T) (val P) (map val w) /\
    map der r = J (map val n) (val T) (val P) (map val w) (mkDir (map der n) (der T) (der P) (map der w)).

(* ---- Numbers seeded in turn ---- *)
Definition strip (l : list dual) : list dual := map (fun d => plain (val d)) l.
Definition last_seeded (l : list dual) : list dual :=
  match rev l with [] => [] | d :: r => strip (rev r) ++ [mkD (val d) 1] end.
Lemma last_seeded_snoc l d : last_seeded (l ++ [d]) = strip l ++ [mkD (val d) 1].
Proof. unfold last_seeded. rewrite rev_app_distr. cbn [rev app]. rewrite rev_involutive. reflexivity. Qed.
Lemma strip_val l : map val (strip l) = map val l.
Proof. unfold strip. rewrite map_map. apply map_ext. reflexivity. Qed.
Lemma last_seeded_val l : map val (last_seeded l) = map val l.
Proof.
  destruct l as [|d l _] using rev_ind; [reflexivity|]. rewrite last_seeded_snoc, !map_app, strip_val. reflexivity.
Qed.
Lemma last_seeded_length l : length (last_seeded l) = length l.
Proof. rewrite <- (map_length val), last_seeded_val, map_length. reflexivity. Qed.
Lemma plain_strip l : all_plain l -> strip l = l.
Proof. unfold strip. induction 1 as [|d l H _ IH]; [reflexivity|]. cbn [map]. rewrite IH. destruct d as [v e]. cbn in *. rewrite H. reflexivity. Qed.
Lemma map_plain_plain l : all_plain (map plain l).
Proof. unfold all_plain. apply Forall_forall. intros d I. apply in_map_iff in I as (x & <- & _). reflexivity. Qed.
Lemma map_val_plain l : map val (map plain l) = l.
Proof. rewrite map_map. apply map_id. Qed.
Lemma upd_at {A} (a : list A) x y b : upd (a ++ x :: b) (length a) y = a ++ y :: b.
Proof. unfold upd. rewrite skipn_app, skipn_all, Nat.sub_diag. cbn [skipn app]. rewrite firstn_app, firstn_all, Nat.sub_diag. cbn [firstn]. rewrite app_nil_r. reflexivity. Qed.
Lemma nth_error_at {A} (a : list A) x b : nth_error (a ++ x :: b) (length a) = Some x.
Proof. rewrite nth_error_app2 by lia. rewrite Nat.sub_diag. reflexivity. Qed.
Lemma seed_at a d b : seed (a ++ d :: b) (length a) = a ++ mkD (val d) 1 :: b.
Proof. unfold seed. rewrite nth_error_at, upd_at. reflexivity. Qed.
Lemma unseed_at a d b : unseed (a ++ d :: b) (length a) = a ++ plain (val d) :: b.
Proof. unfold unseed. rewrite nth_error_at, upd_at. reflexivity. Qed.

(* The columns of a matrix of derivatives and where the last evaluation was. *)
Lemma jacobian_spec fn : forall post pre k cols k', jacobian fn (pre ++ post) (seq (length pre) (length post)) k = (Ok cols, k') ->
  length cols = length post /\ (post = [] -> k' = k) /\
  forall mid d rest, post = mid ++ d :: rest -> exists r ka kb, fn (pre ++ strip mid ++ mkD (val d) 1 :: rest) ka = (Ok r, kb) /\
    nth_error cols (length mid) = Some (map der r) /\ (rest = [] -> k' = kb).
Proof.
  induction post as [|d0 post IH]; intros pre k cols k' E.
  - cbn in E. injection E as <- <-. split; [reflexivity|]. split; [reflexivity|]. intros mid d rest H. destruct mid; discriminate H.
  - cbn [length seq jacobian] in E. rewrite seed_at, unseed_at in E.
    destruct (fn (pre ++ mkD (val d0) 1 :: post) k) as [[r| |] k1] eqn:F; try discriminate E.
    replace (pre ++ plain (val d0) :: post) with ((pre ++ [plain (val d0)]) ++ post) in E by (rewrite <- app_assoc; reflexivity).
    replace (S (length pre)) with (length (pre ++ [plain (val d0)])) in E by (rewrite app_length; cbn; lia).
    destruct (jacobian fn ((pre ++ [plain (val d0)]) ++ post) (seq (length (pre ++ [plain (val d0)])) (length post)) k1) as [[cs| |] k2] eqn:G; try discriminate E.
    cbn [bind] in E. injection E as <- <-. destruct (IH _ _ _ _ G) as (L & Z & H).
    split; [cbn [length]; lia|]. split; [discriminate|]. intros mid d rest Ep. destruct mid as [|m mid].
    + cbn [app] in Ep. injection Ep as -> ->. exists r, k, k1. split; [exact F|]. split; [reflexivity|]. intros ->. apply Z. reflexivity.
    + cbn [app] in Ep. injection Ep as -> ->. destruct (H mid d rest eq_refl) as (r' & ka & kb & A & B & C).
      exists r', ka, kb. split; [|split; [exact B|exact C]]. rewrite <- app_assoc in A. exact A.
Qed.

(* ---- Places of temperature and pressure ---- *)
Lemma index_first l nm i : first_at l nm i -> M_Algorithms.index str_eqb l nm = i.
Proof.
  revert i. induction l as [|a l IH]; intros i (H & N); [destruct i; discriminate H|]. unfold M_Algorithms.index. cbn [indexfn].
  destruct i as [|i].
  - cbn in H. injection H as ->. destruct (str_eqb_spec nm nm) as [_|D]; [reflexivity|contradiction].
  - destruct (str_eqb_spec a nm) as [->|_]; [exfalso; apply (N 0); [lia|reflexivity]|]. f_equal. apply IH. split; [exact H|].
    intros j J. exact (N (S j) ltac:(lia)).
Qed.
Lemma index_absent l nm : ~ In nm l -> M_Algorithms.index str_eqb l nm = length l.
Proof.
  induction l as [|a l IH]; intros N; [reflexivity|]. unfold M_Algorithms.index. cbn [indexfn length].
  destruct (str_eqb_spec a nm) as [->|_]; [exfalso; apply N; left; reflexivity|]. f_equal. apply IH. intros I. apply N. right. exact I.
Qed.
Lemma getD_input s nm i p w : is_input s nm i -> getD s nm p w = match nth_error w i with Some d => Ok d | None => UB end.
Proof.
  intros H. unfold getD. rewrite (index_first H). destruct H as (H & _).
  assert (L : i < length (q_inputs s)) by (apply nth_error_Some; congruence). unfold numInputs. rewrite (proj2 (Nat.ltb_lt _ _) L). reflexivity.
Qed.
Lemma getD_unknown s nm i p w : is_unknown s nm i -> getD s nm p w = match nth_error p i with Some d => Ok d | None => UB end.
Proof.
  intros (N & H). unfold getD. rewrite (@index_absent _ _ N), (index_first H). unfold numInputs. rewrite Nat.ltb_irrefl. reflexivity.
Qed.

(* ---- Requests ---- *)
Section Requests.
Variable sys : ChemicalSystem.
Variable s : Specs.
Variable objective : list dual -> dual -> dual -> list dual -> outcome dual.
Variable gradient constraints : list dual -> dual -> dual -> list dual -> outcome (list dual).
Let NN : nat := length (sys_species sys).
Lemma evaluate_ok {A} (fn : list dual -> dual -> dual -> list dual -> outcome A) x p w k v k' : evaluate sys s fn x p w k = (Ok v, k') ->
  exists T P, getD s $"T" p w = Ok T /\ getD s $"P" p w = Ok P /\ k' = (T, P) /\ NN <= length x /\ fn (firstn NN x) T P w = Ok v.
Proof.
  unfold evaluate. change (M_Solve.Nn sys) with NN. destruct (Nat.leb_spec NN (length x)) as [L|L]; cbn [negb]; [|discriminate].
  destruct (getD s $"T" p w) as [T| |]; try discriminate. destruct (getD s $"P" p w) as [P| |]; try discriminate.
  intros E. injection E as E <-. exists T, P. repeat split; assumption.
Qed.
Definition final_w (w : list dual) (r : Request) : list dual := if rq_ddw r then last_seeded w else w.
Definition final_p (w : list dual) (r : Request) : list dual :=
  if rq_ddw r && negb (length w =? 0) then map plain (rq_p r) else if rq_ddp r then last_seeded (map plain (rq_p r)) else map plain (rq_p r).
(* Where the properties that are kept after a request were evaluated. *)
Definition kept_at (p w : list dual) (k : Kept) : Prop := getD s $"T" p w = Ok (fst k) /\ getD s $"P" p w = Ok (snd k).
Lemma wanted_kept b fn l k o k' : wanted b fn l k = (Ok o, k') ->
  (b = false /\ o = None /\ k' = k) \/ (b = true /\ l = [] /\ k' = k /\ o = Some []) \/
  (b = true /\ l <> [] /\ exists cols ka r, o = Some cols /\ fn (last_seeded l) ka = (Ok r, k')).
Proof.
  unfold wanted. destruct b; [|intros E; injection E as <- <-; left; repeat split].
  destruct (jacobian fn l (seq 0 (length l)) k) as [[cols| |] k1] eqn:J; cbn [bind]; try discriminate. intros E. injection E as <- <-. right.
  destruct (@jacobian_spec fn l [] k cols k1 J) as (L & Z & H). destruct l as [|d l _] using rev_ind.
  - left. rewrite (Z eq_refl). destruct cols; [repeat split|discriminate L].
  - right. split; [reflexivity|]. split; [destruct l; discriminate|]. destruct (H l d [] eq_refl) as (r & ka & kb & A & _ & C).
    exists cols, ka, r. split; [reflexivity|]. rewrite last_seeded_snoc, (C eq_refl). exact A.
Qed.
Lemma ask_kept w r k a k' : ask sys s objective gradient constraints w r k = (Ok a, k') -> kept_at (final_p w r) (final_w w r) k'.
Proof.
  unfold ask. set (x := map plain (rq_x r)). set (p := map plain (rq_p r)).
  destruct (if rq_objective r then evaluate sys s objective x p w k else (Ok (plain 0), k)) as [[f| |] k0]; try discriminate.
  set (fn := if rq_objective r then gradient else constraints).
  destruct (evaluate sys s fn x p w k0) as [[v| |] k1] eqn:E1; try discriminate. destruct (evaluate_ok _ _ _ _ _ E1) as (T & P & GT & GP & K1 & _).
  assert (H1 : kept_at p w k1) by (rewrite K1; split; assumption).
  destruct (wanted (rq_ddx r) (fun x0 => evaluate sys s fn x0 p w) x k1) as [[jx| |] k2] eqn:E2; try discriminate.
  assert (H2 : kept_at p w k2).
  { destruct (wanted_kept _ _ _ _ E2) as [(_ & _ & ->)|[(_ & _ & -> & _)|(_ & _ & cols & ka & rr & _ & F)]]; try exact H1.
    destruct (evaluate_ok _ _ _ _ _ F) as (T2 & P2 & GT2 & GP2 & -> & _). split; assumption. }
  destruct (wanted (rq_ddp r) (fun p0 => evaluate sys s fn x p0 w) p k2) as [[jp| |] k3] eqn:E3; try discriminate.
  assert (H3 : kept_at (if rq_ddp r then last_seeded p else p) w k3).
  { destruct (wanted_kept _ _ _ _ E3) as [(-> & _ & ->)|[(-> & Ep & -> & _)|(-> & _ & cols & ka & rr & _ & F)]]; [exact H2|rewrite Ep in *; exact H2|].
    destruct (evaluate_ok _ _ _ _ _ F) as (T2 & P2 & GT2 & GP2 & -> & _). split; assumption. }
  destruct (wanted (rq_ddw r) (fun w0 => evaluate sys s fn x p w0) w k3) as [[jw| |] k4] eqn:E4; cbn [bind]; try discriminate.
  intros E. injection E as _ <-. unfold final_p, final_w. fold p.
  destruct (wanted_kept _ _ _ _ E4) as [(-> & _ & ->)|[(-> & Ew & -> & _)|(-> & Nw & cols & ka & rr & _ & F)]].
  - cbn [andb]. exact H3.
  - rewrite Ew in *. cbn [length Nat.eqb negb andb]. exact H3.
  - destruct (evaluate_ok _ _ _ _ _ F) as (T2 & P2 & GT2 & GP2 & -> & _).
    replace (length w =? 0) with false by (symmetry; apply Nat.eqb_neq; destruct w; [contradiction|discriminate]). cbn [negb andb]. split; assumption.
Qed.
Lemma asked_last w rs r k k' : asked sys s objective gradient constraints w (rs ++ [r]) k = (Ok tt, k') ->
  exists k1 a, ask sys s objective gradient constraints w r k1 = (Ok a, k').
Proof.
  revert k. induction rs as [|r0 rs IH]; intros k E; cbn [app asked] in E.
  - destruct (ask sys s objective gradient constraints w r k) as [[a| |] k1] eqn:A; try discriminate E. injection E as <-. exists k, a. exact A.
  - destruct (ask sys s objective gradient constraints w r0 k) as [[a| |] k1]; try discriminate E. exact (IH _ E).
Qed.
(* The columns of the matrices of derivatives in the amounts. *)
Lemma ask_columns w r k a k' : ask sys s objective gradient constraints w r k = (Ok a, k') -> rq_objective r = true -> rq_ddx r = true ->
  exists cols, a_x a = Some cols /\ length cols = length (rq_x r) /\
  forall j, j < length (rq_x r) -> exists v T P, getD s $"T" (map plain (rq_p r)) w = Ok T /\ getD s $"P" (map plain (rq_p r)) w = Ok P /\
    gradient (firstn NN (seed (map plain (rq_x r)) j)) T P w = Ok v /\ nth_error cols j = Some (map der v).
Proof.
  unfold ask. intros E O X. rewrite O in E. set (x := map plain (rq_x r)) in *. set (p := map plain (rq_p r)) in *.
  destruct (evaluate sys s objective x p w k) as [[f| |] k0]; try discriminate E.
  destruct (evaluate sys s gradient x p w k0) as [[v| |] k1]; try discriminate E. rewrite X in E.
  destruct (wanted true (fun x0 => evaluate sys s gradient x0 p w) x k1) as [[jx| |] k2] eqn:E2; try discriminate E.
  destruct (wanted (rq_ddp r) (fun p0 => evaluate sys s gradient x p0 w) p k2) as [[jp| |] k3]; try discriminate E.
  destruct (wanted (rq_ddw r) (fun w0 => evaluate sys s gradient x p w0) w k3) as [[jw| |] k4]; cbn [bind] in E; try discriminate E.
  injection E as <- _. cbn [a_x]. unfold wanted in E2.
  destruct (jacobian (fun x0 => evaluate sys s gradient x0 p w) x (seq 0 (length x)) k1) as [[cols| |] k5] eqn:J; cbn [bind] in E2; try discriminate E2.
  injection E2 as <- _. exists cols. destruct (@jacobian_spec _ x [] k1 cols k5 J) as (L & _ & H).
  assert (Lx : length x = length (rq_x r)) by apply map_length. split; [reflexivity|]. split; [lia|]. intros j Lj.
  destruct (nth_error x j) as [d|] eqn:N; [|apply nth_error_None in N; lia]. destruct (nth_error_split _ _ N) as (mid & rest & Ex & Lm).
  destruct (H mid d rest Ex) as (v' & ka & kb & F & C & _). destruct (evaluate_ok _ _ _ _ _ F) as (T & P & GT & GP & _ & _ & G).
  exists v', T, P. split; [exact GT|]. split; [exact GP|]. split; [|rewrite <- Lm; exact C].
  rewrite Ex, <- Lm, seed_at. cbn [app] in G. rewrite plain_strip in G; [exact G|].
  assert (A : all_plain x) by apply map_plain_plain. rewrite Ex in A. unfold all_plain in *. apply Forall_app in A. apply A.
Qed.
End Requests.

(* ---- Whole calculations ---- *)
Section Whole.
Variable ndebug : bool.
Variable sys : ChemicalSystem.
Variable s : Specs.
Variable eps : Q.
Variable objective : list dual -> dual -> dual -> list dual -> outcome dual.
Variable gradient constraints : list dual -> dual -> dual -> list dual -> outcome (list dual).
Variable fresh : nat -> nat -> OptState.
Variable optimizer : bool -> Problem -> OptState -> list Request * OptState * bool.
Notation run := (solve ndebug sys s eps objective gradient constraints fresh optimizer).
Notation NN := (length (sys_species sys)).

Lemma solve_inv sens c r k st ok k' st' : run sens c r k st = (Ok ok, k', st') ->
  exists n pr o rs o', initialAmounts ndebug c (d_n st) = Ok n /\ optProblem sys s eps c r n = Ok pr /\ optStart sys s fresh n (e_opt (d_eq st)) = Ok o /\
    optimizer sens pr o = (rs, o', ok) /\ asked sys s objective gradient constraints (pr_w pr) rs k = (Ok tt, k') /\
    finish ndebug sys c (pr_be pr) o' k' (mkDS (d_T st) (d_P st) n (d_eq st)) = (Ok tt, st').
Proof.
  unfold solve. intros E. destruct (initialAmounts ndebug c (d_n st)) as [n| |]; try discriminate E.
  destruct (optProblem sys s eps c r n) as [pr| |] eqn:EP; cbn [bind] in E; try discriminate E.
  destruct (optStart sys s fresh n (e_opt (d_eq st))) as [o| |] eqn:EO; cbn [bind] in E; try discriminate E.
  destruct (optimizer sens pr o) as [[rs o'] ok'] eqn:ER.
  destruct (asked sys s objective gradient constraints (pr_w pr) rs k) as [[[]| |] k1] eqn:EA; try discriminate E.
  destruct (finish ndebug sys c (pr_be pr) o' k1 (mkDS (d_T st) (d_P st) n (d_eq st))) as [[[]| |] st2] eqn:EF; try discriminate E.
  injection E as <- <- <-. exists n, pr, o, rs, o'. repeat split; assumption.
Qed.
Lemma initialAmounts_inv c n n1 : initialAmounts ndebug c n = Ok n1 -> n1 = n \/ (exists m, maxCoeff n = Ok m /\ (m == 0)%Q) /\ n1 = dc_species c.
Proof.
  unfold initialAmounts. destruct (maxCoeff n) as [m| |]; cbn [bind]; try discriminate.
  destruct (Qeq_bool m 0) eqn:Z; cbn [andb].
  - destruct (negb (length (dc_species c) =? 0)); cbn [negb]; [|discriminate]. destruct (_ || _); [|discriminate]. intros E. injection E as <-.
    right. split; [exists m; split; [reflexivity|apply Qeq_bool_iff, Z]|reflexivity].
  - intros E. injection E as <-. left. reflexivity.
Qed.
Lemma optProblem_inv c r n pr : optProblem sys s eps c r n = Ok pr -> pr_w pr = dc_w c /\ components sys c (pr_be pr) /\
  assembleMatrixAex sys s = Ok (pr_aex pr) /\ assembleMatrixAep sys s = Ok (pr_aep pr) /\
  assembleLowerBounds sys eps s r n = Ok (pr_lower pr) /\ assembleUpperBounds sys eps s r n = Ok (pr_upper pr).
Proof.
  unfold optProblem. destruct (assembleMatrixAex sys s) as [aex| |]; cbn [bind]; try discriminate.
  destruct (assembleMatrixAep sys s) as [aep| |]; cbn [bind]; try discriminate.
  unfold initialComponentAmounts. cbn [c_components c_species]. unfold components.
  destruct (dc_components c) as [|b bs]; cbn [length Nat.eqb negb].
  - destruct (length (dc_species c) =? 0); cbn [bind]; [discriminate|]. destruct (Nat.eqb_spec (length (dc_species c)) NN) as [L|_]; cbn [bind]; [|discriminate].
    destruct (assembleLowerBounds sys eps s r n); cbn [bind]; try discriminate. destruct (assembleUpperBounds sys eps s r n); cbn [bind]; try discriminate.
    intros E. injection E as <-. cbn. repeat split. exact L.
  - cbn [bind]. destruct (assembleLowerBounds sys eps s r n); cbn [bind]; try discriminate. destruct (assembleUpperBounds sys eps s r n); cbn [bind]; try discriminate.
    intros E. injection E as <-. cbn. repeat split.
Qed.
Lemma optStart_inv n o o' : optStart sys s fresh n o = Ok o' -> length n = NN /\ firstn NN (o_x o') = n /\
  let o0 := if o_dim o =? NN + length (q_implicit s) then o else fresh (NN + length (q_implicit s)) (numControlVariablesP s) in
  o_dim o' = o_dim o0 /\ o_p o' = o_p o0 /\ length (o_x o') = length (o_x o0).
Proof.
  unfold optStart. change (M_Solve.Nx sys s) with (NN + length (q_implicit s)). change (M_Solve.Nn sys) with NN. change (M_Solve.Np s) with (numControlVariablesP s).
  set (o0 := if o_dim o =? NN + length (q_implicit s) then o else fresh (NN + length (q_implicit s)) (numControlVariablesP s)). cbv zeta.
  destruct (Nat.leb_spec NN (length (o_x o0))) as [L|_]; cbn [andb]; [|discriminate]. destruct (Nat.eqb_spec (length n) NN) as [Ln|_]; [|discriminate].
  intros E. injection E as <-. cbn [o_x o_dim o_p]. split; [exact Ln|]. split.
  - rewrite firstn_app, <- Ln, firstn_all, Nat.sub_diag. cbn [firstn]. apply app_nil_r.
  - split; [reflexivity|]. split; [reflexivity|]. rewrite app_length, skipn_length. lia.
Qed.
Lemma Qle_bool_false v : Qle_bool v 0 = false -> (0 < v)%Q.
Proof. intros H. apply Qnot_le_lt. intros L. apply Qle_bool_iff in L. congruence. Qed.
Lemma finish_inv c be o k st st' : finish ndebug sys c be o k st = (Ok tt, st') ->
  d_T st' = fst k /\ d_P st' = snd k /\ (0 < val (fst k))%Q /\ (0 < val (snd k))%Q /\ d_n st' = firstn NN (o_x o) /\ NN <= length (o_x o) /\
  d_eq st' = mkEqData (dc_inputs c) (map val (dc_w c)) be (skipn NN (o_x o)) o.
Proof.
  unfold finish. destruct k as [T P]. cbn [fst snd]. change (M_Solve.Nn sys) with NN.
  destruct (Qle_bool (val T) 0) eqn:ZT; [discriminate|]. destruct (Qle_bool (val P) 0) eqn:ZP; [discriminate|].
  destruct (Nat.leb_spec NN (length (o_x o))) as [L|_]; cbn [negb]; [|discriminate].
  destruct (ndebug || _); cbn [negb]; [|discriminate]. unfold setOptimaState. change (M_Solve.Nn sys) with NN. rewrite (proj2 (Nat.leb_le _ _) L).
  intros E. injection E as <-. cbn. apply Qle_bool_false in ZT, ZP. repeat split; assumption.
Qed.
End Whole.

(* The state after a calculation, whether it succeeded or not: the amounts of the
   optimizer, the conditions given, and temperature and pressure from the inputs
   or from the unknowns of the last evaluation. *)
Theorem C132_result_partial : forall ndebug sys s eps objective gradient constraints fresh optimizer sens c r k st ok k' st',
  solve ndebug sys s eps objective gradient constraints fresh optimizer sens c r k st = (Ok ok, k', st') ->
  let N := length (sys_species sys) in
  exists pr o rs o', optimizer sens pr o = (rs, o', ok) /\ components sys c (pr_be pr) /\
    (firstn N (o_x o) = d_n st \/ (exists m, maxCoeff (d_n st) = Ok m /\ (m == 0)%Q) /\ firstn N (o_x o) = dc_species c) /\
    d_n st' = firstn N (o_x o') /\ e_q (d_eq st') = skipn N (o_x o') /\ e_opt (d_eq st') = o' /\
    e_inputs (d_eq st') = dc_inputs c /\ e_w (d_eq st') = map val (dc_w c) /\ e_b (d_eq st') = pr_be pr /\
    (0 < val (d_T st'))%Q /\ (0 < val (d_P st'))%Q /\
    (forall last nm d, last_request rs last -> In (nm, d) [($"T", d_T st'); ($"P", d_P st')] ->
       (forall i, is_input s nm i -> nth_error (map val (dc_w c)) i = Some (val d)) /\
       (forall i, is_unknown s nm i -> nth_error (rq_p last) i = Some (val d))).
Proof.
  intros ndebug sys s eps objective gradient constraints fresh optimizer sens c r k st ok k' st' E. cbv zeta.
  destruct (solve_inv _ _ _ _ _ _ _ _ _ _ _ _ _ _ E) as (n & pr & o & rs & o' & EI & EP & EO & ER & EA & EF).
  destruct (optProblem_inv _ _ _ _ _ _ EP) as (W & B & _). destruct (optStart_inv ndebug _ _ _ optimizer _ _ EO) as (_ & X & _).
  destruct (finish_inv _ _ _ _ _ _ _ EF) as (HT & HP & PT & PP & HN & _ & HE). exists pr, o, rs, o'.
  split; [exact ER|]. split; [exact B|]. split; [rewrite X; exact (initialAmounts_inv _ _ _ EI)|]. rewrite HE, HT, HP. cbn [e_q e_opt e_inputs e_w e_b].
  split; [exact HN|]. repeat (split; [reflexivity|]). split; [exact PT|]. split; [exact PP|].
  intros last nm d (pre & ->) I. destruct (asked_last _ _ _ _ _ _ _ _ _ EA) as (k1 & a & A).
  destruct (ask_kept _ _ _ _ _ _ _ _ A) as (GT & GP). rewrite W in GT, GP.
  assert (G : getD s nm (final_p (dc_w c) last) (final_w (dc_w c) last) = Ok d) by (destruct I as [I|[I|[]]]; injection I as <- <-; assumption).
  split; intros i H.
  - rewrite (getD_input _ _ H) in G. destruct (nth_error (final_w (dc_w c) last) i) as [d'|] eqn:Nd; [|discriminate G]. injection G as ->.
    replace (map val (dc_w c)) with (map val (final_w (dc_w c) last)) by (unfold final_w; destruct (rq_ddw last); [apply last_seeded_val|reflexivity]).
    rewrite nth_error_map, Nd. reflexivity.
  - rewrite (getD_unknown _ _ H) in G. destruct (nth_error (final_p (dc_w c) last) i) as [d'|] eqn:Nd; [|discriminate G]. injection G as ->.
    replace (rq_p last) with (map val (final_p (dc_w c) last)); [rewrite nth_error_map, Nd; reflexivity|].
    unfold final_p. destruct (rq_ddw last && _); [apply map_val_plain|]. destruct (rq_ddp last); [rewrite last_seeded_val|]; apply map_val_plain.
Qed.
Print Assumptions C132_result_partial.

(* What the optimizer is given: the conservation matrices, the inputs, and the bounds
   that the restrictions require of the amounts it starts from. *)
Theorem C132_problem_partial : forall ndebug sys s eps objective gradient constraints fresh optimizer sens c h r k st ok k' st',
  solve ndebug sys s eps objective gradient constraints fresh optimizer sens c r k st = (Ok ok, k', st') -> rrun sys newRestrictions h = Some r ->
  let N := length (sys_species sys) in
  exists pr o rs o', optimizer sens pr o = (rs, o', ok) /\ pr_w pr = dc_w c /\ components sys c (pr_be pr) /\
    assembleMatrixAex sys s = Ok (pr_aex pr) /\ assembleMatrixAep sys s = Ok (pr_aep pr) /\
    (o_dim (e_opt (d_eq st)) = N + length (q_implicit s) -> o_p o = o_p (e_opt (d_eq st)) /\ skipn N (o_x o) = skipn N (o_x (e_opt (d_eq st)))) /\
    (o_dim (e_opt (d_eq st)) <> N + length (q_implicit s) -> let f := fresh (N + length (q_implicit s)) (numControlVariablesP s) in
       o_p o = o_p f /\ skipn N (o_x o) = skipn N (o_x f)) /\
    length (firstn N (o_x o)) = N /\ length (pr_lower pr) = N + length (q_implicit s) /\ length (pr_upper pr) = N + length (q_implicit s) /\
    (forall i x, nth_error (firstn N (o_x o)) i = Some x ->
       (exists b l, nth_error (pr_lower pr) i = Some b /\ InForce (Lower sys) h i l /\ LowerBound eps l x b) /\
       (exists b l, nth_error (pr_upper pr) i = Some b /\ InForce (Upper sys) h i l /\ UpperBound eps l x b)) /\
    (forall j, j < length (q_implicit s) -> nth_error (pr_lower pr) (N + j) = Some None /\ nth_error (pr_upper pr) (N + j) = Some None).
Proof.
  intros ndebug sys s eps objective gradient constraints fresh optimizer sens c h r k st ok k' st' E R. cbv zeta.
  destruct (solve_inv _ _ _ _ _ _ _ _ _ _ _ _ _ _ E) as (n & pr & o & rs & o' & EI & EP & EO & ER & EA & EF).
  destruct (optProblem_inv _ _ _ _ _ _ EP) as (W & B & AX & AP & LO & UP). pose proof EO as EO'. destruct (optStart_inv ndebug _ _ _ optimizer _ _ EO) as (Ln & X & _).
  destruct (C34_bounds sys eps s h r n R Ln) as (lo & up & Elo & Eup & L1 & L2 & BB & QQ). rewrite Ln in L1, L2, QQ.
  rewrite LO in Elo. rewrite UP in Eup. injection Elo as <-. injection Eup as <-.
  exists pr, o, rs, o'. split; [exact ER|]. split; [exact W|]. split; [exact B|]. split; [exact AX|]. split; [exact AP|].
  assert (ST : let f := if o_dim (e_opt (d_eq st)) =? length (sys_species sys) + length (q_implicit s) then e_opt (d_eq st) else fresh (length (sys_species sys) + length (q_implicit s)) (numControlVariablesP s) in
    o_p o = o_p f /\ skipn (length (sys_species sys)) (o_x o) = skipn (length (sys_species sys)) (o_x f)).
  { cbv zeta. revert EO'. unfold optStart. change (M_Solve.Nx sys s) with (length (sys_species sys) + length (q_implicit s)). change (M_Solve.Nn sys) with (length (sys_species sys)). change (M_Solve.Np s) with (numControlVariablesP s).
    destruct (_ && _); [|discriminate]. intros H. injection H as <-. cbn [o_p o_x]. split; [reflexivity|].
    rewrite skipn_app, <- Ln, skipn_all, Nat.sub_diag. reflexivity. }
  cbv zeta in ST. destruct (Nat.eqb_spec (o_dim (e_opt (d_eq st))) (length (sys_species sys) + length (q_implicit s))) as [D|D].
  - split; [intros _; exact ST|]. split; [intros D'; contradiction|]. rewrite X. split; [exact Ln|]. split; [exact L1|]. split; [exact L2|]. split; [exact BB|exact QQ].
  - split; [intros D'; contradiction|]. split; [intros _; exact ST|]. rewrite X. split; [exact Ln|]. split; [exact L1|]. split; [exact L2|]. split; [exact BB|exact QQ].
Qed.
Print Assumptions C132_problem_partial.

(* What the optimizer asks last. *)
Definition ends_with (optimizer : bool -> Problem -> OptState -> list Request * OptState * bool) (sens : bool) (P : Request -> Prop) : Prop :=
  forall pr o, exists last, last_request (fst (fst (optimizer sens pr o))) last /\ P last.
Lemma kept_last ndebug sys s eps objective gradient constraints fresh optimizer sens c r k st ok k' st' Q :
  solve ndebug sys s eps objective gradient constraints fresh optimizer sens c r k st = (Ok ok, k', st') -> ends_with optimizer sens Q ->
  exists last, Q last /\ getD s $"T" (final_p (dc_w c) last) (final_w (dc_w c) last) = Ok (d_T st') /\
    getD s $"P" (final_p (dc_w c) last) (final_w (dc_w c) last) = Ok (d_P st').
Proof.
  intros E H. destruct (solve_inv _ _ _ _ _ _ _ _ _ _ _ _ _ _ E) as (n & pr & o & rs & o' & EI & EP & EO & ER & EA & EF).
  destruct (optProblem_inv _ _ _ _ _ _ EP) as (W & _). destruct (finish_inv _ _ _ _ _ _ _ EF) as (HT & HP & _).
  destruct (H pr o) as (last & (pre & L) & HQ). rewrite ER in L. cbn [fst] in L. subst rs. destruct (asked_last _ _ _ _ _ _ _ _ _ EA) as (k1 & a & A).
  destruct (ask_kept _ _ _ _ _ _ _ _ A) as (GT & GP). rewrite W in GT, GP. rewrite HT, HP. exists last. repeat split; assumption.
Qed.
(* Without derivatives in the inputs, temperature and pressure that are inputs are
   numbers without derivatives. *)
Theorem C132_plain_partial : forall ndebug sys s eps objective gradient constraints fresh optimizer sens c r k st ok k' st' iT iP,
  solve ndebug sys s eps objective gradient constraints fresh optimizer sens c r k st = (Ok ok, k', st') ->
  ends_with optimizer sens (fun last => rq_ddw last = false) -> is_input s $"T" iT -> is_input s $"P" iP -> all_plain (dc_w c) ->
  der (d_T st') = 0%Q /\ der (d_P st') = 0%Q.
Proof.
  intros ndebug sys s eps objective gradient constraints fresh optimizer sens c r k st ok k' st' iT iP E H IT IP A.
  destruct (kept_last _ _ _ _ _ _ _ _ _ _ _ _ E H) as (last & F & GT & GP). unfold final_w in GT, GP. rewrite F in GT, GP. rewrite (getD_input _ _ IT) in GT. rewrite (getD_input _ _ IP) in GP.
  unfold all_plain in A. rewrite Forall_forall in A.
  destruct (nth_error (dc_w c) iT) as [t|] eqn:NT; [|discriminate GT]. destruct (nth_error (dc_w c) iP) as [p|] eqn:NP; [|discriminate GP].
  injection GT as <-. injection GP as <-. split; apply A; eapply nth_error_In; eassumption.
Qed.
Print Assumptions C132_plain_partial.
(* With them, the last input is left seeded: when it is the temperature or the
   pressure, its derivative in the state is one, and the other's is zero. *)
Theorem C132_seeded_partial : forall ndebug sys s eps objective gradient constraints fresh optimizer sens c r k st ok k' st' others i,
  solve ndebug sys s eps objective gradient constraints fresh optimizer sens c r k st = (Ok ok, k', st') ->
  ends_with optimizer sens (fun last => rq_ddw last = true) -> NoDup (q_inputs s) -> length (dc_w c) = length (q_inputs s) -> is_input s $"T" i ->
  q_inputs s = others ++ [$"P"] -> der (d_P st') = 1%Q /\ der (d_T st') = 0%Q.
Proof.
  intros ndebug sys s eps objective gradient constraints fresh optimizer sens c r k st ok k' st' others i E H ND L IT Q.
  assert (IP : is_input s $"P" (length others)).
  { unfold is_input. rewrite Q. split; [apply nth_error_at|]. intros j J K. rewrite Q in ND. apply NoDup_remove_2 in ND. apply ND. rewrite app_nil_r.
    rewrite nth_error_app1 in K by lia. eapply nth_error_In, K. }
  destruct (kept_last _ _ _ _ _ _ _ _ _ _ _ _ E H) as (last & F & GT & GP). unfold final_w in GT, GP. rewrite F in GT, GP. rewrite (getD_input _ _ IT) in GT. rewrite (getD_input _ _ IP) in GP.
  destruct (dc_w c) as [|d w _] using rev_ind; [rewrite Q, app_length in L; cbn in L; lia|].
  assert (Lw : length w = length others) by (rewrite Q, !app_length in L; cbn in L; lia). rewrite last_seeded_snoc in GT, GP.
  assert (Ls : length (strip w) = length others) by (unfold strip; rewrite map_length; exact Lw).
  rewrite <- Ls, nth_error_at in GP. injection GP as <-. split; [reflexivity|].
  destruct IT as (IT & _). rewrite Q in IT. assert (Li : i < length others).
  { destruct (Nat.lt_ge_cases i (length others)) as [X|X]; [exact X|]. rewrite nth_error_app2 in IT by exact X. destruct (i - length others) as [|m]; [|destruct m; discriminate IT].
    cbn in IT. discriminate IT. }
  rewrite nth_error_app1 in GT by lia. destruct (nth_error (strip w) i) as [t|] eqn:NT; [|discriminate GT]. injection GT as <-.
  unfold strip in NT. rewrite nth_error_map in NT. destruct (nth_error w i); [|discriminate NT]. injection NT as <-. reflexivity.
Qed.
Print Assumptions C132_seeded_partial.
(* A pressure that is unknown, and the last one, is left seeded without
   sensitivities too. *)
Theorem C132_unknown_partial : forall ndebug sys s eps objective gradient constraints fresh optimizer sens c r k st ok k' st' i,
  solve ndebug sys s eps objective gradient constraints fresh optimizer sens c r k st = (Ok ok, k', st') ->
  ends_with optimizer sens (fun last => rq_ddw last = false /\ rq_ddp last = true /\ length (rq_p last) = S i) -> is_unknown s $"P" i ->
  der (d_P st') = 1%Q.
Proof.
  intros ndebug sys s eps objective gradient constraints fresh optimizer sens c r k st ok k' st' i E H U.
  destruct (kept_last _ _ _ _ _ _ _ _ _ _ _ _ E H) as (last & (F1 & F2 & L) & _ & GP). unfold final_w, final_p in GP. rewrite F1, F2 in GP. cbn [andb] in GP. rewrite (getD_unknown _ _ U) in GP.
  destruct (rq_p last) as [|v p _] using rev_ind; [discriminate L|]. rewrite map_app in GP. cbn [map] in GP. rewrite last_seeded_snoc in GP.
  assert (Lp : length (strip (map plain p)) = i) by (unfold strip; rewrite !map_length; rewrite app_length in L; cbn in L; lia).
  rewrite <- Lp, nth_error_at in GP. injection GP as <-. reflexivity.
Qed.
Print Assumptions C132_unknown_partial.

(* ---- Derivatives in the amounts ---- *)
Lemma nth_error_firstn' {A} (l : list A) : forall N i, i < N -> nth_error (firstn N l) i = nth_error l i.
Proof. induction l as [|a l IH]; intros [|N] [|i] L; try lia; cbn; auto; apply IH; lia. Qed.
Lemma seeded_amounts N x j : N <= length x -> j < N ->
  map val (firstn N (seed (map plain x) j)) = firstn N x /\ map der (firstn N (seed (map plain x) j)) = unit_vector N j.
Proof.
  intros L J. destruct (nth_error x j) as [v|] eqn:E; [|apply nth_error_None in E; lia]. destruct (nth_error_split _ _ E) as (a & b & -> & La).
  rewrite map_app. cbn [map]. assert (Lm : length (map plain a) = j) by (rewrite map_length; exact La). rewrite <- Lm, seed_at. cbn [val plain]. split.
  - rewrite <- firstn_map, map_app. cbn [map val]. rewrite !map_val_plain. reflexivity.
  - rewrite <- firstn_map, map_app. cbn [map der]. rewrite Lm. unfold unit_vector. apply list_ext. intros i.
    rewrite nth_error_map. destruct (Nat.lt_ge_cases i N) as [Li|Li].
    + rewrite nth_error_firstn' by exact Li.
      replace (nth_error (seq 0 N) i) with (Some i) by (symmetry; rewrite nth_error_nth' with (d := 0) by (rewrite seq_length; exact Li); rewrite seq_nth by exact Li; reflexivity).
      cbn [option_map]. rewrite app_length in L. cbn [length] in L. destruct (Nat.lt_trichotomy i j) as [C|[C|C]].
      * rewrite nth_error_app1 by (rewrite !map_length; lia). rewrite !nth_error_map. destruct (nth_error a i) eqn:Ea; [|apply nth_error_None in Ea; lia].
        cbn. rewrite (proj2 (Nat.eqb_neq i j)) by lia. reflexivity.
      * subst i. rewrite nth_error_app2 by (rewrite !map_length; lia). rewrite !map_length, La, Nat.sub_diag, Nat.eqb_refl. reflexivity.
      * rewrite nth_error_app2 by (rewrite !map_length; lia). rewrite !map_length, La. destruct (i - j) as [|m] eqn:M; [lia|]. cbn [nth_error].
        rewrite !nth_error_map. destruct (nth_error b m) eqn:Eb; [|apply nth_error_None in Eb; lia]. cbn. rewrite (proj2 (Nat.eqb_neq i j)) by lia. reflexivity.
    + replace (nth_error (seq 0 N) i) with (@None nat) by (symmetry; apply nth_error_None; rewrite seq_length; exact Li). cbn [option_map].
      apply nth_error_None. rewrite firstn_length. lia.
Qed.
(* Column j is the derivative along species j, with the derivatives that the
   inputs already have added to it. *)
Theorem C132_columns_partial : forall sys s objective gradient constraints g J w r k a k',
  ask sys s objective gradient constraints w r k = (Ok a, k') -> rq_objective r = true -> rq_ddx r = true ->
  length (sys_species sys) <= length (rq_x r) -> forward gradient g J ->
  let N := length (sys_species sys) in
  exists cols T P, a_x a = Some cols /\ length cols = length (rq_x r) /\
    getD s $"T" (map plain (rq_p r)) w = Ok T /\ getD s $"P" (map plain (rq_p r)) w = Ok P /\
    forall j, j < N -> nth_error cols j =
      Some (J (firstn N (rq_x r)) (val T) (val P) (map val w) (mkDir (unit_vector N j) (der T) (der P) (map der w))).
Proof.
  intros sys s objective gradient constraints g J w r k a k' E O X L F N. subst N.
  destruct (ask_columns _ _ _ _ _ _ _ _ E O X) as (cols & A & LC & H).
  assert (KT : exists T P, getD s $"T" (map plain (rq_p r)) w = Ok T /\ getD s $"P" (map plain (rq_p r)) w = Ok P).
  { unfold ask in E. rewrite O in E. destruct (evaluate sys s objective (map plain (rq_x r)) (map plain (rq_p r)) w k) as [[f| |] k0] eqn:E0; try discriminate E.
    destruct (evaluate_ok _ _ _ _ _ _ _ E0) as (T & P & GT & GP & _). exists T, P. split; assumption. }
  destruct KT as (T & P & GT & GP). exists cols, T, P. split; [exact A|]. split; [exact LC|]. split; [exact GT|]. split; [exact GP|].
  intros j Lj. destruct (H j ltac:(lia)) as (v & T' & P' & GT' & GP' & G & C). rewrite GT in GT'. injection GT' as <-. rewrite GP in GP'. injection GP' as <-.
  destruct (F _ _ _ _ _ G) as (_ & D). destruct (seeded_amounts (rq_x r) L Lj) as (SV & SD). rewrite SV, SD in D. rewrite C, D. reflexivity.
Qed.
Print Assumptions C132_columns_partial.
Lemma plain_der w : all_plain w -> map der w = repeat 0%Q (length w).
Proof. induction 1 as [|d w H _ IH]; [reflexivity|]. cbn [map length repeat]. rewrite H, IH. reflexivity. Qed.
Lemma plain_nth w i d : all_plain w -> nth_error w i = Some d -> der d = 0%Q.
Proof. intros A E. unfold all_plain in A. rewrite Forall_forall in A. apply A. eapply nth_error_In, E. Qed.
(* With plain inputs they are the partial derivatives. *)
Theorem C132_derivatives_partial : forall sys s objective gradient constraints g J w r k a k' iT iP,
  ask sys s objective gradient constraints w r k = (Ok a, k') -> rq_objective r = true -> rq_ddx r = true ->
  length (sys_species sys) <= length (rq_x r) -> forward gradient g J -> all_plain w ->
  is_input s $"T" iT -> is_input s $"P" iP ->
  let N := length (sys_species sys) in
  exists cols T P, a_x a = Some cols /\ length cols = length (rq_x r) /\ nth_error w iT = Some (plain T) /\ nth_error w iP = Some (plain P) /\
    forall j, j < N -> nth_error cols j = Some (J (firstn N (rq_x r)) T P (map val w) (mkDir (unit_vector N j) 0 0 (repeat 0%Q (length w)))).
Proof.
  intros sys s objective gradient constraints g J w r k a k' iT iP E O X L F A IT IP N. subst N.
  destruct (C132_columns_partial _ _ _ _ _ _ _ E O X L F) as (cols & T & P & H1 & H2 & GT & GP & H).
  rewrite (getD_input _ _ IT) in GT. rewrite (getD_input _ _ IP) in GP.
  destruct (nth_error w iT) as [T0|] eqn:NT; [|discriminate GT]. injection GT as ->. destruct (nth_error w iP) as [P0|] eqn:NP; [|discriminate GP]. injection GP as ->.
  assert (DT := plain_nth _ A NT). assert (DP := plain_nth _ A NP). exists cols, (val T), (val P). split; [exact H1|]. split; [exact H2|].
  split; [destruct T as [vt dt]; cbn in *; rewrite DT; reflexivity|]. split; [destruct P as [vp dp]; cbn in *; rewrite DP; reflexivity|].
  intros j Lj. rewrite (H j Lj), DT, DP, (plain_der A). reflexivity.
Qed.
Print Assumptions C132_derivatives_partial.

(* ---- Conditions taken from a state ---- *)
Lemma scatter_length : forall idxs l vs l', scatter l idxs vs = Ok l' -> length l' = length l.
Proof.
  induction idxs as [|i idxs IH]; intros l vs l' E; destruct vs as [|v vs]; try discriminate E; cbn [scatter] in E.
  - injection E as <-. reflexivity.
  - destruct (Nat.ltb_spec i (length l)); [|discriminate E]. rewrite (IH _ _ _ E). apply upd_length.
Qed.
Lemma scatter_other : forall idxs l vs l' j, scatter l idxs vs = Ok l' -> ~ In j idxs -> nth_error l' j = nth_error l j.
Proof.
  induction idxs as [|i idxs IH]; intros l vs l' j E N; destruct vs as [|v vs]; try discriminate E; cbn [scatter] in E.
  - injection E as <-. reflexivity.
  - destruct (Nat.ltb_spec i (length l)); [|discriminate E]. rewrite (IH _ _ _ j E) by (intros I; apply N; right; exact I).
    rewrite upd_nth. destruct (Nat.eqb_spec j i) as [->|_]; [exfalso; apply N; left; reflexivity|reflexivity].
Qed.
Lemma contains_str l nm : contains str_eqb l nm = true <-> In nm l.
Proof. apply contains_spec. intros x y. destruct (str_eqb_spec x y); split; congruence. Qed.
Lemma contains_index l nm : contains str_eqb l nm = true -> exists i, first_at l nm i.
Proof.
  intros H. assert (I : In nm l) by (apply contains_str; exact H).
  clear H. induction l as [|a l IH]; [destruct I|]. destruct (str_eqb_spec a nm) as [->|N].
  - exists 0. split; [reflexivity|]. intros j J. lia.
  - destruct I as [I|I]; [contradiction|]. destruct (IH I) as (i & H & F). exists (S i). split; [exact H|]. intros [|j] J; [cbn; congruence|]. cbn. apply F. lia.
Qed.
Lemma first_at_contains l nm i : first_at l nm i -> contains str_eqb l nm = true.
Proof.
  intros (H & _). apply nth_error_In in H. apply contains_str, H.
Qed.
Lemma first_at_inj l a b i : first_at l a i -> first_at l b i -> a = b.
Proof. intros (H & _) (K & _). congruence. Qed.
(* A calculation from a state alone takes temperature, pressure and amounts from
   it, with the derivatives they carry, and leaves every other input zero. *)
Theorem C132_from_state_partial : forall sys s cells st c, stateConditions sys s cells st = Ok c ->
  dc_inputs c = q_inputs s /\ dc_species c = d_n st /\ dc_components c = [] /\ length (dc_w c) = length (q_inputs s) /\
  (exists i, is_input s $"T" i /\ nth_error (dc_w c) i = Some (d_T st)) /\
  (exists i, is_input s $"P" i /\ nth_error (dc_w c) i = Some (d_P st)) /\
  (forall nm i, is_input s nm i -> nm <> $"T" -> nm <> $"P" -> ~ In i (q_idxs s) -> nth_error (dc_w c) i = Some (plain 0)).
Proof.
  intros sys s cells st c E. unfold stateConditions, newConditions in E.
  destruct (scatter (repeat 0%Q (numInputs s)) (q_idxs s) (map (fun p => cells (pa_cell p)) (q_params s))) as [vs| |] eqn:S; try discriminate E.
  cbn [omap bind c_inputs c_values] in E. unfold setInput at 1 2 in E. cbn [dc_inputs dc_w dc_species dc_components] in E.
  destruct (contains str_eqb (q_inputs s) $"T") eqn:CT; [|discriminate E]. cbn [bind dc_inputs dc_w dc_species dc_components] in E.
  destruct (contains str_eqb (q_inputs s) $"P") eqn:CP; [|discriminate E]. cbn [bind dc_inputs dc_w dc_species dc_components] in E.
  destruct (length (d_n st) =? Nn sys); [|discriminate E]. injection E as <-. cbn [dc_inputs dc_w dc_species dc_components].
  destruct (contains_index _ _ CT) as (iT & IT). destruct (contains_index _ _ CP) as (iP & IP). 
  change ["T"%char] with ($"T"). change ["P"%char] with ($"P"). rewrite (index_first IT), (index_first IP).
  assert (LS := scatter_length _ _ _ S). rewrite repeat_length in LS. unfold numInputs in LS.
  assert (LT : iT < length (q_inputs s)) by (apply nth_error_Some; destruct IT as (-> & _); discriminate).
  assert (LP : iP < length (q_inputs s)) by (apply nth_error_Some; destruct IP as (-> & _); discriminate).
  assert (D : iT <> iP) by (intros ->; discriminate (first_at_inj IT IP)).
  split; [reflexivity|]. split; [reflexivity|]. split; [reflexivity|]. split; [rewrite !upd_length, map_length; exact LS|]. split; [|split].
  - exists iT. split; [exact IT|]. rewrite !upd_nth, upd_length, map_length, LS. rewrite (proj2 (Nat.eqb_neq iT iP) D), Nat.eqb_refl, (proj2 (Nat.ltb_lt _ _) LT). reflexivity.
  - exists iP. split; [exact IP|]. rewrite upd_nth, upd_length, map_length, LS, Nat.eqb_refl, (proj2 (Nat.ltb_lt _ _) LP). reflexivity.
  - intros nm i I N1 N2 N. rewrite !upd_nth. destruct (Nat.eqb_spec i iP) as [->|_]; [exfalso; apply N2; exact (first_at_inj I IP)|].
    destruct (Nat.eqb_spec i iT) as [->|_]; [exfalso; apply N1; exact (first_at_inj I IT)|]. cbn [andb]. rewrite nth_error_map, (scatter_other _ _ _ _ S N).
    rewrite (nth_error_nth' _ 0%Q); [rewrite nth_repeat; reflexivity|]. rewrite repeat_length. unfold numInputs. apply nth_error_Some. destruct I as (-> & _). discriminate.
Qed.
Print Assumptions C132_from_state_partial.
(* It is refused exactly when temperature or pressure is not an input (for the
   amounts of a state of the system and conditions that can be made). *)
Theorem C132_from_state_refused_partial : forall sys s cells st c0, newConditions cells s = Ok c0 -> length (d_n st) = length (sys_species sys) ->
  (stateConditions sys s cells st = Err <-> ~ (In $"T" (q_inputs s) /\ In $"P" (q_inputs s))).
Proof.
  intros sys s cells st c0 E L. assert (I0 : c_inputs c0 = q_inputs s).
  { unfold newConditions in E. destruct (scatter _ _ _); try discriminate E. cbn in E. injection E as <-. reflexivity. }
  unfold stateConditions. rewrite E. cbn [bind]. unfold setInput. cbn [dc_inputs dc_w dc_species dc_components]. rewrite I0.
  assert (B : forall nm, In nm (q_inputs s) <-> contains str_eqb (q_inputs s) nm = true).
  { intros nm. symmetry. apply contains_str. }
  rewrite !B. destruct (contains str_eqb (q_inputs s) $"T"); cbn [bind dc_inputs dc_w dc_species dc_components].
  - destruct (contains str_eqb (q_inputs s) $"P"); cbn [bind dc_inputs dc_w dc_species dc_components].
    + change (Nn sys) with (length (sys_species sys)). rewrite (proj2 (Nat.eqb_eq _ _) L). split; [discriminate|]. intros N. exfalso. apply N. split; reflexivity.
    + split; [intros _ (_ & X); discriminate X|reflexivity].
  - split; [intros _ (X & _); discriminate X|reflexivity].
Qed.
Print Assumptions C132_from_state_refused_partial.

(* ---- Where a calculation starts ---- *)
(* Temperature and pressure of the given state are not a guess: the result is the
   same from every other, even when they are unknown. *)
Theorem C132_guess_partial : forall ndebug sys s eps objective gradient constraints fresh optimizer sens c r k T P T' P' n e ok k' st',
  solve ndebug sys s eps objective gradient constraints fresh optimizer sens c r k (mkDS T P n e) = (Ok ok, k', st') ->
  solve ndebug sys s eps objective gradient constraints fresh optimizer sens c r k (mkDS T' P' n e) = (Ok ok, k', st').
Proof.
  intros ndebug sys s eps objective gradient constraints fresh optimizer sens c r k T P T' P' n e ok k' st'. unfold solve. cbn [d_T d_P d_n d_eq].
  destruct (initialAmounts ndebug c n) as [n1| |]; try discriminate. destruct (bind (optProblem sys s eps c r n1) _) as [[pr o]| |]; try discriminate.
  destruct (optimizer sens pr o) as [[rs o'] b]. destruct (asked sys s objective gradient constraints (pr_w pr) rs k) as [[[]| |] k1]; try discriminate.
  unfold finish. destruct k1 as [T1 P1]. cbn [d_T d_P d_n d_eq]. destruct (Qle_bool (val T1) 0); [discriminate|]. destruct (Qle_bool (val P1) 0); [discriminate|].
  destruct (negb (Nn sys <=? length (o_x o'))); [discriminate|]. destruct (negb _); [discriminate|]. destruct (setOptimaState sys o' _); try discriminate. exact (fun H => H).
Qed.
Print Assumptions C132_guess_partial.
(* The start has the amounts of the state, and as many unknowns as the stored one,
   whatever the number of unknowns, if the stored one has as many variables. *)
Theorem C132_start_partial : forall sys s fresh n o o', (forall nx np, length (o_p (fresh nx np)) = np) -> optStart sys s fresh n o = Ok o' ->
  firstn (length (sys_species sys)) (o_x o') = n /\
  (o_dim o <> length (sys_species sys) + length (q_implicit s) -> length (o_p o') = numControlVariablesP s) /\
  (o_dim o = length (sys_species sys) + length (q_implicit s) -> o_p o' = o_p o).
Proof.
  intros sys s fresh n o o' F E. destruct (optStart_inv true sys s fresh (fun _ _ o => ([], o, true)) n o E) as (_ & X & H). cbv zeta in H. destruct H as (_ & H & _).
  split; [exact X|]. destruct (Nat.eqb_spec (o_dim o) (length (sys_species sys) + length (q_implicit s))) as [D|D].
  - split; [intros N; contradiction|]. intros _. exact H.
  - split; [|intros D'; contradiction]. intros _. rewrite H. apply F.
Qed.
Print Assumptions C132_start_partial.

(* ---- Errors ---- *)
Theorem C132_failure_partial : forall ndebug sys s eps objective gradient constraints fresh optimizer sens c r k st k' st',
  solve ndebug sys s eps objective gradient constraints fresh optimizer sens c r k st = (Err, k', st') ->
  d_P st' = d_P st /\ d_eq st' = d_eq st /\ (d_T st' = d_T st \/ d_T st' = fst k') /\
  (d_n st' = d_n st \/ (exists m, maxCoeff (d_n st) = Ok m /\ (m == 0)%Q) /\ d_n st' = dc_species c).
Proof.
  intros ndebug sys s eps objective gradient constraints fresh optimizer sens c r k st k' st'. unfold solve.
  destruct (initialAmounts ndebug c (d_n st)) as [n1| |] eqn:EI; try discriminate.
  2: { intros E. injection E as <- <-. repeat split; left; reflexivity. }
  apply initialAmounts_inv in EI.
  destruct (bind (optProblem sys s eps c r n1) _) as [[pr o]| |]; try discriminate.
  2: { intros E. injection E as <- <-. cbn [d_T d_P d_n d_eq]. repeat split; [left; reflexivity|exact EI]. }
  destruct (optimizer sens pr o) as [[rs o'] b]. destruct (asked sys s objective gradient constraints (pr_w pr) rs k) as [[[]| |] k1]; try discriminate.
  2: { intros E. injection E as <- <-. cbn [d_T d_P d_n d_eq]. repeat split; [left; reflexivity|exact EI]. }
  unfold finish. destruct k1 as [T1 P1]. cbn [d_T d_P d_n d_eq].
  destruct (Qle_bool (val T1) 0). { intros E. injection E as <- <-. cbn [d_T d_P d_n d_eq]. repeat split; [left; reflexivity|exact EI]. }
  destruct (Qle_bool (val P1) 0). { intros E. injection E as <- <-. cbn [d_T d_P d_n d_eq fst]. repeat split; [right; reflexivity|exact EI]. }
  destruct (negb (Nn sys <=? length (o_x o'))) eqn:Z; [discriminate|]. destruct (negb _) in |- *; [discriminate|].
  unfold setOptimaState. destruct (Nn sys <=? length (o_x o')); discriminate.
Qed.
Print Assumptions C132_failure_partial.

(* ---- Conservation ---- *)
Lemma zip_nil : forall (m : list (list Q)) i, zip_with (@app Q) m (map (fun _ => []) (seq i (length m))) = m.
Proof. induction m as [|r m IH]; intros i; [reflexivity|]. unfold zip_with in *. simpl. rewrite app_nil_r. f_equal. apply IH. Qed.
(* A successful calculation at given temperature and pressure, from a state alone,
   conserves elements and charge when the optimizer satisfies the equations. *)
Theorem C132_conservation_partial : forall phases ndebug eps objective gradient constraints fresh optimizer sens cells r k st k' st',
  let sys := mkChemicalSystem phases in
  (forall pr o rs o', optimizer sens pr o = (rs, o', true) -> length (o_x o') = length (sys_species sys) /\ Forall2 Qeq (matvec (pr_aex pr) (o_x o')) (pr_be pr)) ->
  solveState ndebug sys defaultSpecs eps objective gradient constraints fresh optimizer sens cells r k st = (Ok true, k', st') ->
  length (d_n st') = length (d_n st) /\ Forall2 Qeq (matvec (sys_matrix sys) (d_n st')) (matvec (sys_matrix sys) (d_n st)).
Proof.
  intros phases ndebug eps objective gradient constraints fresh optimizer sens cells r k st k' st' sys F E. unfold solveState in E.
  destruct (stateConditions sys defaultSpecs cells st) as [c| |] eqn:C; try discriminate E.
  destruct (solve_inv _ _ _ _ _ _ _ _ _ _ _ _ _ _ E) as (n & pr & o & rs & o' & EI & EP & EO & ER & EA & EF).
  destruct (optProblem_inv _ _ _ _ _ _ EP) as (_ & B & AX & _). destruct (finish_inv _ _ _ _ _ _ _ EF) as (_ & _ & _ & _ & HN & _).
  destruct (F _ _ _ _ ER) as (LX & H). destruct (C132_from_state_partial _ _ _ _ C) as (_ & CS & CC & _).
  unfold components in B. rewrite CC, CS in B. destruct B as (LN & B).
  destruct (sys_facts phases) as (_ & LM & _). fold sys in LM. clearbody sys.
  assert (A : pr_aex pr = sys_matrix sys).
  { unfold assembleMatrixAex in AX. cbn [defaultSpecs q_implicit mapM omap bind] in AX. change (q_implicit defaultSpecs) with (@nil ChemicalFormula) in AX.
    cbn [mapM omap bind] in AX. injection AX as <-. unfold of_columns. cbn [map]. rewrite <- LM. apply zip_nil. }
  rewrite A, B in H. rewrite HN, <- LX, firstn_all. split; [lia|exact H].
Qed.
Print Assumptions C132_conservation_partial.

(* ---- A calculation in full ---- *)
Definition mulD (a b : dual) : dual := mkD (val a * val b) (val a * der b + der a * val b).
Definition demoObjective (n : list dual) (T P : dual) (w : list dual) : outcome dual := Ok (plain 0).
(* A gradient that depends on amounts and pressure. *)
Definition demoGradient (n : list dual) (T P : dual) (w : list dual) : outcome (list dual) := Ok (map (fun d => mulD d P) n).
Definition demoConstraints (n : list dual) (T P : dual) (w : list dual) : outcome (list dual) := Ok [].
Definition demoFresh (nx np : nat) : OptState := mkOpt nx (repeat 0%Q nx) (repeat 0%Q np) [].
(* One evaluation at the start, which is returned. *)
Definition demoOptimizer (sens : bool) (pr : Problem) (o : OptState) : list Request * OptState * bool :=
  ([mkReq true (o_x o) (o_p o) true true sens], o, true).
Definition demoRun := solve true sample defaultSpecs (1 # 1000) demoObjective demoGradient demoConstraints demoFresh demoOptimizer.
Definition demoRunState := solveState true sample defaultSpecs (1 # 1000) demoObjective demoGradient demoConstraints demoFresh demoOptimizer.
Definition demoState : DState := mkDS (plain 300) (plain 100000) [55; 1; 2]%Q (mkEqData [] [] [] [] (mkOpt 0 [] [] [])).
Definition demoConditions (T P : Q) : DConditions := mkDC [$"T"; $"P"] [plain T; plain P] [55; 1; 2]%Q [].
Definition noRestrictions : Restrictions := newRestrictions.

(* What is expected of calculations: a state without derivatives from conditions
   without them, and the given state when an error is reported. *)
Definition C132_statement : Prop :=
  forall ndebug sys s eps objective gradient constraints fresh optimizer sens c r k st res k' st',
    solve ndebug sys s eps objective gradient constraints fresh optimizer sens c r k st = (res, k', st') ->
    all_plain (dc_w c) -> der (d_T st) = 0%Q -> der (d_P st) = 0%Q ->
    (res = Err -> st' = st) /\ (forall ok, res = Ok ok -> der (d_T st') = 0%Q /\ der (d_P st') = 0%Q).
Lemma demo_plain T P : all_plain (dc_w (demoConditions T P)).
Proof. repeat constructor. Qed.
Theorem C132_refuted : ~ C132_statement.
Proof.
  intros H. specialize (H true sample defaultSpecs (1 # 1000)%Q demoObjective demoGradient demoConstraints demoFresh demoOptimizer true
    (demoConditions 300 100000) noRestrictions (plain 0, plain 0) demoState).
  destruct (solve true sample defaultSpecs (1 # 1000) demoObjective demoGradient demoConstraints demoFresh demoOptimizer true
    (demoConditions 300 100000) noRestrictions (plain 0, plain 0) demoState) as [[res k'] st'] eqn:E.
  specialize (H res k' st' eq_refl (demo_plain _ _) eq_refl eq_refl). vm_compute in E. injection E as <- <- <-.
  destruct H as (_ & H). destruct (H true eq_refl) as (_ & X). discriminate X.
Qed.
Print Assumptions C132_refuted.
(* A reported error can leave the amounts and the temperature changed. *)
Theorem C132_failure_refuted : exists c st k' st', all_plain (dc_w c) /\
  demoRun false c noRestrictions (plain 0, plain 0) st = (Err, k', st') /\ d_n st' <> d_n st /\ d_T st' <> d_T st.
Proof.
  exists (demoConditions 300 0), (mkDS (plain 280) (plain 1000) [0; 0; 0]%Q (d_eq demoState)). eexists. eexists. split; [apply demo_plain|].
  split; [vm_compute; reflexivity|]. split; cbn; discriminate.
Qed.
Print Assumptions C132_failure_refuted.
(* Two calculations from the same state, one after the other, with sensitivities:
   the second takes its conditions from values equal to those of the first, and
   other second derivatives. *)
Theorem C132_again_refuted : exists k1 st1 c0 c1 a0 a1 k2 k3,
  demoRunState true (fun _ => 0%Q) noRestrictions (plain 0, plain 0) demoState = (Ok true, k1, st1) /\
  d_n st1 = d_n demoState /\ val (d_T st1) = val (d_T demoState) /\ val (d_P st1) = val (d_P demoState) /\
  stateConditions sample defaultSpecs (fun _ => 0%Q) demoState = Ok c0 /\ stateConditions sample defaultSpecs (fun _ => 0%Q) st1 = Ok c1 /\
  let request := mkReq true [55; 1; 2]%Q [] true true true in
  ask sample defaultSpecs demoObjective demoGradient demoConstraints (dc_w c0) request (plain 0, plain 0) = (Ok a0, k2) /\
  ask sample defaultSpecs demoObjective demoGradient demoConstraints (dc_w c1) request (plain 0, plain 0) = (Ok a1, k3) /\
  a_values a0 = a_values a1 /\
  option_map (map (map Qred)) (a_x a0) = Some [[100000; 0; 0]; [0; 100000; 0]; [0; 0; 100000]]%Q /\
  option_map (map (map Qred)) (a_x a1) = Some [[100055; 1; 2]; [55; 100001; 2]; [55; 1; 100002]]%Q.
Proof.
  do 8 eexists. cbv zeta. split; [vm_compute; reflexivity|]. repeat (split; [vm_compute; reflexivity|]). vm_compute. reflexivity.
Qed.
Print Assumptions C132_again_refuted.
(* Every calculation from such a state, whatever the functions: its columns are
   not the derivatives along the species, but those along species and pressure. *)
Theorem C132_stale_refuted : forall ndebug sys eps objective gradient constraints fresh optimizer sens c r k st ok k' st' cells c' request k2 a k3 g J,
  solve ndebug sys defaultSpecs eps objective gradient constraints fresh optimizer sens c r k st = (Ok ok, k', st') ->
  ends_with optimizer sens (fun last => rq_ddw last = true) -> length (dc_w c) = 2 ->
  stateConditions sys defaultSpecs cells st' = Ok c' ->
  ask sys defaultSpecs objective gradient constraints (dc_w c') request k2 = (Ok a, k3) ->
  rq_objective request = true -> rq_ddx request = true -> length (sys_species sys) <= length (rq_x request) -> forward gradient g J ->
  let N := length (sys_species sys) in
  exists cols, a_x a = Some cols /\ forall j, j < N -> nth_error cols j =
    Some (J (firstn N (rq_x request)) (val (d_T st')) (val (d_P st')) [val (d_T st'); val (d_P st')] (mkDir (unit_vector N j) 0 1 [0; 1]%Q)).
Proof.
  intros ndebug sys eps objective gradient constraints fresh optimizer sens c r k st ok k' st' cells c' request k2 a k3 g J E H L C A O X LX F N. subst N.
  assert (IT : is_input defaultSpecs $"T" 0) by (split; [reflexivity|intros j Lj; lia]).
  assert (IP : is_input defaultSpecs $"P" 1) by (split; [reflexivity|intros j Lj; replace j with 0 by lia; discriminate]).
  assert (ND : NoDup (q_inputs defaultSpecs)).
  { change (NoDup [$"T"; $"P"]). constructor; [intros [I|[]]; discriminate I|]. constructor; [intros []|constructor]. }
  assert (SD : der (d_P st') = 1%Q /\ der (d_T st') = 0%Q) by (eapply C132_seeded_partial with (others := [$"T"]); [exact E|exact H|exact ND|exact L|exact IT|reflexivity]).
  destruct SD as (DP & DT).
  destruct (C132_from_state_partial _ _ _ _ C) as (_ & _ & _ & LW & (iT & IT' & NT) & (iP & IP' & NP) & _).
  assert (iT = 0) by (rewrite <- (index_first IT'); apply (index_first IT)). assert (iP = 1) by (rewrite <- (index_first IP'); apply (index_first IP)). subst iT iP.
  destruct (C132_columns_partial _ _ _ _ _ _ _ A O X LX F) as (cols & T & P & HC & _ & GT & GP & HJ).
  rewrite (getD_input _ _ IT), NT in GT. injection GT as <-. rewrite (getD_input _ _ IP), NP in GP. injection GP as <-.
  exists cols. split; [exact HC|]. intros j Lj. rewrite (HJ j Lj), DT, DP.
  change (length (q_inputs defaultSpecs)) with 2 in LW. destruct (dc_w c') as [|w0 [|w1 [|w2 w]]]; try discriminate LW. cbn in NT, NP. injection NT as ->. injection NP as ->.
  cbn [map]. rewrite DT, DP. reflexivity.
Qed.
Print Assumptions C132_stale_refuted.
(* The unknowns at the start: a state from a calculation at given temperature and
   pressure starts one with unknown pressure without a value for it. *)
Theorem C132_start_refuted : exists k1 st1 o, let unknownP := snd (temperature newSpecs) in
  demoRunState false (fun _ => 0%Q) noRestrictions (plain 0, plain 0) demoState = (Ok true, k1, st1) /\
  optStart sample unknownP demoFresh (d_n st1) (e_opt (d_eq st1)) = Ok o /\ numControlVariablesP unknownP = 1 /\ o_p o = [].
Proof. do 3 eexists. cbv zeta. split; [vm_compute; reflexivity|]. split; [vm_compute; reflexivity|]. split; [vm_compute; reflexivity|]. vm_compute. reflexivity. Qed.
Print Assumptions C132_start_refuted.
(* An input that a state does not have is taken as zero. *)
Theorem C132_inputs_refuted : exists c, let s := snd (addInput $"X" defaultSpecs) in
  q_inputs s = [$"T"; $"P"; $"X"] /\ stateConditions sample s (fun _ => 0%Q) demoState = Ok c /\ dc_w c = [plain 300; plain 100000; plain 0].
Proof. eexists. cbv zeta. split; [vm_compute; reflexivity|]. split; vm_compute; reflexivity. Qed.
Print Assumptions C132_inputs_refuted.

Lemma demo_forward : forward demoGradient (fun n T P w => map (fun x => x * P)%Q n)
  (fun n T P w d => map (fun v => fst v * dP d + snd v * P)%Q (combine n (dn d))).
Proof.
  intros n T P w r E. injection E as <-. cbn [dP dn]. rewrite !map_map. split; [apply map_ext; reflexivity|].
  induction n as [|d n IH]; [reflexivity|]. cbn [map combine]. rewrite <- IH. reflexivity.
Qed.
Lemma demo_ends sens : ends_with demoOptimizer sens (fun last => rq_ddw last = sens).
Proof. intros pr o. eexists. split; [exists []; reflexivity|reflexivity]. Qed.
Example C132_nonvacuous :
  rrun sample newRestrictions [] = Some noRestrictions /\
  forward demoGradient (fun n T P w => map (fun x => x * P)%Q n) (fun n T P w d => map (fun v => fst v * dP d + snd v * P)%Q (combine n (dn d))) /\
  ends_with demoOptimizer true (fun last => rq_ddw last = true) /\ ends_with demoOptimizer false (fun last => rq_ddw last = false) /\
  is_input defaultSpecs $"T" 0 /\ is_input defaultSpecs $"P" 1 /\ is_unknown (snd (temperature newSpecs)) $"P" 0 /\ NoDup (q_inputs defaultSpecs) /\
  (exists k st, demoRun false (demoConditions 300 100000) noRestrictions (plain 0, plain 0) (mkDS (plain 280) (plain 1000) [0; 0; 0]%Q (d_eq demoState)) = (Ok true, k, st) /\
     d_T st = plain 300 /\ d_P st = plain 100000 /\ d_n st = [55; 1; 2]%Q /\ e_b (d_eq st) = [110; 3; 61; 0]%Q) /\
  (exists k st, demoRunState false (fun _ => 0%Q) noRestrictions (plain 0, plain 0) demoState = (Ok true, k, st)) /\
  (exists c0, newConditions (fun _ => 0%Q) defaultSpecs = Ok c0) /\
  (exists k st, demoRun false (demoConditions 300 0) noRestrictions (plain 0, plain 0) demoState = (Err, k, st)).
Proof.
  split; [reflexivity|]. split; [exact demo_forward|]. split; [exact (demo_ends true)|]. split; [exact (demo_ends false)|].
  split; [split; [reflexivity|intros j Lj; lia]|]. split; [split; [reflexivity|intros j Lj; replace j with 0 by lia; discriminate]|].
  split; [split; [intros [I|[]]; discriminate I|split; [reflexivity|intros j Lj; lia]]|].
  split; [change (NoDup [$"T"; $"P"]); constructor; [intros [I|[]]; discriminate I|]; constructor; [intros []|constructor]|].
  split; [do 2 eexists; split; [vm_compute; reflexivity|]; repeat split; reflexivity|].
  split; [do 2 eexists; vm_compute; reflexivity|]. split; [eexists; vm_compute; reflexivity|]. do 2 eexists. vm_compute. reflexivity.
Qed.
