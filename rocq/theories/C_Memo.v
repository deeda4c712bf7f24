(* Properties C23 and C24: memoized functions, parameters and models. *)
From Verif Require Import Base M_Algorithms P_Algorithms M_Memo S_Memo S_System P_System P_Memo.

(* ---- C23 ---- *)
(* memoize: all functions, errors included, all on/off schedules. *)
Theorem C23_memoize : forall (A R : Type) (aeqb : A -> A -> bool), (forall a b, reflect (a = b) (aeqb a b)) ->
  forall (f : A -> outcome R) on evs, run_events (memoize_call aeqb f) on [] evs = map f (calls evs).
Proof. intros. apply memoize_correct. assumption. Qed.
Print Assumptions C23_memoize.

Definition C23_last_statement : Prop := forall (A R : Type) (aeqb : A -> A -> bool) a0 r0, (forall a b, reflect (a = b) (aeqb a b)) ->
  forall (f : A -> outcome R) on evs, run_events (memoizeLast_call aeqb f) on (last0 a0 r0) evs = map f (calls evs).

(* After a failing call, the same call returns the default result. *)
Theorem C23_last_refuted : ~ C23_last_statement.
Proof.
  intro H. specialize (H nat nat Nat.eqb 0 0 Nat.eqb_spec (fun a => if a =? 7 then Err else Ok (a + 1)) true [Call 7; Call 7]).
  vm_compute in H. discriminate.
Qed.
Print Assumptions C23_last_refuted.

(* It holds for functions that never fail.  Missing: failing functions. *)
Theorem C23_last_partial : forall (A R : Type) (aeqb : A -> A -> bool) a0 r0, (forall a b, reflect (a = b) (aeqb a b)) ->
  forall (f : A -> outcome R) on evs, (forall a, exists r, f a = Ok r) ->
  run_events (memoizeLast_call aeqb f) on (last0 a0 r0) evs = map f (calls evs).
Proof. intros. apply memoizeLast_total; assumption. Qed.
Print Assumptions C23_last_partial.

(* More generally, for any function, as long as no call so far has failed. *)
Theorem C23_last_no_failure_partial : forall (A R : Type) (aeqb : A -> A -> bool) a0 r0, (forall a b, reflect (a = b) (aeqb a b)) ->
  forall (f : A -> outcome R) on evs a, (forall b, In b (calls evs) -> is_ok (f b) = true) ->
  run_events (memoizeLast_call aeqb f) on (last0 a0 r0) (evs ++ [Call a]) = map f (calls evs) ++ [f a].
Proof.
  intros A R aeqb a0 r0 S f on evs a.
  assert (G : forall l on, (l_first l = false -> f (l_cache l) = Ok (l_result l)) -> (forall b, In b (calls evs) -> is_ok (f b) = true) ->
    run_events (memoizeLast_call aeqb f) on l (evs ++ [Call a]) = map f (calls evs) ++ [f a]).
  { induction evs as [|[b|b] evs IH]; intros l on' Il K; cbn [app run_events calls map].
    - unfold memoizeLast_call. destruct on'; cbn [negb]; [|reflexivity].
      destruct (S (l_cache l) a) as [E|N]; destruct (l_first l) eqn:F; cbn [negb andb].
      1, 3, 4: destruct (f a); reflexivity.
      rewrite <- E, Il by reflexivity. reflexivity.
    - apply IH; auto.
    - destruct (memoizeLast_call aeqb f on' l b) as [o l'] eqn:E.
      destruct (memoizeLast_state _ _ aeqb S f _ _ _ _ _ E Il (K b (or_introl eq_refl))) as [-> Il'].
      rewrite IH; auto. intros c I. apply K. right. exact I. }
  intro K. apply G; auto. discriminate.
Qed.
Print Assumptions C23_last_no_failure_partial.

(* The in-place version.  The function may look at nothing but its arguments. *)
Definition C23_ref_statement : Prop := forall (A R : Type) (aeqb : A -> A -> bool) a0 r0, (forall a b, reflect (a = b) (aeqb a b)) ->
  forall (f : R -> A -> outcome R) out res on evs, (forall r a, f r a = out a) ->
  run_events (fun on l a => memoizeLastUsingRef_call aeqb f on l (res a) a) on (last0 a0 r0) evs = map out (calls evs).

(* A call made while memoization is off marks the empty cache as filled. *)
Theorem C23_ref_refuted : ~ C23_ref_statement.
Proof.
  intro H. specialize (H nat nat Nat.eqb 0 0 Nat.eqb_spec (fun _ a => Ok (a + 1)) (fun a => Ok (a + 1)) (fun _ => 5) true
    [Toggle false; Call 3; Toggle true; Call 0] (fun _ _ => eq_refl)).
  vm_compute in H. discriminate.
Qed.
Print Assumptions C23_ref_refuted.

(* It holds, failing functions included, when memoization is never switched
   off.  Missing: switching. *)
Theorem C23_ref_partial : forall (A R : Type) (aeqb : A -> A -> bool) a0 r0, (forall a b, reflect (a = b) (aeqb a b)) ->
  forall (f : R -> A -> outcome R) out res evs, (forall r a, f r a = out a) -> never_off evs ->
  run_events (fun on l a => memoizeLastUsingRef_call aeqb f on l (res a) a) true (last0 a0 r0) evs = map out (calls evs).
Proof. intros. apply memoizeLastUsingRef_enabled; assumption. Qed.
Print Assumptions C23_ref_partial.

(* With any switching it holds when the function is not called with
   default-constructed arguments.  Missing: those arguments. *)
Theorem C23_ref_nondefault_partial : forall (A R : Type) (aeqb : A -> A -> bool) a0 r0, (forall a b, reflect (a = b) (aeqb a b)) ->
  forall (f : R -> A -> outcome R) out res on evs, (forall r a, f r a = out a) -> ~ In (Call a0) evs ->
  run_events (fun on l a => memoizeLastUsingRef_call aeqb f on l (res a) a) on (last0 a0 r0) evs = map out (calls evs).
Proof. intros. apply memoizeLastUsingRef_nondefault; assumption. Qed.
Print Assumptions C23_ref_nondefault_partial.

Example C23_nonvacuous :
  let f := fun a => if a =? 7 then Err else Ok (a * a) in
  run_events (memoize_call Nat.eqb f) true [] [Call 3; Call 7; Call 3; Toggle false; Call 7; Toggle true; Call 7] = [Ok 9; Err; Ok 9; Err; Err] /\
  run_events (memoizeLast_call Nat.eqb (fun a => Ok (a * a))) true (last0 0 0) [Call 0; Call 3; Call 3; Toggle false; Call 4; Toggle true; Call 3] = [Ok 0; Ok 9; Ok 9; Ok 16; Ok 9] /\
  run_events (fun on l a => memoizeLastUsingRef_call Nat.eqb (fun _ => f) on l 0 a) true (last0 0 0) [Call 7; Call 7; Call 0; Call 2] = [Err; Err; Ok 0; Ok 4].
Proof. vm_compute. repeat split. Qed.

(* ---- C24: handles ---- *)
Section C24.
Variables (V : Type) (veqb : V -> V -> bool) (v0 : V) (A R : Type) (aeqb : A -> A -> bool) (a0 : A) (r0 : R).
Hypothesis veqb_spec : forall a b, reflect (a = b) (veqb a b).
Hypothesis aeqb_spec : forall a b, reflect (a = b) (aeqb a b).
Notation step := (step veqb v0 aeqb a0 r0).
Notation run := (run veqb v0 aeqb a0 r0).
Notation op := (op V A R).

(* Setting a value is seen through the handles of the same parameter, and
   through no other handle; all other attributes stay. *)
Theorem C24_set : forall (h : list op) s i v s' r, run state0 h = Some s -> step s (PSet i v) = Some (s', r) ->
  forall k d, read v0 s k = Some d ->
  (alias (rev h) k i -> read v0 s' k = Some (set_value d v)) /\ (~ alias (rev h) k i -> read v0 s' k = Some d).
Proof. intros h s i v s' r. apply read_set; assumption. Qed.

(* The same for copying all attributes of another parameter. *)
Theorem C24_assign : forall (h : list op) s i j s' r e, run state0 h = Some s -> step s (PAssign i j) = Some (s', r) ->
  read v0 s j = Some e -> forall k d, read v0 s k = Some d ->
  (alias (rev h) k i -> read v0 s' k = Some e) /\ (~ alias (rev h) k i -> read v0 s' k = Some d).
Proof. intros h s i j s' r e. apply read_assign; assumption. Qed.

(* Copies and clones start equal to the original.  Making new handles, making,
   copying and evaluating models leave all parameters as they are. *)
Theorem C24_new : forall (h : list op) s i d, run state0 h = Some s -> read v0 s i = Some d ->
  (forall s' r, step s (PCopy i) = Some (s', r) \/ step s (PClone i) = Some (s', r) ->
     read v0 s' (nvars (rev h)) = Some d /\ forall k e, read v0 s k = Some e -> read v0 s' k = Some e) /\
  (forall o s' r, (exists v, o = PNew v) \/ (exists ps f b, o = MNew ps f b) \/ (exists m, o = MCopy m) \/ (exists m a, o = MEval m a) \/ (exists b, o = Enable b) ->
     step s o = Some (s', r) -> read v0 s' i = Some d).
Proof. intros h s i d. apply read_new; assumption. Qed.

(* Parameters by identifier: the first one with it, or an error. *)
Theorem C24_by_id : forall (l : list (pdata V)) id,
  (forall d, params_get l id = Ok d <-> First (fun d => p_id d = id) l d) /\
  (params_get l id = Err <-> ~ exists d, In d l /\ p_id d = id) /\
  (params_exists l id = true <-> exists d, In d l /\ p_id d = id).
Proof.
  intros l id. assert (S : forall d : pdata V, str_eqb (p_id d) id = true <-> p_id d = id) by (intro; apply str_eqb_eq).
  destruct (First_indexfn _ _ l S) as (F1 & F2 & F3). unfold params_get, params_find, params_exists. split; [|split].
  - intro d. split.
    + intro H. destruct (nth_error l (indexfn l (fun x => str_eqb (p_id x) id))) as [e|] eqn:E; [|discriminate]. injection H as <-. apply F3. reflexivity.
    + intro H. rewrite (F1 d H). reflexivity.
  - split.
    + intros H (d & I & E). destruct (nth_error l (indexfn l (fun x => str_eqb (p_id x) id))) as [e|] eqn:N; [discriminate|].
      apply nth_error_None in N. assert (L : indexfn l (fun x => str_eqb (p_id x) id) < length l); [|lia].
      apply indexfn_lt. exists d. split; [exact I|apply S; exact E].
    + intro H. rewrite (F2 H). reflexivity.
  - rewrite containsfn_spec. split; intros (d & I & E); exists d; split; auto; apply S; auto.
Qed.
End C24.
Print Assumptions C24_set.
Print Assumptions C24_assign.
Print Assumptions C24_new.
Print Assumptions C24_by_id.

(* ---- C24: evaluation uses the current values of the parameters ---- *)
Definition C24_statement : Prop := forall (V : Type) veqb (v0 : V) (A R : Type) aeqb (a0 : A) (r0 : R),
  (forall a b, reflect (a = b) (veqb a b)) -> (forall a b, reflect (a = b) (aeqb a b)) ->
  forall (h : list (op V A R)) s m mo a s' r, run veqb v0 aeqb a0 r0 state0 h = Some s -> total_fns h ->
  nth_error (st_models s) m = Some mo -> step veqb v0 aeqb a0 r0 s (MEval m a) = Some (s', Some r) ->
  r = m_fn mo a (values v0 (st_cells s) (m_params mo)).

(* Two copies of a memoized model share the remembered parameter values but not
   the remembered result: evaluate, copy, change the parameter, evaluate one
   copy; the other then returns the old result. *)
Definition addp (a : nat) (l : list nat) : outcome nat := Ok (a + hd 0 l).
Definition bad_history : list (op nat nat nat) :=
  [PNew 10; MNew [0] addp true; MEval 0 1; MCopy 0; PSet 0 20; MEval 0 1].
Theorem C24_copy_refuted : ~ C24_statement.
Proof.
  intro H.
  destruct (run Nat.eqb 0 Nat.eqb 0 0 state0 bad_history) as [s|] eqn:E; [|vm_compute in E; discriminate].
  destruct (nth_error (st_models s) 1) as [mo|] eqn:Em; [|vm_compute in E; injection E as <-; vm_compute in Em; discriminate].
  destruct (step Nat.eqb 0 Nat.eqb 0 0 s (MEval 1 1)) as [[s' [r|]]|] eqn:Es;
    try (vm_compute in E; injection E as <-; vm_compute in Es; discriminate).
  assert (T : total_fns bad_history).
  { intros ps f b I. cbn in I. repeat (destruct I as [I|I]; [try discriminate|]); [|destruct I].
    injection I as <- <- <-. intros a l. eexists. reflexivity. }
  specialize (H nat Nat.eqb 0 nat nat Nat.eqb 0 0 Nat.eqb_spec Nat.eqb_spec bad_history s 1 mo 1 s' r E T Em Es).
  vm_compute in E. injection E as <-. vm_compute in Em. injection Em as <-. vm_compute in Es. injection Es as _ <-.
  vm_compute in H. discriminate.
Qed.
Print Assumptions C24_copy_refuted.

(* It also fails at default-constructed arguments: the first evaluation there
   compares the parameters with an empty list, which is an error. *)
Theorem C24_default_refuted : exists s s', run Nat.eqb 0 Nat.eqb 0 0 state0 [PNew 10; MNew [0] addp true] = Some s /\
  step Nat.eqb 0 Nat.eqb 0 0 s (MEval 0 0) = Some (s', Some Err) /\ addp 0 [10] = Ok 10.
Proof.
  eexists; eexists. split; [vm_compute; reflexivity|]. split; [vm_compute; reflexivity|reflexivity].
Qed.
Print Assumptions C24_default_refuted.

(* It holds for any other history: parameters created, shared, changed and
   rebound at will, memoization switched on and off, models copied before their
   first evaluation.  Missing: copies of evaluated models, default-constructed
   arguments and failing functions. *)
Theorem C24_current_partial : forall (V : Type) veqb (v0 : V) (A R : Type) aeqb (a0 : A) (r0 : R),
  (forall a b, reflect (a = b) (veqb a b)) -> (forall a b, reflect (a = b) (aeqb a b)) ->
  forall (h : list (op V A R)) s m mo a s' r, run veqb v0 aeqb a0 r0 state0 h = Some s -> total_fns h ->
  early_copies h -> a <> a0 ->
  nth_error (st_models s) m = Some mo -> step veqb v0 aeqb a0 r0 s (MEval m a) = Some (s', Some r) ->
  r = m_fn mo a (values v0 (st_cells s) (m_params mo)).
Proof. intros. eapply eval_current; eassumption. Qed.
Print Assumptions C24_current_partial.

Definition good_history : list (op nat nat nat) :=
  [PNew 10; PCopy 0; PClone 0; MNew [0; 2] addp true; MCopy 0; MEval 0 1; PSet 1 20; MEval 1 1; MEval 0 1; PSet 2 7].
Example C24_nonvacuous : exists s s', run Nat.eqb 0 Nat.eqb 0 0 state0 good_history = Some s /\
  total_fns good_history /\ early_copies good_history /\
  step Nat.eqb 0 Nat.eqb 0 0 s (MEval 0 1) = Some (s', Some (Ok 21)) /\
  alias (rev good_history) 0 1 /\ ~ alias (rev good_history) 0 2.
Proof.
  eexists; eexists. split; [vm_compute; reflexivity|]. split; [|split; [|split; [vm_compute; reflexivity|split]]].
  - intros ps f b I. cbn in I. repeat (destruct I as [I|I]; [try discriminate|]); [|destruct I].
    injection I as <- <- <-. intros a l. eexists. reflexivity.
  - intros h1 m h2 E a I. unfold good_history in E.
    do 10 (destruct h1 as [|? h1]; [try discriminate E; cbn in I; repeat (destruct I as [I|I]; [discriminate I|]); destruct I|
      injection E as <- E; try (destruct I as [I|I]; [discriminate I|])]).
    all: try (destruct h1; discriminate E).
  - vm_compute. lia.
  - vm_compute. lia.
Qed.
