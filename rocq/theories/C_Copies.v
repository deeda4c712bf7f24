(* C129: states are values: a copy has what the original has, and they do not
   share it. *)
From Coq Require Import Lia.
From Verif Require Import Base M_Units M_System M_State P_State M_Copies.
Local Open Scope nat_scope.
Set Implicit Arguments.

(* ---- Specification: variables hold values. ---- *)
Definition Env := nat -> option State.
Definition set_var (e : Env) (x : nat) (st : State) : Env := fun y => if Nat.eqb y x then Some st else e y.
Section Spec.
Variable ndebug : bool.
Variable sys : ChemicalSystem.
(* [copied] is the value that copies and assignments give. *)
Variable copied : State -> State.
Definition meaning (e : Env) (s : Statement) : option Env :=
  match s with
  | New x => Some (set_var e x (newState sys))
  | Copy x y => option_map (fun st => set_var e x (copied st)) (e y)
  | Assign x y => match e x, e y with Some _, Some st => Some (set_var e x (copied st)) | _, _ => None end
  | Call x c => match e x with
                | None => None
                | Some st => match apply ndebug sys c st with (UB, _) => None | (_, st') => Some (set_var e x st') end
                end
  end.
Fixpoint meanings (e : Env) (p : list Statement) : option Env :=
  match p with [] => Some e | s :: p' => match meaning e s with None => None | Some e' => meanings e' p' end end.
End Spec.
(* A program does with objects of a class what it does with values. *)
Definition Values (copied : ChemicalSystem -> State -> State) (k : Kind) : Prop := forall ndebug sys p,
  match execute ndebug sys k start p, meanings ndebug sys (copied sys) (fun _ => None) p with
  | Some m, Some e => forall x, value_of m x = e x
  | None, None => True
  | _, _ => False
  end.
Definition same (_ : ChemicalSystem) (st : State) : State := st.
Definition C129_statement : Prop := Values same Chemical /\ Values same Porous.

(* ---- Proofs ---- *)
Definition Separate (m : Machine) : Prop :=
  (forall x a, pointer m x = Some a -> a < length (memory m)) /\
  (forall x y a, pointer m x = Some a -> pointer m y = Some a -> x = y).
Lemma value_load m x st : value_of m x = Some st <-> exists a, load m x = Some (a, st).
Proof.
  unfold value_of. destruct (load m x) as [[a s]|]; cbn; split.
  - intros [= <-]. exists a. reflexivity.
  - intros (b & [= -> ->]). reflexivity.
  - discriminate.
  - intros (b & E). discriminate E.
Qed.
Lemma declared m x : Separate m -> forall a, pointer m x = Some a -> exists st, load m x = Some (a, st) /\ value_of m x = Some st.
Proof.
  intros (B & _) a E. unfold value_of, load. rewrite E. destruct (nth_error (memory m) a) as [st|] eqn:N; [exists st; split; reflexivity|].
  apply nth_error_None in N. specialize (B _ _ E). lia.
Qed.
Lemma undeclared m x : pointer m x = None -> value_of m x = None.
Proof. intros E. unfold value_of, load. rewrite E. reflexivity. Qed.
(* A new object for a variable. *)
Lemma fresh m x st : Separate m -> let m' := point_to (fst (alloc m st)) x (snd (alloc m st)) in
  Separate m' /\ forall y, value_of m' y = set_var (value_of m) x st y.
Proof.
  intros (B & U). cbn. split.
  - split.
    + intros y a. cbn. rewrite app_length. cbn. destruct (Nat.eqb_spec y x) as [->|N]; [intros [= <-]; lia|]. intros E. specialize (B _ _ E). lia.
    + intros y z a. cbn. destruct (Nat.eqb_spec y x) as [->|N]; destruct (Nat.eqb_spec z x) as [->|M]; try (intros; congruence).
      * intros [= <-] E. specialize (B _ _ E). lia.
      * intros E [= <-]. specialize (B _ _ E). lia.
      * apply U.
  - intros y. unfold set_var, value_of, load. cbn. destruct (Nat.eqb_spec y x) as [->|N].
    + rewrite nth_error_app2 by lia. rewrite Nat.sub_diag. reflexivity.
    + destruct (pointer m y) as [a|] eqn:E; [|reflexivity]. specialize (B _ _ E). rewrite nth_error_app1 by lia. reflexivity.
Qed.
Lemma written m x a st st' : Separate m -> load m x = Some (a, st) -> Separate (store m a st') /\ forall y, value_of (store m a st') y = set_var (value_of m) x st' y.
Proof.
  intros (B & U) L. unfold load in L. destruct (pointer m x) as [b|] eqn:E; [|discriminate L]. destruct (nth_error (memory m) b) as [s|] eqn:N; [|discriminate L].
  injection L as -> ->. pose proof (B _ _ E) as Lt. split.
  - split; cbn; [|exact U]. intros y c. rewrite upd_length. apply B.
  - intros y. unfold set_var, value_of, load. cbn. destruct (Nat.eqb_spec y x) as [->|M].
    + rewrite E, upd_nth, Nat.eqb_refl. replace (a <? length (memory m)) with true by (symmetry; apply Nat.ltb_lt; exact Lt). reflexivity.
    + destruct (pointer m y) as [c|] eqn:F; [|reflexivity]. rewrite upd_nth. destruct (Nat.eqb_spec c a) as [->|K]; [exfalso; exact (M (U _ _ _ F E))|reflexivity].
Qed.
Lemma set_var_ext e e' x st y : (forall z, e z = e' z) -> set_var e x st y = set_var e' x st y.
Proof. intros H. unfold set_var. destruct (Nat.eqb y x); [reflexivity|apply H]. Qed.

Definition copied_by (k : Kind) (sys : ChemicalSystem) (st : State) : State := match k with Chemical => st | Porous => newState sys end.
Definition Simulated (m : option Machine) (e : option Env) : Prop :=
  match m, e with
  | Some m, Some e => Separate m /\ forall x, value_of m x = e x
  | None, None => True
  | _, _ => False
  end.
Lemma step_simulated ndebug sys k m e s : Separate m -> (forall x, value_of m x = e x) ->
  Simulated (step ndebug sys k m s) (meaning ndebug sys (copied_by k sys) e s).
Proof.
  intros S V. assert (New : forall x st, Simulated (Some (point_to (fst (alloc m st)) x (snd (alloc m st)))) (Some (set_var e x st))).
  { intros x st. destruct (@fresh m x st S) as (S1 & V1). split; [exact S1|]. intros y. rewrite V1. apply set_var_ext, V. }
  destruct s as [x|x y|x y|x c]; cbn [step meaning].
  - apply New.
  - rewrite <- V. unfold value_of. destruct (load m y) as [[a st]|]; cbn [option_map snd]; [|exact I]. destruct k; apply New.
  - rewrite <- !V. destruct (pointer m x) as [b|] eqn:E.
    2:{ rewrite (undeclared _ _ E). exact I. }
    destruct (declared x S E) as (sx & _ & ->). unfold value_of. destruct (load m y) as [[a st]|]; cbn [option_map snd]; [|exact I]. destruct k.
    + apply New.
    + cbn [copy_porous alloc fst snd memory]. rewrite nth_error_app2 by lia. rewrite Nat.sub_diag. cbn [nth_error copy_chemical alloc memory].
      set (m1 := mkMachine (memory m ++ [newState sys]) (pointer m)).
      assert (S1 : Separate m1). { destruct S as (B & U). split; [|exact U]. intros z c F. cbn. rewrite app_length. cbn. specialize (B _ _ F). lia. }
      destruct (@fresh m1 x (newState sys) S1) as (S2 & V2). split; [exact S2|]. intros z. cbn [alloc fst snd] in V2. fold m1. rewrite V2. apply set_var_ext. intros w. rewrite <- V.
      unfold value_of, load. cbn. destruct (pointer m w) as [c|] eqn:F; [|reflexivity]. destruct S as (B & _). specialize (B _ _ F). rewrite nth_error_app1 by exact B. reflexivity.
  - rewrite <- V. unfold value_of. destruct (load m x) as [[a st]|] eqn:L; cbn [option_map snd]; [|exact I].
    destruct (apply ndebug sys c st) as [[u| |] st']; try exact I; (destruct (@written m x a st st' S L) as (S1 & V1); split; [exact S1|]; intros z; rewrite V1; apply set_var_ext, V).
Qed.
Lemma execute_simulated ndebug sys k p : forall m e, Separate m -> (forall x, value_of m x = e x) ->
  Simulated (execute ndebug sys k m p) (meanings ndebug sys (copied_by k sys) e p).
Proof.
  induction p as [|s p IH]; intros m e S V; cbn [execute meanings]; [split; assumption|].
  pose proof (@step_simulated ndebug sys k m e s S V) as H. destruct (step ndebug sys k m s) as [m'|]; destruct (meaning ndebug sys (copied_by k sys) e s) as [e'|]; cbn [Simulated] in H; try contradiction; [|exact I].
  apply IH; apply H.
Qed.
Lemma values_by k : Values (copied_by k) k.
Proof.
  intros ndebug sys p. assert (S : Separate start) by (split; intros; discriminate).
  pose proof (@execute_simulated ndebug sys k p start (fun _ => None) S (fun _ => eq_refl)) as H. unfold Simulated in H.
  destruct (execute ndebug sys k start p); destruct (meanings ndebug sys (copied_by k sys) (fun _ => None) p); try exact H. apply H.
Qed.

(* States of a chemical system are values. *)
Theorem C129_chemical_partial : Values same Chemical.
Proof. exact (values_by Chemical). Qed.
Print Assumptions C129_chemical_partial.
(* States of porous rocks are too, except that a copy has the standard conditions
   and no amounts, whatever the original has. *)
Theorem C129_porous_partial : Values (fun sys _ => newState sys) Porous.
Proof. exact (values_by Porous). Qed.
Print Assumptions C129_porous_partial.
(* A program with no copies behaves the same for both. *)
Definition no_copies (p : list Statement) : Prop := Forall (fun s => match s with Copy _ _ | Assign _ _ => False | _ => True end) p.
Theorem C129_no_copies_partial : forall ndebug sys p, no_copies p -> execute ndebug sys Porous start p = execute ndebug sys Chemical start p.
Proof.
  intros ndebug sys p. generalize start. induction p as [|s p IH]; intros m N; [reflexivity|]. inversion N as [|s0 p0 H N']; subst.
  destruct s as [x|x y|x y|x c]; try destruct H; cbn [execute step]; [apply IH, N'|].
  destruct (load m x) as [[a st]|]; [|reflexivity]. destruct (apply ndebug sys c st) as [[u| |] st']; try reflexivity; apply IH, N'.
Qed.
Print Assumptions C129_no_copies_partial.
(* Copying, and assigning, lose the state. *)
Definition program : list Statement := [New 0; Call 0 (SetT 350); New 1; Call 1 (SetT 310); Copy 2 0; Assign 1 0].
Theorem C129_porous_refuted : forall ndebug sys, exists m, execute ndebug sys Porous start program = Some m /\
  option_map st_T (value_of m 0) = Some 350%Q /\ value_of m 2 = Some (newState sys) /\ value_of m 1 = Some (newState sys).
Proof. intros ndebug sys. eexists. split; [reflexivity|]. repeat split; reflexivity. Qed.
Print Assumptions C129_porous_refuted.
Theorem C129_refuted : ~ C129_statement.
Proof.
  intros (_ & H). specialize (H true (mkSystem [] [] [] []) program). destruct (C129_porous_refuted true (mkSystem [] [] [] [])) as (m & E & _ & A & _). rewrite E in H.
  vm_compute in H. specialize (H 2). vm_compute in A. rewrite A in H. discriminate H.
Qed.
Print Assumptions C129_refuted.
Example C129_nonvacuous : forall ndebug sys, exists m, execute ndebug sys Chemical start program = Some m /\
  option_map st_T (value_of m 0) = Some 350%Q /\ option_map st_T (value_of m 1) = Some 350%Q /\ option_map st_T (value_of m 2) = Some 350%Q /\ pointer m 0 <> pointer m 1.
Proof. intros ndebug sys. eexists. split; [reflexivity|]. repeat split; try reflexivity. cbn. discriminate. Qed.
