(* C145: elements are values, with masses that are not negative, and comparisons that agree. *)
From Verif Require Import Base M_Chem M_Algorithms M_System M_State M_Naming M_Shared M_Elements C_Naming C_Shared.
Local Open Scope nat_scope.

(* Each method changes what its name says, and nothing else. *)
Inductive ElEdited : EEdit -> Element -> Element -> Prop :=
| ee_symbol s n m t x : ElEdited (ESymbol x) (mkElem s n m t) (mkElem x n m t)
| ee_mass s n m t x : (0 <= x)%Q -> ElEdited (EMass x) (mkElem s n m t) (mkElem s n x t)
| ee_name s n m t x : ElEdited (EName x) (mkElem s n m t) (mkElem s x m t)
| ee_tags s n m t x : ElEdited (ETags x) (mkElem s n m t) (mkElem s n m x).
Inductive ElRefused : EEdit -> Prop := er_mass x : (x < 0)%Q -> ElRefused (EMass x).

Theorem C145_values_partial : forall prog vals, elements prog = Ok vals -> Meaning (mkElem [] [] 0 []) ElEdited ElRefused [] prog vals.
Proof.
  intros prog vals H. unfold elements in H. destruct (run _ _ _ _ prog) as [s| |] eqn:E; [|discriminate H|discriminate H]. cbn in H. injection H as <-.
  eapply (run_means _ _ _ ElEdited ElRefused) in E as (_ & X); [exact X| | |constructor].
  - intros [x|x|x|x] [] C; constructor. cbn in C. destruct (Qle_bool 0 x) eqn:L; [apply Qle_bool_iff; exact L|discriminate C].
  - intros [x|x|x|x] C; try discriminate C. constructor. cbn in C. destruct (Qle_bool 0 x) eqn:L; [discriminate C|]. apply Qnot_le_lt. intros K. apply Qle_bool_iff in K. congruence.
Qed.
Print Assumptions C145_values_partial.
(* That meaning is unique: what the program reads does not depend on sharing. *)
Theorem C145_one_partial : forall prog r vals, Meaning (mkElem [] [] 0 []) ElEdited ElRefused [] prog r -> elements prog = Ok vals -> vals = r.
Proof.
  intros prog r vals M H. apply C145_values_partial in H. eapply meaning_unique; [| |exact H|exact M].
  - intros e v v1 v2 A B. destruct A; inversion B; reflexivity.
  - intros e v v' A B. destruct B. inversion A; subst. eapply Qlt_not_le; eassumption.
Qed.
Print Assumptions C145_one_partial.
Theorem C145_masses_partial : forall prog vals, elements prog = Ok vals -> Forall (fun x => (0 <= el_mass x)%Q) vals.
Proof.
  intros prog vals H. apply C145_values_partial in H. set (Good := fun x => (0 <= el_mass x)%Q).
  assert (G : Forall Good []) by constructor. change (Forall Good vals). revert G H. generalize (@nil Element). intros vs G H.
  assert (Pick : forall vals i v, Forall Good vals -> nth_error vals i = Some v -> Good v).
  { intros l i v Hl N. rewrite Forall_forall in Hl. apply Hl. eapply nth_error_In. exact N. }
  induction H as [vals|vals prog r H IH|vals i v prog r N H IH|a x b j v prog r N H IH|vals i e v v' prog r N C H IH|vals i e prog r C H IH]; [exact G|..]; apply IH; [| | | |exact G].
  - apply Forall_app. split; [exact G|]. constructor; [discriminate|constructor].
  - apply Forall_app. split; [exact G|]. constructor; [apply (Pick _ _ _ G N)|constructor].
  - pose proof (Pick _ _ _ G N) as Gv. apply Forall_app in G as (Ga & Gb). inversion Gb; subst. apply Forall_app. split; [exact Ga|constructor; assumption].
  - apply Forall_app. split; [exact G|]. constructor; [|constructor]. pose proof (Pick _ _ _ G N) as Gv. unfold Good in *. destruct C; try exact Gv. cbn. assumption.
Qed.
Print Assumptions C145_masses_partial.
Lemma tags_eqb_spec a : forall b, tags_eqb a b = true <-> a = b.
Proof.
  induction a as [|x a IH]; intros [|y b]; cbn [tags_eqb]; try (split; [discriminate|intros H; discriminate H]); [split; reflexivity|].
  rewrite andb_true_iff, str_eqb_eq, IH. split; [intros (-> & ->); reflexivity|intros H; injection H as -> ->; split; reflexivity].
Qed.
Definition SameElement (a b : Element) : Prop := el_symbol a = el_symbol b /\ (el_mass a == el_mass b)%Q /\ el_name a = el_name b /\ el_tags a = el_tags b.
(* Elements are equal if all their attributes are, and ordered by their symbols. *)
Theorem C145_order_partial : forall a b, (element_ltb a b = true <-> Before (el_symbol a) (el_symbol b)) /\ (element_eqb a b = true <-> SameElement a b) /\
  (el_symbol a <> el_symbol b -> (element_ltb a b = true \/ element_ltb b a = true)) /\
  ~ (element_ltb a b = true /\ element_eqb a b = true) /\ ~ (element_ltb a b = true /\ element_ltb b a = true).
Proof.
  intros a b. unfold element_ltb, element_eqb, SameElement. rewrite !before_spec, !andb_true_iff, !str_eqb_eq, Qeq_bool_iff, tags_eqb_spec.
  split; [reflexivity|]. split; [split; intros H; decompose [and] H; repeat split; assumption|]. split.
  { intros D. destruct (before_total (el_symbol a) (el_symbol b)) as [H|[H|H]]; [left; exact H|contradiction|right; exact H]. }
  split.
  - intros (H & (((E & _) & _) & _)). rewrite E in H. exact (before_irrefl _ H).
  - intros (H & G). exact (before_irrefl _ (before_trans _ _ _ H G)).
Qed.
Print Assumptions C145_order_partial.
(* The full statement: values, masses, and of two elements one is before, equal or after. *)
Definition C145_statement : Prop :=
  (forall prog vals, elements prog = Ok vals -> Meaning (mkElem [] [] 0 []) ElEdited ElRefused [] prog vals /\ Forall (fun x => (0 <= el_mass x)%Q) vals) /\
  (forall a b, element_ltb a b = true \/ element_eqb a b = true \/ element_ltb b a = true).
(* Two elements of the same symbol that differ otherwise are not ordered, nor equal. *)
Theorem C145_isotopes_refuted : forall a b, el_symbol a = el_symbol b -> ~ SameElement a b -> element_ltb a b = false /\ element_eqb a b = false /\ element_ltb b a = false.
Proof.
  intros a b S D. destruct (C145_order_partial a b) as (L & E & _). destruct (C145_order_partial b a) as (L' & _ & _).
  split; [|split]; apply not_true_is_false; intros H.
  - apply L in H. rewrite S in H. exact (before_irrefl _ H).
  - apply E in H. contradiction.
  - apply L' in H. rewrite S in H. exact (before_irrefl _ H).
Qed.
Print Assumptions C145_isotopes_refuted.
Theorem C145_refuted : ~ C145_statement.
Proof.
  intros (_ & H). destruct (H (mkElem $"H" $"Hydrogen" (1 # 1000) []) (mkElem $"H" $"Deuterium" (2 # 1000) [])) as [E|[E|E]]; vm_compute in E; discriminate E.
Qed.
Print Assumptions C145_refuted.
(* A negative mass is refused, and the program goes on. *)
Example C145_nonvacuous : elements [ONew; OWith 0 (ESymbol $"D"); OCopy 1; OWith 1 (EMass (-1)); OWith 1 (EMass (2 # 1000)); OAssign 0 3; OWith 2 (ETags [$"isotope"])] =
  Ok [mkElem $"D" [] (2 # 1000) []; mkElem $"D" [] 0 []; mkElem $"D" [] 0 []; mkElem $"D" [] (2 # 1000) []; mkElem $"D" [] 0 [$"isotope"]].
Proof. vm_compute. reflexivity. Qed.
