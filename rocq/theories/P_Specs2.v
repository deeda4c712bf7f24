(* Invariants of equilibrium specifications over all histories of calls. *)
From Verif Require Import Base S_System S_State S_Chem M_Strings M_Formula M_Chem M_Algorithms M_System M_Units M_State M_Specs
  S_Equilibrium P_Algorithms P_Chem P_Specs.

Lemma nth_snoc {A} (l : list A) x i : nth_error (l ++ [x]) i = if i =? length l then Some x else nth_error l i.
Proof.
  destruct (Nat.eqb_spec i (length l)) as [->|N]. { rewrite nth_error_app2, Nat.sub_diag by lia. reflexivity. }
  destruct (Nat.lt_ge_cases i (length l)); [apply nth_error_app1; auto|].
  rewrite nth_error_app2 by lia. destruct (i - length l) as [|k] eqn:E; [lia|]. cbn.
  rewrite (proj2 (nth_error_None l i)) by lia. destruct k; reflexivity.
Qed.
Lemma nth_grow {A} (l : list A) x i y : nth_error l i = Some y -> nth_error (l ++ [x]) i = Some y.
Proof. intro H. rewrite nth_error_app1; auto. apply nth_error_Some. congruence. Qed.
Lemma NoDup_snoc {A} (l : list A) x : NoDup l -> ~ In x l -> NoDup (l ++ [x]).
Proof. intros H N. apply NoDup_Add with (a := x) (l := l); [|auto]. rewrite <- (app_nil_r l) at 1. apply Add_app. Qed.

Lemma Apart_insert {A} (R : A -> A -> Prop) a b x : Apart R (a ++ b) -> (forall y, In y (a ++ b) -> ~ R y x /\ ~ R x y) -> Apart R (a ++ x :: b).
Proof.
  intros H N i j u v D Hi Hj.
  assert (P : forall k w, nth_error (a ++ x :: b) k = Some w ->
    (k = length a /\ w = x) \/ exists k', k <> length a /\ nth_error (a ++ b) k' = Some w /\ k = (if k' <? length a then k' else S k')).
  { intros k w E. destruct (Nat.lt_trichotomy k (length a)) as [L|[L|L]].
    - right. exists k. rewrite nth_error_app1 in E by lia. split; [lia|]. split; [rewrite nth_error_app1 by lia; auto|].
      destruct (Nat.ltb_spec k (length a)); lia.
    - left. subst k. rewrite nth_error_app2, Nat.sub_diag in E by lia. cbn in E. injection E as ->. auto.
    - right. exists (k - 1). rewrite nth_error_app2 in E by lia. destruct (k - length a) as [|m] eqn:M; [lia|]. cbn in E.
      split; [lia|]. split; [rewrite nth_error_app2 by lia; replace (k - 1 - length a) with m by lia; auto|].
      destruct (Nat.ltb_spec (k - 1) (length a)); lia. }
  apply P in Hi. apply P in Hj.
  destruct Hi as [[-> ->]|(i' & Ni & Hi & Ei)], Hj as [[-> ->]|(j' & Nj & Hj & Ej)].
  - congruence.
  - apply N. eapply nth_error_In; eauto.
  - apply N. eapply nth_error_In; eauto.
  - apply (H i' j'); auto. intros ->. congruence.
Qed.

Record Inv (s : Specs) : Prop := {
  inv_inputs : NoDup (q_inputs s);
  inv_e : NoDup (map e_name (q_econs s));
  inv_u : NoDup (map u_name (q_ucons s));
  inv_names : (forall e, In e (q_econs s) -> e_name e <> [] /\ e_fn e <> None) /\ (forall u, In u (q_ucons s) -> u_name u <> [] /\ u_fn u <> None);
  inv_imp : q_implicit s = map u_substance (q_ucons s);
  inv_len : length (q_idxs s) = length (q_params s);
  inv_idx : NoDup (q_idxs s);
  inv_par : forall k i p, nth_error (q_idxs s) k = Some i -> nth_error (q_params s) k = Some p -> nth_error (q_inputs s) i = Some (pa_id p);
  inv_T : q_unknownT s = false -> In $"T" (q_inputs s);
  inv_P : q_unknownP s = false -> In $"P" (q_inputs s) }.

Ltac specs := cbn [q_unknownT q_unknownP q_inputs q_params q_idxs q_econs q_ucons q_explicit q_implicit add_in add_par add_e add_u add_open no_T no_P] in *.

Lemma Inv_in s v : Inv s -> ~ In v (q_inputs s) -> Inv (add_in s v).
Proof.
  intros H N. destruct H. constructor; specs; auto.
  - apply NoDup_snoc; auto.
  - intros k i p H1 H2. apply nth_grow. eauto.
  - intro F. apply in_or_app; auto. - intro F. apply in_or_app; auto.
Qed.
Lemma Inv_noT s : Inv s -> In $"T" (q_inputs s) -> Inv (no_T s).
Proof. intros H I. destruct H. constructor; specs; auto. Qed.
Lemma Inv_noP s : Inv s -> In $"P" (q_inputs s) -> Inv (no_P s).
Proof. intros H I. destruct H. constructor; specs; auto. Qed.
Lemma Inv_e s e : Inv s -> fresh_e e s -> Inv (add_e s e).
Proof.
  intros H (N1 & N2 & N3). destruct H. constructor; specs; auto.
  - rewrite map_app. apply NoDup_snoc; auto.
  - destruct inv_names0 as [A B]. split; auto. intros x I. apply in_app_or in I as [I|[<-|[]]]; auto.
Qed.
Lemma Inv_u s u : Inv s -> fresh_u u s -> Inv (add_u s u).
Proof.
  intros H (N1 & N2 & N3 & _). destruct H. constructor; specs; auto.
  - rewrite map_app. apply NoDup_snoc; auto.
  - destruct inv_names0 as [A B]. split; auto. intros x I. apply in_app_or in I as [I|[<-|[]]]; auto.
  - rewrite map_app, inv_imp0. reflexivity.
Qed.
Lemma Inv_open s f : Inv s -> Inv (add_open s f).
Proof. intros H. destruct H. constructor; specs; auto. Qed.
Lemma Inv_par s p : Inv s -> ~ In (pa_id p) (q_inputs s) -> Inv (add_par (add_in s (pa_id p)) p (length (q_inputs s))).
Proof.
  intros H N. pose proof (Inv_in _ _ H N) as H1. destruct H, H1. constructor; specs; auto.
  - rewrite !app_length, inv_len0. reflexivity.
  - apply NoDup_snoc; auto. intro I. apply In_nth_error in I as (k & I).
    destruct (nth_error (q_params s) k) as [q|] eqn:E.
    + pose proof (inv_par0 _ _ _ I E) as X. assert (length (q_inputs s) < length (q_inputs s)) by (apply nth_error_Some; congruence). lia.
    + apply nth_error_None in E. assert (k < length (q_idxs s)) by (apply nth_error_Some; congruence). lia.
  - intros k i q H1 H2. rewrite nth_snoc in H1. rewrite nth_snoc in H2. rewrite inv_len0 in H1.
    destruct (Nat.eqb_spec k (length (q_params s))).
    + injection H1 as <-. injection H2 as <-. rewrite nth_snoc, Nat.eqb_refl. reflexivity.
    + apply nth_grow. eauto.
Qed.
Lemma Inv_new : Inv newSpecs.
Proof. constructor; cbn; try constructor; try tauto; try discriminate. intros [|k] i p; discriminate. Qed.

Section Runs.
Variable log : Q -> Q.
Variable stdprops : Species -> Q -> Q -> outcome Std.
Variable sys : ChemicalSystem.
Variable db : Database.
Notation effect := (effect log stdprops sys db).
Notation srun := (srun log stdprops sys db).

Lemma fresh_e_in e s v : fresh_e e s -> fresh_e e (add_in s v).
Proof. exact (fun H => H). Qed.
Lemma fresh_u_in u s v : fresh_u u s -> fresh_u u (add_in s v).
Proof. exact (fun H => H). Qed.

Lemma effect_Inv s c r s' : effect s c r s' -> Inv s -> Inv s'.
Proof.
  intros E H. destruct E; auto using Inv_in, Inv_noT, Inv_noP, Inv_e, Inv_u, Inv_open, Inv_par.
  - assert (N : Inv (add_in s $"T")) by auto using Inv_in. apply (Inv_noT _ N). specs. apply in_elt.
  - assert (N : Inv (add_in s $"P")) by auto using Inv_in. apply (Inv_noP _ N). specs. apply in_elt.
Qed.

(* Induction over histories for any property kept by every effect. *)
Lemma srun_ind (P : Specs -> Prop) (ok : scall -> Prop) :
  (forall s c r s', effect s c r s' -> ok c -> P s -> P s') ->
  forall h s s', srun s h = Some s' -> Forall ok h -> P s -> P s'.
Proof.
  intros K. induction h as [|c h IH]; intros s s' R F Ps; cbn [M_Specs.srun] in R.
  - congruence.
  - inversion F; subst. destruct (scall_apply log stdprops sys db c s) as [r s1] eqn:E.
    destruct r as [u| |]; try discriminate.
    + apply (IH s1 s'); auto. eapply K; eauto. apply apply_effect; [exact E|discriminate].
    + apply (IH s1 s'); auto. eapply K; eauto. apply apply_effect; [exact E|discriminate].
Qed.
Lemma Forall_True {A} (l : list A) : Forall (fun _ => True) l.
Proof. induction l; auto. Qed.
Lemma srun_Inv h s : srun newSpecs h = Some s -> Inv s.
Proof.
  intro R. eapply (srun_ind Inv (fun _ => True)); eauto using Inv_new, Forall_True.
  intros. eapply effect_Inv; eauto.
Qed.

(* Titrants. *)
Definition titrants_ok (s : Specs) : Prop :=
  Apart SameSubstance (q_explicit s ++ q_implicit s) /\ Forall (fun f => listed_once (cf_elements f)) (q_explicit s ++ q_implicit s).
Lemma apart_new f l : listed_once (cf_elements f) -> Forall (fun f => listed_once (cf_elements f)) l ->
  (forall g, In g l -> equivalent g f = false) -> forall g, In g l -> ~ SameSubstance g f /\ ~ SameSubstance f g.
Proof.
  intros Lf Ll H g I. rewrite Forall_forall in Ll. specialize (H g I). specialize (Ll g I).
  assert (N : ~ SameSubstance g f). { intro S. apply (equivalent_spec g f) in S; auto. congruence. }
  split; auto. intros [S1 S2]. apply N. split; [symmetry; auto|]. intros e q. symmetry. apply S2.
Qed.
Lemma titrants_open s f : titrants_ok s -> listed_once (cf_elements f) ->
  (forall g, In g (q_explicit s ++ q_implicit s) -> equivalent g f = false) -> titrants_ok (add_open s f).
Proof.
  intros [A F] L N. unfold titrants_ok. specs. rewrite <- app_assoc. cbn [app]. split.
  - apply Apart_insert; auto. apply apart_new; auto.
  - apply Forall_app in F as [F1 F2]. apply Forall_app. split; auto.
Qed.
Lemma titrants_u s u : titrants_ok s -> listed_once (cf_elements (u_substance u)) -> fresh_u u s -> titrants_ok (add_u s u).
Proof.
  intros [A F] L (_ & _ & _ & N). unfold titrants_ok. specs. rewrite app_assoc. split.
  - apply Apart_insert with (b := []); rewrite app_nil_r; auto. apply apart_new; auto.
  - apply Forall_app. auto.
Qed.
Lemma effect_titrants s c r s' : db_ok db -> effect s c r s' -> call_ok c -> titrants_ok s -> titrants_ok s'.
Proof.
  intros D E O T. destruct E; auto using titrants_open.
  - apply (titrants_u (add_in s v)); auto.
  - apply titrants_u; auto.
Qed.
Lemma srun_titrants h s : db_ok db -> Forall call_ok h -> srun newSpecs h = Some s -> titrants_ok s.
Proof.
  intros D F R. eapply (srun_ind titrants_ok call_ok); eauto.
  - intros. eapply effect_titrants; eauto.
  - split; [intros i j x y _ H; destruct i; discriminate|constructor].
Qed.

(* Constraints introduced by the named calls. *)
Definition named_e (s : Specs) (e : EConstraint) : Prop :=
  exists n v f i, e = mkE n (Some (property_minus sys f i)) /\ In (n, v, f) equation_table /\ nth_error (q_inputs s) i = Some v.
Definition named_u (s : Specs) (u : UConstraint) : Prop :=
  exists fn pot i, u_fn u = Some fn /\ Potential log stdprops db (u_name u) (u_substance u) pot /\
    nth_error (q_inputs s) i = Some (u_name u) /\ pot_fn i fn pot /\ total_fn stdprops i fn.
Lemma named_e_grow s v e : named_e s e -> named_e (add_in s v) e.
Proof. intros (n & w & f & i & E & T & N). exists n, w, f, i. repeat split; auto. apply nth_grow, N. Qed.
Lemma named_u_grow s v u : named_u s u -> named_u (add_in s v) u.
Proof. intros (fn & pot & i & E & T & N & P). exists fn, pot, i. repeat split; auto; try apply P. apply nth_grow, N. Qed.

Lemma effect_named_e s c r s' : effect s c r s' -> ~ user_e c -> Forall (named_e s) (q_econs s) -> Forall (named_e s') (q_econs s').
Proof.
  intros E U F.
  assert (G : forall v, Forall (named_e (add_in s v)) (q_econs s)) by (intro v; eapply Forall_impl; [|exact F]; apply named_e_grow).
  destruct E; try exact F; try exact (G _).
  - apply Forall_app. split; [apply (G v)|]. constructor; auto. exists n, v, f, (length (q_inputs s)). repeat split; auto.
    specs. rewrite nth_snoc, Nat.eqb_refl. reflexivity.
  - destruct (U Logic.I).
Qed.
Lemma effect_named_u s c r s' : effect s c r s' -> ~ user_u c -> Forall (named_u s) (q_ucons s) -> Forall (named_u s') (q_ucons s').
Proof.
  intros E U F.
  assert (G : forall v, Forall (named_u (add_in s v)) (q_ucons s)) by (intro v; eapply Forall_impl; [|exact F]; apply named_u_grow).
  destruct E; try exact F; try exact (G _).
  - apply Forall_app. split; [apply (G v)|]. constructor; auto. exists fn, pot, (length (q_inputs s)). subst v. repeat split; auto.
    specs. rewrite nth_snoc, Nat.eqb_refl. reflexivity.
  - destruct (U Logic.I).
Qed.
Lemma srun_named_e h s : Forall (fun c => ~ user_e c) h -> srun newSpecs h = Some s -> Forall (named_e s) (q_econs s).
Proof.
  intros F R. eapply (srun_ind (fun s => Forall (named_e s) (q_econs s))); eauto.
  - intros. eapply effect_named_e; eauto. - constructor.
Qed.
Lemma srun_named_u h s : Forall (fun c => ~ user_u c) h -> srun newSpecs h = Some s -> Forall (named_u s) (q_ucons s).
Proof.
  intros F R. eapply (srun_ind (fun s => Forall (named_u s) (q_ucons s))); eauto.
  - intros. eapply effect_named_u; eauto. - constructor.
Qed.

Lemma Potential_name v f pot n w g : Potential log stdprops db v f pot -> In (n, w, g) equation_table -> v <> n.
Proof.
  intros P I. cbn in I. decompose [or] I; try contradiction;
  match goal with H : _ = (n, w, g) |- _ => injection H as <- <- <- end; destruct P; cbn; discriminate.
Qed.
Lemma named_distinct s : Inv s -> Forall (named_e s) (q_econs s) -> Forall (named_u s) (q_ucons s) -> NoDup (namesConstraints s).
Proof.
  intros I E U. unfold namesConstraints, concatenate, vectorize. destruct I.
  assert (D : forall x, In x (map e_name (q_econs s)) -> ~ In x (map u_name (q_ucons s))).
  { intros x I1 I2. apply in_map_iff in I1 as (e & <- & I1). apply in_map_iff in I2 as (u & N & I2).
    rewrite Forall_forall in E, U. destruct (E e I1) as (n & v & f & i & -> & T & _). destruct (U u I2) as (fn & pot & j & _ & P & _).
    cbn [e_name] in N. apply (Potential_name _ _ _ _ _ _ P T N). }
  clear E U inv_names0. revert D. generalize inv_e0. generalize (map e_name (q_econs s)). induction l as [|x l IH]; intros ND D; cbn [app]; auto.
  inversion ND; subst. constructor.
  - intro I. apply in_app_or in I as [I|I]; auto. apply (D x); cbn; auto.
  - apply IH; auto. intros y I. apply D. right; auto.
Qed.

(* T and P are inputs exactly when they are not unknowns, if no input with such
   a name is added by hand. *)
Definition no_TP (c : scall) : Prop :=
  match c with SAddInput v => v <> $"T" /\ v <> $"P" | SAddParam p => pa_id p <> $"T" /\ pa_id p <> $"P" | _ => True end.
Definition flags (s : Specs) : Prop := (In $"T" (q_inputs s) <-> q_unknownT s = false) /\ (In $"P" (q_inputs s) <-> q_unknownP s = false).
Lemma input_of_TP c v : no_TP c -> input_of c = Some v -> c <> STemperature -> c <> SPressure -> v <> $"T" /\ v <> $"P".
Proof. intros N I NT NP. destruct c; cbn in I; try discriminate; try congruence; injection I as <-; try (split; discriminate); exact N. Qed.
Lemma In_snoc {A} (l : list A) x y : x <> y -> In x (l ++ [y]) <-> In x l.
Proof. intro N. rewrite in_app_iff. cbn. intuition congruence. Qed.
Lemma flags_in s v : v <> $"T" -> v <> $"P" -> flags s -> flags (add_in s v).
Proof. intros NT NP [FT FP]. unfold flags. specs. rewrite !In_snoc by congruence. auto. Qed.
Lemma effect_flags s c r s' : effect s c r s' -> no_TP c -> flags s -> flags s'.
Proof.
  intros E N F. assert (K := fun v => input_of_TP c v N).
  destruct E; auto.
  - destruct (K v) as [A B]; auto. apply flags_in; auto.
  - destruct F as [FT FP]. split; specs; [tauto|auto].
  - destruct F as [FT FP]. split; specs; [split; auto; intros _; apply in_elt|]. rewrite In_snoc by discriminate. auto.
  - destruct F as [FT FP]. split; specs; [auto|tauto].
  - destruct F as [FT FP]. split; specs; [rewrite In_snoc by discriminate; auto|]. split; auto; intros _; apply in_elt.
  - assert (X : flags (add_in s v)); [|exact X]. destruct (K v H); try (intros ->; discriminate); try (apply flags_in; auto);
      intros ->; cbn in H0; injection H as <-; decompose [or] H0; try contradiction; discriminate.
  - assert (X : flags (add_in s v)); [|exact X]. apply flags_in; auto; intros ->; match goal with P : Potential _ _ _ _ _ _ |- _ => inversion P end.
  - apply flags_in; auto; apply N.
  - assert (X : flags (add_in s (pa_id p))); [|exact X]. apply flags_in; auto; apply N.
Qed.
Lemma srun_flags h s : Forall no_TP h -> srun newSpecs h = Some s -> flags s.
Proof.
  intros F R. eapply (srun_ind flags no_TP); eauto.
  - intros. eapply effect_flags; eauto. - split; cbn; split; try tauto; discriminate.
Qed.

(* What a rejected call may leave behind. *)
Lemma effect_err s c s' : effect s c Err s' ->
  s' = s \/
  (exists v, input_of c = Some v /\ ~ In v (q_inputs s) /\ s' = add_in s v /\ c <> STemperature /\ c <> SPressure) \/
  (c = STemperature /\ In $"T" (q_inputs s) /\ s' = no_T s) \/ (c = SPressure /\ In $"P" (q_inputs s) /\ s' = no_P s).
Proof. intro E. inversion E; subst; auto; right; [left|right; left|right; right]; eauto 8. Qed.
End Runs.
