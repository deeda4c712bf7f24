(* C57, C58 and C93: registries kept for the whole process. *)
From Verif Require Import Base M_Strings M_Formula M_Chem M_Algorithms M_System S_Chem P_Chem P_Algorithms M_Registry.

(* ---- C57: dissociation reactions ---- *)
(* Elements and charge on both sides. *)
Definition total (f : ChemicalFormula -> Q) (ions : list (Q * ChemicalFormula)) : Q :=
  fold_right (fun ci x => (fst ci * f (snd ci) + x)%Q) 0%Q ions.
Definition Balanced (r : Dissociation) : Prop :=
  (cf_charge (dr_complex r) == total cf_charge (dr_ions r))%Q /\
  forall e, (coefficient (cf_elements (dr_complex r)) e == total (fun f => coefficient (cf_elements f) e) (dr_ions r))%Q.
(* Two positions never hold reactions of the same complex. *)
Definition OnePerComplex (l : list Dissociation) : Prop :=
  forall i j a b, nth_error l i = Some a -> nth_error l j = Some b -> equivalent (dr_complex a) (dr_complex b) = true -> i = j.
(* The formulas of complexes list each element once, as formulas read from text do (C05_parsed). *)
Definition Wellformed (c : dis_call) : Prop :=
  match c with DAppend r => listed_once (cf_elements (dr_complex r)) | DReset => True end.
Definition dis_run (defaults : list Dissociation) (calls : list dis_call) : list Dissociation :=
  fold_left (dis_step defaults) calls defaults.

Definition symbols_of (r : Dissociation) : list str :=
  map fst (cf_elements (dr_complex r)) ++ concat (map (fun ci => map fst (cf_elements (snd ci))) (dr_ions r)).
Definition balancedb (r : Dissociation) : bool :=
  Qeq_bool (cf_charge (dr_complex r)) (total cf_charge (dr_ions r)) &&
  forallb (fun e => Qeq_bool (coefficient (cf_elements (dr_complex r)) e) (total (fun f => coefficient (cf_elements f) e) (dr_ions r))) (symbols_of r).
Lemma balancedb_ok r : balancedb r = true -> Balanced r.
Proof.
  unfold balancedb. rewrite andb_true_iff, forallb_forall. intros [Hc He]. split; [apply Qeq_bool_iff; auto|].
  intros e. destruct (in_dec str_eq_dec e (symbols_of r)) as [I|I]; [apply Qeq_bool_iff; auto|].
  unfold symbols_of in I. rewrite in_app_iff in I.
  rewrite coefficient_notin by tauto.
  assert (N : ~ In e (concat (map (fun ci => map fst (cf_elements (snd ci))) (dr_ions r)))) by tauto. clear -N.
  induction (dr_ions r) as [|ci l IH]; [reflexivity|]. cbn [map concat] in N. rewrite in_app_iff in N.
  cbn [total fold_right]. fold (total (fun f => coefficient (cf_elements f) e) l). rewrite <- IH by tauto.
  rewrite coefficient_notin by tauto. ring.
Qed.

Fixpoint distinctb (l : list Dissociation) : bool :=
  match l with
  | [] => true
  | r :: l' => forallb (fun s => negb (equivalent (dr_complex r) (dr_complex s)) && negb (equivalent (dr_complex s) (dr_complex r))) l' && distinctb l'
  end.
Lemma distinctb_ok l : distinctb l = true -> OnePerComplex l.
Proof.
  induction l as [|r l IH]; intros H i j a b Hi Hj E; [destruct i; discriminate|].
  cbn in H. apply andb_true_iff in H as [H1 H2]. rewrite forallb_forall in H1.
  destruct i as [|i], j as [|j]; auto; cbn in Hi, Hj.
  - injection Hi as <-. apply nth_error_In in Hj. specialize (H1 _ Hj). rewrite E in H1. discriminate.
  - injection Hj as <-. apply nth_error_In in Hi. specialize (H1 _ Hi). rewrite E, andb_false_r in H1. discriminate.
  - f_equal. eapply IH; eauto.
Qed.

Fixpoint nodupb (l : list str) : bool := match l with [] => true | x :: l' => negb (mem_str x l') && nodupb l' end.
Lemma nodupb_ok l : nodupb l = true -> NoDup l.
Proof.
  induction l as [|x l IH]; cbn; intros H; constructor; apply andb_true_iff in H as [H1 H2]; auto.
  intros I. apply negb_true_iff in H1. unfold mem_str in H1. rewrite <- not_true_iff_false in H1. apply H1.
  apply existsb_exists. exists x. split; auto. apply str_eqb_refl.
Qed.
Definition listedb (r : Dissociation) : bool := nodupb (map fst (cf_elements (dr_complex r))).
Definition all_defaults : list Dissociation := match default_reactions with Ok l => l | _ => [] end.
Lemma defaults_checked :
  default_reactions = Ok all_defaults /\ length all_defaults = 170 /\ forallb balancedb all_defaults = true /\
  forallb listedb all_defaults = true /\ forallb (fun r => Qeq_bool (cf_charge (dr_complex r)) 0) all_defaults = true.
Proof. vm_compute. auto 10. Qed.
Lemma defaults_distinct : distinctb all_defaults = true.
Proof. vm_compute. reflexivity. Qed.

(* The built-in reactions: each conserves elements and charge and dissociates a
   neutral complex, and no complex occurs twice. *)
Theorem C57_builtin : exists l, default_reactions = Ok l /\ length l = 170 /\
  Forall Balanced l /\ Forall (fun r => cf_charge (dr_complex r) == 0)%Q l /\ OnePerComplex l.
Proof.
  destruct defaults_checked as (E & L & B & _ & C). exists all_defaults. split; auto. split; auto.
  rewrite forallb_forall in B, C. split; [|split].
  - apply Forall_forall. intros r I. apply balancedb_ok. auto.
  - apply Forall_forall. intros r I. apply Qeq_bool_iff. auto.
  - apply distinctb_ok, defaults_distinct.
Qed.
Print Assumptions C57_builtin.

Definition Listed (l : list Dissociation) : Prop := Forall (fun r => listed_once (cf_elements (dr_complex r))) l.
Lemma eq_sym_ : forall f g, listed_once (cf_elements f) -> listed_once (cf_elements g) -> equivalent f g = equivalent g f.
Proof.
  intros f g Hf Hg. destruct equivalent_relation as (_ & S & _).
  destruct (equivalent f g) eqn:A, (equivalent g f) eqn:B; auto.
  - apply S in A; auto. congruence.
  - apply S in B; auto. congruence.
Qed.
Lemma append_positions r : forall l i a, nth_error (dis_append l r) i = Some a ->
  (exists b, nth_error l i = Some b /\ dr_complex b = dr_complex a) \/
  (i = length l /\ a = r /\ forall b, In b l -> equivalent (dr_complex r) (dr_complex b) = false).
Proof.
  induction l as [|c l IH]; cbn [dis_append]; intros i a H.
  - destruct i as [|i]; [|destruct i; discriminate]. injection H as <-. right. repeat split. intros b [].
  - destruct (equivalent (dr_complex r) (dr_complex c)) eqn:E.
    + left. destruct i as [|i]; cbn in H; [injection H as <-; exists c; auto|exists a; auto].
    + destruct i as [|i]; cbn in H; [injection H as <-; left; exists c; auto|].
      destruct (IH _ _ H) as [(b & Hb & Eb)|(Ei & Ea & Hn)]; [left; exists b; auto|right].
      cbn. split; [lia|]. split; auto. intros b [<-|I]; auto.
Qed.
Lemma append_listed l r : Listed l -> listed_once (cf_elements (dr_complex r)) -> Listed (dis_append l r).
Proof.
  intros H Hr. apply Forall_forall. intros a I. apply In_nth_error in I as [i I].
  destruct (append_positions _ _ _ _ I) as [(b & Hb & <-)|(_ & -> & _)]; auto.
  apply (proj1 (Forall_forall _ _) H b). eapply nth_error_In; eauto.
Qed.
Lemma append_one l r : Listed l -> listed_once (cf_elements (dr_complex r)) -> OnePerComplex l -> OnePerComplex (dis_append l r).
Proof.
  intros HL Hr H i j a b Hi Hj E.
  destruct (append_positions _ _ _ _ Hi) as [(a' & Ha & Ea)|(Ei & Ea & Na)];
  destruct (append_positions _ _ _ _ Hj) as [(b' & Hb & Eb)|(Ej & Eb & Nb)].
  - rewrite <- Ea, <- Eb in E. eapply H; eauto.
  - subst b. rewrite <- Ea in E. pose proof (nth_error_In _ _ Ha) as I. specialize (Nb _ I).
    rewrite eq_sym_ in E; auto; [congruence|]. exact (proj1 (Forall_forall _ _) HL _ I).
  - subst a. rewrite <- Eb in E. pose proof (nth_error_In _ _ Hb) as I. specialize (Na _ I). congruence.
  - lia.
Qed.

(* After any history of appended and reset reactions. *)
Theorem C57_history : forall calls l, default_reactions = Ok l -> Forall Wellformed calls ->
  OnePerComplex (dis_run l calls).
Proof.
  intros calls l E H. unfold dis_run.
  destruct defaults_checked as (E' & _ & _ & Li & _). rewrite E' in E. injection E as <-.
  assert (D : Listed all_defaults).
  { apply Forall_forall. intros r I. rewrite forallb_forall in Li. specialize (Li _ I). apply nodupb_ok. exact Li. }
  assert (O : OnePerComplex all_defaults) by apply distinctb_ok, defaults_distinct.
  enough (forall cur, Listed cur -> OnePerComplex cur -> OnePerComplex (fold_left (dis_step all_defaults) calls cur)) by auto.
  clear -D O H. induction H as [|c calls Hc H IH]; intros cur HL HO; [exact HO|].
  cbn [fold_left]. destruct c as [r|]; cbn [dis_step]; apply IH; auto.
  - apply append_listed; auto.
  - apply append_one; auto.
Qed.
Print Assumptions C57_history.

Lemma get_spec l c : dis_get l c = find (fun r => equivalent (dr_complex r) c) l.
Proof. unfold dis_get. induction l as [|r l IH]; [reflexivity|]. cbn. destruct (equivalent (dr_complex r) c); auto. Qed.

(* What a query returns after an append: the appended ions for the complex, in
   whatever way its formula is written, and what it returned before for others. *)
Theorem C57_append : forall l r c, Listed l -> listed_once (cf_elements (dr_complex r)) -> listed_once (cf_elements c) ->
  (equivalent (dr_complex r) c = true -> exists d, dis_get (dis_append l r) c = Some d /\ dr_ions d = dr_ions r) /\
  (equivalent (dr_complex r) c = false -> dis_get (dis_append l r) c = dis_get l c).
Proof.
  intros l r c HL Hr Hc. rewrite !get_spec. destruct equivalent_relation as (_ & S & T).
  induction HL as [|a l Ha HL IH]; cbn [dis_append].
  - split; intros E; cbn; rewrite E; [exists r; auto|auto].
  - destruct IH as [I1 I2]. destruct (equivalent (dr_complex r) (dr_complex a)) eqn:E; cbn [find dr_complex].
    + assert (Q : equivalent (dr_complex a) c = equivalent (dr_complex r) c).
      { destruct (equivalent (dr_complex a) c) eqn:A, (equivalent (dr_complex r) c) eqn:B; auto.
        - rewrite <- B. symmetry. eapply T with (g := dr_complex a); eauto.
        - rewrite <- A. eapply T with (g := dr_complex r); eauto. }
      rewrite Q. split; intros F; rewrite F; [eexists; split; [reflexivity|reflexivity]|reflexivity].
    + split; intros F.
      * destruct (equivalent (dr_complex a) c) eqn:A; [|auto]. exfalso.
        assert (equivalent (dr_complex r) (dr_complex a) = true); [|congruence].
        eapply T with (g := c); eauto.
      * destruct (equivalent (dr_complex a) c); auto.
Qed.
Print Assumptions C57_append.

(* The coefficient of an ion in a complex: that of the reaction of the complex,
   and zero for complexes without a reaction and for other ions. *)
Theorem C57_coefficient : forall l c ion,
  (forall r, In r l -> equivalent (dr_complex r) c = false) /\ dis_coefficient l c ion = 0%Q \/
  exists r, In r l /\ equivalent (dr_complex r) c = true /\
    ((exists q p, In (q, p) (dr_ions r) /\ equivalent p ion = true /\ dis_coefficient l c ion = q) \/
     (forall q p, In (q, p) (dr_ions r) -> equivalent p ion = false) /\ dis_coefficient l c ion = 0%Q).
Proof.
  intros l c ion. unfold dis_coefficient. rewrite get_spec. destruct (find _ l) as [r|] eqn:F.
  - right. destruct (find_some _ _ F) as [I E]. exists r. split; auto. split; auto.
    clear -r. induction (dr_ions r) as [|[q p] ions IH]; [right; split; [intros ? ? []|reflexivity]|].
    cbn. destruct (equivalent p ion) eqn:E.
    + left. exists q, p. auto.
    + destruct IH as [(q' & p' & I & E' & <-)|[N Z]].
      * left. exists (ion_coefficient ions ion), p'. auto.
      * right. split; auto. intros q' p' [[= <- <-]|I]; eauto.
  - left. split; auto. intros r I. exact (find_none _ _ F r I).
Qed.
Print Assumptions C57_coefficient.

Definition f_of (s : str) : ChemicalFormula := match mkChemicalFormula s with Ok f => f | _ => Build_ChemicalFormula [] [] 0%Q end.
(* A new complex, and a new reaction for a complex of the table written in another order. *)
Definition history : list dis_call :=
  [DAppend (mkDis (f_of $"KOH") [(1%Q, f_of $"K+"); (1%Q, f_of $"OH-")]);
   DAppend (mkDis (f_of $"SH2") [(2%Q, f_of $"H+"); (1%Q, f_of $"S--")])].
Example C57_nonvacuous : Forall Wellformed history /\ length (dis_run all_defaults history) = 171 /\
  dis_coefficient (dis_run all_defaults history) (f_of $"H2S") (f_of $"H+") = 2%Q /\
  dis_coefficient all_defaults (f_of $"H2S") (f_of $"H+") = 1%Q.
Proof.
  split; [|vm_compute; auto].
  repeat constructor; unfold Wellformed, listed_once; vm_compute; repeat constructor; cbn; intuition discriminate.
Qed.

(* ---- C58: critical properties ---- *)
(* A name designates at most one substance. *)
Definition Unambiguous (l : list Substance) : Prop :=
  forall i j a b n, nth_error l i = Some a -> nth_error l j = Some b -> In n (su_names a) -> In n (su_names b) -> i = j.
Definition crit_run (defaults : list Substance) (calls : list crit_call) : list Substance := fold_left crit_step calls defaults.
Definition C58_statement : Prop :=
  forall defaults calls, default_substances = Ok defaults -> Unambiguous (crit_run defaults calls).

Lemma contains_In l n : contains str_eqb l n = true <-> In n l.
Proof. apply contains_spec. intros x y. destruct (str_eqb_spec x y); split; auto; discriminate. Qed.
Lemma disjoint_In a b : disjoint str_eqb a b = true <-> forall n, In n a -> ~ In n b.
Proof. apply disjoint_spec. intros x y. destruct (str_eqb_spec x y); split; auto; discriminate. Qed.

Definition all_substances : list Substance := match default_substances with Ok l => l | _ => [] end.
Lemma substances_ok : default_substances = Ok all_substances /\ length all_substances = 91.
Proof. vm_compute. auto. Qed.
Fixpoint separateb (l : list Substance) : bool :=
  match l with [] => true | s :: l' => forallb (fun t => disjoint str_eqb (su_names s) (su_names t)) l' && separateb l' end.
Lemma separateb_ok l : separateb l = true -> Unambiguous l.
Proof.
  induction l as [|s l IH]; intros H i j a b n Hi Hj Ia Ib; [destruct i; discriminate|].
  cbn in H. apply andb_true_iff in H as [H1 H2]. rewrite forallb_forall in H1.
  destruct i as [|i], j as [|j]; auto; cbn in Hi, Hj.
  - injection Hi as <-. apply nth_error_In in Hj. specialize (H1 _ Hj). rewrite disjoint_In in H1. destruct (H1 n); auto.
  - injection Hj as <-. apply nth_error_In in Hi. specialize (H1 _ Hi). rewrite disjoint_In in H1. destruct (H1 n); auto.
  - f_equal. eapply IH; eauto.
Qed.
(* The built-in table. *)
Theorem C58_builtin : exists l, default_substances = Ok l /\ Unambiguous l.
Proof. exists all_substances. split; [apply substances_ok|]. apply separateb_ok. vm_compute. reflexivity. Qed.
Print Assumptions C58_builtin.

(* Overwriting with a substance that shares names with two stored ones replaces
   only the first of them. *)
Definition solution : Substance := mkSub (mkCrit 300 1 0) [$"WATER"; $"AMMONIA"].
Theorem C58_refuted : ~ C58_statement.
Proof.
  intros H. specialize (H all_substances [COverwrite solution] (proj1 substances_ok) 85 86).
  destruct (nth_error (crit_run all_substances [COverwrite solution]) 86) as [b|] eqn:B; [|vm_compute in B; discriminate].
  specialize (H solution b ($"AMMONIA")). assert (85 = 86); [|discriminate]. apply H.
  - vm_compute. reflexivity.
  - reflexivity.
  - right. left. reflexivity.
  - apply contains_In. vm_compute in B. injection B as <-. vm_compute. reflexivity.
Qed.
Print Assumptions C58_refuted.

(* How many stored substances share a name with the given one. *)
Definition shares (s t : Substance) : bool := negb (disjoint str_eqb (su_names s) (su_names t)).
Definition conflicts (l : list Substance) (s : Substance) : nat := length (List.filter (shares s) l).
Inductive gentle : list Substance -> list crit_call -> Prop :=
| gentle_nil l : gentle l []
| gentle_append l s calls : gentle (crit_step l (CAppend s)) calls -> gentle l (CAppend s :: calls)
| gentle_overwrite l s calls : conflicts l s <= 1 -> gentle (crit_overwrite l s) calls -> gentle l (COverwrite s :: calls).

Lemma unambiguous_cons s l : Unambiguous (s :: l) <-> (forall t n, In t l -> In n (su_names s) -> ~ In n (su_names t)) /\ Unambiguous l.
Proof.
  split.
  - intros H. split.
    + intros t n It Is Itn. apply In_nth_error in It as [j Hj]. discriminate (H 0 (S j) s t n eq_refl Hj Is Itn).
    + intros i j a b n Hi Hj Ia Ib. specialize (H (S i) (S j) a b n Hi Hj Ia Ib). lia.
  - intros [H1 H2] i j a b n Hi Hj Ia Ib. destruct i as [|i], j as [|j]; auto; cbn in Hi, Hj.
    + injection Hi as <-. exfalso. exact (H1 b n (nth_error_In _ _ Hj) Ia Ib).
    + injection Hj as <-. exfalso. exact (H1 a n (nth_error_In _ _ Hi) Ib Ia).
    + f_equal. eapply H2; eauto.
Qed.
Lemma append_unambiguous l s l' : Unambiguous l -> crit_append l s = Ok l' -> Unambiguous l'.
Proof.
  unfold crit_append. destruct (forallb _ l) eqn:F; [|discriminate]. intros H E. injection E as <-.
  rewrite forallb_forall in F. induction l as [|a l IH]; cbn [app].
  - apply unambiguous_cons. split; [intros t n []|]. intros i j a b n Hi. destruct i; discriminate.
  - apply unambiguous_cons in H as [H1 H2]. apply unambiguous_cons. split.
    + intros t n It Ia. apply in_app_iff in It as [It|[<-|[]]]; [eapply H1; eauto|].
      intros Is. specialize (F a (or_introl eq_refl)). rewrite disjoint_In in F. exact (F n Is Ia).
    + apply IH; auto. intros x I. apply F. right; auto.
Qed.
Lemma overwrite_In l s t : In t (crit_overwrite l s) -> t = s \/ In t l.
Proof.
  induction l as [|a l IH]; cbn; [intros [<-|[]]; auto|].
  destruct (disjoint str_eqb (su_names s) (su_names a)); cbn; intros [<-|I]; auto. destruct (IH I); auto.
Qed.
Lemma filter_none {A} (f : A -> bool) l x : length (List.filter f l) = 0 -> In x l -> f x = false.
Proof.
  intros E I. destruct (f x) eqn:F; auto. assert (In x (List.filter f l)) by (apply filter_In; auto).
  destruct (List.filter f l); [contradiction|discriminate].
Qed.
Lemma overwrite_unambiguous l s : Unambiguous l -> conflicts l s <= 1 -> Unambiguous (crit_overwrite l s).
Proof.
  unfold conflicts. induction l as [|a l IH]; cbn [crit_overwrite List.filter]; intros H C.
  - apply unambiguous_cons. split; [intros t n []|]. intros i j x b n Hi. destruct i; discriminate.
  - apply unambiguous_cons in H as [H1 H2]. unfold shares in C at 1. destruct (disjoint str_eqb (su_names s) (su_names a)) eqn:D; cbn [negb] in *.
    + apply unambiguous_cons. split; [|auto]. intros t n It Ia Int. destruct (overwrite_In _ _ _ It) as [->|I].
      * rewrite disjoint_In in D. exact (D n Int Ia).
      * eapply H1; eauto.
    + apply unambiguous_cons. split; [|auto]. intros t n It Is Itn. cbn in C.
      assert (Z : length (List.filter (shares s) l) = 0) by lia.
      pose proof (filter_none _ _ _ Z It) as F. unfold shares in F. apply negb_false_iff in F. rewrite disjoint_In in F. exact (F n Is Itn).
Qed.

(* Names stay unambiguous as long as no substance overwrites two others. *)
Theorem C58_partial : forall l calls, default_substances = Ok l -> gentle l calls -> Unambiguous (crit_run l calls).
Proof.
  intros l calls E G. destruct C58_builtin as (l' & E' & U). rewrite E in E'. injection E' as <-. clear E.
  unfold crit_run. induction G as [l|l s calls G IH|l s calls C G IH]; cbn [fold_left]; auto.
  - apply IH. cbn. destruct (crit_append l s) eqn:A; auto. eapply append_unambiguous; eauto.
  - apply IH. apply overwrite_unambiguous; auto.
Qed.
Print Assumptions C58_partial.

Lemma find_spec l n : crit_find l n = List.find (fun s => contains str_eqb (su_names s) n) l.
Proof. unfold crit_find. induction l as [|s l IH]; [reflexivity|]. cbn. destruct (contains str_eqb (su_names s) n); auto. Qed.
Lemma mapM_In {A B} (f : A -> outcome B) l o x : mapM f l = Ok o -> In x l -> exists y, f x = Ok y /\ In y o.
Proof.
  revert o. induction l as [|a l IH]; intros o E I; [destruct I|]. cbn in E. destruct (f a) as [b| |] eqn:F; try discriminate. cbn in E.
  destruct (mapM f l) as [o'| |] eqn:M; try discriminate. cbn in E. injection E as <-. destruct I as [<-|I].
  - exists b. split; auto. left; auto.
  - destruct (IH _ eq_refl I) as (y & Fy & Iy). exists y. split; auto. right; auto.
Qed.

(* The last substance stored is the one found, under every name it was given,
   whatever the history. *)
Theorem C58_last : forall l data names s n, mkSubstance data names = Ok s -> In n names ->
  crit_get (crit_overwrite l s) n = Ok (Some s) /\
  (forall l', crit_append l s = Ok l' -> crit_get l' n = Ok (Some s)).
Proof.
  intros l data names s n E I. unfold mkSubstance in E. destruct (mapM correctName names) as [o| |] eqn:M; try discriminate.
  injection E as <-. destruct (mapM_In _ _ _ _ M I) as (y & F & Iy). unfold crit_get. rewrite F.
  set (s := mkSub data o). assert (Cs : contains str_eqb (su_names s) y = true) by (apply contains_In; auto).
  split; [|unfold crit_append; intros l'; destruct (forallb _ l) eqn:A; [|discriminate]; intros E; injection E as <-]; unfold omap; cbn [bind]; rewrite find_spec; apply (f_equal (@Ok _)).
  - induction l as [|a l IH]; cbn [crit_overwrite].
    + cbn [List.find]. rewrite Cs. auto.
    + destruct (disjoint str_eqb (su_names s) (su_names a)) eqn:D; cbn [negb List.find]; [|rewrite Cs; reflexivity].
      rewrite disjoint_In in D. destruct (contains str_eqb (su_names a) y) eqn:Ca; [|exact IH].
      exfalso. apply (D y Iy). apply contains_In. auto.
  - induction l as [|a l IH]; cbn [app List.find]; [rewrite Cs; reflexivity|].
    cbn in A. apply andb_true_iff in A as [D A]. rewrite disjoint_In in D. destruct (contains str_eqb (su_names a) y) eqn:Ca; [|auto].
    exfalso. apply (D y Iy). apply contains_In. auto.
Qed.
Print Assumptions C58_last.

(* A rejected append changes nothing and is rejected exactly for a name already stored. *)
Theorem C58_rejected : forall l s, (exists l', crit_append l s = Ok l') <-> (forall t n, In t l -> In n (su_names s) -> ~ In n (su_names t)).
Proof.
  intros l s. unfold crit_append. destruct (forallb _ l) eqn:F; split; intros H; eauto.
  - intros t n It. rewrite forallb_forall in F. specialize (F t It). rewrite disjoint_In in F. auto.
  - destruct H. discriminate.
  - exfalso. apply not_true_iff_false in F. apply F. apply forallb_forall. intros t It. apply disjoint_In. eauto.
Qed.
Print Assumptions C58_rejected.

(* The name that a substance reports is not always a name under which it is found. *)
Theorem C58_reported_refuted : ~ (forall data names s n, mkSubstance data names = Ok s -> In n (su_names s) ->
  crit_get (crit_overwrite [] s) n = Ok (Some s)).
Proof.
  intros H. specialize (H (mkCrit 1 1 0) [$"Fe(3)(g)"] _ ($"FE(3)") eq_refl (or_introl eq_refl)).
  vm_compute in H. discriminate.
Qed.
Print Assumptions C58_reported_refuted.

(* The setters accept positive values only. *)
Theorem C58_positive : forall s v s', (setTemperature s v = Ok s' -> 0 < v /\ cr_T (su_data s') = v /\ cr_P (su_data s') = cr_P (su_data s))%Q /\
  (setPressure s v = Ok s' -> 0 < v /\ cr_P (su_data s') = v /\ cr_T (su_data s') = cr_T (su_data s))%Q.
Proof.
  intros s v s'. unfold setTemperature, setPressure. destruct (Qle_bool v 0) eqn:E; split; try discriminate; intros H; injection H as <-;
  (split; [|auto]); apply Qnot_le_lt; rewrite <- Qle_bool_iff; congruence.
Qed.
Print Assumptions C58_positive.

Example C58_nonvacuous : exists s s', mkSubstance (mkCrit 400 1 0) [$"my fluid"; $"MF(g)"] = Ok s /\ mkSubstance (mkCrit 500 1 0) [$"MF"] = Ok s' /\
  su_names s = [$"MY-FLUID"; $"MF"] /\
  gentle all_substances [CAppend s; COverwrite s'; CAppend s] /\
  length (crit_run all_substances [CAppend s; COverwrite s'; CAppend s]) = 92 /\
  crit_get (crit_run all_substances [CAppend s; COverwrite s'; CAppend s]) ($"mf(g)") = Ok (Some s').
Proof.
  do 2 eexists. split; [reflexivity|]. split; [reflexivity|]. split; [reflexivity|]. split; [|split].
  - apply gentle_append, gentle_overwrite; [apply Nat.leb_le; vm_compute; reflexivity|]. apply gentle_append, gentle_nil.
  - vm_compute. reflexivity.
  - vm_compute. reflexivity.
Qed.

(* ---- C93: elements ---- *)
Definition C93_statement : Prop := forall l e, element_withSymbol (elements_append l e) (el_symbol e) = Some e.

(* An element appended under a symbol in use is never found. *)
Theorem C93_refuted : ~ C93_statement.
Proof.
  intros H. specialize (H default_elements (mkElem $"H" $"Deuterium" (2014 # 1000000) [])). vm_compute in H. discriminate.
Qed.
Print Assumptions C93_refuted.

Lemma symbol_spec l x : element_withSymbol l x = List.find (fun e => str_eqb (el_symbol e) x) l.
Proof. unfold element_withSymbol. induction l as [|e l IH]; [reflexivity|]. cbn. destruct (str_eqb (el_symbol e) x); auto. Qed.
Lemma name_spec l x : element_withName l x = List.find (fun e => str_eqb (el_name e) x) l.
Proof. unfold element_withName. induction l as [|e l IH]; [reflexivity|]. cbn. destruct (str_eqb (el_name e) x); auto. Qed.
Lemma find_app {A} (f : A -> bool) l m : List.find f (l ++ m) = match List.find f l with Some x => Some x | None => List.find f m end.
Proof. induction l as [|a l IH]; cbn; auto. destruct (f a); auto. Qed.

(* Every other query gives what it gave before, and a new symbol or name gives the new element. *)
Theorem C93_partial : forall l e x,
  element_withSymbol (elements_append l e) x =
    (match element_withSymbol l x with Some o => Some o | None => if str_eqb (el_symbol e) x then Some e else None end) /\
  element_withName (elements_append l e) x =
    (match element_withName l x with Some o => Some o | None => if str_eqb (el_name e) x then Some e else None end) /\
  (forall t, elements_withTag (elements_append l e) t = elements_withTag l t ++ (if contains str_eqb (el_tags e) t then [e] else [])) /\
  (forall ts, elements_withTags (elements_append l e) ts = elements_withTags l ts ++ (if contained str_eqb ts (el_tags e) then [e] else [])).
Proof.
  intros l e x. unfold elements_append, elements_withTag, elements_withTags. rewrite !symbol_spec, !name_spec, !find_app. cbn [List.find].
  repeat split; auto; intros t; rewrite !filter_eq, List.filter_app; cbn [List.filter]; [destruct (contains _ _ _)|destruct (contained _ _ _)]; auto.
Qed.
Print Assumptions C93_partial.

(* The symbols and the names of the built-in table are distinct; five superheavy
   elements have no mass. *)
Definition massless : list str := [$"Nh"; $"Mc"; $"Lv"; $"Ts"; $"Og"].
Theorem C93_builtin : NoDup (map el_symbol default_elements) /\ NoDup (map el_name default_elements) /\
  Forall (fun e => if mem_str (el_symbol e) massless then el_mass e == 0 else 0 < el_mass e)%Q default_elements /\
  (forall e, In e default_elements -> element_withSymbol default_elements (el_symbol e) = Some e /\ element_withName default_elements (el_name e) = Some e).
Proof.
  split; [apply nodupb_ok; vm_compute; reflexivity|]. split; [apply nodupb_ok; vm_compute; reflexivity|]. split.
  - apply Forall_forall. intros e I.
    assert (B : forallb (fun e => if mem_str (el_symbol e) massless then Qeq_bool (el_mass e) 0 else negb (Qle_bool (el_mass e) 0)) default_elements = true)
      by (vm_compute; reflexivity).
    rewrite forallb_forall in B. specialize (B e I). destruct (mem_str (el_symbol e) massless); [apply Qeq_bool_iff; auto|].
    apply negb_true_iff in B. apply Qnot_le_lt. rewrite <- Qle_bool_iff. congruence.
  - intros e I. apply In_nth_error in I as [i I].
    assert (i < 118) by (change 118 with (length default_elements); apply nth_error_Some; congruence).
    assert (N1 : NoDup (map el_symbol default_elements)) by (apply nodupb_ok; vm_compute; reflexivity).
    assert (N2 : NoDup (map el_name default_elements)) by (apply nodupb_ok; vm_compute; reflexivity).
    rewrite symbol_spec, name_spec. clear H. revert i I N1 N2. induction default_elements as [|a l IH]; intros i I N1 N2; [destruct i; discriminate|].
    cbn [List.find]. cbn [map] in N1, N2. apply NoDup_cons_iff in N1 as [X1 N1]. apply NoDup_cons_iff in N2 as [X2 N2].
    destruct i as [|i]; cbn in I.
    + injection I as <-. rewrite !str_eqb_refl. auto.
    + destruct (IH _ I N1 N2) as [E1 E2]. pose proof (nth_error_In _ _ I) as J.
      destruct (str_eqb_spec (el_symbol a) (el_symbol e)) as [X|_]; [exfalso; apply X1; rewrite X; apply in_map; auto|].
      destruct (str_eqb_spec (el_name a) (el_name e)) as [X|_]; [exfalso; apply X2; rewrite X; apply in_map; auto|]. auto.
Qed.
Print Assumptions C93_builtin.

Example C93_nonvacuous : let e := mkElem $"D" $"Deuterium" (2014 # 1000000) [$"isotope"] in
  element_withSymbol default_elements $"D" = None /\ element_withSymbol (elements_append default_elements e) $"D" = Some e /\
  elements_withTag (elements_append default_elements e) $"isotope" = [e].
Proof. vm_compute. auto. Qed.
