(* Temperature and pressure getters, restoration of parameters, columns of the
   Jacobian, and the linear algebra of predictions and sensitivities. *)
From Verif Require Import Base S_System S_State S_Chem M_Strings M_Formula M_Chem M_Algorithms M_System M_Units M_State M_Specs M_Setup
  S_Equilibrium P_Algorithms P_System P_State P_State2 P_State3 P_Props P_Specs P_Specs2 P_Conditions P_Setup P_Setup2.

Section TP.
Variable s : Specs.
Hypothesis F : flags s.
Hypothesis D : NoDup (q_inputs s).
Lemma index_unique i nm : nth_error (q_inputs s) i = Some nm -> M_Algorithms.index str_eqb (q_inputs s) nm = i.
Proof.
  intro N. assert (I : In nm (q_inputs s)) by (eapply nth_error_In; eauto). destruct (index_at _ _ I) as [((x & E & ->) & _) L].
  apply (proj1 (NoDup_nth_error _) D); auto. congruence.
Qed.
Lemma TP_inputs nm i : nth_error (q_inputs s) i = Some nm -> forall p w, getter nm s p w = read w i.
Proof.
  intros N p w. unfold getter. rewrite (index_unique _ _ N). unfold numInputs. assert (i < length (q_inputs s)) by (apply nth_error_Some; congruence).
  destruct (Nat.ltb_spec i (length (q_inputs s))); [reflexivity|lia].
Qed.
Lemma getT_unknown p w : q_unknownT s = true -> getT s p w = read p 0.
Proof.
  intro U. assert (N : ~ In $"T" (q_inputs s)) by (intro I; apply F in I; congruence).
  unfold getT, getter, numInputs. rewrite index_notin by auto. f_equal. unfold namesControlVariables, namesControlVariablesP, concatenate. rewrite U. apply index_head.
Qed.
Lemma getP_unknown p w : q_unknownP s = true -> getP s p w = read p (b2n (q_unknownT s)).
Proof.
  intro U. assert (N : ~ In $"P" (q_inputs s)) by (intro I; apply F in I; congruence).
  unfold getP, getter, numInputs. rewrite index_notin by auto. f_equal. unfold namesControlVariables, namesControlVariablesP, concatenate. rewrite U.
  destruct (q_unknownT s); cbn [app b2n]; [rewrite index_next by discriminate; f_equal|]; apply index_head.
Qed.
Lemma predT_same p w : predT (q_inputs s) p w = getT s p w.
Proof.
  destruct (q_unknownT s) eqn:U.
  - rewrite getT_unknown by auto. unfold predT. rewrite index_notin; auto. intro I. apply F in I. congruence.
  - assert (I : In $"T" (q_inputs s)) by (apply F; auto). unfold predT, getT, getter, numInputs. rewrite index_in; auto.
Qed.
Lemma predP_same p w : predP (q_inputs s) p w = getP s p w.
Proof.
  destruct (q_unknownP s) eqn:U.
  - rewrite getP_unknown by auto. unfold predP. rewrite index_notin by (intro I; apply F in I; congruence).
    destruct (q_unknownT s) eqn:UT; cbn [b2n].
    + rewrite index_notin; auto. intro I. apply F in I. congruence. + rewrite index_in; auto. apply F. auto.
  - assert (I : In $"P" (q_inputs s)) by (apply F; auto). unfold predP, getP, getter, numInputs. rewrite index_in; auto.
Qed.
End TP.

(* ---- Parameters ---- *)
Lemma write_all_spec params : forall c vs c', write_all c params vs = Ok c' -> forall j (P : Q -> Prop),
  (forall k p v, nth_error params k = Some p -> nth_error vs k = Some v -> pa_cell p = j -> P v) ->
  P (c' j) \/ ((forall p, In p params -> pa_cell p <> j) /\ c' j = c j).
Proof.
  induction params as [|p params IH]; intros c vs c' H j P K; cbn [write_all] in H.
  - injection H as <-. right. split; auto.
  - destruct vs as [|v vs]; [discriminate|]. destruct (IH _ _ _ H j P) as [Pj|[N E]]; auto.
    { intros k q w Hq Hw. apply (K (S k)); auto. }
    unfold write in E. destruct (Nat.eqb_spec j (pa_cell p)) as [->|NE].
    + left. rewrite E. apply (K 0 p v); auto.
    + right. split; auto. intros q [<-|I]; auto.
Qed.
Lemma write_all_length params : forall c vs, length params <= length vs -> exists c', write_all c params vs = Ok c'.
Proof.
  induction params as [|p params IH]; intros c vs L; cbn [write_all]; eauto. destruct vs as [|v vs]; cbn in L; [lia|]. apply IH. lia.
Qed.
Lemma restored {A} (ev : store -> Q -> Q -> list Q -> outcome A) s n p w cells a cells' :
  props_evaluated ev s n p w cells = (Ok a, cells') -> forall j, cells' j = cells j.
Proof.
  unfold props_evaluated. destruct (getT s p w) as [T| |]; try discriminate. destruct (getP s p w) as [P| |]; try discriminate.
  destruct (mapM (read w) (q_idxs s)) as [vs| |]; cbn [bind]; try discriminate.
  destruct (write_all cells (q_params s) vs) as [c1| |] eqn:W1; try discriminate.
  destruct (ev c1 T P n); try discriminate.
  destruct (write_all c1 (q_params s) _) as [c2| |] eqn:W2; try discriminate. intro H. injection H as _ <-. intro j.
  destruct (write_all_spec _ _ _ _ W2 j (fun x => x = cells j)) as [E|[N E]]; auto.
  - intros k q v Hq Hv <-. rewrite nth_error_map, Hq in Hv. cbn in Hv. congruence.
  - rewrite E. destruct (write_all_spec _ _ _ _ W1 j (fun _ => False)) as [[]|[_ E1]]; auto.
    intros k q v Hq _ C. apply (N q); auto. eapply nth_error_In; eauto.
Qed.

(* ---- Seeds ---- *)
Lemma seeded_lt l : seeded l < length l <-> exists g, In g l /\ (g == 1)%Q.
Proof. unfold seeded. rewrite indexfn_lt. split; intros (g & I & E); exists g; (split; [auto|apply Qeq_bool_iff; auto]). Qed.
Lemma seeded_at l i : Seeded l i -> seeded l = i.
Proof.
  intros ((g & N & E) & O). unfold seeded.
  destruct (indexfn_split l (fun g => Qeq_bool g 1)) as [(a & z & b & -> & P & K & I)|[K I]]; rewrite I.
  - destruct (Nat.eq_dec (length a) i) as [|D]; auto. exfalso. apply Qeq_bool_iff in P.
    assert (Z : (z == 0)%Q) by (apply (O (length a)); auto; rewrite nth_error_app2, Nat.sub_diag by lia; reflexivity). rewrite Z in P. discriminate.
  - exfalso. apply nth_error_In in N. apply K in N. apply Qeq_bool_iff in E. congruence.
Qed.
Lemma unseeded_not l : Unseeded l -> length l <= seeded l.
Proof.
  intro U. destruct (Nat.lt_ge_cases (seeded l) (length l)) as [L|L]; auto. apply seeded_lt in L as (g & I & E).
  unfold Unseeded in U. rewrite Forall_forall in U. apply U in I. rewrite I in E. discriminate.
Qed.
Lemma Seeded_app a b i : Seeded (a ++ b) i -> (i < length a /\ Seeded a i) \/ (length a <= i /\ Unseeded a /\ Seeded b (i - length a)).
Proof.
  intros ((g & N & E) & O). destruct (Nat.lt_ge_cases i (length a)) as [L|L].
  - left. split; auto. rewrite nth_error_app1 in N by auto. split; eauto. intros j h D H. apply (O j); auto. rewrite nth_error_app1; auto.
    apply nth_error_Some. congruence.
  - right. rewrite nth_error_app2 in N by auto. repeat split; eauto.
    + apply Forall_forall. intros h I. apply In_nth_error in I as (j & H). assert (j < length a) by (apply nth_error_Some; congruence).
      apply (O j); [lia|]. rewrite nth_error_app1; auto.
    + intros j h D H. apply (O (length a + j)); [lia|]. rewrite nth_error_app2 by lia. replace (length a + j - length a) with j by lia. auto.
Qed.
Lemma Unseeded_app a b : Unseeded (a ++ b) <-> Unseeded a /\ Unseeded b.
Proof. apply Forall_app. Qed.
Lemma seeded_index gn gp gw i : Seeded (gn ++ gp ++ gw) i -> indexOfSeededVariable gn gp gw = i.
Proof.
  intro H. unfold indexOfSeededVariable. apply Seeded_app in H as [[L S]|(L & U & S)].
  - rewrite (seeded_at _ _ S). destruct (Nat.ltb_spec i (length gn)); lia.
  - apply unseeded_not in U. destruct (Nat.ltb_spec (seeded gn) (length gn)); [lia|]. apply Seeded_app in S as [[L2 S]|(L2 & U2 & S)].
    + rewrite (seeded_at _ _ S). destruct (Nat.ltb_spec (i - length gn) (length gp)); lia.
    + apply unseeded_not in U2. destruct (Nat.ltb_spec (seeded gp) (length gp)); [lia|]. rewrite (seeded_at _ _ S). lia.
Qed.
Lemma unseeded_index gn gp gw : Unseeded (gn ++ gp ++ gw) -> length (gn ++ gp ++ gw) <= indexOfSeededVariable gn gp gw.
Proof.
  intro H. apply Unseeded_app in H as [U1 U]. apply Unseeded_app in U as [U2 U3]. apply unseeded_not in U1. apply unseeded_not in U2. apply unseeded_not in U3.
  unfold indexOfSeededVariable. destruct (Nat.ltb_spec (seeded gn) (length gn)); [lia|]. destruct (Nat.ltb_spec (seeded gp) (length gp)); [lia|].
  rewrite !app_length. lia.
Qed.

(* One evaluation while derivatives are collected. *)
Record Evaluation := mkEv { ev_n : list Q; ev_p : list Q; ev_w : list Q; ev_du : list Q }.
Definition grads (e : Evaluation) := ev_n e ++ ev_p e ++ ev_w e.
Definition sized (nn np nw : nat) (e : Evaluation) := length (ev_n e) = nn /\ length (ev_p e) = np /\ length (ev_w e) = nw.
Definition one_seed (e : Evaluation) := Unseeded (grads e) \/ exists i, Seeded (grads e) i.
Definition collect nn np nw (J : Jacobian) (l : list Evaluation) : Jacobian :=
  fold_left (fun J e => record_column nn np nw J (ev_n e) (ev_p e) (ev_w e) (ev_du e)) l J.
Lemma Seeded_lt l i : Seeded l i -> i < length l.
Proof. intros ((g & N & _) & _). apply nth_error_Some. congruence. Qed.
Lemma Seeded_not l i : Seeded l i -> ~ Unseeded l.
Proof.
  intros ((g & N & E) & _) U. unfold Unseeded in U. rewrite Forall_forall in U. apply nth_error_In in N. apply U in N. rewrite N in E. discriminate.
Qed.
Lemma Seeded_fun l i j : Seeded l i -> Seeded l j -> i = j.
Proof. intros H K. rewrite <- (seeded_at _ _ H). apply seeded_at. auto. Qed.
Lemma sized_grads nn np nw e : sized nn np nw e -> length (grads e) = nn + np + nw.
Proof. intros (A & B & C). unfold grads. rewrite !app_length. lia. Qed.

Lemma collect_spec nn np nw l : Forall (sized nn np nw) l -> Forall one_seed l -> forall J : Jacobian,
  (forall i e a b, l = a ++ e :: b -> Seeded (grads e) i -> (forall x, In x b -> ~ Seeded (grads x) i) ->
     length (collect nn np nw J l) = nn + np + nw /\ nth_error (collect nn np nw J l) i = Some (Some (ev_du e))).
Proof.
  intros S O J i e a b -> Se N. unfold collect. rewrite fold_left_app. cbn [fold_left].
  set (J1 := fold_left _ a J). apply Forall_app in S as [_ S]. apply Forall_app in O as [_ O]. inversion S as [|? ? S1 S2]; subst. inversion O as [|? ? _ O2]; subst.
  assert (L : i < nn + np + nw) by (rewrite <- (sized_grads _ _ _ _ S1); apply Seeded_lt; auto).
  assert (B : length (record_column nn np nw J1 (ev_n e) (ev_p e) (ev_w e) (ev_du e)) = nn + np + nw /\
              nth_error (record_column nn np nw J1 (ev_n e) (ev_p e) (ev_w e) (ev_du e)) i = Some (Some (ev_du e))).
  { unfold record_column. rewrite (seeded_index _ _ _ _ Se). destruct (Nat.ltb_spec i (nn + np + nw)); [|lia].
    match goal with |- context [upd ?X _ _] => set (J2 := X) end. assert (L2 : length J2 = nn + np + nw).
    { unfold J2. destruct (Nat.eqb_spec (length J1) (nn + np + nw)); auto. apply repeat_length. }
    rewrite upd_length. split; auto. rewrite upd_nth, Nat.eqb_refl, L2. destruct (Nat.ltb_spec i (nn + np + nw)); [reflexivity|lia]. }
  revert B. generalize (record_column nn np nw J1 (ev_n e) (ev_p e) (ev_w e) (ev_du e)). clear J1 J S S1 Se O a.
  induction b as [|x b IH]; intros K [L1 N1]; cbn [fold_left]; auto. inversion S2 as [|? ? Sx S3]; subst. inversion O2 as [|? ? Ox O3]; subst.
  apply IH; auto. { intros y I. apply N. right. auto. }
  unfold record_column. destruct Ox as [U|(j & Sj)].
  - assert (H := unseeded_index _ _ _ U). fold (grads x) in H. rewrite (sized_grads _ _ _ _ Sx) in H.
    destruct (Nat.ltb_spec (indexOfSeededVariable (ev_n x) (ev_p x) (ev_w x)) (nn + np + nw)); [lia|auto].
  - rewrite (seeded_index _ _ _ _ Sj). assert (j < nn + np + nw) by (rewrite <- (sized_grads _ _ _ _ Sx); apply Seeded_lt; auto).
    destruct (Nat.ltb_spec j (nn + np + nw)); [|lia]. rewrite L1, Nat.eqb_refl, upd_length. split; auto. rewrite upd_nth.
    destruct (Nat.eqb_spec i j) as [->|]; [|auto]. exfalso. apply (N x); [left; reflexivity|auto].
Qed.
Lemma dud_columns nn np nw (J : Jacobian) : length J = nn + np + nw ->
  (forall j, j < nn -> nth_error (dudn nn np nw J) j = nth_error J j) /\
  (forall j, j < np -> nth_error (dudp nn np nw J) j = nth_error J (nn + j)) /\
  (forall j, j < nw -> nth_error (dudw nn np nw J) j = nth_error J (nn + np + j)) /\
  length (dudn nn np nw J) = nn /\ length (dudp nn np nw J) = np /\ length (dudw nn np nw J) = nw.
Proof.
  intro L. unfold dudn, dudp, dudw. repeat split.
  - intros j H. rewrite segment_nth. destruct (Nat.ltb_spec j nn); [reflexivity|lia].
  - intros j H. rewrite segment_nth. destruct (Nat.ltb_spec j np); [reflexivity|lia].
  - intros j H. rewrite L. replace (nn + np + nw - nw) with (nn + np) by lia.
    rewrite <- (firstn_skipn (nn + np) J) at 2. rewrite nth_error_app2 by (rewrite firstn_length; lia). f_equal. rewrite firstn_length. lia.
  - apply segment_length. lia. - apply segment_length. lia. - rewrite skipn_length. lia.
Qed.
