(* C48: the mineral model across phase transitions. *)
From Coq Require Import Reals Lra List.
From Coquelicot Require Import Coquelicot.
From Verif Require Import Base M_Thermo S_Thermo S_Mineral C_Thermo.
Local Open Scope R_scope.

(* ---- The table of a mineral ---- *)
Fixpoint zip3 (l m n : list R) : list Transition :=
  match l, m, n with
  | t :: l', v :: m', s :: n' => mkTransition t v s :: zip3 l' m' n'
  | _, _, _ => []
  end.
Definition transitions (p : MineralHKF) : list Transition := zip3 (mi_Ttr p) (mi_Vtr p) (mi_dPdTtr p).
Fixpoint ascending (x : R) (l : list R) : Prop := match l with [] => True | y :: l' => x < y /\ ascending y l' end.
Record WellFormed (p : MineralHKF) : Prop := {
  wf_a : length (mi_a p) = S (mi_ntr p); wf_b : length (mi_b p) = S (mi_ntr p); wf_c : length (mi_c p) = S (mi_ntr p);
  wf_T : length (mi_Ttr p) = mi_ntr p; wf_H : length (mi_Htr p) = mi_ntr p; wf_V : length (mi_Vtr p) = mi_ntr p;
  wf_P : length (mi_dPdTtr p) = mi_ntr p; wf_asc : ascending Tr (mi_Ttr p) }.

Definition C48_statement : Prop :=
  forall p T P, WellFormed p -> 0 < T -> 0 < P -> ~ In T (mi_Ttr p) ->
  exists r, stdMineralHKF p T P = Ok r /\
    DerivesTo (fun T => omap H0 (stdMineralHKF p T P)) T (Cp0 r) /\
    V0 r = mi_Vr p + passedVolume Pr T P (transitions p).

(* ---- Closed forms ---- *)
Definition passed (T : R) (l : list R) : list R := filter (fun t => if Rlt_dec t T then true else false) l.

Lemma skipn_cons_nth : forall {A} (l : list A) k x, nth_error l k = Some x -> skipn k l = x :: skipn (S k) l.
Proof.
  intros A l. induction l as [|y l IH]; intros [|k] x E; simpl in *; try discriminate; [injection E as ->; reflexivity|].
  apply IH; auto.
Qed.

Lemma mapM_at : forall {A} (l : list A) k n, (k + n <= length l)%nat ->
  mapM (at_ l) (seq k n) = Ok (firstn n (skipn k l)).
Proof.
  intros A l k n; revert k. induction n as [|n IH]; intros k Hk; [reflexivity|]. simpl.
  unfold at_ at 1. destruct (nth_error l k) as [x|] eqn:E.
  - simpl. rewrite IH by lia. simpl. f_equal. rewrite (skipn_cons_nth _ _ _ E). reflexivity.
  - apply nth_error_None in E. lia.
Qed.

Lemma mi_points_form : forall p T, length (mi_Ttr p) = mi_ntr p -> mi_points p T = Ok (Tr :: passed T (mi_Ttr p) ++ [T]).
Proof.
  intros p T H. unfold mi_points. rewrite mapM_at by lia. simpl. rewrite <- H, firstn_all. reflexivity.
Qed.

Lemma mi_pressures_none : forall p T, length (mi_dPdTtr p) = mi_ntr p -> (forall s, In s (mi_dPdTtr p) -> s = 0) ->
  mi_pressures p T = Ok [].
Proof.
  intros p T H Hz. unfold mi_pressures. rewrite <- H.
  assert (G : forall n k, (k + n <= length (mi_dPdTtr p))%nat ->
    exists l, mapM (fun i => bind (at_ (mi_dPdTtr p) i) (fun s => if Req_EM_T s 0 then Ok [] else bind (at_ (mi_Ttr p) i) (fun t => Ok [Pr + s * (T - t)]))) (seq k n) = Ok l /\ concat l = []).
  { induction n as [|n IH]; intros k Hk; [exists []; auto|]. simpl. unfold at_ at 1.
    destruct (nth_error (mi_dPdTtr p) k) as [s|] eqn:E; [|apply nth_error_None in E; lia].
    simpl. apply nth_error_In in E. apply Hz in E. subst s. destruct (Req_EM_T 0 0) as [_|]; [|contradiction].
    simpl. destruct (IH (S k)) as (l & El & Ec); [lia|]. rewrite El. simpl. exists ([] :: l). auto. }
  destruct (G (length (mi_dPdTtr p)) 0%nat) as (l & El & Ec); [lia|]. rewrite El. simpl. f_equal. exact Ec.
Qed.

Lemma mi_abc_ok : forall p i, length (mi_a p) = S (mi_ntr p) -> length (mi_b p) = S (mi_ntr p) -> length (mi_c p) = S (mi_ntr p) ->
  (i <= mi_ntr p)%nat -> mi_abc p i = Ok (nth i (mi_a p) 0, nth i (mi_b p) 0, nth i (mi_c p) 0).
Proof.
  intros p i Ha Hb Hc Hi. unfold mi_abc, at_.
  rewrite (nth_error_nth' (mi_a p) 0), (nth_error_nth' (mi_b p) 0), (nth_error_nth' (mi_c p) 0) by lia. reflexivity.
Qed.

Lemma mi_Cp_step : forall p i t0 t1 l T x, mi_Cp p i (t0 :: t1 :: l) T x =
  if Rle_dec t0 T then
    if Rle_dec T t1 then
      bind (mi_abc p i) (fun '(a, b, c) => mi_Cp p (S i) (t1 :: l) T (a + b * T + c / (T * T)))
    else mi_Cp p (S i) (t1 :: l) T x
  else mi_Cp p (S i) (t1 :: l) T x.
Proof. reflexivity. Qed.
Lemma mi_integrals_step : forall p i T0 T1 l CpdT CpdlnT, mi_integrals p i (T0 :: T1 :: l) CpdT CpdlnT =
  bind (mi_abc p i) (fun '(a, b, c) => mi_integrals p (S i) (T1 :: l)
      (CpdT + (a * (T1 - T0) + / 2 * b * (T1 * T1 - T0 * T0) - c * (1 / T1 - 1 / T0)))
      (CpdlnT + (a * ln (T1 / T0) + b * (T1 - T0) - / 2 * c * (1 / (T1 * T1) - 1 / (T0 * T0))))).
Proof. reflexivity. Qed.

Lemma mi_Cp_form : forall p T pts i t0 x,
  length (mi_a p) = S (mi_ntr p) -> length (mi_b p) = S (mi_ntr p) -> length (mi_c p) = S (mi_ntr p) ->
  (i + length pts <= mi_ntr p)%nat -> t0 <= T -> (forall t, In t pts -> t < T) ->
  let k := (i + length pts)%nat in
  mi_Cp p i (t0 :: pts ++ [T]) T x = Ok (nth k (mi_a p) 0 + nth k (mi_b p) 0 * T + nth k (mi_c p) 0 / (T * T)).
Proof.
  intros p T pts. induction pts as [|t pts IH]; intros i t0 x Ha Hb Hc Hi H0 Hp k; cbn [app]; rewrite mi_Cp_step.
  - destruct (Rle_dec t0 T); [|contradiction]. destruct (Rle_dec T T); [|exfalso; apply n; right; reflexivity].
    rewrite mi_abc_ok by (auto; simpl in Hi; lia). simpl. unfold k; simpl. rewrite Nat.add_0_r. reflexivity.
  - destruct (Rle_dec t0 T); [|contradiction]. assert (Ht : t < T) by (apply Hp; left; auto).
    destruct (Rle_dec T t); [lra|].
    simpl in Hi. rewrite IH; auto; try lia; try lra. { unfold k; simpl. rewrite Nat.add_succ_r. reflexivity. }
    intros; apply Hp; right; auto.
Qed.

Lemma mi_integrals_form : forall p pts i t0 x y,
  length (mi_a p) = S (mi_ntr p) -> length (mi_b p) = S (mi_ntr p) -> length (mi_c p) = S (mi_ntr p) ->
  (i + length pts <= mi_ntr p)%nat ->
  let k := (i + length pts)%nat in let a := nth k (mi_a p) 0 in let b := nth k (mi_b p) 0 in let c := nth k (mi_c p) 0 in
  let tm := last pts t0 in
  exists X Y, forall T, mi_integrals p i (t0 :: pts ++ [T]) x y =
    Ok (X + (a * (T - tm) + / 2 * b * (T * T - tm * tm) - c * (1 / T - 1 / tm)),
        Y + (a * ln (T / tm) + b * (T - tm) - / 2 * c * (1 / (T * T) - 1 / (tm * tm)))).
Proof.
  intros p pts. induction pts as [|t pts IH]; intros i t0 x y Ha Hb Hc Hi k a b c tm.
  - exists x, y. intros T. simpl. rewrite mi_abc_ok by (auto; simpl in Hi; lia). simpl.
    unfold a, b, c, k, tm; simpl. rewrite Nat.add_0_r. reflexivity.
  - simpl in Hi.
    match goal with |- context [mi_integrals p i _ x y] =>
      destruct (IH (S i) t
        (x + (nth i (mi_a p) 0 * (t - t0) + / 2 * nth i (mi_b p) 0 * (t * t - t0 * t0) - nth i (mi_c p) 0 * (1 / t - 1 / t0)))
        (y + (nth i (mi_a p) 0 * ln (t / t0) + nth i (mi_b p) 0 * (t - t0) - / 2 * nth i (mi_c p) 0 * (1 / (t * t) - 1 / (t0 * t0)))))
        as (X & Y & F); auto; try lia end.
    exists X, Y. intros T. cbn [app]. rewrite mi_integrals_step, mi_abc_ok by (auto; lia). cbn [bind].
    rewrite F. unfold a, b, c, k, tm. simpl length. rewrite Nat.add_succ_r. simpl.
    replace (match pts with [] => t | _ :: _ => last pts t0 end) with (last pts t); [reflexivity|].
    destruct pts as [|q pts]; [reflexivity|]. clear. revert q. induction pts as [|r pts IH]; intros q; [reflexivity|]. simpl in *. apply IH.
Qed.

Lemma mi_transitions_form : forall p pts i V G H,
  (i + length pts <= length (mi_Htr p))%nat -> (i + length pts <= length (mi_Vtr p))%nat -> (forall t, In t pts -> 0 < t) ->
  exists dS dH, forall T, mi_transitions p i pts T V G H = Ok (V + sumR (firstn (length pts) (skipn i (mi_Vtr p))), G + (T * dS - dH), H + dH).
Proof.
  assert (sum_cons : forall l x, fold_left Rplus l x = x + sumR l).
  { intros l. induction l as [|y l IH]; intros x; simpl; [unfold sumR; simpl; ring|].
    unfold sumR; simpl. rewrite (IH (x + y)), (IH (0 + y)). ring. }
  intros p pts. induction pts as [|t pts IH]; intros i V G H Lh Lv Hp.
  - exists 0, 0. intros T. simpl. unfold sumR; simpl. do 2 f_equal; [f_equal|]; ring.
  - simpl in Lh, Lv.
    destruct (nth_error (mi_Htr p) i) as [h|] eqn:Eh; [|apply nth_error_None in Eh; lia].
    destruct (nth_error (mi_Vtr p) i) as [v|] eqn:Ev; [|apply nth_error_None in Ev; lia].
    assert (Ht : 0 < t) by (apply Hp; left; auto).
    destruct (IH (S i) (V + v) 0 0) as (dS & dH & F); try lia. { intros; apply Hp; right; auto. }
    assert (lin : forall pts i T V G H o, mi_transitions p i pts T V 0 0 = Ok o -> mi_transitions p i pts T V G H = Ok (fst (fst o), G + snd (fst o), H + snd o)).
    { clear. assert (gen : forall pts i T V g h G H o, mi_transitions p i pts T V g h = Ok o ->
        mi_transitions p i pts T V (G + g) (H + h) = Ok (fst (fst o), G + snd (fst o), H + snd o)).
      { induction pts as [|t pts IH]; intros i T V g h G H o; simpl.
        - intros E. injection E as <-. reflexivity.
        - destruct (at_ (mi_Htr p) i) as [a| |]; simpl; try discriminate. destruct (at_ (mi_Vtr p) i) as [b| |]; simpl; try discriminate.
          intros E. apply IH with (G := G) (H := H) in E. rewrite !Rplus_assoc. exact E. }
      intros pts i T V G H o E. apply gen with (G := G) (H := H) in E. rewrite !Rplus_0_r in E. exact E. }
    exists (h / t + dS), (h + dH). intros T. simpl. unfold at_ at 1 2. rewrite Eh, Ev. cbn [bind].
    rewrite (lin _ _ _ _ _ _ _ (F T)). cbn [fst snd].
    assert (Es : skipn i (mi_Vtr p) = v :: skipn (S i) (mi_Vtr p)). apply skipn_cons_nth; auto.
    rewrite Es. cbn [firstn length]. unfold sumR at 2; cbn [fold_left]. rewrite sum_cons.
    f_equal. f_equal; [f_equal|]; try (field; lra); ring.
Qed.

Lemma passed_locally : forall T l, ~ In T l -> locally T (fun t : R => passed t l = passed T l).
Proof.
  intros T l. induction l as [|x l IH]; intros H; [apply filter_forall; reflexivity|].
  assert (Hx : x <> T) by (intro; apply H; left; auto).
  assert (Hl : ~ In T l) by (intro; apply H; right; auto).
  specialize (IH Hl).
  assert (L : locally T (fun t : R => (if Rlt_dec x t then true else false) = (if Rlt_dec x T then true else false))).
  { destruct (Rlt_dec x T) as [L|L].
    - apply (locally_interval _ T x p_infty); [exact L|exact I|]. intros y Hy _. simpl in Hy. destruct (Rlt_dec x y); [auto|contradiction].
    - apply (locally_interval _ T m_infty x); [exact I|simpl; lra|]. intros y _ Hy. simpl in Hy. destruct (Rlt_dec x y); [lra|auto]. }
  generalize (filter_and _ _ IH L). apply filter_imp. intros t [E1 E2]. unfold passed in *. simpl. rewrite E2.
  destruct (Rlt_dec x T); rewrite E1; reflexivity.
Qed.

Lemma passed_below : forall T l t, In t (passed T l) -> In t l /\ t < T.
Proof. intros T l t H. apply filter_In in H as [H E]. destruct (Rlt_dec t T); [auto|discriminate]. Qed.

Lemma passed_length : forall T l, (length (passed T l) <= length l)%nat.
Proof. intros T l. unfold passed. induction l as [|x l IH]; simpl; auto. destruct (Rlt_dec x T); simpl; lia. Qed.

Lemma ascending_lt : forall l x t, ascending x l -> In t l -> x < t.
Proof.
  induction l as [|y l IH]; intros x t H I; [destruct I|]. destruct H as [H1 H2]. destruct I as [->|I]; auto.
  apply (IH y) in I; auto. lra.
Qed.

Lemma sumR_cons : forall x l, sumR (x :: l) = x + sumR l.
Proof.
  intros x l. unfold sumR; simpl. rewrite Rplus_0_l.
  assert (G : forall l x, fold_left Rplus l x = x + fold_left Rplus l 0).
  { induction l0 as [|y l0 IH]; intros z; simpl; [ring|]. rewrite (IH (z + y)), (IH (0 + y)). ring. }
  apply G.
Qed.

Lemma passedVolume_firstn : forall P T x ts vs ss, ascending x ts -> length vs = length ts -> length ss = length ts ->
  (forall s, In s ss -> s = 0) ->
  passedVolume Pr T P (zip3 ts vs ss) = sumR (firstn (length (passed T ts)) vs).
Proof.
  intros P T x ts. revert x. induction ts as [|t ts IH]; intros x vs ss Ha Lv Ls Hz.
  - destruct vs; [|discriminate]. unfold sumR. reflexivity.
  - destruct vs as [|v vs]; [discriminate|]. destruct ss as [|s ss]; [discriminate|]. destruct Ha as [Hx Ha]. simpl.
    assert (s = 0) by (apply Hz; left; auto). subst s.
    unfold boundary; simpl. destruct (Req_EM_T 0 0) as [_|]; [|contradiction].
    rewrite (IH t) by (auto; intros; apply Hz; right; auto).
    destruct (Rlt_dec t T) as [L|L].
    + simpl. rewrite sumR_cons. reflexivity.
    + assert (E : passed T ts = []).
      { clear -Ha L. unfold passed. destruct (filter _ ts) as [|u l] eqn:E; auto. exfalso.
        assert (I : In u (u :: l)) by (left; auto). rewrite <- E in I. apply passed_below in I as [I J].
        apply (ascending_lt _ _ _ Ha) in I. lra. }
      unfold passed in E. fold (passed T ts). unfold passed. rewrite E. simpl. unfold sumR; simpl. ring.
Qed.

(* Transitions at boundaries that do not depend on pressure, above the reference
   temperature: heat capacity, volume, entropy and Gibbs energy agree. *)
Theorem C48_partial : forall p T P, WellFormed p -> Tr <= T -> ~ In T (mi_Ttr p) -> (forall s, In s (mi_dPdTtr p) -> s = 0) ->
  exists r S, stdMineralHKF p T P = Ok r /\
    DerivesTo (fun T => omap H0 (stdMineralHKF p T P)) T (Cp0 r) /\
    V0 r = mi_Vr p + passedVolume Pr T P (transitions p) /\
    DerivesTo (fun T => omap G0 (stdMineralHKF p T P)) T (- S T) /\
    is_derive S T (Cp0 r / T) /\
    DerivesTo (fun P => omap G0 (stdMineralHKF p T P)) P (V0 r).
Proof.
  intros p T P [Ha Hb Hc HT HH HV HP Hasc] HTr Hin Hz. pose proof Tr_pos as Tr0.
  set (pts := passed T (mi_Ttr p)).
  assert (Lp : (length pts <= mi_ntr p)%nat) by (unfold pts; rewrite <- HT; apply passed_length).
  assert (Hpt : forall t, In t pts -> 0 < t < T).
  { intros t I. apply passed_below in I as [I J]. apply (ascending_lt _ _ _ Hasc) in I. lra. }
  destruct (mi_integrals_form p pts 0 Tr 0 0) as (X & Y & FI); auto.
  destruct (mi_transitions_form p pts 0 (mi_Vr p) 0 0) as (dS & dH & FT); try lia. { intros t I; apply Hpt in I; lra. }
  set (k := (0 + length pts)%nat) in *. set (a := nth k (mi_a p) 0) in *. set (b := nth k (mi_b p) 0) in *. set (c := nth k (mi_c p) 0) in *.
  set (tm := List.last pts Tr) in *. set (V := mi_Vr p + sumR (firstn (length pts) (skipn 0 (mi_Vtr p)))) in *.
  assert (Htl : 0 < tm).
  { unfold tm. destruct pts as [|q pts'] eqn:E; [simpl; auto|]. rewrite <- E in *.
    assert (I : In (List.last pts Tr) pts). { rewrite E. clear. revert q. induction pts' as [|r l IH]; intros q; [left; auto|]. right. apply (IH r). }
    apply Hpt in I. lra. }
  set (gG := fun T P => mi_Gf p - mi_Sr p * (T - Tr) + (X + (a * (T - tm) + / 2 * b * (T * T - tm * tm) - c * (1 / T - 1 / tm)))
     - T * (Y + (a * ln (T / tm) + b * (T - tm) - / 2 * c * (1 / (T * T) - 1 / (tm * tm)))) + V * (P - Pr) - (0 + (T * dS - dH))).
  set (gH := fun T P => mi_Hf p + (X + (a * (T - tm) + / 2 * b * (T * T - tm * tm) - c * (1 / T - 1 / tm))) + V * (P - Pr) + (0 + dH)).
  assert (F : forall t P, Tr <= t -> passed t (mi_Ttr p) = pts ->
     stdMineralHKF p t P = Ok (mkStdProps (gG t P) (gH t P) V (a + b * t + c / (t * t)) (a + b * t + c / (t * t)))).
  { intros t Q Ht Ep. unfold stdMineralHKF. rewrite mi_points_form by auto. rewrite mi_pressures_none by auto. cbn [bind].
    rewrite Ep. rewrite (mi_Cp_form p t pts 0 Tr 0); auto.
    2:{ intros u I. rewrite <- Ep in I. apply passed_below in I. lra. }
    cbn [bind]. rewrite FI. cbn [bind List.tl]. rewrite removelast_last. rewrite FT. cbn [bind mi_VdP]. reflexivity. }
  assert (HTpos : 0 < T) by lra. assert (HTn : T <> 0) by lra. assert (Htmn : tm <> 0) by lra.
  assert (Hq : 0 < T / tm) by (apply Rdiv_lt_0_compat; auto). assert (HTT : T * T <> 0) by (nz; auto).
  exists (mkStdProps (gG T P) (gH T P) V (a + b * T + c / (T * T)) (a + b * T + c / (T * T))).
  exists (fun T => mi_Sr p + (Y + (a * ln (T / tm) + b * (T - tm) - / 2 * c * (1 / (T * T) - 1 / (tm * tm)))) + dS).
  (* the closed form also holds below Tr, apart from the heat capacity *)
  assert (F2 : forall t P, passed t (mi_Ttr p) = pts -> (exists Cp, mi_Cp p 0 (Tr :: pts ++ [t]) t 0 = Ok Cp) ->
     omap G0 (stdMineralHKF p t P) = Ok (gG t P) /\ omap H0 (stdMineralHKF p t P) = Ok (gH t P)).
  { intros t Q Ep [Cp ECp]. unfold stdMineralHKF. rewrite mi_points_form by auto. rewrite mi_pressures_none by auto. cbn [bind].
    rewrite Ep. rewrite ECp. cbn [bind]. rewrite FI. cbn [bind List.tl]. rewrite removelast_last. rewrite FT. cbn [bind mi_VdP]. split; reflexivity. }
  assert (Fcp : forall t q i t0 x, (i + length q <= mi_ntr p)%nat -> exists Cp, mi_Cp p i (t0 :: q ++ [t]) t x = Ok Cp).
  { intros t q. induction q as [|u q IH]; intros i t0 x Hi; cbn [app length] in *; rewrite mi_Cp_step.
    - rewrite mi_abc_ok by (auto; lia). cbn [bind]. destruct (Rle_dec t0 t), (Rle_dec t t); eexists; reflexivity.
    - rewrite mi_abc_ok by (auto; lia). cbn [bind].
      destruct (Rle_dec t0 t), (Rle_dec t u); apply IH; lia. }
  assert (L : forall Q, locally T (fun t : R => omap G0 (stdMineralHKF p t Q) = Ok (gG t Q) /\ omap H0 (stdMineralHKF p t Q) = Ok (gH t Q))).
  { intros Q. generalize (passed_locally T (mi_Ttr p) Hin). apply filter_imp. intros t E. apply F2; auto. }
  split; [apply F; auto|]. split; [|split; [|split; [|split]]].
  - exists (fun t => gH t P). split; [generalize (L P); apply filter_imp; tauto|]. unfold gH; cbn [Cp0].
    auto_derive; [auto|]. field; auto.
  - cbn [V0]. unfold V, transitions. f_equal. rewrite (passedVolume_firstn P T Tr); auto; try congruence.
  - exists (fun t => gG t P). split; [generalize (L P); apply filter_imp; tauto|]. unfold gG.
    auto_derive; [repeat split; auto|]. change (T * / tm) with (T / tm). generalize (ln (T / tm)). intros. field; auto.
  - cbn [Cp0]. auto_derive; [repeat split; auto|]. field; auto.
  - exists (fun P => gG T P). split; [apply filter_forall; intros Q; apply F2; auto|]. unfold gG; cbn [V0]. auto_derive; [exact I|ring].
Qed.
Print Assumptions C48_partial.

(* ---- The findings ---- *)
Definition plain : MineralHKF := mkMin 0 0 0 1 0 [10] [0] [0] [] [] [] [].

(* Below 298.15 K the returned heat capacity is zero, whatever the enthalpy does. *)
Theorem C48_refuted : ~ C48_statement.
Proof.
  intros H. destruct (H plain 290 100000) as (r & Er & (g & Lg & Dg) & _).
  - constructor; reflexivity.
  - lra.
  - lra.
  - auto.
  - assert (F : forall t, t < Tr -> stdMineralHKF plain t 100000 =
      Ok (mkStdProps (0 - 0 * (t - Tr) + (0 + (10 * (t - Tr) + / 2 * 0 * (t * t - Tr * Tr) - 0 * (1 / t - 1 / Tr))) -
          t * (0 + (10 * ln (t / Tr) + 0 * (t - Tr) - / 2 * 0 * (1 / (t * t) - 1 / (Tr * Tr)))) + 1 * (100000 - Pr) - 0)
        (0 + (0 + (10 * (t - Tr) + / 2 * 0 * (t * t - Tr * Tr) - 0 * (1 / t - 1 / Tr))) + 1 * (100000 - Pr) + 0) 1 0 0)).
    { intros t Ht. unfold stdMineralHKF. cbn -[Rle_dec]. destruct (Rle_dec Tr t); [lra|]. reflexivity. }
    assert (H290 : 290 < Tr) by (unfold Tr; lra).
    rewrite F in Er by auto. injection Er as <-. cbn [Cp0] in Dg.
    assert (Dg2 : is_derive g 290 10).
    { apply (derive_ext_locally (fun t => 10 * (t - Tr) + (100000 - Pr))).
      - apply (filter_imp (fun t : R => t < Tr /\ omap H0 (stdMineralHKF plain t 100000) = Ok (g t))).
        + intros t [Ht E]. rewrite F in E by auto. cbn in E. injection E as E. change (@eq R (10 * (t - Tr) + (100000 - Pr)) (g t)). rewrite <- E. unfold Rdiv. ring.
        + apply filter_and; [|exact Lg]. apply (locally_interval _ 290 m_infty Tr); [exact I|exact H290|]. intros y _ Hy. exact Hy.
      - auto_derive; [exact I|ring]. }
    apply is_derive_unique in Dg. apply is_derive_unique in Dg2. rewrite Dg in Dg2. lra.
Qed.
Print Assumptions C48_refuted.

(* Just below a transition whose boundary rises with pressure, the volume change
   is subtracted though it was never added, already at the reference pressure. *)
Definition quartz : MineralHKF := mkMin 0 0 0 22 1 [10; 10] [0; 0] [0; 0] [848] [0] [1] [3850000].
Theorem C48_volume_refuted : exists p T P r, WellFormed p /\ Tr <= T /\ 0 < P /\ ~ In T (mi_Ttr p) /\ Cp0 r > 0 /\
  stdMineralHKF p T P = Ok r /\ V0 r = mi_Vr p - 1 /\ passedVolume Pr T P (transitions p) = 0.
Proof.
  exists quartz, (84799 / 100), Pr. eexists. split; [constructor; simpl; unfold Tr; auto; lra|].
  split; [unfold Tr; lra|]. split; [unfold Pr; lra|]. split; [simpl; intros [E|[]]; lra|].
  unfold stdMineralHKF. cbn -[Rle_dec Rlt_dec Req_EM_T].
  destruct (Rlt_dec 848 (84799 / 100)); [lra|]. cbn -[Rle_dec Rlt_dec Req_EM_T].
  assert (Ep : mi_pressures quartz (84799 / 100) = Ok [Pr + 3850000 * (84799 / 100 - 848)]).
  { unfold mi_pressures; simpl. destruct (Req_EM_T 3850000 0); [lra|reflexivity]. }
  rewrite Ep. cbn -[Rle_dec Rlt_dec].
  destruct (Rle_dec Tr (84799 / 100)) as [|N]; [|exfalso; apply N; unfold Tr; lra].
  destruct (Rle_dec (84799 / 100) (84799 / 100)) as [|N]; [|exfalso; apply N; lra].
  cbn -[Rle_dec Rlt_dec]. match goal with |- context [Rlt_dec 0 ?x] => destruct (Rlt_dec 0 x) as [|N]; [|exfalso; apply N; unfold Pr; lra] end.
  match goal with |- context [Rlt_dec ?x Pr] => destruct (Rlt_dec x Pr) as [|N]; [|exfalso; apply N; unfold Pr; lra] end. cbn -[Rle_dec Rlt_dec].
  split; [|split; [reflexivity|split; [reflexivity|]]]. { simpl. lra. }
  unfold boundary; simpl. destruct (Req_EM_T 3850000 0); [lra|]. match goal with |- context [Rlt_dec ?x ?y] => destruct (Rlt_dec x y) as [L|]; [|ring] end.
  exfalso. replace ((Pr - Pr) / 3850000) with 0 in L by (field). lra.
Qed.
Print Assumptions C48_volume_refuted.

Example C48_nonvacuous : exists p, WellFormed p /\ Tr <= 900 /\ ~ In 900 (mi_Ttr p) /\ (forall s, In s (mi_dPdTtr p) -> s = 0) /\
  passedVolume Pr 900 Pr (transitions p) = 3 /\ mi_ntr p = 2%nat.
Proof.
  exists (mkMin 0 0 5 22 2 [10; 11; 12] [1; 2; 3] [0; 0; 0] [800; 1000] [50; 60] [3; 4] [0; 0]).
  split; [constructor; simpl; unfold Tr; auto; lra|]. split; [unfold Tr; lra|]. split; [simpl; lra|].
  split; [simpl; intros s [<-|[<-|[]]]; auto|]. split; [|reflexivity].
  simpl. unfold boundary; simpl. destruct (Req_EM_T 0 0); [|contradiction].
  destruct (Rlt_dec 800 900); [|lra]. destruct (Rlt_dec 1000 900); lra.
Qed.
