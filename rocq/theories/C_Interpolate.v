(* C141: interpolation of functions of temperature and pressure. *)
From Coq Require Import Lqa.
From Verif Require Import Base M_State M_Math S_Math P_Linear P_Interp P_HkfTables M_Interpolate C_Math.
Local Open Scope nat_scope.

(* ---- Specification ---- *)
(* Strictly increasing axes of two points or more. *)
Definition Axis (l : list Q) : Prop := Increasing l /\ 2 <= length l.
Definition covers (Ts Ps : list Q) (T P : Q) : Prop := InRange Ts T /\ InRange Ps P.
(* The refusal of data that do not fit the axes. *)
Definition C141_sizes : Prop := forall Ts Ps zs T P, Axis Ts -> Axis Ps -> length zs <> length Ts * length Ps -> interpolateData Ts Ps zs T P = Err.
(* The refusal of points out of range, for any number of functions. *)
Definition C141_range : Prop := forall Ts Ps fs res calls T P, Axis Ts -> Axis Ps -> length res = length fs -> ~ covers Ts Ps T P -> interpolateFns Ts Ps fs res calls T P = Err.
Definition C141_statement : Prop := C141_sizes /\ C141_range.

(* ---- Proofs ---- *)
Lemma reg Ts Ps f : Axis Ts -> Axis Ps -> regular (gridOf Ts Ps f).
Proof. intros [IT LT] [IP LP]. split; [exact IT|]. split; [exact IP|]. split; [exact LT|]. split; [exact LP|]. apply gridOf_length. Qed.
Lemma upd_length {A} (l : list A) i a : length (upd l i a) = length l.
Proof.
  unfold upd. destruct (skipn i l) as [|x r] eqn:E; [reflexivity|]. rewrite app_length. cbn [length]. rewrite <- (firstn_skipn i l) at 2. rewrite app_length, E. reflexivity.
Qed.
Lemma upd_app {A} (a : list A) x b v : upd (a ++ x :: b) (length a) v = a ++ v :: b.
Proof.
  unfold upd. rewrite skipn_app, skipn_all, Nat.sub_diag. cbn [skipn app]. rewrite firstn_app, firstn_all, Nat.sub_diag. cbn [firstn]. rewrite app_nil_r. reflexivity.
Qed.
Lemma fill_length T P gs : forall i res, length (snd (fill i gs T P res)) = length res.
Proof. induction gs as [|g gs IH]; intros i res; cbn [fill]; [reflexivity|]. destruct (bilinear g T P); cbn [snd]; [rewrite IH; apply upd_length|reflexivity|reflexivity]. Qed.
(* The outcome does not depend on what the array held. *)
Lemma fill_spec T P gs : forall done rest, length rest = length gs ->
  match mapM (fun g => bilinear g T P) gs with
  | Ok l => fill (length done) gs T P (done ++ rest) = (Ok tt, done ++ l)
  | Err => fst (fill (length done) gs T P (done ++ rest)) = Err
  | UB => fst (fill (length done) gs T P (done ++ rest)) = UB
  end.
Proof.
  induction gs as [|g gs IH]; intros done rest L.
  - destruct rest; [reflexivity|discriminate L].
  - destruct rest as [|x rest]; [discriminate L|]. cbn [mapM fill]. destruct (bilinear g T P) as [v| |]; cbn [bind omap fst]; try reflexivity.
    rewrite upd_app. specialize (IH (done ++ [v]) rest ltac:(cbn in L; lia)). rewrite app_length in IH. cbn [length] in IH. rewrite Nat.add_1_r in IH. rewrite <- app_assoc in IH. cbn [app] in IH.
    destruct (mapM (fun g => bilinear g T P) gs) as [l| |]; cbn [omap bind]; [rewrite IH, <- app_assoc; reflexivity|exact IH|exact IH].
Qed.
Lemma after_length gs calls : forall res, length (afterCalls gs res calls) = length res.
Proof.
  induction calls as [|[T P] calls IH]; intros res; [reflexivity|]. unfold afterCalls in *. cbn [fold_left]. rewrite IH. cbn [fst snd]. unfold callFns.
  pose proof (fill_length T P gs 0 res) as H. destruct (fill 0 gs T P res) as [o r]. exact H.
Qed.
Lemma fns_mapM Ts Ps fs res calls T P : length res = length fs -> interpolateFns Ts Ps fs res calls T P = mapM (fun f => interpolateFn Ts Ps f T P) fs.
Proof.
  intros L. unfold interpolateFns. set (gs := interpolators Ts Ps fs). assert (E : mapM (fun f => interpolateFn Ts Ps f T P) fs = mapM (fun g => bilinear g T P) gs).
  { unfold gs, interpolators. clear. induction fs as [|f fs IH]; [reflexivity|]. cbn [map mapM]. rewrite IH. reflexivity. }
  rewrite E. unfold callFns. assert (LR : length (afterCalls gs res calls) = length gs) by (rewrite after_length; unfold gs, interpolators; rewrite map_length; exact L).
  pose proof (fill_spec T P gs [] (afterCalls gs res calls) LR) as H. cbn [length app] in H.
  destruct (mapM (fun g => bilinear g T P) gs) as [l| |]; [rewrite H; reflexivity| |]; destruct (fill 0 gs T P (afterCalls gs res calls)) as [o r]; cbn [fst] in *; subst o; reflexivity.
Qed.

(* Each component is the interpolation of its own function, whatever was computed
   before and whatever the array held. *)
Theorem C141_components_partial Ts Ps fs res calls T P l : length res = length fs ->
  (interpolateFns Ts Ps fs res calls T P = Ok l <-> Forall2 (fun f v => interpolateFn Ts Ps f T P = Ok v) fs l).
Proof.
  intros L. rewrite fns_mapM by exact L. clear L. revert l. induction fs as [|f fs IH]; intros l; cbn [mapM].
  - split; [intros [= <-]; constructor|intros H; inversion H; reflexivity].
  - destruct (interpolateFn Ts Ps f T P) as [v| |] eqn:E; cbn [bind omap].
    + destruct (mapM (fun f => interpolateFn Ts Ps f T P) fs) as [m| |]; cbn [bind omap].
      * split; [intros [= <-]; constructor; [exact E|apply IH; reflexivity]|]. intros H. inversion H as [|? w ? m' Hw Hm]; subst. apply IH in Hm. congruence.
      * split; [discriminate|]. intros H. inversion H as [|? w ? m' Hw Hm]; subst. apply IH in Hm. discriminate.
      * split; [discriminate|]. intros H. inversion H as [|? w ? m' Hw Hm]; subst. apply IH in Hm. discriminate.
    + split; [discriminate|]. intros H. inversion H; subst. congruence.
    + split; [discriminate|]. intros H. inversion H; subst. congruence.
Qed.
Print Assumptions C141_components_partial.

(* Values are found at all points within range, and at the points of the axes they are
   those of the functions. *)
Lemma fn_found Ts Ps f T P : Axis Ts -> Axis Ps -> covers Ts Ps T P -> exists v, interpolateFn Ts Ps f T P = Ok v.
Proof. intros AT AP [HT HP]. destruct (bilinear_spec (gridOf Ts Ps f) T P (reg Ts Ps f AT AP) HT HP) as (v & i & j & s & t & z11 & z21 & z12 & z22 & E & _). exists v. exact E. Qed.
Theorem C141_found_partial Ts Ps fs res calls T P : Axis Ts -> Axis Ps -> length res = length fs -> covers Ts Ps T P -> exists l, interpolateFns Ts Ps fs res calls T P = Ok l /\ length l = length fs.
Proof.
  intros AT AP L C. rewrite fns_mapM by exact L. clear L. induction fs as [|f fs (l & E & EL)]; [exists []; split; reflexivity|].
  destruct (fn_found Ts Ps f T P AT AP C) as (v & EV). exists (v :: l). cbn [mapM]. rewrite EV, E. split; [reflexivity|]. cbn [length]. rewrite EL. reflexivity.
Qed.
Print Assumptions C141_found_partial.
Lemma fn_node Ts Ps f T P : Axis Ts -> Axis Ps -> In T Ts -> In P Ps -> exists v, interpolateFn Ts Ps f T P = Ok v /\ (v == f T P)%Q.
Proof.
  intros AT AP HT HP. apply In_nth_error in HT as (i & HT). apply In_nth_error in HP as (j & HP).
  destruct (proj1 C39_partial _ (reg Ts Ps f AT AP)) as (N & _). apply (N i j T P (f T P)); [exists T; split; [exact HT|reflexivity]|exists P; split; [exact HP|reflexivity]|].
  exact (gridOf_data Ts Ps f i j T P HT HP).
Qed.
Theorem C141_nodes_partial Ts Ps fs res calls T P : Axis Ts -> Axis Ps -> length res = length fs -> In T Ts -> In P Ps ->
  exists l, interpolateFns Ts Ps fs res calls T P = Ok l /\ Forall2 (fun f v => (v == f T P)%Q) fs l.
Proof.
  intros AT AP L HT HP. rewrite fns_mapM by exact L. clear L. induction fs as [|f fs (l & E & F)]; [exists []; split; [reflexivity|constructor]|].
  destruct (fn_node Ts Ps f T P AT AP HT HP) as (v & EV & V). exists (v :: l). cbn [mapM]. rewrite EV, E. split; [reflexivity|constructor; assumption].
Qed.
Print Assumptions C141_nodes_partial.

(* Interpolation is linear in the function: a relation between functions at the points
   of the axes, such as that one is the sum of two others, holds between the values. *)
Lemma range_dec l p : Axis l -> {InRange l p} + {~ InRange l p}.
Proof.
  intros [_ LL]. destruct (nth_error l 0) as [x|] eqn:E0; [|right; intros (x & y & X & _); congruence]. destruct (nth_error l (length l - 1)) as [y|] eqn:E1; [|right; intros (x' & y' & _ & Y & _); congruence].
  destruct (Qlt_le_dec p x); [right; intros (x' & y' & X & Y & [A B]); assert (x' = x) by congruence; subst; lra|].
  destruct (Qlt_le_dec y p); [right; intros (x' & y' & X & Y & [A B]); assert (y' = y) by congruence; subst; lra|]. left. exists x, y. repeat split; assumption.
Qed.
Lemma fn_covered Ts Ps f T P v : Axis Ts -> Axis Ps -> interpolateFn Ts Ps f T P = Ok v -> covers Ts Ps T P.
Proof.
  intros AT AP E. destruct (range_dec Ts T AT) as [HT|HT]; [destruct (range_dec Ps P AP) as [HP|HP]; [split; assumption|]|]; exfalso; unfold interpolateFn in E; rewrite (bilinear_outside _ _ _ (reg Ts Ps f AT AP)) in E; try discriminate E; [right; exact HP|left; exact HT].
Qed.
Lemma common Ts Ps f T P v i s j t : Axis Ts -> Axis Ps -> cell_at Ts T i s -> cell_at Ps P j t -> interpolateFn Ts Ps f T P = Ok v ->
  let d := dat (gridOf Ts Ps f) in (v == mix t (mix s (d i j) (d (S i) j)) (mix s (d i (S j)) (d (S i) (S j))))%Q.
Proof.
  intros AT AP CT CP E d. destruct (fn_covered _ _ _ _ _ _ AT AP E) as [HT HP]. destruct (bilinear_dat (gridOf Ts Ps f) T P (reg Ts Ps f AT AP) HT HP) as (w & i' & j' & s' & t' & W & CT' & CP' & V).
  unfold interpolateFn in E. rewrite E in W. injection W as <-. fold d in V. destruct AT as [IT _]. destruct AP as [IP _]. rewrite V.
  rewrite (line_eq Ps IP (fun y => mix s' (d i' y) (d (S i') y)) _ _ _ _ _ CP' CP).
  assert (K := fun y => line_eq Ts IT (fun x => d x y) _ _ _ _ _ CT' CT). cbv beta in K. unfold mix at 1. rewrite (K j), (K (S j)). unfold mix. ring.
Qed.
Lemma dat_of Ts Ps f i j x y : nth_error Ts i = Some x -> nth_error Ps j = Some y -> dat (gridOf Ts Ps f) i j = f x y.
Proof. intros HX HY. unfold dat. change (g_x (gridOf Ts Ps f)) with Ts. apply nth_error_nth. apply gridOf_data; assumption. Qed.
Theorem C141_linear_partial Ts Ps f g h a b T P vf vg vh : Axis Ts -> Axis Ps -> (forall t p, In t Ts -> In p Ps -> (h t p == a * f t p + b * g t p)%Q) ->
  interpolateFn Ts Ps f T P = Ok vf -> interpolateFn Ts Ps g T P = Ok vg -> interpolateFn Ts Ps h T P = Ok vh -> (vh == a * vf + b * vg)%Q.
Proof.
  intros AT AP H EF EG EH. destruct (fn_covered _ _ _ _ _ _ AT AP EF) as [HT HP].
  destruct (bilinear_dat (gridOf Ts Ps f) T P (reg Ts Ps f AT AP) HT HP) as (w & i & j & s & t & _ & CT & CP & _).
  change (g_x (gridOf Ts Ps f)) with Ts in CT. change (g_y (gridOf Ts Ps f)) with Ps in CP.
  rewrite (common _ _ _ _ _ _ _ _ _ _ AT AP CT CP EF), (common _ _ _ _ _ _ _ _ _ _ AT AP CT CP EG), (common _ _ _ _ _ _ _ _ _ _ AT AP CT CP EH).
  destruct CT as (x1 & x2 & X1 & X2 & _). destruct CP as (y1 & y2 & Y1 & Y2 & _).
  rewrite !(dat_of Ts Ps _ _ _ _ _ X1 Y1), !(dat_of Ts Ps _ _ _ _ _ X2 Y1), !(dat_of Ts Ps _ _ _ _ _ X1 Y2), !(dat_of Ts Ps _ _ _ _ _ X2 Y2).
  apply nth_error_In in X1, X2, Y1, Y2. unfold mix. rewrite (H x1 y1), (H x2 y1), (H x1 y2), (H x2 y2) by assumption. ring.
Qed.
Print Assumptions C141_linear_partial.

(* Out of range the interpolation of one or more functions throws. *)
Theorem C141_range_partial Ts Ps fs res calls T P : Axis Ts -> Axis Ps -> length res = length fs -> fs <> [] -> ~ covers Ts Ps T P -> interpolateFns Ts Ps fs res calls T P = Err.
Proof.
  intros AT AP L N C. rewrite fns_mapM by exact L. destruct fs as [|f fs]; [contradiction|]. cbn [mapM].
  assert (E : interpolateFn Ts Ps f T P = Err).
  { apply (bilinear_outside _ _ _ (reg Ts Ps f AT AP)). destruct (range_dec Ts T AT) as [HT|HT]; [|left; exact HT]. right. intro HP. apply C. split; assumption. }
  rewrite E. reflexivity.
Qed.
Print Assumptions C141_range_partial.
(* With no functions, any point is accepted. *)
Theorem C141_none_refuted Ts Ps calls T P : interpolateFns Ts Ps [] [] calls T P = Ok [].
Proof. rewrite fns_mapM by reflexivity. reflexivity. Qed.
Print Assumptions C141_none_refuted.
(* Data that do not fit the axes are accepted: a single datum is given everywhere, also
   out of range; data beyond those needed are not looked at; missing data are read out
   of bounds. *)
Theorem C141_single_refuted Ts Ps z T P : interpolateData Ts Ps [z] T P = Ok z.
Proof. reflexivity. Qed.
Print Assumptions C141_single_refuted.
Theorem C141_missing_refuted : interpolateData [0; 1]%Q [0; 1]%Q [5; 6; 7]%Q 0 0 = UB /\ exists v, interpolateData [0; 1]%Q [0; 1]%Q [5; 6; 7; 8; 9]%Q 0 0 = Ok v /\ (v == 5)%Q.
Proof. split; [vm_compute; reflexivity|]. eexists. split; [vm_compute; reflexivity|reflexivity]. Qed.
Print Assumptions C141_missing_refuted.
Lemma axis01 : Axis [0; 1]%Q.
Proof. split; [apply increasingb_spec; reflexivity|cbn; lia]. Qed.
Theorem C141_refuted : ~ C141_statement.
Proof.
  intros [H _]. assert (E := H [0; 1]%Q [0; 1]%Q [5]%Q 0%Q 0%Q axis01 axis01). cbn [length] in E. specialize (E ltac:(lia)). discriminate E.
Qed.
Print Assumptions C141_refuted.

Example C141_nonvacuous : Axis [0; 1]%Q /\ covers [0; 1]%Q [0; 1]%Q (1 # 2) (1 # 4) /\ ~ covers [0; 1]%Q [0; 1]%Q 2 0 /\
  (exists a b, interpolateFns [0; 1]%Q [0; 1]%Q [(fun t p => t + 2 * p)%Q; (fun t p => t * p)%Q] [7; 7]%Q [(1, 1)%Q; (5, 0)%Q] (1 # 2) (1 # 4) = Ok [a; b] /\ a == 1 /\ b == 1 # 8)%Q /\
  interpolateFns [0; 1]%Q [0; 1]%Q [(fun t p => t + 2 * p)%Q; (fun t p => t * p)%Q] [7; 7]%Q [] 2 0 = Err.
Proof.
  split; [exact axis01|]. split. { split; exists 0%Q, 1%Q; repeat split; lra. }
  split. { intros [(a & b & A & B & K) _]. cbn in A, B. injection A as <-. injection B as <-. destruct K as [_ K]. lra. }
  split; [do 2 eexists; split; [vm_compute; reflexivity|split; reflexivity]|vm_compute; reflexivity].
Qed.
