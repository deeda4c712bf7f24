(* Predictions: exact at the reference, affine, and conserving elements. *)
From Verif Require Import Base S_System S_State S_Chem M_Strings M_Formula M_Chem M_Algorithms M_System M_Units M_State M_Specs M_Setup
  S_Equilibrium P_Algorithms P_System P_State P_State2 P_State3 P_Props P_Specs P_Specs2 P_Conditions P_Setup P_Setup2 P_Setup3 P_Linear.
From Coq Require Import Lqa.
Open Scope Q_scope.

Lemma predict_inv ndebug r w b st st' : predict ndebug r w (Ok b) st = (Ok tt, st') ->
  let z := rf_sens r in let s0 := rf_state r in let e0 := fs_eq s0 in
  let dw := vsub w (eq_w e0) in let db := vsub b (eq_b e0) in
  st_n (fs_state st') = taylor (st_n (fs_state s0)) (z_dndw z) dw (z_dndb z) db /\
  eq_p (fs_eq st') = taylor (eq_p e0) (z_dpdw z) dw (z_dpdb z) db /\
  eq_q (fs_eq st') = taylor (eq_q e0) (z_dqdw z) dw (z_dqdb z) db /\
  fs_u st' = taylor (fs_u s0) (z_dudw z) dw (z_dudb z) db /\
  eq_inputs (fs_eq st') = eq_inputs e0 /\ eq_w (fs_eq st') = eq_w e0 /\ eq_b (fs_eq st') = eq_b e0 /\
  predT (eq_inputs e0) (eq_p (fs_eq st')) w = Ok (st_T (fs_state st')) /\ predP (eq_inputs e0) (eq_p (fs_eq st')) w = Ok (st_P (fs_state st')).
Proof.
  cbv zeta. unfold predict. destruct (predT _ _ w) as [T| |] eqn:ET; cbn [bind]; try discriminate.
  destruct (predP _ _ w) as [P| |] eqn:EP; cbn [bind]; try discriminate.
  unfold setTemperature. destruct (Qle_bool T 0); [discriminate|]. unfold setPressure. destruct (Qle_bool P 0); [discriminate|].
  unfold setSpeciesAmounts, asserted. cbn [st_n st_T st_P]. match goal with |- context [if ?c || ndebug then _ else _] => destruct (c || ndebug) end; [|discriminate].
  match goal with |- context [if ?c || ndebug then _ else _] => destruct (c || ndebug) end; [|discriminate].
  intros [= <-]. cbn [fs_state fs_u fs_eq st_n st_T st_P eq_p eq_q eq_inputs eq_w eq_b]. repeat split; auto.
Qed.
Lemma read_Qsame a b i x : Qsame a b -> read a i = Ok x -> exists y, read b i = Ok y /\ x == y.
Proof.
  intro S. revert i. induction S as [|u v a b E S IH]; intros [|i]; try discriminate.
  - cbn. intros [= <-]. eauto. - apply IH.
Qed.
Lemma predT_Qsame inputs p p' w w' T : Qsame p p' -> Qsame w w' -> predT inputs p w = Ok T -> exists T', predT inputs p' w' = Ok T' /\ T == T'.
Proof. intros A B. unfold predT. destruct (_ <? _)%nat; apply read_Qsame; auto. Qed.
Lemma predP_Qsame inputs p p' w w' T : Qsame p p' -> Qsame w w' -> predP inputs p w = Ok T -> exists T', predP inputs p' w' = Ok T' /\ T == T'.
Proof. intros A B. unfold predP. destruct (_ <? _)%nat; [apply read_Qsame; auto|]. destruct (_ <? _)%nat; apply read_Qsame; auto. Qed.

(* Two Taylor expansions about the same point. *)
Lemma dotQ_vsub2 row a b c : length a = length b -> length a = length c -> dotQ row (vsub a c) - dotQ row (vsub b c) == dotQ row (vsub a b).
Proof. intros A B. rewrite !dotQ_vsub by congruence. ring. Qed.
Lemma taylor_diff x0 J K w1 w2 w0 b1 b2 b0 i x rj rk : length w1 = length w0 -> length w2 = length w0 -> length b1 = length b0 -> length b2 = length b0 ->
  nth_error x0 i = Some x -> nth_error J i = Some rj -> nth_error K i = Some rk ->
  exists y1 y2, nth_error (taylor x0 J (vsub w1 w0) K (vsub b1 b0)) i = Some y1 /\ nth_error (taylor x0 J (vsub w2 w0) K (vsub b2 b0)) i = Some y2 /\
    y1 - y2 == dotQ rj (vsub w1 w2) + dotQ rk (vsub b1 b2).
Proof.
  intros L1 L2 L3 L4 A B C. destruct (taylor_nth x0 J (vsub w1 w0) K (vsub b1 b0) i x rj rk A B C) as (y1 & E1 & H1).
  destruct (taylor_nth x0 J (vsub w2 w0) K (vsub b2 b0) i x rj rk A B C) as (y2 & E2 & H2). exists y1, y2. repeat split; auto.
  rewrite H1, H2. rewrite !dotQ_vsub by congruence. ring.
Qed.

Lemma dotQ_map3 {A} (f g h : A -> Q) (l : list A) d : dotQ (map (fun j => f j + g j + h j) l) d == dotQ (map f l) d + dotQ (map g l) d + dotQ (map h l) d.
Proof.
  revert d. induction l as [|j l IH]; intros [|y d]; cbn [map]; rewrite ?dotQ_nil_r; try (cbn; ring). rewrite !dotQ_cons, IH. ring.
Qed.
Lemma nth_vsub k a : forall b, length a = length b -> nth k (vsub a b) 0 == nth k a 0 - nth k b 0.
Proof.
  revert k. induction a as [|x a IH]; intros k [|y b] L; cbn in L; try discriminate. { destruct k; reflexivity. }
  rewrite vsub_cons. destruct k as [|k]; [reflexivity|]. cbn [nth]. apply IH. lia.
Qed.

(* A conserved component of the reference stays conserved. *)
Lemma balance nw nb k an aq ap n0 q0 p0 w w0 b b0 (Jn Jq Jp Kn Kq Kp : list (list Q)) :
  shape (length n0) nw Jn -> shape (length q0) nw Jq -> shape (length p0) nw Jp ->
  shape (length n0) nb Kn -> shape (length q0) nb Kq -> shape (length p0) nb Kp ->
  length w = nw -> length w0 = nw -> length b = nb -> length b0 = nb -> (k < nb)%nat ->
  (forall j, (j < nw)%nat -> dotQ an (col j Jn) + dotQ aq (col j Jq) + dotQ ap (col j Jp) == 0) ->
  (forall j, (j < nb)%nat -> dotQ an (col j Kn) + dotQ aq (col j Kq) + dotQ ap (col j Kp) == delta k j) ->
  dotQ an n0 + dotQ aq q0 + dotQ ap p0 == nth k b0 0 ->
  dotQ an (taylor n0 Jn (vsub w w0) Kn (vsub b b0)) + dotQ aq (taylor q0 Jq (vsub w w0) Kq (vsub b b0)) + dotQ ap (taylor p0 Jp (vsub w w0) Kp (vsub b b0)) == nth k b 0.
Proof.
  intros [L1 F1] [L2 F2] [L3 F3] [L4 F4] [L5 F5] [L6 F6] Ew Ew0 Eb Eb0 Lk HW HB H0.
  rewrite !dotQ_taylor by auto.
  rewrite (swap nw Jn _ F1), (swap nw Jq _ F2), (swap nw Jp _ F3), (swap nb Kn _ F4), (swap nb Kq _ F5), (swap nb Kp _ F6).
  assert (A : dotQ (map (fun j => dotQ an (col j Jn)) (seq 0 nw)) (vsub w w0) + dotQ (map (fun j => dotQ aq (col j Jq)) (seq 0 nw)) (vsub w w0) + dotQ (map (fun j => dotQ ap (col j Jp)) (seq 0 nw)) (vsub w w0) == 0).
  { rewrite <- dotQ_map3. apply dotQ_map_null. intros j I. apply in_seq in I. apply HW. lia. }
  assert (B : dotQ (map (fun j => dotQ an (col j Kn)) (seq 0 nb)) (vsub b b0) + dotQ (map (fun j => dotQ aq (col j Kq)) (seq 0 nb)) (vsub b b0) + dotQ (map (fun j => dotQ ap (col j Kp)) (seq 0 nb)) (vsub b b0) == nth k (vsub b b0) 0).
  { rewrite <- dotQ_map3. apply dotQ_delta; auto. rewrite vsub_length; congruence. }
  rewrite nth_vsub in B by congruence. lra.
Qed.
