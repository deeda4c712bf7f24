(* Linear algebra of the predictions and of the sensitivities. *)
From Verif Require Import Base S_System S_State S_Chem M_Strings M_Formula M_Chem M_Algorithms M_System M_Units M_State M_Specs M_Setup
  S_Equilibrium P_Algorithms P_System P_State P_State2 P_State3 P_Props P_Setup.
From Coq Require Import Lqa.
Open Scope Q_scope.

Lemma dotQ_nil_r a : dotQ a [] = 0.
Proof. destruct a; reflexivity. Qed.
Lemma dotQ_cons x a y b : dotQ (x :: a) (y :: b) = x * y + dotQ a b.
Proof. reflexivity. Qed.
Lemma dotQ_comm a : forall b, dotQ a b == dotQ b a.
Proof. induction a as [|x a IH]; intros [|y b]; try reflexivity. rewrite !dotQ_cons, IH. ring. Qed.
Lemma Qsame_refl l : Qsame l l.
Proof. induction l; constructor; auto. reflexivity. Qed.
Lemma Qsame_sym a b : Qsame a b -> Qsame b a.
Proof. induction 1; constructor; auto. symmetry. auto. Qed.
Lemma Qsame_trans a b c : Qsame a b -> Qsame b c -> Qsame a c.
Proof.
  unfold Qsame. intro H. revert c. induction H; intros c K; inversion K; subst; constructor; [etransitivity; eauto|auto].
Qed.
Lemma Qsame_length a b : Qsame a b -> length a = length b.
Proof. induction 1; cbn; congruence. Qed.
Lemma dotQ_Qsame_l a a' b : Qsame a a' -> dotQ a b == dotQ a' b.
Proof. intro H. rewrite (dotQ_comm a), (dotQ_comm a'). apply dotQ_Qsame. auto. Qed.
Lemma vadd_cons x a y b : vadd (x :: a) (y :: b) = (x + y) :: vadd a b.
Proof. reflexivity. Qed.
Lemma vsub_cons x a y b : vsub (x :: a) (y :: b) = (x - y) :: vsub a b.
Proof. reflexivity. Qed.
Lemma vadd_length a b : length a = length b -> length (vadd a b) = length a.
Proof. intro L. unfold vadd. rewrite zip_length. lia. Qed.
Lemma vsub_length a b : length a = length b -> length (vsub a b) = length a.
Proof. intro L. unfold vsub. rewrite zip_length. lia. Qed.
Lemma matvec_length m v : length (matvec m v) = length m.
Proof. apply map_length. Qed.
Lemma dotQ_vadd row : forall a b, length a = length b -> dotQ row (vadd a b) == dotQ row a + dotQ row b.
Proof.
  induction row as [|x row IH]; intros [|y a] [|z b] L; cbn in L; try discriminate; try reflexivity.
  rewrite vadd_cons, !dotQ_cons, IH by lia. ring.
Qed.
Lemma dotQ_vsub row : forall a b, length a = length b -> dotQ row (vsub a b) == dotQ row a - dotQ row b.
Proof.
  induction row as [|x row IH]; intros [|y a] [|z b] L; cbn in L; try discriminate; try reflexivity.
  rewrite vsub_cons, !dotQ_cons, IH by lia. ring.
Qed.
Lemma vsub_same a b : Qsame a b -> Forall (fun x => x == 0) (vsub a b).
Proof. induction 1 as [|x y a b E H IH]; constructor; auto. cbn. rewrite E. ring. Qed.
Lemma dotQ_null row : forall v, Forall (fun x => x == 0) v -> dotQ row v == 0.
Proof. induction row as [|x row IH]; intros v F; [reflexivity|]. destruct F as [|y v E F]; [reflexivity|]. rewrite dotQ_cons, E, IH by auto. ring. Qed.
Lemma matvec_null m v : Forall (fun x => x == 0) v -> Forall (fun x => x == 0) (matvec m v).
Proof. intro F. apply Forall_map, Forall_forall. intros row _. rewrite sum_zip. apply dotQ_null. auto. Qed.
Lemma vadd_null a : forall b, length a = length b -> Forall (fun x => x == 0) b -> Qsame (vadd a b) a.
Proof.
  induction a as [|x a IH]; intros [|y b] L F; cbn in L; try discriminate; [constructor|]. inversion F; subst. constructor; [cbn; match goal with H : y == 0 |- _ => rewrite H end; ring|].
  apply IH; auto.
Qed.
Lemma vadd_Qsame a a' b b' : Qsame a a' -> Qsame b b' -> Qsame (vadd a b) (vadd a' b').
Proof.
  intro H. revert b b'. induction H as [|x y a a' E H IH]; intros b b' K; [constructor|]. destruct K as [|u v b b' E2 K]; [constructor|].
  constructor; [cbn; rewrite E, E2; reflexivity|]. apply IH. auto.
Qed.
Lemma taylor_length x0 J d K e : length J = length x0 -> length K = length x0 -> length (taylor x0 J d K e) = length x0.
Proof. intros A B. unfold taylor. rewrite !vadd_length; rewrite ?matvec_length, ?vadd_length; rewrite ?matvec_length; congruence. Qed.
Lemma taylor_null x0 J d K e : length J = length x0 -> length K = length x0 -> Forall (fun x => x == 0) d -> Forall (fun x => x == 0) e -> Qsame (taylor x0 J d K e) x0.
Proof.
  intros A B Fd Fe. unfold taylor. apply Qsame_trans with (vadd x0 (matvec J d)); apply vadd_null; try (apply matvec_null; auto); rewrite ?vadd_length; rewrite ?matvec_length; auto.
Qed.
Lemma dotQ_taylor row x0 J d K e : length J = length x0 -> length K = length x0 ->
  dotQ row (taylor x0 J d K e) == dotQ row x0 + dotQ row (matvec J d) + dotQ row (matvec K e).
Proof. intros A B. unfold taylor. rewrite !dotQ_vadd; rewrite ?vadd_length; rewrite ?matvec_length; auto. ring. Qed.
Lemma taylor_nth x0 J d K e i x rj rk : nth_error x0 i = Some x -> nth_error J i = Some rj -> nth_error K i = Some rk ->
  exists y, nth_error (taylor x0 J d K e) i = Some y /\ y == x + dotQ rj d + dotQ rk e.
Proof.
  intros A B C. unfold taylor, vadd, matvec. eexists. split.
  - apply zip_nth; [apply zip_nth; [exact A|]|]; rewrite nth_error_map; [rewrite B|rewrite C]; reflexivity.
  - rewrite !sum_zip. reflexivity.
Qed.

(* Swapping the order of summation. *)
Lemma map_nth_seq (r : list Q) : map (fun j => nth j r 0) (seq 0 (length r)) = r.
Proof.
  apply list_ext. intro i. destruct (Nat.lt_ge_cases i (length r)).
  - rewrite nth_seq_map by auto. symmetry. apply nth_error_nth'. auto.
  - rewrite (proj2 (nth_error_None _ _)) by (rewrite map_length, seq_length; lia). symmetry. apply nth_error_None. auto.
Qed.
Lemma dotQ_map_lin {A} (l : list A) x f g : forall d, dotQ (map (fun j => x * f j + g j) l) d == x * dotQ (map f l) d + dotQ (map g l) d.
Proof. induction l as [|j l IH]; intros [|y d]; cbn [map]; rewrite ?dotQ_nil_r; try (cbn; ring). rewrite !dotQ_cons, IH. ring. Qed.
Lemma dotQ_map_null {A} (l : list A) f : (forall j, In j l -> f j == 0) -> forall d, dotQ (map f l) d == 0.
Proof.
  induction l as [|j l IH]; intros F [|y d]; cbn [map]; try reflexivity. rewrite dotQ_cons, IH, F; [ring|left; auto|intros; apply F; right; auto].
Qed.
Lemma swap nw J d : Forall (fun row => length row = nw) J -> forall a,
  dotQ a (matvec J d) == dotQ (map (fun j => dotQ a (col j J)) (seq 0 nw)) d.
Proof.
  intro F. induction F as [|row J L F IH]; intro a.
  - cbn [matvec map]. rewrite dotQ_nil_r, dotQ_map_null; [reflexivity|]. intros. unfold col. cbn. rewrite dotQ_nil_r. reflexivity.
  - destruct a as [|x a].
    + rewrite dotQ_map_null; [reflexivity|]. reflexivity.
    + cbn [matvec map]. rewrite dotQ_cons, sum_zip. fold (matvec J d). rewrite IH.
      change (map (fun j => dotQ (x :: a) (col j (row :: J))) (seq 0 nw)) with (map (fun j => x * nth j row 0 + dotQ a (col j J)) (seq 0 nw)).
      rewrite dotQ_map_lin. subst nw. rewrite map_nth_seq. reflexivity.
Qed.
Lemma dotQ_delta (f : nat -> Q) k n : forall d, (forall j, (j < n)%nat -> f j == delta k j) -> (k < n)%nat -> length d = n ->
  dotQ (map f (seq 0 n)) d == nth k d 0.
Proof.
  intros d F L Ld. subst n. revert k f F L. induction d as [|y d IH]; intros k f F L; cbn in L; [lia|].
  cbn [length seq map]. rewrite dotQ_cons. rewrite <- seq_shift, map_map. rewrite (F 0%nat) by (cbn; lia). unfold delta. destruct k as [|k].
  - cbn [Nat.eqb nth]. rewrite dotQ_map_null. ring. intros j I. apply in_seq in I. rewrite (F (S j)) by (cbn; lia). reflexivity.
  - cbn [Nat.eqb nth]. rewrite (IH k); [ring| |lia]. intros j H. rewrite (F (S j)) by (cbn; lia). reflexivity.
Qed.

(* ---- Products ---- *)
Lemma matmul_vec nc a b v : Forall (fun row => length row = nc) b -> Qsame (matvec (matmul nc a b) v) (matvec a (matvec b v)).
Proof.
  intro F. unfold matmul. unfold matvec at 1 2. rewrite map_map. induction a as [|row a IH]; [constructor|]. cbn [map]. constructor; [|exact IH].
  rewrite !sum_zip. rewrite (swap nc b v F row). apply dotQ_Qsame_l. clear IH. induction (seq 0 nc); constructor; auto. apply sum_zip.
Qed.
Lemma matmul_shape nc a b : shape (length a) nc (matmul nc a b).
Proof. split; [apply map_length|]. apply Forall_map, Forall_forall. intros row _. rewrite map_length. apply seq_length. Qed.
Lemma madd_vec nc v a : forall b, shape (length b) nc a -> shape (length a) nc b -> Qsame (matvec (madd a b) v) (vadd (matvec a v) (matvec b v)).
Proof.
  intros b [L Fa] [_ Fb]. revert b L Fb. induction Fa as [|ra a La Fa IH]; intros [|rb b] L Fb; cbn in L; try discriminate; [constructor|].
  inversion Fb; subst. constructor; [|apply IH; auto].
  change (sumQ (zip_with Qmult (vadd ra rb) v) == sumQ (zip_with Qmult ra v) + sumQ (zip_with Qmult rb v)).
  rewrite !sum_zip, (dotQ_comm (vadd ra rb)), dotQ_vadd by congruence. rewrite !(dotQ_comm v). reflexivity.
Qed.
Lemma madd_shape r c a b : shape r c a -> shape r c b -> shape r c (madd a b).
Proof.
  intros [La Fa] [Lb Fb]. split; [unfold madd; rewrite zip_length; lia|]. revert b Lb Fb. revert r La. induction Fa as [|ra a Ea Fa IH]; intros r La b Lb Fb; [constructor|].
  destruct Fb as [|rb b Eb Fb]; [constructor|]. constructor. { change (length (vadd ra rb) = c). rewrite vadd_length; congruence. } apply (IH (pred r)); cbn in La, Lb; auto; lia.
Qed.
Lemma block_shape m r0 c0 nr nc nrm ncm : shape nrm ncm m -> (r0 + nr <= nrm)%nat -> (c0 + nc <= ncm)%nat -> shape nr nc (block m r0 c0 nr nc).
Proof.
  intros [L F] R C. unfold block. split; [rewrite map_length, segment_length; lia|]. apply Forall_map, Forall_forall. intros row I. rewrite segment_length; auto.
  rewrite Forall_forall in F. rewrite F; auto. apply In_nth_error in I as (i & N). rewrite segment_nth in N. destruct (i <? nr); [|discriminate]. eapply nth_error_In; eauto.
Qed.
Lemma segment_full {A} (l : list A) n : length l = n -> segment l 0 n = l.
Proof. intros <-. apply list_ext. intro i. rewrite segment_nth. destruct (Nat.ltb_spec i (length l)); auto. symmetry. apply nth_error_None. auto. Qed.
Lemma segment_app {A} (l : list A) a b : (a + b = length l)%nat -> segment l 0 a ++ segment l a b = l.
Proof.
  intro E. apply list_ext. intro i. destruct (Nat.lt_ge_cases i a).
  - rewrite nth_error_app1 by (rewrite segment_length; lia). rewrite segment_nth. destruct (Nat.ltb_spec i a); [reflexivity|lia].
  - rewrite nth_error_app2 by (rewrite segment_length; lia). rewrite segment_length, segment_nth by lia. destruct (Nat.ltb_spec (i - a) b).
    + f_equal. lia. + symmetry. apply nth_error_None. lia.
Qed.
(* The two blocks of columns of a matrix applied to the two parts of a direction. *)
Lemma blocks_vec m r0 nr nw nb dw db nrm : shape nrm (nw + nb) m -> (r0 + nr <= nrm)%nat -> length dw = nw -> length db = nb ->
  Qsame (vadd (matvec (block m r0 0 nr nw) dw) (matvec (block m r0 nw nr nb) db)) (segment (matvec m (dw ++ db)) r0 nr).
Proof.
  intros [L F] R Ew Eb. unfold block, matvec. unfold segment at 5. rewrite skipn_map, firstn_map. fold (segment m r0 nr).
  assert (G : Forall (fun row => length row = (nw + nb)%nat) (segment m r0 nr)).
  { apply Forall_forall. intros row I. rewrite Forall_forall in F. apply F. apply In_nth_error in I as (i & N). rewrite segment_nth in N. destruct (i <? nr)%nat; [|discriminate]. eapply nth_error_In; eauto. }
  clear L F. induction G as [|row l Lr G IH]; [constructor|]. cbn [map]. constructor; [|exact IH].
  change (sumQ (zip_with Qmult (segment row 0 nw) dw) + sumQ (zip_with Qmult (segment row nw nb) db) == sumQ (zip_with Qmult row (dw ++ db))).
  rewrite !sum_zip.
  rewrite <- (segment_app row nw nb) at 3 by lia. rewrite dotQ_app by (rewrite segment_length; lia). reflexivity.
Qed.
