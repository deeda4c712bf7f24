(* Proofs about interpolation. *)
From Coq Require Import Lqa Qabs.
From Verif Require Import Base M_Chem M_Algorithms M_System M_State M_Specs M_Setup M_Math S_Math P_Algorithms P_State P_Setup2 P_Linear.
Local Open Scope nat_scope.

Lemma Qltb_true a b : Qltb a b = true <-> (a < b)%Q.
Proof. unfold Qltb. rewrite negb_true_iff. split; intro H. - apply Qnot_le_lt. intro K. apply Qle_bool_iff in K. congruence.
  - apply Bool.not_true_is_false. intro K. apply Qle_bool_iff in K. lra. Qed.
Lemma Qltb_false a b : Qltb a b = false <-> (b <= a)%Q.
Proof. split; intro H. - destruct (Qlt_le_dec a b) as [K|K]; auto. apply Qltb_true in K. congruence.
  - apply Bool.not_true_is_false. intro K. apply Qltb_true in K. lra. Qed.

Lemma Increasing_lt l : Increasing l -> forall j i a b, (i < j)%nat -> nth_error l i = Some a -> nth_error l j = Some b -> (a < b)%Q.
Proof.
  intros I j. induction j as [|j IH]; intros i a b L A B; [lia|].
  destruct (nth_error l j) as [c|] eqn:C. 2:{ apply nth_error_None in C. assert (S j < length l)%nat by (apply nth_error_Some; congruence). lia. }
  assert (c < b)%Q by (apply (I j); auto). destruct (Nat.eq_dec i j) as [->|]. { congruence. } assert (a < c)%Q by (apply (IH i); auto; lia). lra.
Qed.
Lemma Increasing_le l : Increasing l -> forall j i a b, (i <= j)%nat -> nth_error l i = Some a -> nth_error l j = Some b -> (a <= b)%Q.
Proof.
  intros I j i a b L A B. destruct (Nat.eq_dec i j) as [->|]. { rewrite A in B. injection B as ->. lra. } apply Qlt_le_weak. apply (@Increasing_lt l I j i a b); auto; lia.
Qed.

Lemma read_lt l i : (i < length l)%nat -> exists v, read l i = Ok v /\ nth_error l i = Some v.
Proof. intro L. unfold read. destruct (nth_error l i) as [v|] eqn:E; eauto. apply nth_error_None in E. lia. Qed.

(* The result of the search: the coordinate at it is not above p, and that after
   it is above p unless it is the end. *)
Lemma bsearch_spec l p : forall fuel b e, (b < e)%nat -> (e <= length l)%nat -> (e - b < fuel)%nat ->
  (forall a, nth_error l b = Some a -> (a <= p)%Q) -> (forall a, e < length l -> nth_error l e = Some a -> (p < a)%Q) ->
  exists k, binarySearchHelper fuel p l b e = Ok k /\ (b <= k < e)%nat /\
    (forall a, nth_error l k = Some a -> (a <= p)%Q) /\ (forall a, nth_error l (S k) = Some a -> (p < a)%Q).
Proof.
  induction fuel as [|fuel IH]; intros b e L1 L2 F A B; [lia|]. cbn [binarySearchHelper]. destruct (Nat.eqb_spec (e - b) 1) as [E|E].
  - exists b. split; auto. split; [lia|]. split; auto. replace (S b) with e by lia. intros a N. apply B; auto. apply nth_error_Some. congruence.
  - assert (M : (b < (b + e) / 2 < e)%nat).
    { split; [apply Nat.div_le_lower_bound; lia|apply Nat.div_lt_upper_bound; lia]. }
    set (mid := (b + e) / 2) in *. destruct (@read_lt l mid) as (c & -> & N); [lia|]. cbn [bind]. destruct (Qltb p c) eqn:Q.
    + apply Qltb_true in Q. destruct (IH b mid) as (k & K1 & K2 & K3); auto; try lia. { intros a _ Na. congruence. } exists k. split; auto. split; [lia|auto].
    + apply Qltb_false in Q. destruct (IH mid e) as (k & K1 & K2 & K3); auto; try lia. { intros a Na. congruence. } exists k. split; auto. split; [lia|auto].
Qed.
Lemma back_nth l x : back l = Ok x <-> nth_error l (length l - 1) = Some x /\ l <> [].
Proof.
  unfold back. destruct l as [|a l] using rev_ind; [cbn; intuition congruence|]. rewrite rev_app_distr. cbn [rev app]. rewrite app_length. cbn [length].
  rewrite nth_error_app2 by lia. replace (length l + 1 - 1 - length l) with 0 by lia. cbn. split; [intros [= ->]|intros [[= ->] _]]; auto. split; auto. destruct l; discriminate.
Qed.

(* The cell of a coordinate inside the range of at least two coordinates. *)
Lemma cell_spec l p a b : Increasing l -> (2 <= length l)%nat -> front l = Ok a -> back l = Ok b -> (a <= p)%Q -> (p <= b)%Q ->
  exists i x1 x2, bind (binarySearch p l) (fun ix => leftCorner ix (length l)) = Ok i /\ nth_error l i = Some x1 /\ nth_error l (i + 1) = Some x2 /\
    (x1 < x2)%Q /\ (x1 <= p)%Q /\ (p <= x2)%Q.
Proof.
  intros I L F B Pa Pb. apply back_nth in B as [B _]. destruct l as [|a' l]; [discriminate|]. injection F as ->. set (l' := a :: l) in *.
  destruct (@bsearch_spec l' p (S (length l')) 0 (length l')) as (k & K1 & K2 & K3 & K4); try lia. { intros c [= <-]. auto. }
  unfold binarySearch. rewrite K1. cbn [bind]. unfold leftCorner.
  assert (G : forall i, S i < length l' -> (forall c, nth_error l' i = Some c -> (c <= p)%Q) -> (forall c, nth_error l' (S i) = Some c -> (p <= c)%Q) ->
     exists x1 x2, nth_error l' i = Some x1 /\ nth_error l' (i + 1) = Some x2 /\ (x1 < x2)%Q /\ (x1 <= p)%Q /\ (p <= x2)%Q).
  { intros i Li H1 H2. destruct (@read_lt l' i) as (x1 & _ & N1); [lia|]. destruct (@read_lt l' (S i)) as (x2 & _ & N2); [lia|]. rewrite Nat.add_1_r.
    exists x1, x2. repeat split; auto. apply (I i); auto. }
  destruct (Nat.eqb_spec k (length l' - 1)) as [E|E].
  - destruct k as [|k]; [lia|]. exists k. destruct (G k) as (x1 & x2 & H); try lia.
    + intros c N. destruct (@read_lt l' (S k)) as (d & _ & Nd); [lia|]. assert (c < d)%Q by (apply (I k); auto). specialize (K3 _ Nd). lra.
    + intros c N. assert (c = b) by congruence. subst. auto.
    + exists x1, x2. split; [reflexivity|exact H].
  - exists k. destruct (G k) as (x1 & x2 & H); try lia; auto. { intros c N. apply Qlt_le_weak. auto. } exists x1, x2. split; [reflexivity|exact H].
Qed.

(* Relative position in a cell. *)
Lemma relative x1 x2 p : (x1 < x2)%Q -> (x1 <= p)%Q -> (p <= x2)%Q -> exists s, Between 0 1 s /\ (p == mix s x1 x2)%Q /\ (s == (p - x1) / (x2 - x1))%Q.
Proof.
  intros L A B. exists ((p - x1) / (x2 - x1))%Q. split; [|split; [unfold mix; field; lra|reflexivity]]. split.
  - apply Qle_shift_div_l; [lra|]. rewrite Qmult_0_l. lra. - apply Qle_shift_div_r; [lra|]. rewrite Qmult_1_l. lra.
Qed.

Definition cell_at (l : list Q) (p : Q) (i : nat) (s : Q) : Prop :=
  exists x1 x2, nth_error l i = Some x1 /\ nth_error l (S i) = Some x2 /\ (x1 < x2)%Q /\ Between 0 1 s /\ (p == mix s x1 x2)%Q.
Definition regular (g : Grid) : Prop :=
  Increasing (g_x g) /\ Increasing (g_y g) /\ (2 <= length (g_x g))%nat /\ (2 <= length (g_y g))%nat /\ length (g_z g) = length (g_x g) * length (g_y g).
Definition inside (l : list Q) (p : Q) : Prop := exists a b, nth_error l 0 = Some a /\ nth_error l (length l - 1) = Some b /\ Between a b p.

Lemma ends l : l <> [] -> exists a b, front l = Ok a /\ back l = Ok b /\ nth_error l 0 = Some a /\ nth_error l (length l - 1) = Some b.
Proof.
  intro N. destruct l as [|a l]; [contradiction|]. destruct (@read_lt (a :: l) (length (a :: l) - 1)) as (b & _ & Nb); [cbn; lia|].
  exists a, b. repeat split; auto. apply back_nth. split; auto.
Qed.
Lemma bilinear_spec g x y : regular g -> inside (g_x g) x -> inside (g_y g) y ->
  exists v i j s t z11 z21 z12 z22, bilinear g x y = Ok v /\ cell_at (g_x g) x i s /\ cell_at (g_y g) y j t /\
    nth_error (g_z g) (i + j * length (g_x g)) = Some z11 /\ nth_error (g_z g) (S i + j * length (g_x g)) = Some z21 /\
    nth_error (g_z g) (i + S j * length (g_x g)) = Some z12 /\ nth_error (g_z g) (S i + S j * length (g_x g)) = Some z22 /\
    (v == mix t (mix s z11 z21) (mix s z12 z22))%Q.
Proof.
  intros (Ix & Iy & Lx & Ly & Lz) Hx Hy. unfold bilinear.
  assert (NZ : forall A (a : Q -> A) (b : A), match g_z g with [z] => a z | _ => b end = b). { intros A a b. destruct (g_z g) as [|z [|z2 zs]]; auto. cbn in Lz. nia. }
  rewrite NZ.
  destruct (@ends (g_x g)) as (xA & xB & F1 & B1 & NA & NB). { intro E. rewrite E in Lx. cbn in Lx. lia. }
  destruct (@ends (g_y g)) as (yA & yB & F2 & B2 & NA2 & NB2). { intro E. rewrite E in Ly. cbn in Ly. lia. }
  rewrite F1, B1, F2, B2. cbn [bind].
  destruct Hx as (xa & xb & E1 & E2 & Hx1 & Hx2). destruct Hy as (ya & yb & E3 & E4 & Hy1 & Hy2).
  rewrite E1 in NA. rewrite E2 in NB. rewrite E3 in NA2. rewrite E4 in NB2. injection NA as ->. injection NB as ->. injection NA2 as ->. injection NB2 as ->.
  apply Qltb_false in Hx1 as G1. apply Qltb_false in Hx2 as G2. apply Qltb_false in Hy1 as G3. apply Qltb_false in Hy2 as G4. rewrite G1, G2, G3, G4. cbn [orb].
  destruct (cell_spec _ _ _ _ Ix Lx F1 B1 Hx1 Hx2) as (i & x1 & x2 & C1 & N1 & N2 & X12 & X1 & X2). destruct (binarySearch x (g_x g)) as [ix| |]; cbn [bind] in C1; try discriminate. cbn [bind]. rewrite C1. cbn [bind].
  destruct (cell_spec _ _ _ _ Iy Ly F2 B2 Hy1 Hy2) as (j & y1 & y2 & C2 & M1 & M2 & Y12 & Y1 & Y2). destruct (binarySearch y (g_y g)) as [iy| |]; cbn [bind] in C2; try discriminate. cbn [bind]. rewrite C2. cbn [bind].
  assert (Li : (i + 1 < length (g_x g))%nat) by (apply nth_error_Some; congruence). assert (Lj : (j + 1 < length (g_y g))%nat) by (apply nth_error_Some; congruence).
  rewrite (proj2 (read_spec _ _ _) N1), (proj2 (read_spec _ _ _) N2), (proj2 (read_spec _ _ _) M1), (proj2 (read_spec _ _ _) M2). cbn [bind].
  destruct (@read_lt (g_z g) (i + j * length (g_x g))) as (z11 & R1 & Z1); [nia|].
  destruct (@read_lt (g_z g) (i + 1 + j * length (g_x g))) as (z21 & R2 & Z2); [nia|].
  destruct (@read_lt (g_z g) (i + (j + 1) * length (g_x g))) as (z12 & R3 & Z3); [nia|].
  destruct (@read_lt (g_z g) (i + 1 + (j + 1) * length (g_x g))) as (z22 & R4 & Z4); [nia|].
  rewrite R1, R2, R3, R4. cbn [bind]. unfold divide.
  assert (D : ~ ((x2 - x1) * (y2 - y1) == 0)%Q). { intro E. apply Qmult_integral in E as [E|E]; lra. }
  destruct (Qeq_bool _ 0) eqn:Q0; [apply Qeq_bool_iff in Q0; contradiction|].
  destruct (relative _ _ _ X12 X1 X2) as (s & S1 & S2 & S3). destruct (relative _ _ _ Y12 Y1 Y2) as (t & T1 & T2 & T3).
  eexists. exists i, j, s, t, z11, z21, z12, z22. split; [reflexivity|].
  replace (S i) with (i + 1) by lia. replace (S j) with (j + 1) by lia.
  split; [exists x1, x2; replace (S i) with (i + 1) by lia; auto|]. split; [exists y1, y2; replace (S j) with (j + 1) by lia; auto|]. repeat split; auto.
  unfold mix. rewrite S3, T3. field. split; lra.
Qed.
Lemma bilinear_outside g x y : regular g -> ~ inside (g_x g) x \/ ~ inside (g_y g) y -> bilinear g x y = Err.
Proof.
  intros (Ix & Iy & Lx & Ly & Lz) H. unfold bilinear.
  assert (NZ : forall A (a : Q -> A) (b : A), match g_z g with [z] => a z | _ => b end = b). { intros A a b. destruct (g_z g) as [|z [|z2 zs]]; auto. cbn in Lz. nia. }
  rewrite NZ.
  destruct (@ends (g_x g)) as (xA & xB & -> & -> & NA & NB). { intro E. rewrite E in Lx. cbn in Lx. lia. }
  destruct (@ends (g_y g)) as (yA & yB & -> & -> & NA2 & NB2). { intro E. rewrite E in Ly. cbn in Ly. lia. }
  cbn [bind]. destruct (Qltb x xA || Qltb xB x) eqn:E1; auto. destruct (Qltb y yA || Qltb yB y) eqn:E2; auto. exfalso.
  apply orb_false_iff in E1 as [A1 A2]. apply orb_false_iff in E2 as [A3 A4]. apply Qltb_false in A1. apply Qltb_false in A2. apply Qltb_false in A3. apply Qltb_false in A4.
  destruct H as [H|H]; apply H; eexists; eexists; (split; [eassumption|]); (split; [eassumption|]); split; auto.
Qed.
(* A cell that contains a node has it as one of its ends. *)
Lemma cell_node l p i s k : Increasing l -> cell_at l p i s -> (exists q, nth_error l k = Some q /\ (p == q)%Q) -> (k = i /\ (s == 0)%Q) \/ (k = S i /\ (s == 1)%Q).
Proof.
  intros I (x1 & x2 & N1 & N2 & L & [S0 S1] & E) (q & N & Eq).
  assert (E' : (q == (1 - s) * x1 + s * x2)%Q) by (rewrite <- Eq; exact E).
  assert (B1 : (x1 <= q)%Q) by nra. assert (B2 : (q <= x2)%Q) by nra.
  destruct (Nat.lt_trichotomy k i) as [K|[->|K]].
  - assert (q < x1)%Q by (apply (Increasing_lt _ I _ _ _ _ K); auto). lra.
  - left. split; auto. assert (q = x1) by congruence. subst q. assert (Z : (s * (x2 - x1) == 0)%Q) by lra. apply Qmult_integral in Z as [Z|Z]; lra.
  - destruct (Nat.eq_dec k (S i)) as [->|K2].
    + right. split; auto. assert (q = x2) by congruence. subst q. assert (Z : ((1 - s) * (x2 - x1) == 0)%Q) by lra. apply Qmult_integral in Z as [Z|Z]; lra.
    + assert (L2 : (S i < k)%nat) by lia. assert (x2 < q)%Q by (apply (Increasing_lt _ I _ _ _ _ L2); auto). lra.
Qed.
Lemma gridOf_data xs ys f i j x y : nth_error xs i = Some x -> nth_error ys j = Some y -> nth_error (g_z (gridOf xs ys f)) (i + j * length xs) = Some (f x y).
Proof.
  intros Hi. cbn. revert j. induction ys as [|y0 ys IH]; intros [|j] Hj; try discriminate; cbn [flat_map].
  - injection Hj as ->. rewrite Nat.add_0_r. rewrite nth_error_app1 by (rewrite map_length; apply nth_error_Some; congruence). rewrite nth_error_map, Hi. reflexivity.
  - cbn in Hj. rewrite nth_error_app2; rewrite map_length; [|nia]. rewrite <- (IH j Hj). f_equal. nia.
Qed.
Lemma gridOf_length xs ys f : length (g_z (gridOf xs ys f)) = length xs * length ys.
Proof. cbn. induction ys as [|y ys IH]; cbn; [lia|]. rewrite app_length, map_length, IH. lia. Qed.
Fixpoint increasingb (l : list Q) : bool := match l with a :: (b :: _) as l' => Qltb a b && increasingb l' | _ => true end.
Lemma increasingb_spec l : increasingb l = true -> Increasing l.
Proof.
  induction l as [|x l IH]; intros H [|i] a b A B; cbn in A, B; try discriminate.
  - destruct l as [|y l]; [discriminate|]. injection A as <-. injection B as <-. cbn in H. apply andb_true_iff in H as [H _]. apply Qltb_true. auto.
  - apply (IH ltac:(destruct l; [reflexivity|cbn in H; apply andb_true_iff in H as [_ H]; exact H]) i a b); auto.
Qed.
