(* Property theorems: interpolation, rational approximation, compensated sums,
   finite differences and Newton's method. *)
From Coq Require Import Lqa Qabs Qround Qminmax.
From Verif Require Import Base M_Chem M_Algorithms M_System M_State M_Specs M_Setup M_Math S_Math S_System P_Algorithms P_System P_State P_Setup2 P_Linear P_Interp P_Lagrange P_Farey.
Local Open Scope nat_scope.
Set Implicit Arguments.

(* ======================== C39: bilinear interpolation ======================== *)
(* A grid as documented: increasing coordinates and one value per node. *)
Definition WellFormed (g : Grid) : Prop :=
  Increasing (g_x g) /\ Increasing (g_y g) /\ 1 <= length (g_x g) /\ 1 <= length (g_y g) /\ length (g_z g) = length (g_x g) * length (g_y g).
Definition InRange (l : list Q) (p : Q) : Prop := exists a b, nth_error l 0 = Some a /\ nth_error l (length l - 1) = Some b /\ Between a b p.
Definition Node (l : list Q) (i : nat) (p : Q) : Prop := exists q, nth_error l i = Some q /\ (p == q)%Q.
Definition Cell (l : list Q) (i : nat) (p : Q) : Prop := exists a b, nth_error l i = Some a /\ nth_error l (S i) = Some b /\ Between a b p.
Definition datum (g : Grid) (i j : nat) : option Q := nth_error (g_z g) (i + j * length (g_x g)).
Definition bilinearly (c0 cx cy cxy : Q) (x y : Q) : Q := (c0 + cx * x + cy * y + cxy * x * y)%Q.

Definition C39_exact_at (g : Grid) : Prop := forall i j x y z, Node (g_x g) i x -> Node (g_y g) j y -> datum g i j = Some z ->
  exists v, bilinear g x y = Ok v /\ (v == z)%Q.
Definition C39_bounded_in (g : Grid) : Prop := forall x y, InRange (g_x g) x -> InRange (g_y g) y ->
  exists v i j z11 z21 z12 z22, bilinear g x y = Ok v /\ Cell (g_x g) i x /\ Cell (g_y g) j y /\
    datum g i j = Some z11 /\ datum g (S i) j = Some z21 /\ datum g i (S j) = Some z12 /\ datum g (S i) (S j) = Some z22 /\
    (Qmin (Qmin z11 z21) (Qmin z12 z22) <= v)%Q /\ (v <= Qmax (Qmax z11 z21) (Qmax z12 z22))%Q.
Definition C39_rejects (g : Grid) : Prop := forall x y, ~ InRange (g_x g) x \/ ~ InRange (g_y g) y -> bilinear g x y = Err.
Definition C39_statement : Prop :=
  (forall g, WellFormed g -> C39_exact_at g /\ C39_rejects g) /\
  (forall g, regular g -> C39_bounded_in g) /\
  (forall xs ys c0 cx cy cxy x y, WellFormed (gridOf xs ys (bilinearly c0 cx cy cxy)) -> InRange xs x -> InRange ys y ->
     exists v, bilinear (gridOf xs ys (bilinearly c0 cx cy cxy)) x y = Ok v /\ (v == bilinearly c0 cx cy cxy x y)%Q).
(* With a single abscissa and several ordinates the left corner index wraps
   around, even at a node. *)
Theorem C39_refuted : ~ C39_statement.
Proof.
  intros (H & _). destruct (H (mkGrid [1%Q] [0%Q; 1%Q] [5%Q; 7%Q])) as (H1 & _).
  - split; [apply increasingb_spec; reflexivity|]. split; [apply increasingb_spec; reflexivity|]. cbn. lia.
  - destruct (H1 0 0 1%Q 0%Q 5%Q) as (v & E & _); [exists 1%Q; split; reflexivity|exists 0%Q; split; reflexivity|reflexivity|]. vm_compute in E. discriminate.
Qed.
Print Assumptions C39_refuted.
(* A grid of a single point accepts every point. *)
Theorem C39_rejects_refuted : ~ (forall g, WellFormed g -> C39_rejects g).
Proof.
  intro H. specialize (H (mkGrid [1%Q] [0%Q] [5%Q])). assert (W : WellFormed (mkGrid [1%Q] [0%Q] [5%Q])).
  { split; [apply increasingb_spec; reflexivity|]. split; [apply increasingb_spec; reflexivity|]. cbn. lia. }
  assert (E : bilinear (mkGrid [1%Q] [0%Q] [5%Q]) 9 0 = Err). { apply H; auto. left. intros (a & b & A & B & [K1 K2]). cbn in *. injection A as <-. injection B as <-. lra. }
  vm_compute in E. discriminate.
Qed.
Print Assumptions C39_rejects_refuted.

Lemma cell_Cell l p i s : cell_at l p i s -> Cell l i p.
Proof. intros (x1 & x2 & N1 & N2 & L & [S0 S1] & E). exists x1, x2. split; auto. split; auto. unfold mix in E. split; rewrite E; nra. Qed.
Lemma node_inside l i p : Increasing l -> Node l i p -> InRange l p.
Proof.
  intros I (q & N & E). assert (L : i < length l) by (apply nth_error_Some; congruence).
  destruct (ends l) as (a & b & _ & _ & A & B). { intros ->. cbn in L. lia. }
  exists a, b. split; auto. split; auto. split; rewrite E; [apply (@Increasing_le _ I i 0)|apply (@Increasing_le _ I (length l - 1) i)]; auto; lia.
Qed.
Lemma mix_between s a b : Between 0 1 s -> (Qmin a b <= mix s a b)%Q /\ (mix s a b <= Qmax a b)%Q.
Proof.
  intros [S0 S1]. unfold mix. destruct (Q.max_spec a b) as [[L ->]|[L ->]]; destruct (Q.min_spec a b) as [[L' ->]|[L' ->]]; try lra; split; nra.
Qed.
Lemma mix_mono s a a' b b' : Between 0 1 s -> (a <= a')%Q -> (b <= b')%Q -> (mix s a b <= mix s a' b')%Q.
Proof. intros [S0 S1] A B. unfold mix. nra. Qed.

(* Everything holds for grids with at least two coordinates in each direction. *)
Theorem C39_partial :
  (forall g, regular g -> C39_exact_at g /\ C39_rejects g /\ C39_bounded_in g) /\
  (forall xs ys c0 cx cy cxy x y, Increasing xs -> Increasing ys -> 2 <= length xs -> 2 <= length ys -> InRange xs x -> InRange ys y ->
     exists v, bilinear (gridOf xs ys (bilinearly c0 cx cy cxy)) x y = Ok v /\ (v == bilinearly c0 cx cy cxy x y)%Q).
Proof.
  split.
  - intros g R. split; [|split].
    + intros i j x y z Nx Ny D. pose proof R as (Ix & Iy & _).
      destruct (bilinear_spec g x y R (node_inside Ix Nx) (node_inside Iy Ny)) as (v & i' & j' & s & t & z11 & z21 & z12 & z22 & E & Cx & Cy & Z1 & Z2 & Z3 & Z4 & V).
      exists v. split; auto. rewrite V. clear V. unfold datum in D.
      destruct (cell_node _ _ _ _ i Ix Cx Nx) as [[-> S]|[-> S]]; destruct (cell_node _ _ _ _ j Iy Cy Ny) as [[-> T]|[-> T]]; unfold mix; rewrite S, T.
      * assert (z = z11) by congruence. subst. ring. * assert (z = z12) by congruence. subst. ring.
      * assert (z = z21) by congruence. subst. ring. * assert (z = z22) by congruence. subst. ring.
    + intros x y H. apply bilinear_outside; auto.
    + intros x y Hx Hy. destruct (bilinear_spec g x y R Hx Hy) as (v & i & j & s & t & z11 & z21 & z12 & z22 & E & Cx & Cy & Z1 & Z2 & Z3 & Z4 & V).
      exists v, i, j, z11, z21, z12, z22. split; auto. split; [eapply cell_Cell; eauto|]. split; [eapply cell_Cell; eauto|]. repeat (split; [assumption|]). 
      assert (S : Between 0 1 s) by (destruct Cx as (? & ? & ? & ? & ? & ? & ?); auto). assert (T : Between 0 1 t) by (destruct Cy as (? & ? & ? & ? & ? & ? & ?); auto).
      destruct (mix_between z11 z21 S) as [A1 A2]. destruct (mix_between z12 z22 S) as [B1 B2]. destruct (mix_between (mix s z11 z21) (mix s z12 z22) T) as [C1 C2].
      rewrite V. split.
      * eapply Qle_trans; [|exact C1]. apply Q.min_le_compat; auto.
      * eapply Qle_trans; [exact C2|]. apply Q.max_le_compat; auto.
  - intros xs ys c0 cx cy cxy x y Ix Iy Lx Ly Hx Hy. set (f := bilinearly c0 cx cy cxy).
    assert (R : regular (gridOf xs ys f)). { split; auto. split; auto. split; auto. split; auto. apply gridOf_length. }
    destruct (bilinear_spec (gridOf xs ys f) x y R Hx Hy) as (v & i & j & s & t & z11 & z21 & z12 & z22 & E & Cx & Cy & Z1 & Z2 & Z3 & Z4 & V).
    exists v. split; auto. destruct Cx as (x1 & x2 & X1 & X2 & _ & _ & EX). destruct Cy as (y1 & y2 & Y1 & Y2 & _ & _ & EY).
    change (g_x (gridOf xs ys f)) with xs in *. change (g_y (gridOf xs ys f)) with ys in *.
    rewrite (gridOf_data _ _ f _ _ _ _ X1 Y1) in Z1. rewrite (gridOf_data _ _ f _ _ _ _ X2 Y1) in Z2. rewrite (gridOf_data _ _ f _ _ _ _ X1 Y2) in Z3. rewrite (gridOf_data _ _ f _ _ _ _ X2 Y2) in Z4.
    injection Z1 as <-. injection Z2 as <-. injection Z3 as <-. injection Z4 as <-. rewrite V. unfold f, bilinearly. rewrite EX, EY. unfold mix. ring.
Qed.
Print Assumptions C39_partial.
(* The value never decreases when data are increased. *)
Theorem C39_monotone : forall xs ys zs zs' x y v v', regular (mkGrid xs ys zs) -> regular (mkGrid xs ys zs') -> InRange xs x -> InRange ys y ->
  Forall2 Qle zs zs' -> bilinear (mkGrid xs ys zs) x y = Ok v -> bilinear (mkGrid xs ys zs') x y = Ok v' -> (v <= v')%Q.
Proof.
  intros xs ys zs zs' x y v v' R R' Hx Hy F E E'.
  destruct (bilinear_spec _ x y R Hx Hy) as (w & i & j & s & t & z11 & z21 & z12 & z22 & W & Cx & Cy & Z1 & Z2 & Z3 & Z4 & V).
  destruct (bilinear_spec _ x y R' Hx Hy) as (w' & i' & j' & s' & t' & y11 & y21 & y12 & y22 & W' & Cx' & Cy' & Y1 & Y2 & Y3 & Y4 & V').
  rewrite E in W. injection W as <-. rewrite E' in W'. injection W' as <-. cbn [g_x g_y g_z] in *.
  (* The second value, computed from the cell of the first. *)
  assert (U : forall l p a r a' r', Increasing l -> cell_at l p a r -> cell_at l p a' r' -> (a = a' /\ (r == r')%Q) \/ (S a = a' /\ (r == 1)%Q /\ (r' == 0)%Q) \/ (S a' = a /\ (r == 0)%Q /\ (r' == 1)%Q)).
  { clear. intros l p a r a' r' I C C'.
    assert (G : forall a r a' r', cell_at l p a r -> cell_at l p a' r' -> a < a' -> S a = a' /\ (r == 1)%Q /\ (r' == 0)%Q).
    { clear a r a' r' C C'. intros a r a' r' (x1 & x2 & N1 & N2 & L & [S0 S1] & E) (y1 & y2 & M1 & M2 & L' & [S0' S1'] & E') La. unfold mix in *.
      assert (x2 <= y1)%Q by (apply (@Increasing_le _ I a' (S a)); auto; lia).
      assert (P1 : (p <= x2)%Q) by (rewrite E; nra). assert (P2 : (y1 <= p)%Q) by (rewrite E'; nra). assert (EQ : (x2 == y1)%Q) by lra.
      split. { destruct (Nat.eq_dec (S a) a'); auto. exfalso. assert (x2 < y1)%Q by (apply (@Increasing_lt _ I a' (S a)); auto; lia). lra. }
      split. - assert (Z : ((1 - r) * (x2 - x1) == 0)%Q) by lra. apply Qmult_integral in Z as [Z|Z]; lra.
      - assert (Z : (r' * (y2 - y1) == 0)%Q) by lra. apply Qmult_integral in Z as [Z|Z]; lra. }
    destruct (Nat.lt_trichotomy a a') as [K|[->|K]].
    - right. left. eapply G; eauto.
    - left. split; auto. destruct C as (x1 & x2 & N1 & N2 & L & _ & E). destruct C' as (y1 & y2 & M1 & M2 & L' & _ & E'). unfold mix in *.
      assert (y1 = x1) by congruence. assert (y2 = x2) by congruence. subst. assert (Z : ((r - r') * (x2 - x1) == 0)%Q) by lra. apply Qmult_integral in Z as [Z|Z]; lra.
    - right. right. destruct (G a' r' a r) as (K1 & K2 & K3); auto. }
  assert (O : forall k a b, nth_error zs k = Some a -> nth_error zs' k = Some b -> (a <= b)%Q).
  { clear - F. induction F as [|p q l l' H F IH]; intros [|k] a b A B; cbn in *; try discriminate; [injection A as <-; injection B as <-; auto|eauto]. }
  destruct R as (Ix & Iy & Lx & Ly & Lz). destruct R' as (_ & _ & _ & _ & Lz'). cbn [g_x g_y g_z] in *.
  assert (S : Between 0 1 s) by (destruct Cx as (? & ? & ? & ? & ? & ? & ?); auto). assert (T : Between 0 1 t) by (destruct Cy as (? & ? & ? & ? & ? & ? & ?); auto).
  destruct S as [S0 S1]. destruct T as [T0 T1].
  destruct (U _ _ _ _ _ _ Ix Cx Cx') as [[<- ES]|[(<- & ES & ES')|(<- & ES & ES')]]; destruct (U _ _ _ _ _ _ Iy Cy Cy') as [[<- ET]|[(<- & ET & ET')|(<- & ET & ET')]];
    rewrite V, V'; unfold mix.
  - pose proof (O _ _ _ Z1 Y1). pose proof (O _ _ _ Z2 Y2). pose proof (O _ _ _ Z3 Y3). pose proof (O _ _ _ Z4 Y4). rewrite <- ES, <- ET. apply mix_mono; [split; auto| |]; apply mix_mono; auto; split; auto.
  - pose proof (O _ _ _ Z3 Y1). pose proof (O _ _ _ Z4 Y2). rewrite <- ES, ET, ET'. nra.
  - pose proof (O _ _ _ Z1 Y3). pose proof (O _ _ _ Z2 Y4). rewrite <- ES, ET, ET'. nra.
  - pose proof (O _ _ _ Z2 Y1). pose proof (O _ _ _ Z4 Y3). rewrite <- ET, ES, ES'. nra.
  - pose proof (O _ _ _ Z4 Y1). rewrite ES, ES', ET, ET'. lra.
  - pose proof (O _ _ _ Z2 Y3). rewrite ES, ES', ET, ET'. lra.
  - pose proof (O _ _ _ Z1 Y2). pose proof (O _ _ _ Z3 Y4). rewrite <- ET, ES, ES'. nra.
  - pose proof (O _ _ _ Z3 Y2). rewrite ES, ES', ET, ET'. lra.
  - pose proof (O _ _ _ Z1 Y4). rewrite ES, ES', ET, ET'. lra.
Qed.
Print Assumptions C39_monotone.
Example C39_nonvacuous :
  let g := mkGrid [0%Q; 1%Q; 3%Q] [0%Q; 2%Q] [1%Q; 2%Q; 3%Q; 4%Q; 5%Q; 9%Q] in
  regular g /\ InRange (g_x g) 2%Q /\ InRange (g_y g) 1%Q /\ (match bilinear g 2 1 with Ok v => v == 19 # 4 | _ => False end)%Q /\ bilinear g 4 1 = Err.
Proof.
  cbn zeta. split; [|split; [|split; [|split]]].
  - split; [apply increasingb_spec; reflexivity|]. split; [apply increasingb_spec; reflexivity|]. cbn. lia.
  - exists 0%Q, 3%Q. repeat split; cbn; auto; discriminate.
  - exists 0%Q, 2%Q. repeat split; cbn; auto; discriminate.
  - reflexivity. - reflexivity.
Qed.

(* ======================== C40: Lagrange interpolation ======================== *)
Definition C40_statement : Prop := forall xi yi order, table xi yi -> 
  (forall k x y, Node xi k x -> nth_error yi k = Some y -> exists v, lagrange xi yi order x = Ok v /\ (v == y)%Q) /\
  (forall c x, length c <= order + 1 -> order + 1 <= length xi -> (forall k a y, nth_error xi k = Some a -> nth_error yi k = Some y -> (y == peval c a)%Q) -> InRange xi x ->
     exists v, lagrange xi yi order x = Ok v /\ (v == peval c x)%Q).
(* The points used start at the node on the right: between the last two nodes
   only the last one is used. *)
Theorem C40_refuted : ~ C40_statement.
Proof.
  intro H. destruct (H [0%Q; 1%Q; 2%Q] [0%Q; 1%Q; 2%Q] 1) as (_ & K).
  - split; [|split; [reflexivity|discriminate]]. apply increasingb_spec; reflexivity.
  - destruct (K [0%Q; 1%Q] (3 # 2)%Q) as (v & E & V); cbn; auto.
    + intros [|[|[|k]]] a y A Y; cbn in *; try discriminate; try (injection A as <-; injection Y as <-; reflexivity). destruct k; discriminate.
    + exists 0%Q, 2%Q. repeat split; cbn; auto; discriminate.
    + vm_compute in E. injection E as <-. vm_compute in V. discriminate.
Qed.
Print Assumptions C40_refuted.
(* Data at nodes are returned, and polynomials with no more coefficients than the
   number of points used are reproduced: order + 1 points from the first node not
   below the point, or all that remain.  Outside the table the end data are
   returned. *)
Theorem C40_partial : forall xi yi order, table xi yi ->
  (forall k x y, Node xi k x -> nth_error yi k = Some y -> exists v, lagrange xi yi order x = Ok v /\ (v == y)%Q) /\
  (forall c x i, InRange xi x -> startsAt xi x i -> length c <= order + 1 -> length c <= length xi - i ->
     (forall k a y, nth_error xi k = Some a -> nth_error yi k = Some y -> (y == peval c a)%Q) ->
     exists v, lagrange xi yi order x = Ok v /\ (v == peval c x)%Q) /\
  (forall x a y, nth_error xi 0 = Some a -> nth_error yi 0 = Some y -> (x <= a)%Q -> lagrange xi yi order x = Ok y) /\
  (forall x a y, nth_error xi (length xi - 1) = Some a -> nth_error yi (length yi - 1) = Some y -> 2 <= length xi -> (a <= x)%Q -> lagrange xi yi order x = Ok y).
Proof.
  intros xi yi order T. pose proof T as (I & Ly & NE). destruct (ends xi NE) as (a & b & F & B & Na & Nb).
  assert (NE' : yi <> []) by (intros ->; destruct xi; [contradiction|discriminate]). destruct (ends yi NE') as (ya & yb & Fy & By & Nya & Nyb).
  assert (LO : forall x, (x <= a)%Q -> lagrange xi yi order x = Ok ya). { intros x X. unfold lagrange. rewrite F. cbn [bind]. apply Qle_bool_iff in X. rewrite X. auto. }
  assert (HI : forall x, (a < x)%Q -> (b <= x)%Q -> lagrange xi yi order x = Ok yb).
  { intros x X Y. unfold lagrange. rewrite F. cbn [bind]. destruct (Qle_bool x a) eqn:E; [apply Qle_bool_iff in E; lra|]. rewrite B. cbn [bind]. apply Qle_bool_iff in Y. rewrite Y. auto. }
  assert (IN : forall c x i, InRange xi x -> startsAt xi x i -> length c <= order + 1 -> length c <= length xi - i ->
     (forall k, i <= k -> k < i + Nat.min (order + 1) (length xi - i) -> (xat yi k == peval c (xat xi k))%Q) -> (i = 0 \/ i = length xi - 1 \/ (a < x)%Q /\ (x < b)%Q) -> 
     exists v, lagrange xi yi order x = Ok v /\ (v == peval c x)%Q).
  { intros c x i (a' & b' & A' & B' & [X1 X2]) St L1 L2 P Cs. assert (a' = a) by congruence. assert (b' = b) by congruence. subst a' b'. clear A' B'.
    assert (Lp : 0 < length xi) by (destruct xi; [contradiction|cbn; lia]).
    assert (Xa : xat xi 0 = a) by (apply nth_error_nth with (d := 0%Q) in Na; auto). assert (Ya : xat yi 0 = ya) by (apply nth_error_nth with (d := 0%Q) in Nya; auto).
    assert (Xb : xat xi (length xi - 1) = b) by (apply nth_error_nth with (d := 0%Q) in Nb; auto). assert (Yb : xat yi (length xi - 1) = yb) by (rewrite Ly in Nyb; apply nth_error_nth with (d := 0%Q) in Nyb; auto).
    destruct (Qlt_le_dec a x) as [Lo|Lo].
    2:{ exists ya. split; auto. assert (EX : (x == a)%Q) by lra.
        destruct (Nat.eq_dec i 0) as [->|]. { specialize (P 0 ltac:(lia) ltac:(lia)). rewrite Xa, Ya in P. rewrite P. apply peval_ext. symmetry. exact EX. }
        exfalso. destruct St as (_ & St). assert (a < x)%Q by (apply (St 0); auto; lia). lra. }
    destruct (Qlt_le_dec x b) as [Hi|Hi].
    2:{ exists yb. split; auto. assert (EX : (x == b)%Q) by lra.
        destruct (Nat.eq_dec i (length xi - 1)) as [->|Ni]. { specialize (P (length xi - 1) ltac:(lia) ltac:(lia)). rewrite Xb, Yb in P. rewrite P. apply peval_ext. symmetry. exact EX. }
        exfalso. destruct St as ((q & Nq & Lq) & St). assert (i < length xi) by (apply nth_error_Some; congruence). assert (q < b)%Q by (apply (@Increasing_lt _ I (length xi - 1) i); auto; lia). lra. }
    destruct (@lagrange_inside xi yi order x a b T Na Nb Lo Hi) as (i' & n & St' & Li & En & E & D & Ln).
    assert (i' = i). { destruct St as ((q & Nq & Lq) & St). destruct St' as ((q' & Nq' & Lq') & St'). destruct (Nat.lt_trichotomy i i') as [K|[K|K]]; auto; exfalso; [specialize (St' _ _ K Nq)|specialize (St _ _ K Nq')]; lra. }
    subst i'. exists (lag (skipn i xi) (skipn i yi) n x). split; auto. apply lag_unique; auto.
    - exists c. split; [lia|]. reflexivity.
    - intros k K. assert (SK : forall l, xat (skipn i l) k = xat l (i + k)). { intro l. unfold xat. clear. revert i. induction l as [|u l IH]; intros [|i]; cbn; auto. destruct k; reflexivity. }
      rewrite !SK. apply P; lia. }
  split; [|split; [|split]].
  - intros k x y (q & Nq & Eq) Ny. assert (Lk : k < length xi) by (apply nth_error_Some; congruence).
    assert (St : startsAt xi x k). { split; [exists q; split; auto; lra|]. intros j c Lj Nj. assert (c < q)%Q by (apply (@Increasing_lt _ I k j); auto). lra. }
    assert (R : InRange xi x). { apply node_inside with (i := k); auto. exists q. auto. }
    pose proof R as (a' & b' & A' & B' & X1 & X2). assert (a' = a) by congruence. assert (b' = b) by congruence. subst a' b'.
    assert (Xq : xat xi k = q) by (apply nth_error_nth with (d := 0%Q) in Nq; auto). assert (Yq : xat yi k = y) by (apply nth_error_nth with (d := 0%Q) in Ny; auto).
    destruct (Nat.eq_dec k 0) as [->|]. { exists ya. split; [apply LO; assert (q = a) by congruence; subst; lra|]. assert (y = ya) by congruence. subst. reflexivity. }
    assert (Lo : (a < x)%Q). { assert (a < q)%Q by (apply (@Increasing_lt _ I k 0); auto; lia). lra. }
    destruct (Nat.eq_dec k (length xi - 1)) as [->|]. { exists yb. split; [apply HI; auto; assert (q = b) by congruence; subst; lra|]. rewrite Ly in Nyb. assert (y = yb) by congruence. subst. reflexivity. }
    assert (Hi : (x < b)%Q). { assert (q < b)%Q by (apply (@Increasing_lt _ I (length xi - 1) k); auto; lia). lra. }
    destruct (@lagrange_inside xi yi order x a b T Na Nb Lo Hi) as (i & n1 & St' & Li & En & E & D & Ln).
    assert (i = k). { destruct St as ((q1 & Nq1 & Lq1) & St). destruct St' as ((q' & Nq' & Lq') & St'). destruct (Nat.lt_trichotomy i k) as [K|[K|K]]; auto; exfalso; [specialize (St _ _ K Nq')|specialize (St' _ _ K Nq1)]; lra. }
    subst i. eexists. split; [exact E|]. assert (SK : forall l, xat (skipn k l) 0 = xat l k). { intro l. unfold xat. clear. revert k. induction l as [|u l IH]; intros [|k]; cbn; auto. }
    rewrite <- Yq, <- SK. rewrite <- (@lag_node (skipn k xi) (skipn k yi) n1 0) by (auto; lia).
    (* The interpolating function is a polynomial function. *)
    destruct (lag_poly (skipn k xi) (skipn k yi) n1) as (c & _ & Hc). rewrite !Hc, SK, Xq. apply peval_ext. exact Eq.
  - intros c x i R St L1 L2 P. apply IN with (i := i); auto.
    + intros k K1 K2. assert (Lk : k < length xi) by lia. apply (P k); apply nth_error_nth'; lia.
    + pose proof R as (a' & b' & A' & B' & X1 & X2). assert (a' = a) by congruence. assert (b' = b) by congruence. subst a' b'. destruct St as ((q & Nq & Lq) & St). assert (Li : i < length xi) by (apply nth_error_Some; congruence).
      destruct (Nat.eq_dec i 0); auto. destruct (Nat.eq_dec i (length xi - 1)); auto. right. right. split; [apply (St 0); auto; lia|]. assert (q < b)%Q by (apply (@Increasing_lt _ I (length xi - 1) i); auto; lia). lra.
  - intros x a' y A' Y X. assert (a' = a) by congruence. subst. assert (y = ya) by congruence. subst. auto.
  - intros x b' y B' Y L X. assert (b' = b) by congruence. subst. assert (y = yb) by congruence. subst. apply HI; auto. assert (a < b)%Q by (apply (@Increasing_lt _ I (length xi - 1) 0); auto; lia). lra.
Qed.
Print Assumptions C40_partial.
Example C40_nonvacuous :
  table [0%Q; 1%Q; 2%Q; 4%Q] [0%Q; 1%Q; 4%Q; 16%Q] /\ startsAt [0%Q; 1%Q; 2%Q; 4%Q] (1 # 2) 1 /\
  (match lagrange [0%Q; 1%Q; 2%Q; 4%Q] [0%Q; 1%Q; 4%Q; 16%Q] 2 (1 # 2) with Ok v => v == 1 # 4 | _ => False end)%Q.
Proof.
  split; [|split; [|reflexivity]].
  - split; [|split; [reflexivity|discriminate]]. apply increasingb_spec; reflexivity.
  - split; [exists 1%Q; split; [reflexivity|discriminate]|]. intros [|j] a L A; [|lia]. injection A as <-. reflexivity.
Qed.

(* ======================== C41: rational approximation ======================== *)
Definition C41_statement : Prop := forall x maxden, (1 <= maxden)%Z -> exists p q, rationalize x maxden = Ok (p, q) /\ Allowed maxden q /\
  (forall p' q', Allowed maxden q' -> (x == fraction p' q')%Q -> (fraction p q == x)%Q) /\ Closest maxden x (fraction p q).
(* 0.41 with denominators up to 4 gives 1/2, though 1/3 is closer. *)
Theorem C41_refuted : ~ C41_statement.
Proof.
  intro H. destruct (H (41 # 100)%Q 4%Z) as (p & q & E & _ & _ & C); [lia|]. vm_compute in E. injection E as <- <-.
  specialize (C 1%Z 3%Z ltac:(split; lia)). vm_compute in C. apply C. reflexivity.
Qed.
Print Assumptions C41_refuted.
(* Above one the limit applies to the numerator: 7 with denominators up to 6
   gives 6, and 8 gives the denominator zero. *)
Theorem C41_exact_refuted :
  ~ (forall x maxden p q, (1 <= maxden)%Z -> rationalize x maxden = Ok (p, q) -> forall p' q', Allowed maxden q' -> (x == fraction p' q')%Q -> (fraction p q == x)%Q) /\
  ~ (forall x maxden p q, (1 <= maxden)%Z -> rationalize x maxden = Ok (p, q) -> Allowed maxden q).
Proof.
  split.
  - intro H. assert (E : rationalize 7 6 = Ok (6, 1)%Z) by reflexivity. specialize (H 7%Q 6%Z 6%Z 1%Z ltac:(lia) E 7%Z 1%Z ltac:(split; lia)). assert (K : (7 == fraction 7 1)%Q) by reflexivity. specialize (H K). vm_compute in H. discriminate.
  - intro H. assert (E : rationalize 8 6 = Ok (1, 0)%Z) by reflexivity. destruct (H 8%Q 6%Z 1%Z 0%Z ltac:(lia) E). lia.
Qed.
Print Assumptions C41_exact_refuted.
Theorem C41_partial : forall x maxden, (1 <= maxden)%Z ->
  exists p q, rationalize x maxden = Ok (p, q) /\ (q <= maxden)%Z /\
  ((Qabs x <= 1)%Q -> Allowed maxden q /\ (forall p' q', Allowed maxden q' -> (x == fraction p' q')%Q -> (fraction p q == x)%Q) /\ ClosestOnItsSide maxden x (fraction p q)) /\
  ((1 < Qabs x)%Q -> (1 <= Z.abs p <= maxden)%Z /\ (0 < x <-> (0 < p)%Z)%Q /\
     (forall p' q', Allowed maxden (Z.abs p') -> (0 < q')%Z -> (x == fraction p' q')%Q -> (0 < q)%Z /\ (fraction p q == x)%Q) /\
     ClosestOnItsSide maxden (1 / Qabs x) (fraction q (Z.abs p)) /\
     ((Qabs x < inject_Z (maxden + 1))%Q -> Allowed maxden q) /\ ((inject_Z (maxden + 1) < Qabs x)%Q -> q = 0%Z)).
Proof.
  intros x maxden M. destruct (Qlt_le_dec 1 (Qabs x)) as [L|L].
  - destruct (@rationalize_large _ _ M L) as (p & q & E & P & Q & S & C). exists p, q. split; auto. split; [lia|]. split; [intro; lra|]. intros _. split; auto. split; auto.
    assert (EXq : forall p' q', Allowed maxden (Z.abs p') -> (0 < q')%Z -> (x == fraction p' q')%Q -> (1 / Qabs x == fraction q' (Z.abs p'))%Q).
    { intros p' q' [A1 A2] Q' X. rewrite X. unfold fraction, Qdiv. rewrite Qabs_Qmult, Qabs_Qinv.
      assert (PI : forall z, (Qabs (inject_Z z) == inject_Z (Z.abs z))%Q) by (intro z; reflexivity). rewrite !PI. replace (Z.abs q') with q' by lia. field.
      split; intro K; unfold Qeq in K; cbn in K; lia. }
    assert (EXACT : forall p' q', Allowed maxden (Z.abs p') -> (0 < q')%Z -> (x == fraction p' q')%Q -> (0 < q)%Z /\ (fraction p q == x)%Q).
    { intros p' q' A Q' X. pose proof (@side_exact _ _ _ _ _ C A (EXq _ _ A Q' X)) as F.
      assert (N : (0 < fraction q (Z.abs p))%Q). { rewrite F. apply Qlt_shift_div_l; lra. }
      assert (Z0 : (0 < q)%Z). { destruct (Z.eq_dec q 0) as [->|]; [|lia]. exfalso. unfold fraction in N. change (inject_Z 0) with 0%Q in N. unfold Qdiv in N. rewrite Qmult_0_l in N. lra. }
      split; auto. unfold fraction in F. assert (NP : ~ (inject_Z (Z.abs p) == 0)%Q) by (intro K; unfold Qeq in K; cbn in K; lia). assert (NQ : ~ (inject_Z q == 0)%Q) by (intro K; unfold Qeq in K; cbn in K; lia).
      assert (V : (inject_Z (Z.abs p) / inject_Z q == Qabs x)%Q). { transitivity (1 / (inject_Z q / inject_Z (Z.abs p)))%Q; [field; split; auto|]. rewrite F. field. lra. }
      unfold fraction. destruct (Qlt_le_dec 0 x) as [X0|X0].
      - assert (p > 0)%Z by (apply Z.lt_gt, S; auto). replace (Z.abs p) with p in V by lia. rewrite V. apply Qabs_pos. lra.
      - assert (p < 0)%Z. { destruct (Z.lt_trichotomy p 0) as [|[|K]]; [auto|lia|]. exfalso. apply S in K. lra. }
        replace (Z.abs p) with (- p)%Z in V by lia. rewrite inject_Z_opp in V. rewrite (Qabs_neg x) in V by auto. unfold Qdiv in *. lra. }
    split; auto. split; auto.
    assert (X0 : (0 < Qabs x)%Q) by lra.
    assert (RZ : forall a b, farey (1 / Qabs x) maxden = Ok (a, b) -> q = a).
    { intros a b FE. unfold rationalize in E. assert (G : Qltb 1 (Qabs x) = true) by (apply Qltb_true; auto). rewrite G, FE in E. cbn in E. congruence. }
    split.
    + intro B. split; [|lia]. destruct (Qlt_le_dec (inject_Z maxden) (Qabs x)) as [K|K].
      * apply inverse_lt in B; [|lia|auto]. apply inverse_gt in K; [|lia|auto]. rewrite (RZ 1%Z maxden); [lia|]. apply farey_unit; auto; lia.
      * (* The inverse of the limit is not above the inverse of x. *)
        destruct (Z.eq_dec q 0) as [Z0|]; [|lia]. exfalso. destruct (C 1%Z maxden ltac:(split; lia)) as (C1 & _). apply C1. subst q. split.
        -- apply fraction_lt; lia.
        -- apply Qnot_lt_le. intro W. apply inverse_gt in W; [lra|lia|auto].
    + intro B. apply inverse_gt in B; [|lia|auto]. rewrite (RZ 0%Z 1%Z); auto. apply farey_zero; auto; lia.
  - destruct (@rationalize_small _ _ M L) as (p & q & E & A & P & C). exists p, q. split; auto. split; [destruct A; auto|]. split; [|intro; lra]. intros _. split; auto. split; auto.
    intros p' q' A' X. apply (@side_exact _ _ _ _ _ C A' X).
Qed.
Print Assumptions C41_partial.
(* Cleaning a list replaces each number by its approximation. *)
Theorem C41_clean : forall maxden l, (1 <= maxden)%Z -> Forall (fun x => Qabs x <= 1)%Q l ->
  exists r, cleanRationalNumbers maxden l = Ok r /\ Forall2 (fun x y => (exists p q, Allowed maxden q /\ y = fraction p q) /\ ClosestOnItsSide maxden x y) l r.
Proof.
  intros maxden l M F. unfold cleanRationalNumbers. induction F as [|x l X F IH]; cbn [mapM].
  - exists []. auto.
  - destruct (@rationalize_small _ _ M X) as (p & q & -> & A & P & C). cbn [bind fst snd]. unfold divide at 1.
    destruct (Qeq_bool (inject_Z q) 0) eqn:E. { apply Qeq_bool_iff in E. unfold Qeq in E. cbn in E. destruct A. lia. }
    cbn [bind]. destruct IH as (r & -> & H). cbn [bind]. eexists. split; [reflexivity|]. constructor; auto. split; [exists p, q; split; [exact A|reflexivity]|exact C].
Qed.
Print Assumptions C41_clean.
Example C41_nonvacuous : rationalize (- (5 # 12)) 12 = Ok (-5, 12)%Z /\ rationalize (31416 # 10000) 100 = Ok (22, 7)%Z /\ rationalize (3 # 2) 5 = Ok (3, 2)%Z /\ rationalize (58333333 # 100000000) 20 = Ok (7, 12)%Z.
Proof. vm_compute. repeat split. Qed.

(* ======================== C43: compensated sums ======================== *)
Theorem C43_dot : forall single x y s, length x <= length y -> exists v, dot3p single x y s = Ok v /\ (v == s + dotQ x y)%Q.
Proof. intros single x y s L. destruct (@dot3p_loop_exact single x y (single s) (s - single s)%Q L) as (v & E & V). exists v. split; auto. rewrite V. ring. Qed.
Print Assumptions C43_dot.
Theorem C43_residual : forall single A x b, length A <= length b -> Forall (fun row => length row = length x) A ->
  exists r, residual3p single A x b = Ok r /\ length r = length A /\
    forall k row bk, nth_error A k = Some row -> nth_error b k = Some bk -> exists v, nth_error r k = Some v /\ (v == dotQ row x - bk)%Q.
Proof.
  intros single A x b L F. unfold residual3p.
  assert (G : forall k, k < length A -> exists v, match nth_error A k with Some row => bind (read b k) (fun bk => dot3p single row x (- bk)%Q) | None => UB end = Ok v /\
     forall row bk, nth_error A k = Some row -> nth_error b k = Some bk -> (v == dotQ row x - bk)%Q).
  { intros k K. destruct (nth_error A k) as [row|] eqn:E; [|apply nth_error_None in E; lia]. destruct (read_lt b k) as (bk & -> & N); [lia|]. cbn [bind].
    rewrite Forall_forall in F. specialize (F row (nth_error_In _ _ E)). destruct (@C43_dot single row x (- bk)%Q) as (v & -> & V); [lia|]. exists v. split; auto. intros row' bk' R B.
    assert (row' = row) by congruence. assert (bk' = bk) by congruence. subst. rewrite V. ring. }
  assert (H : forall l, (forall k, In k l -> k < length A) -> exists r, mapM (fun k => match nth_error A k with Some row => bind (read b k) (fun bk => dot3p single row x (- bk)%Q) | None => UB end) l = Ok r /\
    Forall2 (fun k v => forall row bk, nth_error A k = Some row -> nth_error b k = Some bk -> (v == dotQ row x - bk)%Q) l r).
  { induction l as [|k l IH]; intro I; cbn [mapM]; [exists []; auto|]. destruct (G k) as (v & -> & V); [apply I; left; auto|]. cbn [bind]. destruct IH as (r & -> & R); [intros; apply I; right; auto|]. cbn [bind]. eexists. split; [reflexivity|]. constructor; auto. }
  destruct (H (seq 0 (length A))) as (r & E & R). { intros k K. apply in_seq in K. lia. }
  exists r. split; auto. assert (LR : length r = length A). { clear - R. assert (S : length (seq 0 (length A)) = length r) by (induction R; cbn; congruence). rewrite seq_length in S. auto. }
  split; auto. intros k row bk N B. assert (K : k < length A) by (apply nth_error_Some; congruence).
  assert (P : forall l r k, Forall2 (fun k v => forall row bk, nth_error A k = Some row -> nth_error b k = Some bk -> (v == dotQ row x - bk)%Q) l r -> forall i, nth_error l k = Some i -> exists v, nth_error r k = Some v /\ forall row bk, nth_error A i = Some row -> nth_error b i = Some bk -> (v == dotQ row x - bk)%Q).
  { clear. intros l r k R. revert k. induction R as [|j v l r H R IH]; intros [|k] i Ni; cbn in *; try discriminate; [injection Ni as <-; eauto|eauto]. }
  destruct (P _ _ k R k) as (v & V & W). { rewrite nth_error_nth' with (d := 0) by (rewrite seq_length; auto). rewrite seq_nth; auto. } exists v. split; auto.
Qed.
Print Assumptions C43_residual.
Example C43_nonvacuous : (match residual3p (fun x => inject_Z (Qfloor x)) [[1 # 2; 3 # 4]; [2; 5 # 3]] [7 # 3; 1 # 5] [1; 2] with Ok [a; b] => a == 19 # 60 /\ b == 3 | _ => False end)%Q.
Proof. vm_compute. split; reflexivity. Qed.

(* ======================== C45: Newton ======================== *)
Definition C45_statement : Prop := forall f x0 epsilon maxiter r n, (0 < epsilon)%Q -> newton f x0 epsilon maxiter = Ok (r, n, true) -> (Qabs (fst (f r)) < epsilon)%Q /\ n <= maxiter.
(* The step is taken before the tolerance is checked, so that the point returned
   is not the one checked: a function with a jump. *)
Definition jumping (x : Q) : Q * Q := if Qle_bool 1 x then (1 # 10, 1 # 10)%Q else (5, 1)%Q.
Theorem C45_refuted : ~ C45_statement.
Proof. intro H. edestruct (H jumping 1%Q (1 # 2)%Q 3) as (K & _); [lra|reflexivity|]. vm_compute in K. discriminate. Qed.
Print Assumptions C45_refuted.
(* The point before the last step satisfies the tolerance, and fewer than the
   given number of steps had been completed before the last. *)
Theorem C45_partial : forall f x0 epsilon maxiter r n ok, newton f x0 epsilon maxiter = Ok (r, n, ok) ->
  (ok = true -> n < maxiter /\ exists y, (Qabs (fst (f y)) < epsilon)%Q /\ ~ (snd (f y) == 0)%Q /\ r = (y - fst (f y) / snd (f y))%Q) /\
  (ok = false -> n = maxiter).
Proof. intros f x0 epsilon maxiter r n ok H. apply newton_loop_spec in H as (H1 & H2). split; auto. intro K. destruct (H2 K) as (H3 & H4). split; auto. lia. Qed.
Print Assumptions C45_partial.
(* For an affine function with non-zero slope the root itself is returned. *)
Theorem C45_affine : forall a c x0 epsilon maxiter r n, ~ (a == 0)%Q -> newton (fun x => (a * x + c, a)%Q) x0 epsilon maxiter = Ok (r, n, true) -> (a * r + c == 0)%Q.
Proof. intros a c x0 epsilon maxiter r n A H. apply C45_partial in H as (H & _). destruct (H eq_refl) as (_ & y & _ & _ & ->). cbn. field. auto. Qed.
Print Assumptions C45_affine.
Example C45_nonvacuous : (match newton (fun x => (x * x - 2, 2 * x)) 1 (1 # 100) 10 with Ok (r, n, ok) => ok = true /\ n = 2%nat /\ Qabs (r * r - 2) < 1 # 100 | _ => False end)%Q.
Proof. vm_compute. repeat split. Qed.

(* ======================== C79: finite differences ======================== *)
(* f changes by g per unit of its i-th argument, with an even remainder. *)
Theorem C79_scalar : forall s f x i g (rest : Q -> Q), i < length x ->
  (forall h, f (bump x i h) == f x + g * h + rest (h * h))%Q ->
  (forall a b, a == b -> rest a == rest b)%Q -> (s <> Central -> forall a, rest a == 0)%Q ->
  exists d, nth_error (derivative s f x) i = Some d /\ (d == g)%Q.
Proof.
  intros s f x i g rest L F RC R. unfold derivative. pose proof (@increment_nz s (nth i x 0%Q)) as NZ.
  rewrite nth_error_map. rewrite nth_error_nth' with (d := 0) by (rewrite seq_length; auto). rewrite seq_nth by auto. cbn [option_map plus]. eexists. split; [reflexivity|].
  set (h := increment s (nth i x 0%Q)) in *. destruct s.
  - rewrite F, R by discriminate. field. auto.
  - rewrite F, R by discriminate. field. auto.
  - rewrite !F. assert (E : (rest (- h * - h) == rest (h * h))%Q) by (apply RC; ring). rewrite E. field. auto.
Qed.
Print Assumptions C79_scalar.
(* Affine functions are differentiated exactly by all schemes. *)
Theorem C79_affine : forall s a c x i, length a = length x -> i < length x ->
  exists d, nth_error (derivative s (fun x => c + dotQ a x)%Q x) i = Some d /\ (d == nth i a 0)%Q.
Proof.
  intros s a c x i E L. apply (@C79_scalar s _ x i (nth i a 0%Q) (fun _ => 0%Q)); auto; try reflexivity. intro h. rewrite bump_dot by auto. ring.
Qed.
Print Assumptions C79_affine.
(* Functions quadratic in an argument are differentiated exactly by central
   differences. *)
Theorem C79_quadratic : forall f x i g k, i < length x -> (forall h, f (bump x i h) == f x + g * h + k * (h * h))%Q ->
  exists d, nth_error (derivative Central f x) i = Some d /\ (d == g)%Q.
Proof. intros f x i g k L F. apply (@C79_scalar Central f x i g (fun a => k * a)%Q); auto. - intros a b E. rewrite E. reflexivity. - intro N. contradiction. Qed.
Print Assumptions C79_quadratic.
(* Matrices: column i holds the derivatives with respect to argument i. *)
Theorem C79_matrix : forall s f m x i k g, i < length x -> k < m -> (forall x, length (f x) = m) ->
  (forall h, nth k (f (bump x i h)) 0 == nth k (f x) 0 + g * h)%Q ->
  exists col d, nth_error (jacobian s f x) i = Some col /\ nth_error col k = Some d /\ (d == g)%Q.
Proof.
  intros s f m x i k g L K LF F. unfold jacobian. pose proof (@increment_nz s (nth i x 0%Q)) as NZ.
  rewrite nth_error_map. rewrite nth_error_nth' with (d := 0) by (rewrite seq_length; auto). rewrite seq_nth by auto. cbn [option_map plus].
  set (h := increment s (nth i x 0%Q)) in *.
  assert (V : forall a b, length a = m -> length b = m -> nth_error (vsub a b) k = Some (nth k a 0 - nth k b 0)%Q).
  { intros a b A B. unfold vsub. clear - K A B. revert b k m K A B. induction a as [|u a IH]; intros [|v b] [|k] m K A B; cbn in *; try lia; auto. apply IH with (m := m - 1); lia. }
  destruct s; eexists; eexists; (split; [reflexivity|]); rewrite nth_error_map, V by auto; cbn [option_map]; (split; [reflexivity|]).
  - rewrite F. field. auto. - rewrite F. field. auto. - rewrite !F. field. auto.
Qed.
Print Assumptions C79_matrix.
Example C79_nonvacuous : (match derivative Central (fun x => nth 0 x 0 * nth 0 x 0 * 3 + nth 1 x 0) [2; 0] with [a; b] => a == 12 /\ b == 1 | _ => False end)%Q.
Proof. vm_compute. split; reflexivity. Qed.
