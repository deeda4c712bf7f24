(* Monotonicity of bilinear interpolants along each coordinate. *)
From Coq Require Import Lqa.
From Verif Require Import Base M_Math S_Math P_Linear P_Interp.
Local Open Scope nat_scope.

Lemma cell_bounds l p i s : cell_at l p i s -> exists x1 x2, nth_error l i = Some x1 /\ nth_error l (S i) = Some x2 /\ (x1 < x2)%Q /\ (0 <= s <= 1)%Q /\ (p == x1 + s * (x2 - x1))%Q /\ (x1 <= p <= x2)%Q.
Proof.
  intros (x1 & x2 & N1 & N2 & L & [S0 S1] & E). exists x1, x2. unfold mix in E. repeat split; auto; try lra; rewrite E; nra.
Qed.
(* Two cells of ordered coordinates: the same cell, a later cell, or two
   neighbours that meet at the coordinate. *)
Lemma cells_le l p p' i s i' s' : Increasing l -> cell_at l p i s -> cell_at l p' i' s' -> (p <= p')%Q ->
  (i = i' /\ (s <= s')%Q) \/ i < i' \/ (i = S i' /\ (s == 0)%Q /\ (s' == 1)%Q).
Proof.
  intros I C C' L. apply cell_bounds in C as (x1 & x2 & N1 & N2 & LX & [S0 S1] & E & B1 & B2). apply cell_bounds in C' as (y1 & y2 & M1 & M2 & LY & [T0 T1] & E' & D1 & D2).
  destruct (Nat.lt_trichotomy i i') as [K|[->|K]]; [auto| |].
  - left. split; auto. assert (y1 = x1) by congruence. assert (y2 = x2) by congruence. subst. destruct (Qlt_le_dec s' s) as [H|H]; auto. nra.
  - right. right. assert (y2 <= x1)%Q by (apply (@Increasing_le _ I i (S i')); auto; lia). assert (EQ : (y2 == x1)%Q) by lra.
    split. { destruct (Nat.eq_dec i (S i')); auto. exfalso. assert (y2 < x1)%Q by (apply (@Increasing_lt _ I i (S i')); auto; lia). lra. }
    split. + assert (Z : (s * (x2 - x1) == 0)%Q) by lra. apply Qmult_integral in Z as [Z|Z]; lra.
    + assert (Z : ((1 - s') * (y2 - y1) == 0)%Q) by lra. apply Qmult_integral in Z as [Z|Z]; lra.
Qed.
Lemma cell_S l p i s : cell_at l p i s -> S i < length l.
Proof. intro C. apply cell_bounds in C as (x1 & x2 & N1 & N2 & _). apply nth_error_Some. congruence. Qed.

Section Line.
  Context (l : list Q) (I : Increasing l) (z : nat -> Q).
  Lemma line_eq p i s i' s' : cell_at l p i s -> cell_at l p i' s' -> (mix s (z i) (z (S i)) == mix s' (z i') (z (S i')))%Q.
  Proof.
    intros C C'. destruct (cells_le _ _ _ _ _ _ _ I C C') as [[-> A]|[A|(-> & A & B)]]; [lra| | |].
    - destruct (cells_le _ _ _ _ _ _ _ I C' C) as [[_ B]|[B|(B & _)]]; [lra| |lia|lia]. assert (E : (s == s')%Q) by lra. unfold mix. rewrite E. reflexivity.
    - destruct (cells_le _ _ _ _ _ _ _ I C' C) as [[-> B]|[B|(-> & B & B')]]; [lra|lia|lia|]. unfold mix. rewrite B, B'. lra.
    - unfold mix. rewrite A, B. lra.
  Qed.
  (* The data are monotone up to place m only. *)
  Context (sg : Q) (m : nat) (M : forall k, S k <= m -> (sg * z k <= sg * z (S k))%Q).
  Lemma chain : forall d k, k + d <= m -> (sg * z k <= sg * z (k + d)%nat)%Q.
  Proof.
    induction d as [|d IH]; intros k H; [rewrite Nat.add_0_r; lra|]. assert (A := IH k ltac:(lia)). assert (B := M (k + d) ltac:(lia)). rewrite Nat.add_succ_r. lra.
  Qed.
  Lemma line_le p p' i s i' s' x : cell_at l p i s -> cell_at l p' i' s' -> (p <= p')%Q -> nth_error l m = Some x -> (p' <= x)%Q ->
    (sg * mix s (z i) (z (S i)) <= sg * mix s' (z i') (z (S i')))%Q.
  Proof.
    intros C C' L X PX. assert (B := cell_bounds _ _ _ _ C). destruct B as (x1 & x2 & N1 & N2 & LX & [S0 S1] & E & B1 & B2).
    assert (B := cell_bounds _ _ _ _ C'). destruct B as (y1 & y2 & M1 & M2 & LY & [T0 T1] & E' & D1 & D2). unfold mix.
    (* Cells beyond m are met at their first coordinate only. *)
    assert (UP : forall q j r u v, cell_at l q j r -> (q <= x)%Q -> nth_error l j = Some u -> nth_error l (S j) = Some v -> S j <= m \/ (j = m /\ (r == 0)%Q)).
    { clear - I X. intros q j r u v CC Q U V. apply cell_bounds in CC as (u' & v' & U' & V' & LV & [R0 R1] & EQ & F1 & F2). assert (u' = u) by congruence. assert (v' = v) by congruence. subst.
      destruct (le_lt_dec (S j) m) as [H|H]; auto. right. assert (x <= u)%Q by (apply (@Increasing_le _ I j m); auto; lia). assert (Z : (r * (v - u) == 0)%Q) by lra.
      split; [|apply Qmult_integral in Z as [Z|Z]; lra]. destruct (Nat.eq_dec j m); auto. assert (x < u)%Q by (apply (@Increasing_lt _ I j m); auto; lia). lra. }
    destruct (cells_le _ _ _ _ _ _ _ I C C' L) as [[-> A]|[A|(-> & A & B)]].
    - destruct (UP _ _ _ _ _ C' PX M1 M2) as [H|[-> H]]. + assert (K := M i' H). nra. + assert (E0 : (s == 0)%Q) by lra. rewrite H, E0. lra.
    - assert (K := chain (i' - S i) (S i)). replace (S i + (i' - S i)) with i' in K by lia.
      assert (K2 := M i). destruct (UP _ _ _ _ _ C' PX M1 M2) as [H|[-> H]].
      + assert (K3 := M i' H). specialize (K ltac:(lia)). specialize (K2 ltac:(lia)). assert (G1 : (sg * ((1 - s) * z i + s * z (S i)) <= sg * z (S i))%Q) by nra.
        assert (G2 : (sg * z i' <= sg * ((1 - s') * z i' + s' * z (S i')))%Q) by nra. lra.
      + specialize (K ltac:(lia)). specialize (K2 ltac:(lia)). assert (G1 : (sg * ((1 - s) * z i + s * z (S i)) <= sg * z (S i))%Q) by nra. rewrite H.
        assert (G2 : (sg * ((1 - 0) * z m + 0 * z (S m)) == sg * z m)%Q) by ring. lra.
    - rewrite A, B. lra.
  Qed.
End Line.

Definition dat (g : Grid) (i j : nat) : Q := nth (i + j * length (g_x g)) (g_z g) 0%Q.
Lemma bilinear_dat g x y : regular g -> inside (g_x g) x -> inside (g_y g) y ->
  exists v i j s t, bilinear g x y = Ok v /\ cell_at (g_x g) x i s /\ cell_at (g_y g) y j t /\
    (v == mix t (mix s (dat g i j) (dat g (S i) j)) (mix s (dat g i (S j)) (dat g (S i) (S j))))%Q.
Proof.
  intros R X Y. destruct (bilinear_spec g x y R X Y) as (v & i & j & s & t & z11 & z21 & z12 & z22 & E & Cx & Cy & Z1 & Z2 & Z3 & Z4 & V).
  exists v, i, j, s, t. unfold dat. repeat (split; [assumption|]). rewrite (nth_error_nth _ _ 0%Q Z1), (nth_error_nth _ _ 0%Q Z2), (nth_error_nth _ _ 0%Q Z3), (nth_error_nth _ _ 0%Q Z4). exact V.
Qed.
Lemma mix_sg sg t a b a' b' : (0 <= t <= 1)%Q -> (sg * a <= sg * a')%Q -> (sg * b <= sg * b')%Q -> (sg * mix t a b <= sg * mix t a' b')%Q.
Proof. intros [T0 T1] A B. unfold mix. nra. Qed.

(* Along the first coordinate. *)
Lemma bilinear_mono_x g sg x x' y v v' : regular g -> inside (g_x g) x -> inside (g_x g) x' -> inside (g_y g) y -> (x <= x')%Q ->
  (forall i j, S i < length (g_x g) -> j < length (g_y g) -> (sg * dat g i j <= sg * dat g (S i) j)%Q) ->
  bilinear g x y = Ok v -> bilinear g x' y = Ok v' -> (sg * v <= sg * v')%Q.
Proof.
  intros R X X' Y L M E E'. destruct (bilinear_dat g x y R X Y) as (w & i & j & s & t & W & Cx & Cy & V). rewrite E in W. injection W as <-.
  destruct (bilinear_dat g x' y R X' Y) as (w' & i' & j' & s' & t' & W' & Cx' & Cy' & V'). rewrite E' in W'. injection W' as <-.
  destruct R as (Ix & Iy & Lx & Ly & Lz). destruct X' as (a & b & NA & NB & [HA HB]).
  assert (D : (mix t (mix s' (dat g i' j) (dat g (S i') j)) (mix s' (dat g i' (S j)) (dat g (S i') (S j))) == v')%Q).
  { rewrite V'. apply (line_eq _ Iy (fun k => mix s' (dat g i' k) (dat g (S i') k)) y); auto. }
  rewrite V, <- D. assert (T := cell_bounds _ _ _ _ Cy). destruct T as (_ & _ & _ & _ & _ & T & _). assert (J := cell_S _ _ _ _ Cy).
  apply mix_sg; auto.
  - apply (line_le (g_x g) Ix (fun k => dat g k j) sg (length (g_x g) - 1)) with (p := x) (p' := x') (x := b); auto. intros k K. apply M; lia.
  - apply (line_le (g_x g) Ix (fun k => dat g k (S j)) sg (length (g_x g) - 1)) with (p := x) (p' := x') (x := b); auto. intros k K. apply M; lia.
Qed.
(* Along the second coordinate: for first coordinates from place i0 on and second
   ones up to place m. *)
Lemma bilinear_mono_y g sg x y y' v v' i0 m a b : regular g -> inside (g_x g) x -> inside (g_y g) y -> inside (g_y g) y' -> (y <= y')%Q ->
  nth_error (g_x g) i0 = Some a -> (a <= x)%Q -> nth_error (g_y g) m = Some b -> (y' <= b)%Q ->
  (forall i j, i0 <= i -> i < length (g_x g) -> S j <= m -> (sg * dat g i j <= sg * dat g i (S j))%Q) ->
  bilinear g x y = Ok v -> bilinear g x y' = Ok v' -> (sg * v <= sg * v')%Q.
Proof.
  intros R X Y Y' L NA HA NB HB M E E'. destruct (bilinear_dat g x y R X Y) as (w & i & j & s & t & W & Cx & Cy & V). rewrite E in W. injection W as <-.
  destruct (bilinear_dat g x y' R X Y') as (w' & i' & j' & s' & t' & W' & Cx' & Cy' & V'). rewrite E' in W'. injection W' as <-.
  destruct R as (Ix & Iy & Lx & Ly & Lz).
  set (C := fun j t k => mix t (dat g k j) (dat g k (S j))).
  assert (V1 : (v == mix s (C j t i) (C j t (S i)))%Q) by (rewrite V; unfold C, mix; ring).
  assert (V2 : (v' == mix s (C j' t' i) (C j' t' (S i)))%Q).
  { transitivity (mix s' (C j' t' i') (C j' t' (S i')))%Q; [rewrite V'; unfold C, mix; ring|]. apply (line_eq _ Ix (C j' t') x); auto. }
  rewrite V1, V2. assert (K : forall k, i0 <= k -> k < length (g_x g) -> (sg * C j t k <= sg * C j' t' k)%Q).
  { intros k K1 K2. apply (line_le (g_y g) Iy (fun q => dat g k q) sg m) with (p := y) (p' := y') (x := b); auto. }
  assert (SX := cell_S _ _ _ _ Cx). assert (T := cell_bounds _ _ _ _ Cx). destruct T as (x1 & x2 & N1 & N2 & LX & T & EX & B1 & B2).
  destruct (le_lt_dec i0 i) as [H|H]. { apply mix_sg; auto; apply K; lia. }
  assert (x2 <= a)%Q by (apply (@Increasing_le _ Ix i0 (S i)); auto; lia). assert (Z : ((1 - s) * (x2 - x1) == 0)%Q) by lra.
  assert (S1 : (s == 1)%Q) by (apply Qmult_integral in Z as [Z|Z]; lra).
  assert (i0 = S i). { destruct (Nat.eq_dec i0 (S i)); auto. assert (x2 < a)%Q by (apply (@Increasing_lt _ Ix i0 (S i)); auto; lia). lra. } subst i0.
  assert (K' := K (S i) (Nat.le_refl _) SX). unfold mix. rewrite S1. lra.
Qed.
(* Between the least and the greatest datum. *)
Lemma bilinear_range g x y v lo hi : regular g -> inside (g_x g) x -> inside (g_y g) y -> Forall (fun z => lo <= z <= hi)%Q (g_z g) -> bilinear g x y = Ok v -> (lo <= v <= hi)%Q.
Proof.
  intros R X Y F E. destruct (bilinear_spec g x y R X Y) as (w & i & j & s & t & z11 & z21 & z12 & z22 & W & Cx & Cy & Z1 & Z2 & Z3 & Z4 & V). rewrite E in W. injection W as <-.
  rewrite Forall_forall in F. apply nth_error_In in Z1, Z2, Z3, Z4. apply F in Z1, Z2, Z3, Z4.
  destruct (cell_bounds _ _ _ _ Cx) as (_ & _ & _ & _ & _ & S & _). destruct (cell_bounds _ _ _ _ Cy) as (_ & _ & _ & _ & _ & T & _). rewrite V.
  assert (B : forall r a b, (0 <= r <= 1 -> lo <= a <= hi -> lo <= b <= hi -> lo <= mix r a b <= hi)%Q). { intros r a b H1 H2 H3. unfold mix. nra. }
  apply B; auto.
Qed.
