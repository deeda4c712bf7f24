(* Proofs about rational approximations, compensated sums, differences and
   Newton's method. *)
From Coq Require Import Lqa Qabs.
From Verif Require Import Base M_Chem M_Algorithms M_System M_State M_Specs M_Setup M_Math S_Math S_System P_Algorithms P_System P_State P_Setup2 P_Linear P_Interp P_Lagrange.
Local Open Scope nat_scope.
Set Implicit Arguments.

(* ---- Fractions ---- *)
Lemma fraction_make p q : (fraction p (Zpos q) == p # q)%Q.
Proof. unfold fraction. symmetry. apply Qmake_Qdiv. Qed.
Lemma fraction_lt a b p q : (0 < b)%Z -> (0 < q)%Z -> (fraction a b < fraction p q)%Q <-> (a * q < p * b)%Z.
Proof. intros B Q. destruct b as [|b|b]; [lia| |lia]. destruct q as [|q|q]; [lia| |lia]. rewrite !fraction_make. reflexivity. Qed.
Lemma fraction_le a b p q : (0 < b)%Z -> (0 < q)%Z -> (fraction a b <= fraction p q)%Q <-> (a * q <= p * b)%Z.
Proof. intros B Q. destruct b as [|b|b]; [lia| |lia]. destruct q as [|q|q]; [lia| |lia]. rewrite !fraction_make. reflexivity. Qed.
Lemma between_den a b c d p q : (0 < b)%Z -> (0 < d)%Z -> (0 < q)%Z -> (b * c - a * d = 1)%Z ->
  (fraction a b < fraction p q)%Q -> (fraction p q < fraction c d)%Q -> (b + d <= q)%Z.
Proof. intros B D Q N L1 L2. apply (proj1 (@fraction_lt _ _ _ _ B Q)) in L1. apply (proj1 (@fraction_lt _ _ _ _ Q D)) in L2.
  assert (E : (q = b * (c * q - p * d) + d * (p * b - a * q))%Z) by (transitivity (q * (b * c - a * d))%Z; [rewrite N; ring|ring]).
  assert (K : forall m k, (0 < m)%Z -> (1 <= k)%Z -> (m <= m * k)%Z) by (intros; nia).
  pose proof (K b (c * q - p * d)%Z B ltac:(lia)). pose proof (K d (p * b - a * q)%Z D ltac:(lia)). lia. Qed.

Lemma farey_loop_spec x maxden : (1 <= maxden)%Z -> forall fuel a b c d,
  (1 <= b)%Z -> (1 <= d)%Z -> (0 <= a <= b)%Z -> (0 <= c <= d)%Z -> (b * c - a * d = 1)%Z -> (fraction a b <= x)%Q -> (x <= fraction c d)%Q ->
  ((b <= maxden)%Z \/ (fraction a b < x)%Q) -> ((d <= maxden)%Z \/ (x < fraction c d)%Q) -> ((b <= maxden)%Z \/ (d <= maxden)%Z) ->
  (2 * maxden + 2 - (b + d) <= Z.of_nat fuel)%Z -> 0 < fuel ->
  exists p q, farey_loop fuel x maxden a b c d = Ok (p, q) /\ Allowed maxden q /\ (0 <= p <= q)%Z /\ ClosestOnItsSide maxden x (fraction p q).
Proof.
  intros M. induction fuel as [|fuel IH]; intros a b c d B D A C N Hl Hu Sb Sd BD F F0; [lia|]. clear F0. cbn [farey_loop].
  assert (Lft : (b <= maxden)%Z -> ((b + d > maxden)%Z /\ (fraction a b <= x)%Q /\ (x < fraction c d)%Q) -> ClosestOnItsSide maxden x (fraction a b)).
  { intros Lb (S & L1 & L2) p q [Q1 Q2]. split; [|intros [H1 H2]; lra]. intros [H1 H2]. assert (b + d <= q)%Z by (apply (@between_den a b c d p q); auto; try lia; lra). lia. }
  assert (Rgt : (d <= maxden)%Z -> ((b + d > maxden)%Z /\ (fraction a b < x)%Q /\ (x <= fraction c d)%Q) -> ClosestOnItsSide maxden x (fraction c d)).
  { intros Lb (S & L1 & L2) p q [Q1 Q2]. split; [intros [H1 H2]; lra|]. intros [H1 H2]. assert (b + d <= q)%Z by (apply (@between_den a b c d p q); auto; try lia; lra). lia. }
  destruct (Z.leb_spec b maxden) as [Lb|Lb]; destruct (Z.leb_spec d maxden) as [Ld|Ld]; cbn [andb].
  2:{ destruct (Z.ltb_spec maxden b); [lia|]. exists a, b. split; auto. split; [split; lia|]. split; auto. apply Lft; auto. split; [lia|]. split; auto. destruct Sd; [lia|auto]. }
  2:{ destruct (Z.ltb_spec maxden b); [|lia]. exists c, d. split; auto. split; [split; lia|]. split; auto. apply Rgt; auto. split; [lia|]. split; auto. destruct Sb; [lia|auto]. }
  2:{ lia. }
  fold (fraction (a + c) (b + d)). 
  assert (M1 : (fraction a b < fraction (a + c) (b + d))%Q) by (apply fraction_lt; lia || nia).
  assert (M2 : (fraction (a + c) (b + d) < fraction c d)%Q) by (apply fraction_lt; lia || nia).
  destruct (Qeq_bool x (fraction (a + c) (b + d))) eqn:E.
  - apply Qeq_bool_iff in E. destruct (Z.leb_spec (b + d) maxden) as [L|L].
    + exists (a + c)%Z, (b + d)%Z. split; auto. split; [split; lia|]. split; [lia|]. intros p q [Q1 Q2]. split; intros [H1 H2]; lra.
    + destruct (Z.ltb_spec b d) as [L2|L2].
      * exists c, d. split; auto. split; [split; lia|]. split; auto. apply Rgt; auto. split; [lia|]. split; lra.
      * exists a, b. split; auto. split; [split; lia|]. split; auto. apply Lft; auto. split; [lia|]. split; lra.
  - assert (NE : ~ (x == fraction (a + c) (b + d))%Q). { intro K. apply Qeq_bool_iff in K. congruence. }
    destruct (Qltb (fraction (a + c) (b + d)) x) eqn:Q.
    + apply Qltb_true in Q. apply IH; auto; try lia. lra.
    + apply Qltb_false in Q. assert (Q' : (x < fraction (a + c) (b + d))%Q). { apply Qle_lteq in Q as [Q|Q]; auto. contradiction. }
      apply IH; auto; try lia. 
Qed.
Lemma farey_spec x maxden : (1 <= maxden)%Z -> (0 <= x)%Q -> (x <= 1)%Q ->
  exists p q, farey x maxden = Ok (p, q) /\ Allowed maxden q /\ (0 <= p <= q)%Z /\ ClosestOnItsSide maxden x (fraction p q).
Proof.
  intros M X0 X1. unfold farey. apply farey_loop_spec; auto; try lia.
Qed.
Lemma side_exact maxden x r p q : ClosestOnItsSide maxden x r -> Allowed maxden q -> (x == fraction p q)%Q -> (r == x)%Q.
Proof. intros C A E. destruct (C p q A) as [H1 H2]. destruct (Q_dec r x) as [[L|L]|]; auto; exfalso; [apply H1|apply H2]; split; lra. Qed.
Lemma fraction_opp p q : (fraction (- p) q == - fraction p q)%Q.
Proof. unfold fraction. rewrite inject_Z_opp. unfold Qdiv. ring. Qed.
Lemma side_opp maxden x r : ClosestOnItsSide maxden x r -> ClosestOnItsSide maxden (- x) (- r).
Proof. intros C p q A. destruct (C (- p)%Z q A) as [H1 H2]. rewrite fraction_opp in H1, H2. split; intros [K1 K2]; [apply H2|apply H1]; split; lra. Qed.
Lemma side_ext maxden x y r s : (x == y)%Q -> (r == s)%Q -> ClosestOnItsSide maxden x r -> ClosestOnItsSide maxden y s.
Proof. intros E F C p q A. destruct (C p q A) as [H1 H2]. split; intros [K1 K2]; [apply H1|apply H2]; split; lra. Qed.

Lemma rationalize_small x maxden : (1 <= maxden)%Z -> (Qabs x <= 1)%Q ->
  exists p q, rationalize x maxden = Ok (p, q) /\ Allowed maxden q /\ (Z.abs p <= q)%Z /\ ClosestOnItsSide maxden x (fraction p q).
Proof.
  intros M X. unfold rationalize. assert (E : Qltb 1 (Qabs x) = false) by (apply Qltb_false; auto). rewrite E.
  destruct (@farey_spec (Qabs x) maxden M (Qabs_nonneg x) X) as (p & q & -> & A & P & C). cbn [omap bind fst snd].
  eexists. eexists. split; [reflexivity|]. split; auto. destruct (Qle_bool 0 x) eqn:S.
  - apply Qle_bool_iff in S. split; [lia|]. replace (1 * p)%Z with p by lia. apply (@side_ext maxden (Qabs x) x (fraction p q)); auto; [apply Qabs_pos; auto|reflexivity].
  - assert (S' : (x <= 0)%Q). { apply Qnot_lt_le. intro K. assert (L : Qle_bool 0 x = true) by (apply Qle_bool_iff; lra). congruence. }
    split; [lia|]. replace (-1 * p)%Z with (- p)%Z by lia.
    apply (@side_ext maxden (- Qabs x) x (- fraction p q)); [rewrite Qabs_neg by auto; ring|symmetry; apply fraction_opp|]. apply side_opp. auto.
Qed.
(* Above one the roles of numerator and denominator are exchanged. *)
Lemma rationalize_large x maxden : (1 <= maxden)%Z -> (1 < Qabs x)%Q ->
  exists p q, rationalize x maxden = Ok (p, q) /\ (1 <= Z.abs p <= maxden)%Z /\ (0 <= q <= Z.abs p)%Z /\ (0 < x <-> (0 < p)%Z)%Q /\
    ClosestOnItsSide maxden (1 / Qabs x) (fraction q (Z.abs p)).
Proof.
  intros M X. unfold rationalize. assert (E : Qltb 1 (Qabs x) = true) by (apply Qltb_true; auto). rewrite E.
  assert (I0 : (0 <= 1 / Qabs x)%Q). { apply Qle_shift_div_l; lra. } assert (I1 : (1 / Qabs x <= 1)%Q). { apply Qle_shift_div_r; lra. }
  destruct (@farey_spec _ maxden M I0 I1) as (p & q & -> & A & P & C). cbn [omap bind fst snd].
  eexists. eexists. split; [reflexivity|]. destruct A. destruct (Qle_bool 0 x) eqn:S.
  - apply Qle_bool_iff in S. rewrite Z.mul_1_l. replace (Z.abs q) with q by lia. split; [lia|]. split; [lia|]. split; [|auto]. split; [lia|]. intros _. rewrite Qabs_pos in X; auto. lra.
  - assert (S' : (x <= 0)%Q). { apply Qnot_lt_le. intro K. assert (L : Qle_bool 0 x = true) by (apply Qle_bool_iff; lra). congruence. }
    replace (Z.abs (-1 * q)) with q by lia. split; [lia|]. split; [lia|]. split; [|auto]. split; [intro K; lra|lia].
Qed.

(* ---- Compensated sums ---- *)
Lemma dot3p_loop_exact single : forall x y shi slo, length x <= length y -> exists v, dot3p_loop single x y shi slo = Ok v /\ (v == shi + slo + dotQ x y)%Q.
Proof.
  induction x as [|a x IH]; intros [|b y] shi slo L; cbn [length] in L; try lia.
  - eexists. split; [reflexivity|]. cbn. ring.
  - eexists. split; [reflexivity|]. cbn. ring.
  - cbn [dot3p_loop]. edestruct (IH y) as (v & -> & E); [lia|]. eexists. split; [reflexivity|]. rewrite E. change (dotQ (a :: x) (b :: y)) with (a * b + dotQ x y)%Q. ring.
Qed.

(* ---- Newton ---- *)
(* The iterates of Newton's method. *)
Lemma newton_loop_spec f epsilon : forall todo x i r n ok, newton_loop f x epsilon i todo = Ok (r, n, ok) ->
  (ok = false -> n = i + todo) /\
  (ok = true -> i <= n < i + todo /\ exists y, (Qabs (fst (f y)) < epsilon)%Q /\ ~ (snd (f y) == 0)%Q /\ r = (y - fst (f y) / snd (f y))%Q).
Proof.
  induction todo as [|todo IH]; intros x i r n ok H; cbn [newton_loop] in H.
  - injection H as <- <- <-. split; intros; [lia|discriminate].
  - destruct (f x) as [fx dfx] eqn:F. unfold divide in H. destruct (Qeq_bool dfx 0) eqn:D; [discriminate|]. cbn [bind] in H.
    destruct (Qltb (Qabs fx) epsilon) eqn:T.
    + injection H as <- <- <-. split; [discriminate|]. intros _. split; [lia|]. exists x. rewrite F. cbn. apply Qltb_true in T. split; auto. split; auto. intro K. apply Qeq_bool_iff in K. congruence.
    + apply IH in H as (H1 & H2). split; [intro K; specialize (H1 K); lia|]. intro K. destruct (H2 K) as (H3 & H4). split; auto. lia.
Qed.

(* ---- Finite differences ---- *)
Lemma increment_nz s a : ~ (increment s a == 0)%Q.
Proof.
  unfold increment. destruct (Qeq_bool a 0) eqn:E.
  - destruct s; discriminate.
  - intro K. apply Qmult_integral in K as [K|K]; [destruct s; discriminate|].
    assert (Z : (a == 0)%Q). { pose proof (Qle_Qabs a). pose proof (Qle_Qabs (- a)). rewrite Qabs_opp in *. lra. }
    apply Qeq_bool_iff in Z. congruence.
Qed.
Lemma upd_cons {A} (v : A) x i b : upd (v :: x) (S i) b = v :: upd x i b.
Proof. unfold upd. cbn. destruct (skipn i x); reflexivity. Qed.
Lemma bump_dot a x i h : i < length x -> length a = length x -> (dotQ a (bump x i h) == dotQ a x + h * nth i a 0)%Q.
Proof.
  unfold bump. revert x i. induction a as [|u a IH]; intros [|v x] [|i] L E; cbn [length] in *; try lia.
  - change (upd (v :: x) 0 (nth 0 (v :: x) 0 + h)%Q) with ((v + h)%Q :: x). cbn [nth]. change (dotQ (u :: a) ((v + h)%Q :: x)) with (u * (v + h) + dotQ a x)%Q. change (dotQ (u :: a) (v :: x)) with (u * v + dotQ a x)%Q. ring.
  - rewrite upd_cons. cbn [nth]. change (dotQ (u :: a) (v :: upd x i (nth i x 0 + h)%Q)) with (u * v + dotQ a (upd x i (nth i x 0 + h)))%Q. change (dotQ (u :: a) (v :: x)) with (u * v + dotQ a x)%Q. rewrite IH by lia. ring.
Qed.

(* ---- Small numbers ---- *)
Lemma unit_le d e : (1 <= d)%Z -> (d <= e)%Z -> (fraction 1 e <= fraction 1 d)%Q.
Proof. intros D E. apply fraction_le; lia. Qed.
Lemma farey_zero y maxden : (1 <= maxden)%Z -> (y < fraction 1 (maxden + 1))%Q -> forall fuel d, (1 <= d <= maxden + 1)%Z -> (maxden + 1 - d < Z.of_nat fuel)%Z ->
  farey_loop fuel y maxden 0 1 1 d = Ok (0, 1)%Z.
Proof.
  intros M Y. induction fuel as [|fuel IH]; intros d D F; [lia|]. cbn [farey_loop]. destruct (Z.leb_spec 1 maxden); [|lia]. destruct (Z.leb_spec d maxden) as [L|L]; cbn [andb].
  - fold (fraction (0 + 1) (1 + d)). assert (K : (y < fraction (0 + 1) (1 + d))%Q). { eapply Qlt_le_trans; [exact Y|]. apply unit_le; lia. }
    destruct (Qeq_bool y _) eqn:E; [apply Qeq_bool_iff in E; rewrite <- E in K; lra|]. destruct (Qltb _ y) eqn:G; [apply Qltb_true in G; lra|].
    apply IH; lia.
  - destruct (Z.ltb_spec maxden 1); [lia|]. reflexivity.
Qed.
Lemma farey_unit y maxden : (1 <= maxden)%Z -> (fraction 1 (maxden + 1) < y)%Q -> (y < fraction 1 maxden)%Q -> forall fuel d, (1 <= d <= maxden)%Z -> (maxden + 1 - d < Z.of_nat fuel)%Z ->
  farey_loop fuel y maxden 0 1 1 d = Ok (1, maxden)%Z.
Proof.
  intros M Y1 Y2. induction fuel as [|fuel IH]; intros d D F; [lia|]. cbn [farey_loop]. destruct (Z.leb_spec 1 maxden); [|lia]. destruct (Z.leb_spec d maxden) as [L|L]; [|lia]; cbn [andb].
  fold (fraction (0 + 1) (1 + d)). destruct (Z.eq_dec d maxden) as [->|N].
  - replace (1 + maxden)%Z with (maxden + 1)%Z by lia. change (0 + 1)%Z with 1%Z.
    destruct (Qeq_bool y _) eqn:E; [apply Qeq_bool_iff in E; rewrite <- E in Y1; lra|]. destruct (Qltb _ y) eqn:G; [|apply Qltb_false in G; lra].
    destruct fuel as [|fuel]; [lia|]. cbn [farey_loop]. destruct (Z.leb_spec (maxden + 1) maxden); [lia|]. cbn [andb]. destruct (Z.ltb_spec maxden (maxden + 1)); [|lia]. reflexivity.
  - assert (K : (y < fraction (0 + 1) (1 + d))%Q). { eapply Qlt_le_trans; [exact Y2|]. apply unit_le; lia. }
    destruct (Qeq_bool y _) eqn:E; [apply Qeq_bool_iff in E; rewrite <- E in K; lra|]. destruct (Qltb _ y) eqn:G; [apply Qltb_true in G; lra|].
    apply IH; lia.
Qed.
Lemma inverse_lt x m : (0 < m)%Z -> (0 < x)%Q -> (x < inject_Z m)%Q <-> (fraction 1 m < 1 / x)%Q.
Proof.
  intros M X. assert (P : (0 < inject_Z m)%Q) by (change 0%Q with (inject_Z 0); rewrite <- Zlt_Qlt; auto). unfold fraction. change (inject_Z 1) with 1%Q.
  assert (E1 : (1 / inject_Z m * (inject_Z m * x) == x)%Q) by (field; lra). assert (E2 : (1 / x * (inject_Z m * x) == inject_Z m)%Q) by (field; lra).
  assert (G : (0 < inject_Z m * x)%Q) by nra. split; intro H.
  - apply Qnot_le_lt. intro K. assert (1 / x * (inject_Z m * x) <= 1 / inject_Z m * (inject_Z m * x))%Q by (apply Qmult_le_compat_r; lra). lra.
  - apply Qnot_le_lt. intro K. assert (1 / inject_Z m * (inject_Z m * x) < 1 / x * (inject_Z m * x))%Q by (apply Qmult_lt_compat_r; lra). lra.
Qed.
Lemma inverse_gt x m : (0 < m)%Z -> (0 < x)%Q -> (inject_Z m < x)%Q <-> (1 / x < fraction 1 m)%Q.
Proof.
  intros M X. assert (P : (0 < inject_Z m)%Q) by (change 0%Q with (inject_Z 0); rewrite <- Zlt_Qlt; auto). unfold fraction. change (inject_Z 1) with 1%Q.
  assert (E1 : (1 / inject_Z m * (inject_Z m * x) == x)%Q) by (field; lra). assert (E2 : (1 / x * (inject_Z m * x) == inject_Z m)%Q) by (field; lra).
  assert (G : (0 < inject_Z m * x)%Q) by nra. split; intro H.
  - apply Qnot_le_lt. intro K. assert (1 / inject_Z m * (inject_Z m * x) <= 1 / x * (inject_Z m * x))%Q by (apply Qmult_le_compat_r; lra). lra.
  - apply Qnot_le_lt. intro K. assert (1 / x * (inject_Z m * x) < 1 / inject_Z m * (inject_Z m * x))%Q by (apply Qmult_lt_compat_r; lra). lra.
Qed.
