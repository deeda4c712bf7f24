(* Proofs about Lagrange interpolation. *)
From Coq Require Import Lqa Qabs.
From Verif Require Import Base M_Chem M_Algorithms M_System M_State M_Specs M_Setup M_Math S_Math S_System S_State P_Algorithms P_System P_State P_Setup2 P_Linear P_Interp.
Local Open Scope nat_scope.
Set Implicit Arguments.

(* ---- Polynomial functions ---- *)
Definition IsPoly (n : nat) (f : Q -> Q) : Prop := exists c, length c <= n /\ forall t, (f t == peval c t)%Q.
Fixpoint padd (a b : list Q) : list Q := match a, b with [], _ => b | _, [] => a | x :: a', y :: b' => (x + y)%Q :: padd a' b' end.
Lemma padd_eval a b t : (peval (padd a b) t == peval a t + peval b t)%Q.
Proof. revert b. induction a as [|x a IH]; intros [|y b]; cbn [padd peval]; try ring. rewrite IH. ring. Qed.
Lemma padd_length a b : length (padd a b) = Nat.max (length a) (length b).
Proof. revert b. induction a as [|x a IH]; intros [|y b]; cbn; auto. Qed.
Lemma pscale_eval k a t : (peval (map (Qmult k) a) t == k * peval a t)%Q.
Proof. induction a as [|x a IH]; cbn [map peval]; [ring|]. rewrite IH. ring. Qed.
Lemma peval_ext c x y : (x == y)%Q -> (peval c x == peval c y)%Q.
Proof. intro E. induction c as [|u c IH]; cbn [peval]; [reflexivity|]. rewrite IH, E. reflexivity. Qed.
Lemma IsPoly_ext n f g : (forall t, (f t == g t)%Q) -> IsPoly n f -> IsPoly n g.
Proof. intros E (c & L & H). exists c. split; auto. intro t. rewrite <- E. apply H. Qed.
Lemma IsPoly_le n m f : n <= m -> IsPoly n f -> IsPoly m f.
Proof. intros L (c & Lc & H). exists c. split; auto. lia. Qed.
Lemma IsPoly_add n f g : IsPoly n f -> IsPoly n g -> IsPoly n (fun t => f t + g t)%Q.
Proof. intros (c & L & H) (c' & L' & H'). exists (padd c c'). rewrite padd_length. split; [lia|]. intro t. rewrite padd_eval, H, H'. reflexivity. Qed.
Lemma IsPoly_scale n k f : IsPoly n f -> IsPoly n (fun t => k * f t)%Q.
Proof. intros (c & L & H). exists (map (Qmult k) c). rewrite map_length. split; auto. intro t. rewrite pscale_eval, H. reflexivity. Qed.
Lemma IsPoly_const k : IsPoly 1 (fun _ => k).
Proof. exists [k]. split; auto. intro t. cbn. ring. Qed.
Lemma IsPoly_zero n : IsPoly n (fun _ => 0%Q).
Proof. exists []. split; [cbn; lia|]. reflexivity. Qed.
Lemma IsPoly_linear n a f : IsPoly n f -> IsPoly (S n) (fun t => (t - a) * f t)%Q.
Proof.
  intros H. apply IsPoly_ext with (f := fun t => (t * f t + (- a) * f t)%Q); [intro; ring|]. apply IsPoly_add.
  - destruct H as (c & L & H). exists (0%Q :: c). split; [cbn; lia|]. intro t. cbn. rewrite H. ring.
  - apply IsPoly_scale. apply IsPoly_le with n; auto.
Qed.
(* Synthetic division. *)
Lemma division a : forall c, exists q, length q = length c - 1 /\ forall t, (peval c t == peval c a + (t - a) * peval q t)%Q.
Proof.
  induction c as [|x c (q & L & H)]; [exists []; split; auto; intro; cbn; ring|]. destruct c as [|y c].
  - exists []. split; auto. intro t. cbn. ring.
  - exists (peval (y :: c) a :: q). split; [cbn in *; lia|]. intro t. cbn [peval] in *. rewrite (H t). ring.
Qed.
Lemma IsPoly_factor n f a : IsPoly (S n) f -> (f a == 0)%Q -> exists g, IsPoly n g /\ forall t, (f t == (t - a) * g t)%Q.
Proof.
  intros (c & L & H) Z. destruct (division a c) as (q & Lq & Hq). exists (peval q). split; [exists q; split; [lia|reflexivity]|].
  intro t. rewrite H, Hq. rewrite <- (H a), Z. ring.
Qed.
Definition Distinct (l : list Q) : Prop := ForallOrdPairs (fun a b => ~ (a == b)%Q) l.
Lemma many_roots : forall roots f, Distinct roots -> IsPoly (length roots) f -> Forall (fun r => (f r == 0)%Q) roots -> forall t, (f t == 0)%Q.
Proof.
  induction roots as [|r roots IH]; intros f D P Z t.
  - destruct P as ([|x c] & L & H); [|cbn in L; lia]. rewrite H. reflexivity.
  - inversion D as [|? ? D1 D2]; subst. inversion Z as [|? ? Z1 Z2]; subst. destruct (@IsPoly_factor _ _ _ P Z1) as (g & G & E).
    rewrite E, (IH g); auto; [ring|]. rewrite Forall_forall in *. intros q I. specialize (Z2 q I). rewrite E in Z2.
    apply Qmult_integral in Z2 as [K|K]; auto. exfalso. apply (D1 q I). lra.
Qed.

(* ---- The interpolating function ---- *)
Definition xat (xi : list Q) (k : nat) : Q := nth k xi 0%Q.
Definition basis (xi : list Q) (n i : nat) (t : Q) : Q :=
  prodQ (map (fun j => if i =? j then 1%Q else ((t - xat xi j) / (xat xi i - xat xi j))%Q) (seq 0 n)).
Definition lag (xi yi : list Q) (n : nat) (t : Q) : Q := sumQ (map (fun i => (xat yi i * basis xi n i t)%Q) (seq 0 n)).

Lemma prodQ_cons a l : (prodQ (a :: l) == a * prodQ l)%Q.
Proof.
  unfold prodQ. assert (G : forall l x y, (x == y)%Q -> (fold_left Qmult l x == y * fold_left Qmult l 1)%Q).
  { clear. induction l as [|b l IH]; intros x y E; cbn; [rewrite E; ring|]. rewrite (IH (x * b) (y * b))%Q by (rewrite E; reflexivity). rewrite (IH (1 * b) b)%Q by ring. ring. }
  cbn. apply G. ring.
Qed.
Lemma mapM_map {A B} (f : A -> outcome B) g l : (forall a, In a l -> f a = Ok (g a)) -> mapM f l = Ok (map g l).
Proof. induction l as [|a l IH]; cbn; intro H; auto. rewrite (H a) by auto. cbn. rewrite IH by auto. reflexivity. Qed.
Lemma read_nth l i : i < length l -> read l i = Ok (nth i l 0%Q).
Proof. intro L. apply read_spec. apply nth_error_nth'. auto. Qed.

Definition distinct_first (n : nat) (xi : list Q) : Prop := forall i j, i < n -> j < n -> i <> j -> ~ (xat xi i == xat xi j)%Q.
Lemma interpolate_lag x xi yi n : n <= length xi -> n <= length yi -> distinct_first n xi -> interpolate x xi yi n = Ok (lag xi yi n x).
Proof.
  intros Lx Ly D. unfold interpolate. rewrite (@mapM_map _ _ _ (fun i => (xat yi i * basis xi n i x)%Q)); [reflexivity|].
  intros i I. apply in_seq in I. rewrite (@mapM_map _ _ _ (fun j => if i =? j then 1%Q else ((x - xat xi j) / (xat xi i - xat xi j))%Q)).
  - cbn [bind]. rewrite read_nth by lia. reflexivity.
  - intros j J. apply in_seq in J. destruct (Nat.eqb_spec i j); auto. rewrite !read_nth by lia. cbn [bind]. unfold divide.
    destruct (Qeq_bool _ 0) eqn:E; auto. apply Qeq_bool_iff in E. exfalso. apply (D i j); try lia. unfold xat. lra.
Qed.
Lemma basis_one xi n i : distinct_first n xi -> i < n -> (basis xi n i (xat xi i) == 1)%Q.
Proof.
  intros D L. unfold basis. assert (G : forall l, (forall j, In j l -> j < n) -> (prodQ (map (fun j => if (i =? j)%nat then 1 else (xat xi i - xat xi j) / (xat xi i - xat xi j)) l) == 1)%Q).
  { induction l as [|j l IH]; intro H; [reflexivity|]. cbn [map]. rewrite prodQ_cons, IH by (intros; apply H; right; auto). destruct (Nat.eqb_spec i j); [ring|]. field. intro E. apply (D i j); auto; [apply H; left; auto|lra]. }
  apply G. intros j J. apply in_seq in J. lia.
Qed.
Lemma basis_zero xi n i k : distinct_first n xi -> i < n -> k < n -> i <> k -> (basis xi n i (xat xi k) == 0)%Q.
Proof.
  intros D L K N. unfold basis. assert (G : forall l, In k l -> (forall j, In j l -> j < n) -> (prodQ (map (fun j => if (i =? j)%nat then 1 else (xat xi k - xat xi j) / (xat xi i - xat xi j)) l) == 0)%Q).
  { induction l as [|j l IH]; intros I H; [destruct I|]. cbn [map]. rewrite prodQ_cons. destruct I as [->|I].
    - destruct (Nat.eqb_spec i k); [contradiction|]. field. intro E. apply (D i k); auto. lra.
    - rewrite IH; auto. { ring. } intros; apply H; right; auto. }
  apply G. { apply in_seq. lia. } intros j J. apply in_seq in J. lia.
Qed.
Lemma basis_poly xi n i : i < n -> IsPoly n (basis xi n i).
Proof.
  intros L. unfold basis.
  assert (G : forall l, NoDup l -> IsPoly (if in_dec Nat.eq_dec i l then length l else S (length l))
     (fun t => prodQ (map (fun j => if i =? j then 1%Q else ((t - xat xi j) / (xat xi i - xat xi j))%Q) l))).
  { induction l as [|j l IH]; intro ND.
    - cbn. apply IsPoly_const.
    - inversion ND as [|? ? NI ND']; subst. specialize (IH ND'). cbn [map].
      apply IsPoly_ext with (f := fun t => ((if (i =? j)%nat then 1 else (t - xat xi j) / (xat xi i - xat xi j)) * prodQ (map (fun j => if (i =? j)%nat then 1 else (t - xat xi j) / (xat xi i - xat xi j)) l))%Q).
      { intro t. symmetry. apply prodQ_cons. }
      destruct (Nat.eqb_spec i j) as [->|N].
      + destruct (in_dec Nat.eq_dec j (j :: l)) as [_|K]; [|exfalso; apply K; left; auto]. destruct (in_dec Nat.eq_dec j l); [contradiction|]. cbn [length].
        revert IH. apply IsPoly_ext. intro t. ring.
      + apply IsPoly_linear with (a := xat xi j) in IH. apply IsPoly_scale with (k := (1 / (xat xi i - xat xi j))%Q) in IH.
        destruct (in_dec Nat.eq_dec i l) as [I|I]; (destruct (in_dec Nat.eq_dec i (j :: l)) as [I'|I']; [|]); cbn [length]; try (exfalso; apply I'; right; exact I); try (exfalso; destruct I' as [I'|I']; auto; fail);
        revert IH; apply IsPoly_ext; intro t; unfold Qdiv; ring. }
  specialize (G (seq 0 n) (seq_NoDup n 0)). destruct (in_dec Nat.eq_dec i (seq 0 n)) as [_|K]; [|exfalso; apply K; apply in_seq; lia]. rewrite seq_length in G. exact G.
Qed.
Lemma lag_poly xi yi n : IsPoly n (lag xi yi n).
Proof.
  unfold lag. assert (G : forall l, (forall j, In j l -> j < n) -> IsPoly n (fun t => Qsum (map (fun i => (xat yi i * basis xi n i t)%Q) l))).
  { induction l as [|i l IH]; intro H; cbn [map Qsum]; [apply IsPoly_zero|]. apply (@IsPoly_add n (fun t => xat yi i * basis xi n i t)%Q).
    - apply IsPoly_scale. apply basis_poly. apply H; left; auto. - apply IH. intros; apply H; right; auto. }
  eapply IsPoly_ext; [|apply G]. { intro t. cbn. rewrite sumQ_Qsum. reflexivity. } intros j J. apply in_seq in J. lia.
Qed.
Lemma lag_node xi yi n k : distinct_first n xi -> k < n -> (lag xi yi n (xat xi k) == xat yi k)%Q.
Proof.
  intros D K. unfold lag. rewrite sumQ_Qsum.
  assert (G : forall l, NoDup l -> (forall j, In j l -> j < n) -> (Qsum (map (fun i => xat yi i * basis xi n i (xat xi k)) l) == if in_dec Nat.eq_dec k l then xat yi k else 0)%Q).
  { induction l as [|i l IH]; intros ND H; [reflexivity|]. inversion ND as [|? ? NI ND']; subst. cbn [map Qsum]. rewrite IH; auto. 2:{ intros; apply H; right; auto. }
    destruct (Nat.eq_dec i k) as [->|N].
    - destruct (in_dec Nat.eq_dec k (k :: l)) as [_|X]; [|exfalso; apply X; left; auto]. destruct (in_dec Nat.eq_dec k l); [contradiction|]. rewrite basis_one; auto. ring.
    - rewrite basis_zero; auto; [|apply H; left; auto]. destruct (in_dec Nat.eq_dec k l) as [I|I]; destruct (in_dec Nat.eq_dec k (i :: l)) as [J|J]; try ring.
      + exfalso. apply J. right; auto. + exfalso. destruct J; auto. }
  rewrite G; [|apply seq_NoDup|intros j J; apply in_seq in J; lia]. destruct (in_dec Nat.eq_dec k (seq 0 n)) as [_|X]; [reflexivity|]. exfalso. apply X. apply in_seq. lia.
Qed.
Lemma lag_unique xi yi n f : distinct_first n xi -> IsPoly n f -> (forall k, k < n -> (xat yi k == f (xat xi k))%Q) -> forall t, (lag xi yi n t == f t)%Q.
Proof.
  intros D P Y t. set (roots := map (xat xi) (seq 0 n)).
  assert (Z : (lag xi yi n t + (-1) * f t == 0)%Q).
  { apply (@many_roots roots (fun t => lag xi yi n t + (-1) * f t)%Q).
    - unfold roots. assert (G : forall l, NoDup l -> (forall j, In j l -> j < n) -> Distinct (map (xat xi) l)).
      { induction l as [|i l IH]; intros ND H; cbn; constructor.
        - inversion ND as [|? ? NI ND']; subst. apply Forall_forall. intros q I. apply in_map_iff in I as (j & <- & J). apply D; [apply H; left; auto|apply H; right; auto|]. intros ->. contradiction.
        - inversion ND; subst. apply IH; auto. intros; apply H; right; auto. }
      apply G; [apply seq_NoDup|]. intros j J. apply in_seq in J. lia.
    - unfold roots. rewrite map_length, seq_length. apply IsPoly_add; [apply lag_poly|]. apply IsPoly_scale. auto.
    - unfold roots. apply Forall_forall. intros q I. apply in_map_iff in I as (k & <- & K). apply in_seq in K. rewrite lag_node by (auto; lia). rewrite (Y k) by lia. ring. }
  lra.
Qed.

(* ---- The interpolator ---- *)
Lemma indexfn_nth {A} (p : A -> bool) : forall l, indexfn l p < length l -> (exists a, nth_error l (indexfn l p) = Some a /\ p a = true) /\ forall j a, j < indexfn l p -> nth_error l j = Some a -> p a = false.
Proof.
  induction l as [|x l IH]; cbn; [lia|]. destruct (p x) eqn:E; cbn.
  - intros _. split; [eauto|]. intros; lia.
  - intro L. destruct (IH ltac:(lia)) as (H1 & H2). split; auto. intros [|j] a Lj N; cbn in N; [congruence|]. apply (H2 j a); auto; lia.
Qed.
Lemma indexfn_lt_len {A} (p : A -> bool) l j a : nth_error l j = Some a -> p a = true -> indexfn l p <= j.
Proof. revert j. induction l as [|x l IH]; intros [|j] N P; cbn in *; try discriminate. - injection N as ->. rewrite P. lia. - destruct (p x); [lia|]. specialize (IH j N P). lia. Qed.

Definition table (xi yi : list Q) : Prop := Increasing xi /\ length yi = length xi /\ xi <> [].
(* The node from which the interpolation starts. *)
Definition startsAt (xi : list Q) (x : Q) (i : nat) : Prop :=
  (exists a, nth_error xi i = Some a /\ (x <= a)%Q) /\ forall j a, j < i -> nth_error xi j = Some a -> (a < x)%Q.

Lemma distinct_skipn xi i n : Increasing xi -> i + n <= length xi -> distinct_first n (skipn i xi).
Proof.
  intros I L a b A B N E. unfold xat in E.
  assert (G : forall k, k < n -> nth_error xi (i + k) = Some (nth k (skipn i xi) 0%Q)).
  { intros k K. rewrite <- nth_error_skipn. apply nth_error_nth'. rewrite skipn_length. lia. }
  destruct (Nat.lt_trichotomy a b) as [C|[C|C]]; [|lia|].
  - assert (X : i + a < i + b) by lia. pose proof (Increasing_lt _ I _ _ _ _ X (G a A) (G b B)). lra.
  - assert (X : i + b < i + a) by lia. pose proof (Increasing_lt _ I _ _ _ _ X (G b B) (G a A)). lra.
Qed.
Lemma lagrange_inside xi yi order x a b : table xi yi -> nth_error xi 0 = Some a -> nth_error xi (length xi - 1) = Some b -> (a < x)%Q -> (x < b)%Q ->
  exists i n, startsAt xi x i /\ 0 < i < length xi /\ n = Nat.min (order + 1) (length xi - i) /\
    lagrange xi yi order x = Ok (lag (skipn i xi) (skipn i yi) n x) /\ distinct_first n (skipn i xi) /\ i + n <= length xi.
Proof.
  intros (I & Ly & NE) Na Nb A B. unfold lagrange. destruct (ends _ NE) as (a' & b' & -> & -> & N1 & N2). cbn [bind].
  assert (a' = a) by congruence. assert (b' = b) by congruence. subst a' b'.
  destruct (Qle_bool x a) eqn:E1; [apply Qle_bool_iff in E1; lra|]. destruct (Qle_bool b x) eqn:E2; [apply Qle_bool_iff in E2; lra|].
  set (p := fun a => negb (Qltb a x)). set (i := indexfn xi p). cbn zeta.
  assert (PT : forall c, p c = true <-> (x <= c)%Q). { intro c. unfold p. rewrite negb_true_iff, Qltb_false. reflexivity. }
  assert (Li : i <= length xi - 1). { apply (@indexfn_lt_len _ p xi _ b); auto. apply PT. lra. }
  assert (Lx : 0 < length xi) by (destruct xi; [contradiction|cbn; lia]).
  destruct (@indexfn_nth _ p xi) as ((c & C1 & C2) & C3). { fold i. lia. } fold i in C1, C3.
  assert (S : startsAt xi x i). { split; [exists c; split; auto; apply PT; auto|]. intros j d L N. specialize (C3 _ _ L N). unfold p in C3. apply negb_false_iff in C3. apply Qltb_true; auto. }
  assert (Pi : 0 < i). { destruct i; [|lia]. exfalso. apply PT in C2. assert (c = a) by congruence. subst. lra. }
  set (n := if length xi <? i + order + 1 then length xi - i else order + 1).
  assert (En : n = Nat.min (order + 1) (length xi - i)). { unfold n. destruct (Nat.ltb_spec (length xi) (i + order + 1)); lia. }
  assert (D : distinct_first n (skipn i xi)) by (apply distinct_skipn; auto; lia).
  exists i, n. split; auto. split; [lia|]. split; auto. split; [|split; auto; lia].
  apply interpolate_lag; auto; rewrite skipn_length; lia.
Qed.
