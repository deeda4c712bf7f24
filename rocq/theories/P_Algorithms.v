(* Proofs about the algorithms model. *)
From Coq Require Import Sorted Permutation.
From Verif Require Import Base M_Algorithms.

Lemma indexfn_split {A} (c : list A) pred :
  (exists a x b, c = a ++ x :: b /\ pred x = true /\ (forall y, In y a -> pred y = false) /\ indexfn c pred = length a) \/
  ((forall y, In y c -> pred y = false) /\ indexfn c pred = length c).
Proof.
  induction c as [|x c IH]; cbn [indexfn].
  - right. split; [intros y []|reflexivity].
  - destruct (pred x) eqn:P.
    + left. exists [], x, c. repeat split; auto. intros y [].
    + destruct IH as [(a & z & b & -> & Pz & H & E)|[H E]]; rewrite E.
      * left. exists (x :: a), z, b. repeat split; auto. intros y [<-|I]; auto.
      * right. split; auto. intros y [<-|I]; auto.
Qed.

Lemma indexfn_lt {A} (c : list A) pred : indexfn c pred < length c <-> exists x, In x c /\ pred x = true.
Proof.
  destruct (indexfn_split c pred) as [(a & x & b & -> & P & H & E)|[H E]]; rewrite E.
  - split; intro; [exists x; split; auto; apply in_elt|]. rewrite app_length. cbn. lia.
  - split; [lia|]. intros (x & I & P). rewrite (H x I) in P. discriminate.
Qed.

Lemma indexfn_le {A} (c : list A) pred : indexfn c pred <= length c.
Proof. induction c as [|x c IH]; cbn; auto. destruct (pred x); lia. Qed.

Lemma filter_eq {A} (c : list A) pred : filter c pred = List.filter pred c.
Proof.
  unfold filter. enough (H : forall acc, fold_left (fun res x => if pred x then res ++ [x] else res) c acc = acc ++ List.filter pred c)
    by apply H.
  induction c as [|x c IH]; intro acc; cbn; [rewrite app_nil_r; reflexivity|].
  destruct (pred x); rewrite IH; [rewrite <- app_assoc|]; reflexivity.
Qed.

Lemma containsfn_spec {A} (c : list A) pred : containsfn c pred = true <-> exists x, In x c /\ pred x = true.
Proof.
  unfold containsfn. rewrite <- indexfn_lt. pose proof (indexfn_le c pred).
  destruct (Nat.eqb_spec (length c) 0), (Nat.eqb_spec (indexfn c pred) (length c)); cbn; split; try discriminate; try lia; auto.
Qed.

Section Eq.
Context {A : Type} (eqb : A -> A -> bool).
Hypothesis eqb_eq : forall x y, eqb x y = true <-> x = y.

Lemma contains_spec c x : contains eqb c x = true <-> In x c.
Proof.
  unfold contains. rewrite containsfn_spec. split.
  - intros (y & I & E). apply eqb_eq in E. congruence.
  - intro I. exists x. split; auto. apply eqb_eq. reflexivity.
Qed.

Lemma contained_spec a b : contained eqb a b = true <-> forall x, In x a -> In x b.
Proof.
  induction a as [|x a IH]; cbn [contained].
  - split; auto; intros _ x [].

  - destruct (contains eqb b x) eqn:C; cbn [negb].
    + apply contains_spec in C. rewrite IH. split; [intros H y [<-|I]; auto|]. intros H y I. apply H. right; exact I.
    + split; [discriminate|]. intro H. exfalso. assert (contains eqb b x = true) by (apply contains_spec, H; left; reflexivity). congruence.
Qed.

Lemma disjoint_spec a b : disjoint eqb a b = true <-> forall x, In x a -> ~ In x b.
Proof.
  induction a as [|x a IH]; cbn [disjoint].
  - split; auto; intros _ x [].

  - destruct (contains eqb b x) eqn:C.
    + apply contains_spec in C. split; [discriminate|]. intro H. exfalso. apply (H x); [left; reflexivity|exact C].
    + rewrite IH. split; [intros H y [<-|I]; auto|]. { intro I. apply contains_spec in I. congruence. }
      intros H y I. apply H. right; exact I.
Qed.

Lemma identical_spec a b : identical eqb a b = true <-> forall x, In x a <-> In x b.
Proof.
  unfold identical. rewrite andb_true_iff, !contained_spec. split; [intros [H1 H2] x; split; auto|].
  intro H. split; intros x I; apply H; exact I.
Qed.

Lemma oneof_spec x x0 xs : oneof eqb x x0 xs = true <-> In x (x0 :: xs).
Proof.
  revert x0. induction xs as [|x1 xs IH]; intro x0; cbn [oneof].
  - rewrite eqb_eq. cbn. intuition congruence.
  - rewrite orb_true_iff, IH, eqb_eq. cbn. intuition congruence.
Qed.

Lemma index_spec c x :
  (In x c -> exists a b, c = a ++ x :: b /\ ~ In x a /\ index eqb c x = length a) /\
  (~ In x c -> index eqb c x = length c).
Proof.
  unfold index. destruct (indexfn_split c (fun y => eqb y x)) as [(a & z & b & -> & P & H & E)|[H E]].
  - apply eqb_eq in P. subst z. split.
    + intros _. exists a, b. repeat split; auto. intro I. specialize (H x I). cbv beta in H.
      enough (eqb x x = true) by congruence. apply eqb_eq; reflexivity.
    + intro N. exfalso. apply N, in_elt.
  - split; auto. intro I. exfalso. specialize (H x I). cbv beta in H.
    enough (eqb x x = true) by congruence. apply eqb_eq; reflexivity.
Qed.

Variable ltb : A -> A -> bool.
Definition lt (x y : A) : Prop := ltb x y = true.
Hypothesis lt_trans : forall x y z, lt x y -> lt y z -> lt x z.
Hypothesis lt_irrefl : forall x, ~ lt x x.
Hypothesis lt_total : forall x y, lt x y \/ x = y \/ lt y x.

Definition le (x y : A) : Prop := ltb y x = false.

Lemma insert_perm x l : Permutation (insert ltb x l) (x :: l).
Proof.
  induction l as [|y l IH]; cbn [insert]; auto. destruct (ltb x y); auto.
  rewrite IH. apply perm_swap.
Qed.

Lemma sort_perm l : Permutation (sort ltb l) l.
Proof. induction l as [|x l IH]; cbn; auto. rewrite insert_perm. auto. Qed.

Lemma le_trans x y z : le x y -> le y z -> le x z.
Proof.
  unfold le. intros H1 H2. destruct (ltb z x) eqn:E; auto.
  destruct (lt_total x y) as [L|[->|L]]; unfold lt in *; try congruence.
  assert (ltb z y = true) by (eapply lt_trans; eauto). congruence.
Qed.

Lemma insert_sorted x l : StronglySorted le l -> StronglySorted le (insert ltb x l).
Proof.
  induction l as [|y l IH]; cbn [insert]; intro S; [repeat constructor|].
  inversion S as [|? ? S' F]; subst. destruct (ltb x y) eqn:E.
  - assert (Lxy : le x y).
    { unfold le. destruct (ltb y x) eqn:E2; auto. exfalso. apply (lt_irrefl x). eapply lt_trans; eauto. }
    constructor; auto. constructor; auto. rewrite Forall_forall in *. intros z I. eapply le_trans; eauto.
  - constructor; auto. rewrite Forall_forall in *. intros z I. apply (Permutation_in _ (insert_perm x l)) in I.
    destruct I as [<-|I]; auto.
Qed.

Lemma sort_sorted l : StronglySorted le (sort ltb l).
Proof. induction l as [|x l IH]; cbn; [constructor|]. apply insert_sorted; exact IH. Qed.

Lemma dedup_from_in x l y : In y (x :: dedup_from eqb x l) <-> In y (x :: l).
Proof.
  revert x. induction l as [|z l IH]; intro x; cbn [dedup_from]; [tauto|].
  destruct (eqb x z) eqn:E.
  - apply eqb_eq in E. subst z. rewrite IH. cbn. tauto.
  - specialize (IH z). cbn in *. tauto.
Qed.

Lemma dedup_in l y : In y (dedup eqb l) <-> In y l.
Proof. destruct l as [|x l]; cbn [dedup]; [tauto|]. apply dedup_from_in. Qed.

Lemma dedup_from_sorted x l : StronglySorted le (x :: l) -> StronglySorted lt (x :: dedup_from eqb x l).
Proof.
  revert x. induction l as [|z l IH]; intros x S; cbn [dedup_from]; [repeat constructor|].
  inversion S as [|? ? S1 F]; subst. inversion S1 as [|? ? S2 F2]; subst.
  destruct (eqb x z) eqn:E.
  - apply eqb_eq in E. subst z. apply IH. exact S1.
  - specialize (IH z S1).
    assert (L : lt x z).
    { inversion F as [|? ? L _]; subst. destruct (lt_total x z) as [L'|[->|L']]; auto.
      - enough (eqb z z = true) by congruence. apply eqb_eq; reflexivity.
      - unfold le in L. unfold lt in L'. congruence. }
    constructor; auto. inversion IH as [|? ? _ F3]; subst. constructor; auto.
    rewrite Forall_forall in *. intros y I. eapply lt_trans; eauto.
Qed.

Lemma dedup_sorted l : StronglySorted le l -> StronglySorted lt (dedup eqb l).
Proof. destruct l as [|x l]; cbn [dedup]; [constructor|]. apply dedup_from_sorted. Qed.

Lemma merge_spec a b : StronglySorted lt (merge eqb ltb a b) /\ forall x, In x (merge eqb ltb a b) <-> In x a \/ In x b.
Proof.
  unfold merge. split; [apply dedup_sorted, sort_sorted|]. intro x. rewrite dedup_in, <- in_app_iff.
  split; apply Permutation_in; [|symmetry]; apply sort_perm.
Qed.

Lemma unique_spec a : StronglySorted lt (unique eqb ltb a) /\ forall x, In x (unique eqb ltb a) <-> In x a.
Proof.
  unfold unique. split; [apply dedup_sorted, sort_sorted|]. intro x. rewrite dedup_in.
  split; apply Permutation_in; [|symmetry]; apply sort_perm.
Qed.
End Eq.

Lemma extract_spec {A} (a : list A) is :
  (forall i, In i is -> i < length a) -> forall d,
  extract a is = Ok (map (fun i => nth i a d) is).
Proof.
  intros H d. induction is as [|i is IH]; cbn [extract map]; [reflexivity|].
  rewrite (nth_error_nth' a d) by (apply H; left; reflexivity).
  rewrite IH by (intros; apply H; right; auto). reflexivity.
Qed.

Lemma extract_bad {A} (a : list A) is : (exists i, In i is /\ length a <= i) -> extract a is = UB.
Proof.
  intros (i & I & L). induction is as [|j is IH]; [contradiction|]. cbn [extract].
  destruct (nth_error a j) as [x|] eqn:E; [|reflexivity].
  destruct I as [->|I].
  - apply nth_error_None in L. congruence.
  - rewrite (IH I). reflexivity.
Qed.

Lemma range_spec first last step : (0 < step)%Z -> (last - first < 2 ^ 62)%Z -> exists l, range first last step = Ok l /\
  StronglySorted Z.lt l /\
  forall v, In v l <-> exists k, (0 <= k)%Z /\ v = (first + k * step)%Z /\ (v < last)%Z.
Proof.
  intros P L. unfold range. destruct (Z.leb_spec last first) as [H|H].
  - exists []. split; [reflexivity|]. split; [constructor|]. intro v. split; [intros []|].
    intros (k & K & -> & Hv). exfalso. nia.
  - destruct (Z.eqb_spec step 0) as [?|_]; [lia|].
    set (n := Z.quot (last - first - 1) step).
    assert (N : n = ((last - first - 1) / step)%Z) by (apply Z.quot_div_nonneg; lia).
    assert (B0 : (0 <= n)%Z) by (rewrite N; apply Z.div_pos; lia).
    assert (B1 : (n <= last - first - 1)%Z) by (rewrite N; apply Z.div_le_upper_bound; nia).
    assert (M1 : ((n mod 2 ^ 64 + 1) mod 2 ^ 64 = n + 1)%Z).
    { rewrite (Z.mod_small n) by (split; [lia|]; change (2 ^ 64)%Z with (4 * 2 ^ 62)%Z; lia).
      apply Z.mod_small. split; [lia|]. change (2 ^ 64)%Z with (4 * 2 ^ 62)%Z. lia. }
    cbv zeta. rewrite M1.
    pose proof (Z.mul_div_le (last - first - 1) step P) as D1.
    pose proof (Z.mul_succ_div_gt (last - first - 1) step P) as D2. rewrite <- N in D1, D2.
    destruct (Z.leb_spec (2 ^ 62) (n + 1)) as [?|_]; [lia|].
    eexists. split; [reflexivity|]. split.
    + generalize (Z.to_nat (n + 1)) as m. intro m. generalize 0 as i0.
      induction m as [|m IH]; intro i0; cbn [seq map]; constructor; auto.
      apply Forall_forall. intros v I. apply in_map_iff in I as (i & <- & I). apply in_seq in I. nia.
    + intro v. rewrite in_map_iff. split.
      * intros (i & <- & I). apply in_seq in I. exists (Z.of_nat i). repeat split; try lia. nia.
      * intros (k & K & -> & Hv). exists (Z.to_nat k). split; [f_equal; f_equal; lia|].
        apply in_seq. split; [lia|]. cbn [Nat.add]. apply Z2Nat.inj_lt; try lia.
        enough (k < n + 1)%Z by lia. nia.
Qed.

Lemma sum_spec {T} (zero : T) add (f : nat -> T) b e :
  (forall x y z, add x (add y z) = add (add x y) z) -> (forall x, add x zero = x) -> (forall x, add zero x = x) ->
  sum zero add b e f = fold_right add zero (map f (seq b (e - b))).
Proof.
  intros As Zr Zl. unfold sum. generalize (seq b (e - b)) as l. intro l.
  enough (H : forall a, fold_left (fun res i => add res (f i)) l a = add a (fold_right add zero (map f l))) by (rewrite H; apply Zl).
  induction l as [|x l IH]; intro a; cbn; [symmetry; apply Zr|]. rewrite IH. symmetry. apply As.
Qed.
