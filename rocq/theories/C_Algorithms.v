(* Property C15: filter, set and index helpers. *)
From Coq Require Import Sorted Permutation.
From Verif Require Import Base M_Algorithms P_Algorithms.

Theorem C15_index : forall A (eqb : A -> A -> bool), (forall x y, eqb x y = true <-> x = y) -> forall c x,
  (In x c -> exists a b, c = a ++ x :: b /\ ~ In x a /\ index eqb c x = length a) /\
  (~ In x c -> index eqb c x = length c).
Proof. intros A eqb H. exact (index_spec eqb H). Qed.
Print Assumptions C15_index.

Theorem C15_indexfn : forall A (c : list A) pred,
  (exists a x b, c = a ++ x :: b /\ pred x = true /\ (forall y, In y a -> pred y = false) /\ indexfn c pred = length a) \/
  ((forall y, In y c -> pred y = false) /\ indexfn c pred = length c).
Proof. intros A. exact indexfn_split. Qed.
Print Assumptions C15_indexfn.

(* Order-preserving sublists. *)
Inductive subseq {A} : list A -> list A -> Prop :=
| sub_nil : subseq [] []
| sub_skip x a b : subseq a b -> subseq a (x :: b)
| sub_take x a b : subseq a b -> subseq (x :: a) (x :: b).

Theorem C15_filter : forall A (c : list A) pred,
  subseq (filter c pred) c /\ subseq (remove c pred) c /\
  Permutation (filter c pred ++ remove c pred) c /\
  (forall x, In x (filter c pred) <-> In x c /\ pred x = true) /\
  (forall x, In x (remove c pred) <-> In x c /\ pred x = false).
Proof.
  intros A c pred. unfold remove. rewrite !filter_eq.
  assert (S : forall p, subseq (List.filter p c) c).
  { intro p. induction c as [|x c IH]; cbn; [constructor|]. destruct (p x); constructor; exact IH. }
  split; [apply S|]. split; [apply S|]. split.
  { clear S. induction c as [|x c IH]; cbn; auto. destruct (pred x); cbn.
    - constructor. exact IH.
    - symmetry. apply Permutation_cons_app. symmetry. exact IH. }
  split; intro x; rewrite filter_In; [tauto|]. rewrite negb_true_iff. tauto.
Qed.
Print Assumptions C15_filter.

(* Membership characterisations. *)
Theorem C15_sets : forall A (eqb : A -> A -> bool), (forall x y, eqb x y = true <-> x = y) -> forall a b x,
  (contains eqb a x = true <-> In x a) /\
  (contained eqb a b = true <-> forall y, In y a -> In y b) /\
  (disjoint eqb a b = true <-> forall y, In y a -> ~ In y b) /\
  (identical eqb a b = true <-> forall y, In y a <-> In y b) /\
  (In x (intersect eqb a b) <-> In x a /\ In x b) /\
  (In x (difference eqb a b) <-> In x a /\ ~ In x b) /\
  (In x (concatenate a b) <-> In x a \/ In x b) /\
  (forall x0 xs, oneof eqb x x0 xs = true <-> In x (x0 :: xs)).
Proof.
  intros A eqb H a b x. repeat match goal with |- _ /\ _ => split end.
  - apply contains_spec, H.
  - apply contained_spec, H.
  - apply disjoint_spec, H.
  - apply identical_spec, H.
  - unfold intersect. rewrite filter_eq, filter_In, (contains_spec eqb H). tauto.
  - unfold difference. rewrite filter_eq, filter_In, negb_true_iff, <- not_true_iff_false, (contains_spec eqb H). tauto.
  - apply in_app_iff.
  - apply oneof_spec, H.
Qed.
Print Assumptions C15_sets.

(* A union is strictly increasing, hence sorted and without repetition. *)
Theorem C15_union : forall A (eqb ltb : A -> A -> bool), (forall x y, eqb x y = true <-> x = y) ->
  (forall x y z, ltb x y = true -> ltb y z = true -> ltb x z = true) -> (forall x, ltb x x <> true) ->
  (forall x y, ltb x y = true \/ x = y \/ ltb y x = true) ->
  forall a b,
  (StronglySorted (fun x y => ltb x y = true) (merge eqb ltb a b) /\
   forall x, In x (merge eqb ltb a b) <-> In x a \/ In x b) /\
  (StronglySorted (fun x y => ltb x y = true) (unique eqb ltb a) /\
   forall x, In x (unique eqb ltb a) <-> In x a).
Proof.
  intros A eqb ltb E T I C a b. split.
  - exact (merge_spec eqb E ltb T I C a b).
  - exact (unique_spec eqb E ltb T I C a).
Qed.
Print Assumptions C15_union.

Theorem C15_extract : forall A (a : list A) is,
  ((forall i, In i is -> i < length a) -> forall d, extract a is = Ok (map (fun i => nth i a d) is)) /\
  ((exists i, In i is /\ length a <= i) -> extract a is = UB).
Proof. intros A a is. split; [apply extract_spec|apply extract_bad]. Qed.
Print Assumptions C15_extract.

Theorem C15_range : forall first last step, (0 < step)%Z -> (last - first < 2 ^ 62)%Z ->
  exists l, range first last step = Ok l /\ StronglySorted Z.lt l /\
  forall v, In v l <-> exists k, (0 <= k)%Z /\ v = (first + k * step)%Z /\ (v < last)%Z.
Proof. exact range_spec. Qed.
Print Assumptions C15_range.

Theorem C15_sum : forall (f : nat -> Z) b e, b <= e ->
  sum 0%Z Z.add b e f = fold_right Z.add 0%Z (map f (seq b (e - b))).
Proof. intros f b e _. apply sum_spec; intros; lia. Qed.
Print Assumptions C15_sum.

Example C15_nonvacuous :
  index Nat.eqb [3; 5; 5; 7] 5 = 1 /\ index Nat.eqb [3; 5] 4 = 2 /\
  merge Nat.eqb Nat.ltb [5; 1; 3] [3; 2; 5] = [1; 2; 3; 5] /\
  intersect Nat.eqb [4; 1; 4; 2] [4; 2; 9] = [4; 4; 2] /\
  range 2 11 3 = Ok [2; 5; 8]%Z /\ range 2 12 3 = Ok [2; 5; 8; 11]%Z /\ extract [7; 8] [1; 0; 1] = Ok [8; 7; 8] /\
  (forall x y, Nat.eqb x y = true <-> x = y) /\
  (forall x y z, Nat.ltb x y = true -> Nat.ltb y z = true -> Nat.ltb x z = true) /\
  (forall x, Nat.ltb x x <> true) /\ (forall x y, Nat.ltb x y = true \/ x = y \/ Nat.ltb y x = true).
Proof.
  repeat match goal with |- _ /\ _ => split end; try reflexivity.
  - exact Nat.eqb_eq.
  - intros x y z. rewrite !Nat.ltb_lt. lia.
  - intro x. rewrite Nat.ltb_lt. lia.
  - intros x y. rewrite !Nat.ltb_lt. lia.
Qed.
