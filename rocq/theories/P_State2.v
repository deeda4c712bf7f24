(* Lemmas on element amounts, mole fractions, serialization and properties. *)
From Verif Require Import Base M_Strings M_Formula M_Chem M_Algorithms M_System M_Units S_System P_System P_Phases M_State S_State P_Algorithms P_State.
From Coq Require Import Lqa Permutation.

Lemma Forall2_nth {A B} (R : A -> B -> Prop) l r i a : Forall2 R l r -> nth_error l i = Some a -> exists b, nth_error r i = Some b /\ R a b.
Proof. intro F. revert i. induction F as [|x y l r H F IH]; intros [|i] E; try discriminate; cbn in *; eauto. injection E as ->. eauto. Qed.
Lemma Forall2_cons_l {A B} (R : A -> B -> Prop) a l r : Forall2 R (a :: l) r -> exists b r', R a b /\ Forall2 R l r' /\ r = b :: r'.
Proof. inversion 1; subst; eauto. Qed.
Lemma Forall2_len {A B} (R : A -> B -> Prop) l r : Forall2 R l r -> length l = length r.
Proof. induction 1; cbn; congruence. Qed.

(* ---- Element amounts ---- *)
Lemma dotQ_combined a b row : forall x y, length x = length y -> (dotQ row (combined a b x y) == a * dotQ row x + b * dotQ row y)%Q.
Proof.
  unfold dotQ, combined. induction row as [|r row IH]; intros x y E; cbn; [ring|].
  destruct x as [|x0 x], y as [|y0 y]; try discriminate; cbn; [ring|]. injection E as E. rewrite IH by exact E. ring.
Qed.
Lemma dotQ_Qsame row : forall x y, Qsame x y -> (dotQ row x == dotQ row y)%Q.
Proof.
  unfold dotQ. induction row as [|r row IH]; intros x y E; cbn; [reflexivity|].
  destruct E as [|x0 y0 x y E0 E]; cbn; [reflexivity|]. rewrite (IH x y E), E0. reflexivity.
Qed.
Lemma elementAmounts_Ok sys st e : elementAmounts sys st = Ok e ->
  length (st_n st) = length (sys_species sys) /\ Forall2 (fun row x => x == dotQ row (st_n st))%Q (sys_matrix sys) e.
Proof.
  unfold elementAmounts. destruct (Nat.eqb_spec (length (st_n st)) (length (sys_species sys))) as [L|]; [|discriminate].
  intro H. injection H as <-. split; [exact L|]. induction (sys_matrix sys) as [|row m IH]; constructor; [|exact IH].
  apply sum_zip.
Qed.
Lemma elementAmounts_linear sys st1 st2 st a b e1 e2 : elementAmounts sys st1 = Ok e1 -> elementAmounts sys st2 = Ok e2 ->
  Qsame (st_n st) (combined a b (st_n st1) (st_n st2)) -> exists e, elementAmounts sys st = Ok e /\ Qsame e (combined a b e1 e2).
Proof.
  intros H1 H2 S. apply elementAmounts_Ok in H1 as [L1 F1]. apply elementAmounts_Ok in H2 as [L2 F2].
  assert (L : length (st_n st) = length (sys_species sys)).
  { apply Forall2_len in S. rewrite S. unfold combined. rewrite map_length, combine_length. lia. }
  unfold elementAmounts. rewrite L, Nat.eqb_refl. eexists. split; [reflexivity|].
  revert e1 e2 F1 F2. induction (sys_matrix sys) as [|row m IH]; intros e1 e2 F1 F2.
  - inversion F1; inversion F2. constructor.
  - apply Forall2_cons_l in F1 as (x1 & r1 & E1 & F1 & ->). apply Forall2_cons_l in F2 as (x2 & r2 & E2 & F2 & ->). cbn. constructor.
    + rewrite sum_zip. cbn. rewrite E1, E2, (dotQ_Qsame _ _ _ S). apply dotQ_combined. congruence.
    + apply IH; assumption.
Qed.
Lemma grouped_concat ws : forall n, length n = length (concat ws) -> (dotQ (concat ws) n == grouped ws n)%Q.
Proof.
  induction ws as [|w ws IH]; intros n L; cbn; [reflexivity|].
  rewrite <- IH by (rewrite skipn_length; cbn in L; rewrite app_length in L; lia).
  cbn in L. rewrite app_length in L. clear IH. revert n L. unfold dotQ. induction w as [|x w IH]; intros n L; cbn [app length firstn skipn].
  - cbn. ring.
  - destruct n as [|y n]; cbn in L |- *; [lia|]. rewrite IH by lia. ring.
Qed.

(* ---- Mole fractions ---- *)
Lemma Qsum_nonneg l : Forall (fun x => 0 <= x)%Q l -> (0 <= Qsum l)%Q.
Proof. induction 1; cbn; lra. Qed.
Lemma Qsum_ge l x : Forall (fun x => 0 <= x)%Q l -> In x l -> (x <= Qsum l)%Q.
Proof.
  induction 1 as [|y l P F IH]; [intros []|]. intros [->|I]; cbn; [apply Qsum_nonneg in F; lra|]. specialize (IH I). lra.
Qed.
Lemma Qsum_div l t : ~ (t == 0)%Q -> (Qsum (map (fun x => x / t) l) == Qsum l / t)%Q.
Proof. intro N. induction l as [|x l IH]; cbn; [field; exact N|]. rewrite IH. field. exact N. Qed.

Lemma moleFractions_spec n : 
  (length (moleFractions n) = length n) /\
  (~ (Qsum n == 0)%Q -> forall i x y, nth_error n i = Some y -> nth_error (moleFractions n) i = Some x -> (x * Qsum n == y)%Q) /\
  ((Qsum n == 0)%Q -> moleFractions n = if length n =? 1 then [1%Q] else repeat 0%Q (length n)).
Proof.
  unfold moleFractions. destruct (Nat.eqb_spec (length n) 1) as [E|E].
  - destruct n as [|a [|b n]]; try discriminate. cbn. split; [reflexivity|]. split; [|reflexivity].
    intros N [|[|i]] x y H1 H2; cbn in H1, H2; try discriminate. injection H1 as <-. injection H2 as <-. ring.
  - pose proof (sumQ_Qsum n) as S. destruct (Qeq_bool (sumQ n) 0) eqn:Z; cbn [negb].
    + apply Qeq_bool_iff in Z. rewrite S in Z. split; [apply map_length|]. split; [contradiction|]. intros _.
      clear. induction n; cbn; congruence.
    + apply Qeq_bool_false in Z. split; [apply map_length|]. split; [|intro K; rewrite <- S in K; contradiction].
      intros N i x y H1 H2. rewrite nth_error_map, H1 in H2. injection H2 as <-. rewrite <- S. field. exact Z.
Qed.
Lemma fractions_distribution n x : length x = length n -> (0 < Qsum n)%Q -> Forall (fun y => 0 <= y)%Q n ->
  (forall i a b, nth_error n i = Some b -> nth_error x i = Some a -> (a * Qsum n == b)%Q) ->
  (Qsum x == 1)%Q /\ Forall (fun a => 0 <= a <= 1)%Q x.
Proof.
  intros L P F H. set (t := Qsum n) in *. assert (N : ~ (t == 0)%Q) by lra.
  assert (E : Qsame x (map (fun y => y / t)%Q n)).
  { clear F P. clearbody t. revert n L H. induction x as [|a x IH]; intros [|b n] L H; try discriminate; cbn; constructor.
    - specialize (H 0 a b eq_refl eq_refl). rewrite <- H. field. exact N.
    - apply IH; [injection L; auto|]. intros i. apply (H (S i)). }
  split.
  - rewrite (Qsum_Qsame _ _ E), Qsum_div by exact N. fold t. field. exact N.
  - apply Forall_forall. intros a I. apply In_nth_error in I as (i & I).
    destruct (nth_error n i) as [b|] eqn:B; [|apply nth_error_None in B; assert (i < length x) by (apply nth_error_Some; congruence); lia].
    specialize (H i a b B I). assert (B0 : (0 <= b)%Q) by (rewrite Forall_forall in F; apply F; eapply nth_error_In; eauto).
    assert (B1 : (b <= t)%Q) by (apply Qsum_ge; [exact F|eapply nth_error_In; eauto]).
    split; [apply Qnot_lt_le|apply Qnot_lt_le]; intro K; nra.
Qed.

Lemma nth_seq_map {A} (f : nat -> A) k i : i < k -> nth_error (map f (seq 0 k)) i = Some (f i).
Proof. intro L. rewrite nth_error_map, nth_error_nth' with (d := 0) by (rewrite seq_length; exact L). rewrite seq_nth by exact L. reflexivity. Qed.

Lemma jacobian_entry n i j : i < length n -> j < length n -> ~ (Qsum n == 0)%Q ->
  exists row v, nth_error (moleFractionsJacobian n) i = Some row /\ nth_error row j = Some v /\
    (v == (delta i j - nth i n 0 / Qsum n) / Qsum n)%Q.
Proof.
  intros Li Lj N. unfold moleFractionsJacobian. pose proof (sumQ_Qsum n) as S.
  destruct (Qeq_bool (sumQ n) 0) eqn:Z; [apply Qeq_bool_iff in Z; rewrite S in Z; contradiction|].
  eexists. rewrite nth_seq_map by exact Li.
  assert (E : exists v, nth_error (upd (map (fun _ : Q => (- (nth i n 0 / sumQ n) / sumQ n)%Q) n) i ((1 - nth i n 0 / sumQ n) / sumQ n)%Q) j = Some v /\
     (v == (delta i j - nth i n 0 / Qsum n) / Qsum n)%Q).
  { rewrite upd_nth, map_length. apply Nat.ltb_lt in Li. rewrite Li, andb_true_r. unfold delta.
    rewrite (Nat.eqb_sym j i). destruct (i =? j) eqn:E.
    - eexists. split; [reflexivity|]. rewrite S. reflexivity.
    - rewrite nth_error_map. destruct (nth_error n j) eqn:K; [|apply nth_error_None in K; lia]. eexists. split; [reflexivity|]. rewrite S. field. exact N. }
  destruct E as (v & E1 & E2). exists v. split; [reflexivity|]. split; [exact E1|exact E2].
Qed.
Lemma jacobian_zero n i j : i < length n -> j < length n -> (Qsum n == 0)%Q ->
  exists row, nth_error (moleFractionsJacobian n) i = Some row /\ nth_error row j = Some 0%Q.
Proof.
  intros Li Lj N. unfold moleFractionsJacobian. pose proof (sumQ_Qsum n) as S.
  destruct (Qeq_bool (sumQ n) 0) eqn:Z; [|apply Qeq_bool_false in Z; rewrite S in Z; contradiction].
  eexists. rewrite nth_error_map. destruct (nth_error n i) eqn:K; [|apply nth_error_None in K; lia]. split; [reflexivity|].
  rewrite nth_error_map. destruct (nth_error n j) eqn:K'; [reflexivity|apply nth_error_None in K'; lia].
Qed.
Lemma ln_jacobian_entry n J : lnMoleFractionsJacobian n = Ok J -> ~ (Qsum n == 0)%Q -> 
  (forall y, In y n -> ~ (y == 0)%Q) /\
  forall i j, i < length n -> j < length n -> exists row v, nth_error J i = Some row /\ nth_error row j = Some v /\
    (v == delta i j / nth i n 0 - 1 / Qsum n)%Q.
Proof.
  unfold lnMoleFractionsJacobian. intros H N. pose proof (sumQ_Qsum n) as S.
  destruct (Qeq_bool (sumQ n) 0) eqn:Z; [apply Qeq_bool_iff in Z; rewrite S in Z; contradiction|].
  apply Qeq_bool_false in Z. apply mapM_Forall2 in H.
  assert (R : forall i, i < length n -> exists row, nth_error J i = Some row /\ ~ (nth i n 0 == 0)%Q /\
     row = upd (map (fun _ => - (nth i n 0 / sumQ n) / nth i n 0)%Q n) i ((1 - nth i n 0 / sumQ n) / nth i n 0)%Q).
  { intros i L. assert (Hs : nth_error (seq 0 (length n)) i = Some i).
    { rewrite nth_error_nth' with (d := 0) by (rewrite seq_length; exact L). rewrite seq_nth by exact L. reflexivity. }
    destruct (Forall2_nth _ _ _ _ _ H Hs) as (row & E & F). exists row. split; [exact E|]. cbn zeta in F.
    destruct (Qeq_bool (nth i n 0%Q) 0) eqn:Z0; [discriminate|]. apply Qeq_bool_false in Z0. split; [exact Z0|]. congruence. }
  split.
  - intros y I K. apply In_nth_error in I as (i & I). assert (L : i < length n) by (apply nth_error_Some; congruence).
    destruct (R i L) as (_ & _ & Z0 & _). apply Z0. rewrite (nth_error_nth _ _ _ I). exact K.
  - intros i j Li Lj. destruct (R i Li) as (row & E & Z0 & ->). eexists. 
    assert (G : exists v, nth_error (upd (map (fun _ => - (nth i n 0 / sumQ n) / nth i n 0)%Q n) i ((1 - nth i n 0 / sumQ n) / nth i n 0)%Q) j = Some v /\
      (v == delta i j / nth i n 0 - 1 / Qsum n)%Q).
    { rewrite upd_nth, map_length. apply Nat.ltb_lt in Li. rewrite Li, andb_true_r. unfold delta.
      rewrite (Nat.eqb_sym j i). destruct (i =? j).
      - eexists. split; [reflexivity|]. rewrite S. field. split; assumption.
      - rewrite nth_error_map. destruct (nth_error n j) eqn:K; [|apply nth_error_None in K; lia]. eexists. split; [reflexivity|]. rewrite S. field. split; assumption. }
    destruct G as (v & G1 & G2). exists v. split; [exact E|]. split; assumption.
Qed.

(* The change of a mole fraction when the amount of species j grows by h. *)
Lemma Qsum_upd n : forall j h, j < length n -> (Qsum (upd n j (nth j n 0%Q + h)%Q) == Qsum n + h)%Q.
Proof.
  induction n as [|a n IH]; intros j h L; [cbn in L; lia|]. destruct j as [|j].
  - unfold upd; cbn. ring.
  - assert (E : upd (a :: n) (S j) (nth (S j) (a :: n) 0 + h)%Q = a :: upd n j (nth j n 0 + h)%Q).
    { unfold upd. cbn. destruct (skipn j n); reflexivity. }
    rewrite E. cbn. rewrite IH by (cbn in L; lia). ring.
Qed.

(* ---- Serialization ---- *)
Definition flat1 (a : sarg) : list Q := match a with Sc x => [x] | Ar l => l end.
Definition flat (l : list sarg) : list Q := concat (map flat1 l).
Definition same_shape (a b : sarg) : Prop :=
  match a, b with Sc _, Sc _ => True | Ar l, Ar l' => length l = length l' | _, _ => False end.
Lemma flat1_length a : length (flat1 a) = arg_length a.
Proof. destruct a; reflexivity. Qed.
Lemma flat_length l : length (flat l) = args_length l.
Proof. induction l as [|a l IH]; cbn; auto. unfold flat in *. rewrite app_length, flat1_length. congruence. Qed.
Lemma put_segment_app {A} (pre mid post v : list A) : length v = length mid -> put_segment (pre ++ mid ++ post) (length pre) v = pre ++ v ++ post.
Proof.
  intro L. unfold put_segment. rewrite firstn_app, firstn_all, Nat.sub_diag. cbn. rewrite app_nil_r. do 2 f_equal.
  rewrite L, app_assoc, <- app_length, skipn_app, skipn_all, Nat.sub_diag. reflexivity.
Qed.
Lemma upd_app {A} (pre post : list A) a b : upd (pre ++ a :: post) (length pre) b = pre ++ b :: post.
Proof. unfold upd. rewrite skipn_app, skipn_all, Nat.sub_diag. cbn. rewrite firstn_app, firstn_all, Nat.sub_diag. cbn. rewrite app_nil_r. reflexivity. Qed.
Lemma serialize_ok args : forall pre rest, length rest = args_length args ->
  serialize (pre ++ rest) (length pre) args = Ok (pre ++ flat args).
Proof.
  induction args as [|a args IH]; intros pre rest L; cbn [serialize].
  - destruct rest; [reflexivity|discriminate].
  - cbn in L. unfold serialize1. rewrite app_length. destruct (Nat.ltb_spec (length pre + length rest) (length pre + arg_length a)); [lia|].
    set (m := firstn (arg_length a) rest). set (r := skipn (arg_length a) rest).
    assert (R : rest = m ++ r) by (unfold m, r; rewrite firstn_skipn; reflexivity).
    assert (Lm : length m = arg_length a) by (unfold m; rewrite firstn_length; lia).
    assert (Lr : length r = args_length args) by (unfold r; rewrite skipn_length; lia).
    assert (E : (match a with Sc x => upd (pre ++ m ++ r) (length pre) x | Ar l => put_segment (pre ++ m ++ r) (length pre) l end) = (pre ++ flat1 a) ++ r).
    { rewrite <- app_assoc. clearbody m r. destruct a as [x|l]; cbn in Lm.
      - destruct m as [|y [|z m]]; try discriminate. apply upd_app.
      - apply put_segment_app. cbn. lia. }
    cbn [bind]. rewrite R, E. replace (length pre + arg_length a) with (length (pre ++ flat1 a)) by (rewrite app_length, flat1_length; reflexivity).
    rewrite IH by exact Lr. unfold flat. cbn. rewrite <- app_assoc. reflexivity.
Qed.
Lemma stream_from_ok junk args : stream_from junk args = Ok (flat args).
Proof. unfold stream_from. apply (serialize_ok args [] (map junk (seq 0 (args_length args)))). rewrite map_length, seq_length. reflexivity. Qed.
Lemma segment_app {A} (pre mid post : list A) : segment (pre ++ mid ++ post) (length pre) (length mid) = mid.
Proof.
  unfold segment. rewrite skipn_app, skipn_all, Nat.sub_diag. cbn. rewrite firstn_app, firstn_all, Nat.sub_diag. cbn. apply app_nil_r.
Qed.
Lemma deserialize_ok args : forall shape pre post, Forall2 same_shape shape args ->
  deserialize (pre ++ flat args ++ post) (length pre) shape = Ok args.
Proof.
  induction args as [|a args IH]; intros shape pre post F.
  - inversion F. reflexivity.
  - inversion F as [|s sh ? ? S F' E1 E2]; subst. clear F. cbn [deserialize]. unfold deserialize1.
    assert (Ls : arg_length s = arg_length a) by (destruct s, a; cbn in *; auto; contradiction).
    assert (Ef : flat (a :: args) = flat1 a ++ flat args) by reflexivity. rewrite Ef.
    rewrite !app_length, flat1_length, Ls. destruct (Nat.ltb_spec (length pre + (arg_length a + length (flat args) + length post)) (length pre + arg_length a)); [lia|].
    cbn [bind]. assert (E : (match s with Sc _ => Sc (nth (length pre) (pre ++ (flat1 a ++ flat args) ++ post) 0%Q) | Ar l => Ar (segment (pre ++ (flat1 a ++ flat args) ++ post) (length pre) (length l)) end) = a).
    { rewrite <- app_assoc. destruct s as [y|y], a as [x|z]; cbn in S; try contradiction; cbn [flat1].
      - rewrite app_nth2, Nat.sub_diag by lia. reflexivity.
      - f_equal. rewrite S. apply segment_app. }
    rewrite E. replace (pre ++ (flat1 a ++ flat args) ++ post) with ((pre ++ flat1 a) ++ flat args ++ post) by (rewrite <- !app_assoc; reflexivity).
    replace (length pre + arg_length a) with (length (pre ++ flat1 a)) by (rewrite app_length, flat1_length; reflexivity).
    rewrite IH by exact F'. reflexivity.
Qed.
Lemma deserialize_short args : forall array pos, length array < pos + args_length args -> args <> [] -> deserialize array pos args = UB.
Proof.
  induction args as [|a args IH]; intros array pos L N; [contradiction|]. cbn [deserialize args_length] in *. unfold deserialize1.
  destruct (Nat.ltb_spec (length array) (pos + arg_length a)); [reflexivity|]. cbn [bind].
  destruct args as [|b args]; [cbn in L; lia|]. rewrite IH; [reflexivity| |discriminate].
  assert (E : arg_length (match a with Sc _ => Sc (nth pos array 0%Q) | Ar l => Ar (segment array pos (length l)) end) = arg_length a).
  { destruct a as [x|l]; [reflexivity|]. cbn in *. unfold segment. rewrite firstn_length, skipn_length. lia. }
  rewrite E. lia.
Qed.
Lemma deserialize_shape args : forall array pos l, deserialize array pos args = Ok l -> Forall2 same_shape args l.
Proof.
  induction args as [|a args IH]; intros array pos l H; cbn [deserialize] in H.
  - injection H as <-. constructor.
  - unfold deserialize1 in H. destruct (Nat.ltb_spec (length array) (pos + arg_length a)) as [|L]; [discriminate|]. cbn [bind] in H.
    destruct (deserialize _ _ args) as [r| |] eqn:E; try discriminate. injection H as <-. constructor; [|eapply IH; eauto].
    destruct a as [x|x]; cbn in *; [exact I|]. unfold segment. rewrite firstn_length, skipn_length. lia.
Qed.
