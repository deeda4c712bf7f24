(* Bounds, temperature and pressure, restoration of parameters, Jacobian columns. *)
From Verif Require Import Base S_System S_State S_Chem M_Strings M_Formula M_Chem M_Algorithms M_System M_Units M_State M_Specs M_Setup
  S_Equilibrium P_Algorithms P_System P_State P_State2 P_State3 P_Props P_Specs P_Specs2 P_Restrictions P_Conditions P_Setup.

(* ---- Bounds ---- *)
Lemma set_table_ok t : forall l, Forall (fun p => fst p < length l) t -> NoDup (map fst t) ->
  exists l', set_table l t = Ok l' /\ length l' = length l /\
    (forall i v, In (i, v) t -> nth_error l' i = Some (Some v)) /\ (forall i, ~ In i (map fst t) -> nth_error l' i = nth_error l i).
Proof.
  induction t as [|[i v] t IH]; intros l F D; cbn [set_table].
  - exists l. repeat split; auto. intros i v [].
  - inversion F; subst. cbn [fst] in *. destruct (Nat.ltb_spec i (length l)); [|lia]. cbn [map fst] in D. inversion D; subst.
    destruct (IH (upd l i (Some v))) as (l' & E & L & A & B); auto. { rewrite upd_length. auto. }
    exists l'. rewrite upd_length in L. repeat split; auto.
    + intros j w [K|K]; [|auto]. injection K as <- <-. rewrite B by auto. rewrite upd_nth, Nat.eqb_refl.
      destruct (Nat.ltb_spec i (length l)); [reflexivity|lia].
    + intros j N. rewrite B by (intro; apply N; right; auto). rewrite upd_nth. destruct (Nat.eqb_spec j i); [|reflexivity].
      subst. exfalso. apply N. left. reflexivity.
Qed.
Lemma set_frozen_ok t n0 : forall l, Forall (fun i => i < length l) t -> length n0 = length l ->
  exists l', set_frozen l t n0 = Ok l' /\ length l' = length l /\
    (forall i, In i t -> nth_error l' i = Some (nth_error n0 i)) /\ (forall i, ~ In i t -> nth_error l' i = nth_error l i).
Proof.
  induction t as [|i t IH]; intros l F Ln; cbn [set_frozen].
  - exists l. repeat split; auto. intros i [].
  - inversion F; subst. destruct (nth_error n0 i) as [v|] eqn:E; [|apply nth_error_None in E; lia].
    destruct (Nat.ltb_spec i (length l)); [|lia].
    destruct (IH (upd l i (Some v))) as (l' & E' & L & A & B). { rewrite upd_length. auto. } { rewrite upd_length. auto. }
    exists l'. rewrite upd_length in L. repeat split; auto.
    + intros j [<-|K]; [|auto]. destruct (in_dec Nat.eq_dec i t) as [I|I]; [auto|].
      rewrite B by auto. rewrite upd_nth, Nat.eqb_refl. destruct (Nat.ltb_spec i (length l)); [cbn; congruence|lia].
    + intros j N. rewrite B by (intro; apply N; right; auto). rewrite upd_nth. destruct (Nat.eqb_spec j i); [|reflexivity].
      subst. exfalso. apply N. left. reflexivity.
Qed.

(* What the bound of a species must be. *)
Definition Bound (lower : bool) (eps : Q) (l : Limit) (n0 : Q) (b : option Q) : Prop :=
  match l with
  | Unlimited => b = if lower then Some eps else None
  | Frozen => exists m, b = Some m /\ Larger n0 eps m
  | UpTo v => exists m, b = Some m /\ Larger v eps m
  end.
Lemma max_larger up eps v : exists m, max_bound up eps (Some v) = Some m /\ Larger v eps m.
Proof.
  cbn. eexists. split; [reflexivity|]. destruct (Qle_bool eps v) eqn:E.
  - apply Qle_bool_iff in E. repeat split; auto. apply Qle_refl.
  - assert (~ (eps <= v)%Q) by (rewrite <- Qle_bool_iff; congruence). repeat split; auto; [|apply Qle_refl]. apply Qlt_le_weak, Qnot_le_lt. auto.
Qed.

Definition keys_ok (N : nat) (t : list (nat * Q)) (f : list nat) : Prop :=
  Forall (fun p => fst p < N) t /\ NoDup (map fst t) /\ Forall (fun i => i < N) f.
Lemma bounds_ok sys lower eps s t f n0 : keys_ok (length (sys_species sys)) t f -> length n0 = length (sys_species sys) ->
  exists bs, assembleBounds sys lower eps s t f n0 = Ok bs /\ length bs = length (sys_species sys) + length (q_implicit s) /\
    (forall i l x, nth_error n0 i = Some x -> Shows f t i l -> exists b, nth_error bs i = Some b /\ Bound lower eps l x b) /\
    (forall j, j < length (q_implicit s) -> nth_error bs (length (sys_species sys) + j) = Some None).
Proof.
  intros (K1 & K2 & K3) Ln. unfold assembleBounds. set (N := length (sys_species sys)) in *.
  destruct (set_table_ok t (repeat None N)) as (l1 & -> & L1 & A1 & B1); auto. { rewrite repeat_length. auto. }
  rewrite repeat_length in L1. cbn [bind].
  destruct (set_frozen_ok f n0 l1) as (l2 & -> & L2 & A2 & B2). { rewrite L1. auto. } { congruence. }
  cbn [bind]. eexists. split; [reflexivity|]. rewrite L1 in L2. split; [|split].
  - rewrite app_length, map_length, repeat_length. unfold numControlVariablesQ, numTitrantsImplicit. lia.
  - intros i l x Nx [S1 S2]. assert (Li : i < N) by (rewrite <- Ln; apply nth_error_Some; congruence).
    rewrite nth_error_app1 by (rewrite map_length; lia). rewrite nth_error_map.
    destruct l as [| |v]; cbn [Bound].
    + assert (NF : ~ In i f) by (rewrite S1; discriminate).
      assert (NT : ~ In i (map fst t)). { intro I. apply in_map_iff in I as ([j w] & E & I). cbn in E. subst j. apply S2 in I. discriminate. }
      rewrite (B2 i NF), (B1 i NT), nth_error_repeat by auto. cbn. eexists. split; [reflexivity|]. destruct lower; reflexivity.
    + rewrite (A2 i) by (apply S1; reflexivity). rewrite Nx. cbn [option_map]. destruct (max_larger (negb lower) eps x) as (m & E & La).
      eexists. split; [reflexivity|]. exists m. auto.
    + assert (NF : ~ In i f) by (rewrite S1; discriminate). rewrite (B2 i NF), (A1 i v) by (apply S2; reflexivity). cbn [option_map].
      destruct (max_larger (negb lower) eps v) as (m & E & La). eexists. split; [reflexivity|]. exists m. auto.
  - intros j Lj. rewrite nth_error_app2 by (rewrite map_length; lia). rewrite map_length, L2. replace (N + j - N) with j by lia.
    apply nth_error_repeat. exact Lj.
Qed.

(* Restrictions keep well-formed tables. *)
Definition restrictions_ok (N : nat) (r : Restrictions) : Prop := keys_ok N (r_above r) (r_inc r) /\ keys_ok N (r_below r) (r_dec r).
Lemma map_fst_erase i t : map fst (map_erase i t) = set_erase i (map fst t).
Proof. unfold map_erase, set_erase. induction t as [|[j v] t IH]; cbn; auto. destruct (j =? i); cbn; congruence. Qed.
Lemma keys_erase N i t f : keys_ok N t f -> keys_ok N (map_erase i t) (set_erase i f).
Proof.
  intros (A & B & C). split; [|split].
  - rewrite Forall_forall in *. intros p I. apply A. unfold map_erase in I. apply filter_In in I. tauto.
  - rewrite map_fst_erase. apply NoDup_filter. auto.
  - rewrite Forall_forall in *. intros j I. apply in_erase in I. apply C. tauto.
Qed.
Lemma keys_t N t f t' f' : keys_ok N t f -> keys_ok N t' f' -> keys_ok N t f'.
Proof. unfold keys_ok. tauto. Qed.
Lemma keys_insert N i t f : i < N -> keys_ok N t f -> keys_ok N (map_erase i t) (set_insert i f).
Proof.
  intros L K. apply (keys_t _ _ (set_erase i f) t); [apply keys_erase; auto|]. destruct K as (A & B & C). split; [|split]; auto.
  rewrite Forall_forall in *. intros j I. apply in_insert in I as [I| ->]; auto.
Qed.
Lemma keys_assign N i v t f : i < N -> keys_ok N t f -> keys_ok N (map_assign i v t) (set_erase i f).
Proof.
  intros L K. apply (keys_erase _ i) in K. destruct K as (A & B & C). split; [|split]; auto.
  - unfold map_assign. apply Forall_app. split; auto.
  - unfold map_assign. rewrite map_app. apply NoDup_snoc; auto. rewrite map_fst_erase. intro I. apply in_erase in I. tauto.
Qed.
Lemma rcall_ok sys c r o r' : rcall_apply sys c r = (o, r') -> restrictions_ok (length (sys_species sys)) r -> restrictions_ok (length (sys_species sys)) r'.
Proof.
  intros H [K1 K2]. set (N := length (sys_species sys)) in *.
  assert (G : forall i k (P : Restrictions -> Prop), P r -> (i < N -> k = (o, r') -> P r') -> guarded sys i r k = (o, r') -> P r').
  { intros i k P Pr Pk E. unfold guarded in E. destruct (Nat.leb_spec (length (sys_species sys)) i); [injection E as <- <-; auto|auto]. }
  destruct c; cbn [rcall_apply] in H; apply with_value_inv in H as [(i & _ & H)|[(_ & -> & ->)|(_ & -> & ->)]]; try (split; assumption).
  - unfold cannotReact, then_, cannotIncrease, cannotDecrease, guarded in H. fold N in H. destruct (Nat.leb_spec N i); injection H as <- <-; split; cbn; auto using keys_insert.
  - refine (G i _ _ _ _ H); [split; auto|]. intros L E. injection E as <- <-. split; cbn; auto using keys_insert.
  - refine (G i _ _ _ _ H); [split; auto|]. intros L E. apply with_value_inv in E as [(a & _ & E)|[(_ & -> & ->)|(_ & -> & ->)]]; try (split; assumption).
    injection E as <- <-. split; cbn; auto using keys_assign.
  - refine (G i _ _ _ _ H); [split; auto|]. intros L E. injection E as <- <-. split; cbn; auto using keys_insert.
  - refine (G i _ _ _ _ H); [split; auto|]. intros L E. apply with_value_inv in E as [(a & _ & E)|[(_ & -> & ->)|(_ & -> & ->)]]; try (split; assumption).
    injection E as <- <-. split; cbn; auto using keys_assign.
  - unfold canReactFreely, then_, canIncreaseFreely, canDecreaseFreely, guarded in H. fold N in H. destruct (Nat.leb_spec N i); injection H as <- <-; split; cbn; auto using keys_erase.
  - refine (G i _ _ _ _ H); [split; auto|]. intros L E. injection E as <- <-. split; cbn; auto using keys_erase.
  - refine (G i _ _ _ _ H); [split; auto|]. intros L E. injection E as <- <-. split; cbn; auto using keys_erase.
Qed.
Lemma rrun_ok sys h : forall r r', rrun sys r h = Some r' -> restrictions_ok (length (sys_species sys)) r -> restrictions_ok (length (sys_species sys)) r'.
Proof.
  induction h as [|c h IH]; intros r r' H K; cbn [rrun] in H; [congruence|].
  destruct (rcall_apply sys c r) as [o r1] eqn:E. apply (rcall_ok _ _ _ _ _ E) in K. destruct o; try discriminate; eauto.
Qed.
Lemma new_ok N : restrictions_ok N newRestrictions.
Proof. split; (split; [constructor|split; constructor]). Qed.

(* ---- Temperature and pressure ---- *)
Lemma index_head l n : M_Algorithms.index str_eqb (n :: l) n = 0.
Proof. unfold M_Algorithms.index, indexfn. cbn. destruct (str_eqb_spec n n); [reflexivity|contradiction]. Qed.
Lemma index_next l n m : m <> n -> M_Algorithms.index str_eqb (m :: l) n = S (M_Algorithms.index str_eqb l n).
Proof.
  intro N. destruct (P_Algorithms.index_spec str_eqb str_eqb_eq (m :: l) n) as [A B]. destruct (P_Algorithms.index_spec str_eqb str_eqb_eq l n) as [C D].
  destruct (in_dec str_eq_dec n l) as [I|I].
  - destruct (C I) as (a & b & -> & Na & ->). destruct (A (or_intror I)) as (a' & b' & E & Na' & ->).
    destruct a' as [|x a']; cbn in E; injection E as -> E; [contradiction|]. cbn. f_equal.
    assert (K : forall (a a' : list str) b b', a ++ n :: b = a' ++ n :: b' -> ~ In n a -> ~ In n a' -> a = a').
    { clear. induction a as [|x a IH]; intros [|y a'] b b' E H1 H2; cbn in E; auto.
      - injection E as <- _. exfalso. apply H2. left. reflexivity.
      - injection E as -> _. exfalso. apply H1. left. reflexivity.
      - injection E as -> E. f_equal. eapply IH; eauto; intro; [apply H1|apply H2]; right; auto. }
    f_equal. symmetry. eapply K; eauto. intro. apply Na'. right. auto.
  - rewrite (D I). rewrite B; [reflexivity|]. intros [K|K]; contradiction.
Qed.
Lemma index_in l n : In n l -> (M_Algorithms.index str_eqb l n <? length l) = true.
Proof. intro I. apply Nat.ltb_lt. apply index_at. auto. Qed.
Lemma index_notin l n : ~ In n l -> (M_Algorithms.index str_eqb l n <? length l) = false.
Proof. intro I. apply Nat.ltb_ge. apply index_out. auto. Qed.

Lemma read_spec v i x : read v i = Ok x <-> nth_error v i = Some x.
Proof. unfold read. destruct (nth_error v i); split; congruence. Qed.
