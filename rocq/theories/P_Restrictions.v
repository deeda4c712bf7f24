(* Restrictions: the limit shown is the one of the last call. *)
From Verif Require Import Base S_System S_State S_Chem M_Strings M_Formula M_Chem M_Algorithms M_System M_Units M_State M_Specs
  S_Equilibrium P_Algorithms P_State P_Specs2.

Lemma in_erase j i l : In j (set_erase i l) <-> In j l /\ j <> i.
Proof.
  unfold set_erase. rewrite filter_In. destruct (Nat.eqb_spec j i); cbn; intuition congruence.
Qed.
Lemma in_insert j i l : In j (set_insert i l) <-> In j l \/ j = i.
Proof.
  unfold set_insert. destruct (existsb (Nat.eqb i) l) eqn:E.
  - apply existsb_exists in E as (k & I & E). apply Nat.eqb_eq in E. subst k. split; auto. intros [H| ->]; auto.
  - rewrite in_app_iff. cbn. intuition.
Qed.
Lemma in_mapped (j : nat) (w : Q) i l : In (j, w) (map_erase i l) <-> In (j, w) l /\ j <> i.
Proof.
  unfold map_erase. rewrite filter_In. cbn [fst]. destruct (Nat.eqb_spec j i); cbn; intuition congruence.
Qed.
Lemma in_assign (j : nat) (w : Q) i v l : In (j, w) (map_assign i v l) <-> (In (j, w) l /\ j <> i) \/ (j = i /\ w = v).
Proof.
  unfold map_assign. rewrite in_app_iff, in_mapped. cbn. split; (intros [H|H]; [left; exact H|right]).
  - destruct H as [H|[]]. injection H as <- <-. auto. - destruct H as [-> ->]. auto.
Qed.

Section R.
Variable sys : ChemicalSystem.
Lemma resolved_spec t i : i < length (sys_species sys) -> resolved sys t = Ok i <-> Refers sys t i.
Proof.
  intro L. destruct t as [j|n]; cbn [resolved Refers].
  - split; [intro E; injection E as ->; auto|intros [-> _]; reflexivity].
  - apply index_spec.
Qed.
Lemma Refers_lt t i : Refers sys t i -> i < length (sys_species sys).
Proof. destruct t; cbn; [tauto|]. intros [(x & N & _) _]. apply nth_error_Some. congruence. Qed.
Lemma Refers_fun t i j : Refers sys t i -> Refers sys t j -> i = j.
Proof.
  intros H K. apply resolved_spec in H; [|eauto using Refers_lt]. apply resolved_spec in K; [|eauto using Refers_lt]. congruence.
Qed.
Lemma Amount_spec i v un a : computeSpeciesAmount sys i v un = Ok a <-> Amount sys i v un a.
Proof.
  unfold computeSpeciesAmount, Amount. destruct (str_eqb_spec un $"mol") as [->|N].
  - split; [intro E; injection E as <-; auto|]. intros [[_ ->]|[(N & _)|(N & _)]]; congruence.
  - destruct (convertible un $"kg") as [[]| |] eqn:C; cbn [bind].
    + split.
      * destruct (molarMassAt sys i) as [m| |]; cbn [bind]; try discriminate.
        destruct (convert v un $"kg") as [kg| |]; cbn [bind]; try discriminate. intro E. right. left. repeat split; auto. eauto.
      * intros [[E _]|[(_ & _ & m & kg & -> & -> & E)|(_ & E & _)]]; cbn [bind]; congruence.
    + split; [intro E; right; right; auto|]. intros [[E _]|[(_ & E & _)|(_ & _ & E)]]; congruence.
    + split; [discriminate|]. intros [[E _]|[(_ & E & _)|(_ & E & _)]]; congruence.
    + split; [discriminate|]. intros [[E _]|[(_ & E & _)|(_ & E & _)]]; congruence.
Qed.

(* The change that a call makes to the entries of each direction. *)
Definition moved (K : nat -> Limit -> Prop) (f f' : list nat) (t t' : list (nat * Q)) : Prop :=
  forall i, (exists l, K i l /\ Shows f' t' i l) \/
            ((forall l, ~ K i l) /\ (In i f' <-> In i f) /\ forall v, In (i, v) t' <-> In (i, v) t).
Lemma moved_same K f t : (forall i l, ~ K i l) -> moved K f f t t.
Proof. intros N i. right. repeat split; auto. Qed.
Lemma moved_one (K : nat -> Limit -> Prop) i0 l0 f f' t t' : K i0 l0 -> (forall i l, K i l -> i = i0) ->
  Shows f' t' i0 l0 -> (forall i, i <> i0 -> (In i f' <-> In i f) /\ forall v, In (i, v) t' <-> In (i, v) t) -> moved K f f' t t'.
Proof.
  intros H U S O i. destruct (Nat.eq_dec i i0) as [->|N]; [left; eauto|right].
  split; [|apply O; auto]. intros l E. apply U in E. contradiction.
Qed.

Lemma shows_frozen i f t : Shows (set_insert i f) (map_erase i t) i Frozen.
Proof. split; [rewrite in_insert; tauto|]. intro v. rewrite in_mapped. intuition discriminate. Qed.
Lemma shows_upto i v f t : Shows (set_erase i f) (map_assign i v t) i (UpTo v).
Proof.
  split; [rewrite in_erase; intuition discriminate|]. intro w. rewrite in_assign. split.
  - intros [[_ N]|[_ ->]]; [contradiction|reflexivity]. - intro E. injection E as ->. auto.
Qed.
Lemma shows_free i f t : Shows (set_erase i f) (map_erase i t) i Unlimited.
Proof. split; [rewrite in_erase; intuition discriminate|]. intro v. rewrite in_mapped. intuition discriminate. Qed.
Lemma keep_insert i j f t : j <> i -> (In j (set_insert i f) <-> In j f) /\ forall v, In (j, v) (map_erase i t) <-> In (j, v) t.
Proof. intro N. rewrite in_insert. split; [tauto|]. intro v. rewrite in_mapped. tauto. Qed.
Lemma keep_assign i j w f t : j <> i -> (In j (set_erase i f) <-> In j f) /\ forall v, In (j, v) (map_assign i w t) <-> In (j, v) t.
Proof. intro N. rewrite in_erase. split; [tauto|]. intro v. rewrite in_assign. tauto. Qed.
Lemma keep_erase i j f t : j <> i -> (In j (set_erase i f) <-> In j f) /\ forall v, In (j, v) (map_erase i t) <-> In (j, v) t.
Proof. intro N. rewrite in_erase. split; [tauto|]. intro v. rewrite in_mapped. tauto. Qed.

Lemma apply_moved c r r' o : rcall_apply sys c r = (o, r') -> o <> UB ->
  moved (Upper sys c) (r_inc r) (r_inc r') (r_above r) (r_above r') /\
  moved (Lower sys c) (r_dec r) (r_dec r') (r_below r) (r_below r').
Proof.
  assert (G : forall t, (exists i, resolved sys t = Ok i /\ i < length (sys_species sys) /\ Refers sys t i) \/
    (exists i, resolved sys t = Ok i /\ length (sys_species sys) <= i /\ forall j, ~ Refers sys t j) \/
    (resolved sys t = Err /\ forall j, ~ Refers sys t j)).
  { intro t. destruct (resolved sys t) as [i| |] eqn:E.
    - destruct (Nat.lt_ge_cases i (length (sys_species sys))) as [L|L].
      + left. exists i. repeat split; auto. apply resolved_spec; auto.
      + right. left. exists i. repeat split; auto. intros j R. assert (Lj := Refers_lt _ _ R). apply resolved_spec in R; auto. rewrite E in R. injection R as ->. lia.
    - right. right. split; auto. intros j R. assert (Lj := Refers_lt _ _ R). apply resolved_spec in R; auto. congruence.
    - exfalso. destruct t; cbn [resolved] in E; [discriminate|]. exact (index_noUB _ _ E). }
  assert (U : forall t i, Refers sys t i -> forall j, Refers sys t j -> j = i) by (intros; eapply Refers_fun; eauto).
  destruct c; cbn [rcall_apply]; destruct (G t) as [(i & E & L & F)|[(i & E & L & F)|(E & F)]]; rewrite E; cbn [with_value];
    unfold cannotReact, canReactFreely, then_, cannotIncrease, cannotDecrease, cannotIncreaseAbove, cannotDecreaseBelow, canIncreaseFreely, canDecreaseFreely, guarded;
    try (destruct (Nat.leb_spec (length (sys_species sys)) i) as [L'|L']; try (exfalso; lia));
    intros H N; clear G.
  all: try (unfold fail in H; injection H as <- <-; split; apply moved_same; intros j l K; inversion K; subst; eapply F; eassumption).
  - injection H as <- <-. cbn [r_inc r_dec r_above r_below]. split; (eapply (moved_one _ i Frozen); [constructor; auto|intros j l K; inversion K; subst; eauto|apply shows_frozen|intros; apply keep_insert; auto]).
  - injection H as <- <-. cbn [r_inc r_dec r_above r_below]. split; [|apply moved_same; intros j l K; inversion K].
    eapply (moved_one _ i Frozen); [constructor; auto|intros j l K; inversion K; subst; eauto|apply shows_frozen|intros; apply keep_insert; auto].
  - apply with_value_inv in H as [(a & E1 & H)|[(E1 & -> & ->)|(_ & -> & _)]]; [| |contradiction].
    + injection H as <- <-. cbn [r_inc r_dec r_above r_below]. split; [|apply moved_same; intros j l K; inversion K].
      eapply (moved_one _ i (UpTo a)); [constructor; auto; apply Amount_spec; auto|intros j l K; inversion K; subst; eauto|apply shows_upto|intros; apply keep_assign; auto].
    + split; apply moved_same; intros j l K; inversion K; subst. assert (j = i) by eauto. subst j.
      match goal with A : Amount _ _ _ _ _ |- _ => apply Amount_spec in A end. congruence.
  - injection H as <- <-. cbn [r_inc r_dec r_above r_below]. split; [apply moved_same; intros j l K; inversion K|].
    eapply (moved_one _ i Frozen); [constructor; auto|intros j l K; inversion K; subst; eauto|apply shows_frozen|intros; apply keep_insert; auto].
  - apply with_value_inv in H as [(a & E1 & H)|[(E1 & -> & ->)|(_ & -> & _)]]; [| |contradiction].
    + injection H as <- <-. cbn [r_inc r_dec r_above r_below]. split; [apply moved_same; intros j l K; inversion K|].
      eapply (moved_one _ i (UpTo a)); [constructor; auto; apply Amount_spec; auto|intros j l K; inversion K; subst; eauto|apply shows_upto|intros; apply keep_assign; auto].
    + split; apply moved_same; intros j l K; inversion K; subst. assert (j = i) by eauto. subst j.
      match goal with A : Amount _ _ _ _ _ |- _ => apply Amount_spec in A end. congruence.
  - injection H as <- <-. cbn [r_inc r_dec r_above r_below]. split; (eapply (moved_one _ i Unlimited); [constructor; auto|intros j l K; inversion K; subst; eauto|apply shows_free|intros; apply keep_erase; auto]).
  - injection H as <- <-. cbn [r_inc r_dec r_above r_below]. split; [|apply moved_same; intros j l K; inversion K].
    eapply (moved_one _ i Unlimited); [constructor; auto|intros j l K; inversion K; subst; eauto|apply shows_free|intros; apply keep_erase; auto].
  - injection H as <- <-. cbn [r_inc r_dec r_above r_below]. split; [apply moved_same; intros j l K; inversion K|].
    eapply (moved_one _ i Unlimited); [constructor; auto|intros j l K; inversion K; subst; eauto|apply shows_free|intros; apply keep_erase; auto].
Qed.

Lemma InForce_snoc (K : rcall -> nat -> Limit -> Prop) h c i l : (K c i l) -> InForce K (h ++ [c]) i l.
Proof. intro H. right. exists h, c, []. repeat split; auto. Qed.
Lemma InForce_keep (K : rcall -> nat -> Limit -> Prop) h c i l : (forall m, ~ K c i m) -> InForce K h i l -> InForce K (h ++ [c]) i l.
Proof.
  intros N [[-> F]|(a & d & b & -> & Kd & F)].
  - left. split; auto. intros d m I. apply in_app_or in I as [I|[<-|[]]]; auto.
  - right. exists a, d, (b ++ [c]). repeat split; auto. { rewrite <- app_assoc. reflexivity. }
    intros e m I. apply in_app_or in I as [I|[<-|[]]]; auto.
Qed.

Lemma step_shows (K : rcall -> nat -> Limit -> Prop) h c f f' t t' : moved (K c) f f' t t' -> (forall i, exists l, InForce K h i l /\ Shows f t i l) ->
  forall i, exists l, InForce K (h ++ [c]) i l /\ Shows f' t' i l.
Proof.
  intros M H i. destruct (M i) as [(l & Kl & S)|(N & Ff & Ft)].
  - exists l. split; auto. apply InForce_snoc; auto.
  - destruct (H i) as (l & I & [S1 S2]). exists l. split; [apply InForce_keep; auto|]. split; [rewrite Ff; auto|]. intro v. rewrite Ft. auto.
Qed.

Lemma rrun_snoc h c r : forall r0, rrun sys r0 (h ++ [c]) = Some r ->
  exists r1 o, rrun sys r0 h = Some r1 /\ rcall_apply sys c r1 = (o, r) /\ o <> UB.
Proof.
  induction h as [|d h IH]; intros r0 H; cbn [rrun app] in H |- *.
  - destruct (rcall_apply sys c r0) as [o r1] eqn:E. destruct o as [u| |]; [| |discriminate]; injection H as ->;
      eexists r0, _; (split; [reflexivity|]); (split; [exact E|discriminate]).
  - destruct (rcall_apply sys d r0) as [o r1]. destruct o as [u| |]; [| |discriminate]; apply IH; auto.
Qed.
Lemma rrun_shows h : forall r, rrun sys newRestrictions h = Some r ->
  (forall i, exists l, InForce (Upper sys) h i l /\ Shows (r_inc r) (r_above r) i l) /\
  (forall i, exists l, InForce (Lower sys) h i l /\ Shows (r_dec r) (r_below r) i l).
Proof.
  induction h as [|c h IH] using rev_ind; intros r H.
  - injection H as <-. split; intro i; exists Unlimited; (split; [left; split; auto|split; cbn; intuition discriminate]).
  - apply rrun_snoc in H as (r1 & o & R & A & N). destruct (IH _ R) as [I1 I2]. destruct (apply_moved _ _ _ _ A N) as [M1 M2].
    split; eapply step_shows; eauto.
Qed.

Lemma UpTo_inj a b : UpTo a = UpTo b -> a = b. Proof. congruence. Qed.
Lemma Upper_fun c i l m : Upper sys c i l -> Upper sys c i m -> l = m.
Proof.
  intros H K. inversion H; subst; inversion K; subst; try reflexivity; try discriminate.
  f_equal. repeat match goal with A : Amount _ _ _ _ _ |- _ => apply Amount_spec in A end. congruence.
Qed.
Lemma Lower_fun c i l m : Lower sys c i l -> Lower sys c i m -> l = m.
Proof.
  intros H K. inversion H; subst; inversion K; subst; try reflexivity; try discriminate.
  f_equal. repeat match goal with A : Amount _ _ _ _ _ |- _ => apply Amount_spec in A end. congruence.
Qed.
Lemma InForce_fun (K : rcall -> nat -> Limit -> Prop) h i l m : (forall c i l m, K c i l -> K c i m -> l = m) -> InForce K h i l -> InForce K h i m -> l = m.
Proof.
  intros D. revert l m. induction h as [|c h IH] using rev_ind; intros l m.
  - intros [[-> _]|(a & d & b & E & _)] [[-> _]|(a' & d' & b' & E' & _)]; auto; destruct a || destruct a'; discriminate.
  - assert (S : forall l, InForce K (h ++ [c]) i l -> K c i l \/ ((forall m, ~ K c i m) /\ InForce K h i l)).
    { intros x [[-> F]|(a & d & b & E & Kd & F)].
      - right. split; [intros y; apply F, in_elt|]. left. split; auto. intros e y I. apply F, in_or_app; auto.
      - destruct b as [|b0 b1] eqn:Eb using rev_ind; [|clear IHb1].
        + apply app_inj_tail in E as [-> ->]. auto.
        + subst. right. change (a ++ d :: b1 ++ [b0]) with (a ++ (d :: b1) ++ [b0]) in E. rewrite app_assoc in E. apply app_inj_tail in E as [-> ->].
          split; [intro y; apply F, in_elt|]. right. exists a, d, b1. repeat split; auto. intros e y I. apply F, in_or_app; auto. }
    intros H H'. apply S in H. apply S in H'. destruct H as [H|[N H]], H' as [H'|[N' H']]; eauto; exfalso; firstorder.
Qed.
End R.
