(* Proofs about memoized functions, parameters and models. *)
From Verif Require Import Base M_Algorithms P_Algorithms M_Memo S_Memo.

(* ---- memoized functions ---- *)
Section Memo.
Variables A R : Type.
Variable aeqb : A -> A -> bool.
Hypothesis aeqb_spec : forall a b, reflect (a = b) (aeqb a b).
Variables (a0 : A) (r0 : R).

Lemma run_events_inv {S} (call : bool -> S -> A -> outcome R * S) (I : S -> Prop) (g : A -> outcome R) :
  (forall on s a, I s -> fst (call on s a) = g a /\ I (snd (call on s a))) ->
  forall evs on s, I s -> run_events call on s evs = map g (calls evs).
Proof.
  intros H. induction evs as [|[b|a] evs IH]; intros on s Is; cbn; auto.
  destruct (H on s a Is) as [H1 H2]. destruct (call on s a) as [o s']. cbn in *. rewrite H1, IH by exact H2. reflexivity.
Qed.

Lemma lookup_sound f (c : list (A * R)) a r : (forall b s, In (b, s) c -> f b = Ok s) -> lookup aeqb c a = Some r -> f a = Ok r.
Proof.
  induction c as [|[b s] c IH]; intros H L; cbn in L; [discriminate|].
  destruct (aeqb_spec b a) as [E|N].
  - injection L as <-. subst. apply H. left. reflexivity.
  - apply IH; auto. intros. apply H. right. assumption.
Qed.

Lemma memoize_correct (f : A -> outcome R) evs on : run_events (memoize_call aeqb f) on [] evs = map f (calls evs).
Proof.
  apply run_events_inv with (I := fun c => forall b s, In (b, s) c -> f b = Ok s); [|intros b s []].
  clear evs on. intros on c a Ic. unfold memoize_call. destruct on; cbn [negb]; [|auto].
  destruct (lookup aeqb c a) as [r|] eqn:L.
  - split; auto. cbn. symmetry. eapply lookup_sound; eauto.
  - destruct (f a) as [r| |] eqn:E; cbn; auto. split; auto.
    intros b s [K|K]; auto. injection K as <- <-. exact E.
Qed.

Lemma memoizeLast_total (f : A -> outcome R) evs on : (forall a, exists r, f a = Ok r) ->
  run_events (memoizeLast_call aeqb f) on (last0 a0 r0) evs = map f (calls evs).
Proof.
  intro T. apply run_events_inv with (I := fun l => l_first l = false -> f (l_cache l) = Ok (l_result l)); [|discriminate].
  clear evs on. intros on l a Il. unfold memoizeLast_call. destruct on; cbn [negb]; [|auto].
  destruct (aeqb_spec (l_cache l) a) as [E|N]; destruct (l_first l) eqn:F; cbn [negb andb].
  1, 3, 4: destruct (T a) as (r & Er); rewrite Er; cbn; auto.
  cbn. rewrite <- E, Il by auto. auto.
Qed.

(* Without totality: a call is right unless the same arguments made f fail in
   the previous call. *)
Lemma memoizeLast_state (f : A -> outcome R) on l a o l' : memoizeLast_call aeqb f on l a = (o, l') ->
  (l_first l = false -> f (l_cache l) = Ok (l_result l)) -> is_ok (f a) = true ->
  o = f a /\ (l_first l' = false -> f (l_cache l') = Ok (l_result l')).
Proof.
  unfold memoizeLast_call. intros H Il K. destruct (f a) as [r| |] eqn:Ef; try discriminate.
  destruct on; cbn [negb] in H; [|injection H as <- <-; auto].
  destruct (aeqb_spec (l_cache l) a) as [E|N]; destruct (l_first l) eqn:F; cbn [negb andb] in H; injection H as <- <-; cbn; auto.
  split; auto. rewrite E in Il. rewrite Il in Ef by auto. congruence.
Qed.

Lemma memoizeLastUsingRef_enabled (f : R -> A -> outcome R) evs (out : A -> outcome R) res :
  (forall r a, f r a = out a) -> never_off evs ->
  run_events (fun on l a => memoizeLastUsingRef_call aeqb f on l (res a) a) true (last0 a0 r0) evs = map out (calls evs).
Proof.
  intros P. assert (G : forall l, (l_first l = false -> out (l_cache l) = Ok (l_result l)) -> never_off evs ->
    run_events (fun on l a => memoizeLastUsingRef_call aeqb f on l (res a) a) true l evs = map out (calls evs)).
  { induction evs as [|[b|a] evs IH]; intros l Il N; cbn [run_events calls map]; auto.
    - destruct b; [|exfalso; apply N; left; reflexivity]. apply IH; auto. intro K. apply N. right. exact K.
    - assert (N' : never_off evs) by (intro K; apply N; right; exact K).
      destruct (memoizeLastUsingRef_call aeqb f true l (res a) a) as [o l'] eqn:E.
      assert (o = out a /\ (l_first l' = false -> out (l_cache l') = Ok (l_result l'))) as [-> Il'].
      { unfold memoizeLastUsingRef_call in E. cbn [negb] in E. rewrite P in E.
        destruct (aeqb_spec (l_cache l) a) as [Ea|Na]; destruct (l_first l) eqn:F; cbn [negb andb] in E.
        1, 3, 4: destruct (out a) eqn:O; injection E as <- <-; cbn; try congruence; try (split; congruence); split; auto; congruence.
        injection E as <- <-. cbn. rewrite <- Ea, Il by auto. auto. }
      rewrite IH; auto. }
  apply G. discriminate.
Qed.

(* Any schedule, provided the default-constructed arguments are not used. *)
Lemma memoizeLastUsingRef_nondefault (f : R -> A -> outcome R) evs on (out : A -> outcome R) res :
  (forall r a, f r a = out a) -> ~ In (Call a0) evs ->
  run_events (fun on l a => memoizeLastUsingRef_call aeqb f on l (res a) a) on (last0 a0 r0) evs = map out (calls evs).
Proof.
  intros P.
  assert (G : forall l on, (l_first l = false -> l_cache l = a0 \/ out (l_cache l) = Ok (l_result l)) -> ~ In (Call a0) evs ->
    (l_first l = true -> l_cache l = a0) ->
    run_events (fun on l a => memoizeLastUsingRef_call aeqb f on l (res a) a) on l evs = map out (calls evs)).
  { induction evs as [|[b|a] evs IH]; intros l on' Il N D; cbn [run_events calls map]; auto.
    - apply IH; auto. intro K. apply N. right. exact K.
    - assert (N' : ~ In (Call a0) evs) by (intro K; apply N; right; exact K).
      assert (Na : a <> a0) by (intros ->; apply N; left; reflexivity).
      destruct (memoizeLastUsingRef_call aeqb f on' l (res a) a) as [o l'] eqn:E.
      assert (o = out a /\ (l_first l' = false -> l_cache l' = a0 \/ out (l_cache l') = Ok (l_result l')) /\ (l_first l' = true -> l_cache l' = a0)) as (-> & Il' & D').
      { unfold memoizeLastUsingRef_call in E. rewrite P in E. destruct on'; cbn [negb] in E.
        - destruct (aeqb_spec (l_cache l) a) as [Ea|Nc]; destruct (l_first l) eqn:F; cbn [negb andb] in E.
          1, 3, 4: destruct (out a) eqn:O; injection E as <- <-; cbn; split; auto; split; auto; try congruence; rewrite F; auto; congruence.
          injection E as <- <-. cbn. destruct (Il eq_refl) as [K|K]; [congruence|]. rewrite <- Ea. rewrite K. split; auto.
        - destruct (out a) eqn:O; injection E as <- <-; cbn; split; auto; split; auto; try congruence.
          intros _. destruct (l_first l); auto. }
      rewrite IH; auto. }
  intro N. apply G; auto.
Qed.
End Memo.

(* ---- parameters and models ---- *)
Lemma update_length {X} (l : list X) i x : length (update l i x) = length l.
Proof. revert i; induction l as [|y l IH]; intros [|i]; cbn; auto. Qed.
Lemma nth_update_eq {X} (l : list X) i x d : i < length l -> nth i (update l i x) d = x.
Proof. revert i; induction l as [|y l IH]; intros [|i] H; cbn in *; try lia; auto. apply IH. lia. Qed.
Lemma nth_update_neq {X} (l : list X) i j x d : i <> j -> nth j (update l i x) d = nth j l d.
Proof. revert i j; induction l as [|y l IH]; intros [|i] [|j] H; cbn in *; auto; try lia. Qed.
Lemma nth_error_update_eq {X} (l : list X) i x : i < length l -> nth_error (update l i x) i = Some x.
Proof. revert i; induction l as [|y l IH]; intros [|i] H; cbn in *; try lia; auto. apply IH. lia. Qed.
Lemma nth_error_update_neq {X} (l : list X) i j x : i <> j -> nth_error (update l i x) j = nth_error l j.
Proof. revert i j; induction l as [|y l IH]; intros [|i] [|j] H; cbn in *; auto; try lia. Qed.
Lemma nth_error_update {X} (l : list X) i j x y : nth_error (update l i x) j = Some y ->
  (j = i /\ y = x /\ i < length l) \/ (j <> i /\ nth_error l j = Some y).
Proof.
  intro H. destruct (Nat.eq_dec j i) as [->|N].
  - left. assert (i < length l). { rewrite <- (update_length l i x). apply nth_error_Some. congruence. }
    rewrite nth_error_update_eq in H by assumption. injection H as <-. auto.
  - right. rewrite nth_error_update_neq in H by auto. auto.
Qed.
Lemma nth_error_snoc {X} (l : list X) x i y : nth_error (l ++ [x]) i = Some y <->
  (i = length l /\ y = x) \/ (i < length l /\ nth_error l i = Some y).
Proof.
  destruct (Nat.lt_ge_cases i (length l)) as [L|L].
  - rewrite nth_error_app1 by exact L. split; [auto|]. intros [[-> _]|[_ H]]; auto. lia.
  - rewrite nth_error_app2 by exact L. destruct (i - length l) as [|k] eqn:K; cbn.
    + split; [intro H; injection H as <-; left; split; [lia|auto]|intros [[_ ->]|[H _]]; auto; lia].
    + destruct k; cbn; (split; [discriminate|intros [[-> _]|[H _]]; lia]).
Qed.

Section Params.
Variable V : Type.
Variable veqb : V -> V -> bool.
Hypothesis veqb_spec : forall a b, reflect (a = b) (veqb a b).
Variable v0 : V.
Variables A R : Type.
Variable aeqb : A -> A -> bool.
Hypothesis aeqb_spec : forall a b, reflect (a = b) (aeqb a b).
Variables (a0 : A) (r0 : R).
Notation step := (@step V veqb v0 A R aeqb a0 r0).
Notation run := (@run V veqb v0 A R aeqb a0 r0).
Local Arguments M_Memo.cell : simpl never.
Local Arguments M_Memo.eval_model : simpl never.
Notation cell := (cell v0).
Notation values := (values v0).
Notation eval_model := (@eval_model V veqb v0 A R aeqb).
Notation state := (state V A R).
Notation model := (model V A R).
Notation op := (op V A R).

Lemma cell_app (cs l : list (pdata V)) x : x < length cs -> cell (cs ++ l) x = cell cs x.
Proof. intro H. unfold M_Memo.cell. apply app_nth1. exact H. Qed.
Lemma cell_update_eq (cs : list (pdata V)) x d : x < length cs -> cell (update cs x d) x = d.
Proof. apply nth_update_eq. Qed.
Lemma cell_update_neq (cs : list (pdata V)) x y d : x <> y -> cell (update cs x d) y = cell cs y.
Proof. apply nth_update_neq. Qed.
Lemma values_ext (cs cs' : list (pdata V)) l : (forall x, In x l -> cell cs' x = cell cs x) -> values cs' l = values cs l.
Proof. intro H. unfold M_Memo.values. apply map_ext_in. intros x I. rewrite H by exact I. reflexivity. Qed.

Lemma write_values_length (cs : list (pdata V)) a b : length (write_values v0 cs a b) = length cs.
Proof. revert cs b. induction a as [|x a IH]; intros cs [|y b]; cbn; auto. rewrite IH. apply update_length. Qed.
Lemma write_values_notin (cs : list (pdata V)) a b x : ~ In x a -> cell (write_values v0 cs a b) x = cell cs x.
Proof.
  revert cs b. induction a as [|y a IH]; intros cs [|z b] N; cbn [write_values]; auto.
  rewrite IH by (intro K; apply N; right; exact K). apply cell_update_neq. intros ->. apply N. left. reflexivity.
Qed.
Lemma write_values_values (cs : list (pdata V)) a b : NoDup a -> (forall x, In x a -> x < length cs /\ ~ In x b) -> length a = length b ->
  values (write_values v0 cs a b) a = values cs b.
Proof.
  revert cs b. induction a as [|x a IH]; intros cs [|y b] ND H L; cbn [write_values length] in *; try discriminate; auto.
  inversion ND as [|? ? N1 N2]; subst. cbn [M_Memo.values map].
  change (map (fun a1 => p_value (cell ?c a1)) ?l) with (values c l).
  rewrite (write_values_notin _ a b x) by exact N1. rewrite cell_update_eq by (apply H; left; reflexivity).
  f_equal. rewrite IH; auto.
  - apply values_ext. intros z I. apply cell_update_neq. intros ->. apply (H z (or_introl eq_refl)). right. exact I.
  - intros z I. rewrite update_length. destruct (H z (or_intror I)) as [H1 H2]. split; auto. intro K. apply H2. right. exact K.
Qed.
Lemma assign_params_spec (cs : list (pdata V)) a b a' cs' : assign_params v0 cs a b = (a', cs') ->
  (forall x, In x a -> x < length cs /\ ~ In x b) -> (forall x, In x b -> x < length cs) ->
  length cs <= length cs' /\ length a' = length b /\ (forall x, In x a' -> (In x a \/ length cs <= x) /\ x < length cs') /\
  (forall x, x < length cs -> ~ In x a -> cell cs' x = cell cs x) /\
  (NoDup a -> NoDup a' /\ values cs' a' = values cs b).
Proof.
  unfold assign_params, resize. intros H Ha Hb. destruct (Nat.leb_spec (length b) (length a)) as [L|L]; injection H as <- <-.
  - assert (F : forall x, In x (firstn (length b) a) -> In x a) by (intros x I; rewrite <- (firstn_skipn (length b) a); apply in_or_app; auto).
    rewrite write_values_length. split; [lia|]. split; [rewrite firstn_length; lia|].
    split; [intros x I; split; [left; auto|apply Ha; auto]|].
    split; [intros x _ N; apply write_values_notin; auto|].
    intro ND. assert (ND' : NoDup (firstn (length b) a)).
    { rewrite <- (firstn_skipn (length b) a) in ND. revert ND. generalize (firstn (length b) a) (skipn (length b) a). clear.
      induction l as [|x l IH]; intros l' H; [constructor|]. inversion H; subst. constructor; eauto. intro K. apply H2. apply in_or_app; auto. }
    split; auto. apply write_values_values; auto. rewrite firstn_length. lia.
  - set (k := length b - length a) in *. rewrite write_values_length, app_length, repeat_length.
    split; [lia|]. split; [rewrite app_length, seq_length; lia|].
    split; [intros x I; apply in_app_or in I as [I|I]; [split; [left; auto|specialize (Ha x I); lia]|apply in_seq in I; split; [right; lia|lia]]|].
    split.
    + intros x Hx N. rewrite write_values_notin; [apply cell_app; exact Hx|]. intro K. apply in_app_or in K as [K|K]; auto. apply in_seq in K. lia.
    + intro ND. assert (ND' : NoDup (a ++ seq (length cs) k)).
      { clear - ND Ha. clearbody k. induction a as [|x a IH]; [apply seq_NoDup|]. inversion ND; subst. cbn. constructor.
        - intro K. apply in_app_or in K as [K|K]; auto. apply in_seq in K. specialize (Ha x (or_introl eq_refl)). lia.
        - apply IH; auto. intros y I. apply Ha. right. exact I. }
      split; auto. rewrite write_values_values; auto.
      * apply values_ext. intros x I. apply cell_app. auto.
      * intros x I. rewrite app_length, repeat_length. apply in_app_or in I as [I|I].
        -- destruct (Ha x I). split; auto. lia.
        -- apply in_seq in I. split; [lia|]. intro K. specialize (Hb x K). lia.
      * rewrite app_length, seq_length. lia.
Qed.

Lemma getAll_in {X} (l : list X) is r : getAll l is = Some r -> forall x, In x r -> In x l.
Proof.
  revert r. induction is as [|i is IH]; intros r H x I; cbn in H; [injection H as <-; destruct I|].
  destruct (nth_error l i) as [y|] eqn:E; [|discriminate]. destruct (getAll l is) as [q|]; [|discriminate].
  injection H as <-. destruct I as [<-|I]; [eapply nth_error_In; eauto|eauto].
Qed.

(* Structural invariant of all programs: addresses are allocated, and cached
   parameters are not those of clients or models. *)
Definition wf (s : state) : Prop :=
  (forall x, In x (st_vars s) -> x < length (st_cells s)) /\
  (forall m, In m (st_models s) -> (forall x, In x (m_params m) -> x < length (st_cells s)) /\ (forall x, In x (m_cacheP m) -> x < length (st_cells s))) /\
  (forall m x, In m (st_models s) -> In x (m_cacheP m) -> ~ In x (st_vars s) /\ forall m', In m' (st_models s) -> ~ In x (m_params m')).

Lemma in_update {X} (l : list X) i x y : In y (update l i x) -> y = x \/ In y l.
Proof. revert i; induction l as [|z l IH]; intros [|i] H; cbn in *; auto; destruct H as [H|H]; auto. destruct (IH _ H); auto. Qed.

(* What an evaluation does to the model and to the cells. *)
Lemma eval_model_spec on (cs : list (pdata V)) m a r m' cs' : eval_model on cs m a = (r, m', cs') ->
  (forall x, In x (m_params m) -> x < length cs) -> (forall x, In x (m_cacheP m) -> x < length cs /\ ~ In x (m_params m)) ->
  m_params m' = m_params m /\ m_fn m' = m_fn m /\ m_memo m' = m_memo m /\ length cs <= length cs' /\
  (forall x, In x (m_cacheP m') -> (In x (m_cacheP m) \/ length cs <= x) /\ x < length cs') /\
  (forall x, x < length cs -> ~ In x (m_cacheP m) -> cell cs' x = cell cs x).
Proof.
  unfold M_Memo.eval_model. intros H Hp Hc.
  destruct (negb (m_memo m) || negb on) eqn:B.
  { injection H as <- <- <-. split; [auto|split; [auto|split; [auto|split; [lia|split; [intros x I; split; [auto|apply Hc; auto]|auto]]]]]. }
  apply orb_false_iff in B as [B _]. apply negb_false_iff in B.
  destruct (same_values veqb v0 aeqb cs m a) as [same| |].
  2, 3: injection H as <- <- <-; split; [auto|split; [auto|split; [auto|split; [lia|split; [intros x I; split; [auto|apply Hc; auto]|auto]]]]].
  destruct (same && negb (m_first m)).
  { injection H as <- <- <-. split; [auto|split; [auto|split; [auto|split; [lia|split; [intros x I; split; [auto|apply Hc; auto]|auto]]]]]. }
  destruct (assign_params v0 cs (m_cacheP m) (m_params m)) as [ps cs1] eqn:E.
  destruct (assign_params_spec _ _ _ _ _ E Hc Hp) as (A1 & A2 & A3 & A4 & _).
  destruct (m_fn m a _); injection H as <- <- <-; cbn; auto 10.
Qed.

Lemma wf_step s o s' r : wf s -> step s o = Some (s', r) -> wf s'.
Proof.
  destruct s as [vs cs ms on]. intros (W1 & W2 & W3) H. cbn in W1, W2, W3.
  destruct o; cbn in H.
  - injection H as <- _. unfold wf; cbn. rewrite app_length. cbn. split; [|split].
    + intros x I. apply in_app_or in I as [I|[<-|[]]]; [specialize (W1 x I)|]; lia.
    + intros m I. destruct (W2 m I) as [P1 P2]. split; intros x J; [specialize (P1 x J)|specialize (P2 x J)]; lia.
    + intros m x I J. destruct (W3 m x I J) as [Q1 Q2]. split; auto. intro K. apply in_app_or in K as [K|[<-|[]]]; auto.
      destruct (W2 m I) as [_ P2]. specialize (P2 _ J). lia.
  - destruct (nth_error vs i) as [a|] eqn:E; [|discriminate]. injection H as <- _. unfold wf; cbn. apply nth_error_In in E. split; [|split]; auto.
    + intros x I. apply in_app_or in I as [I|[<-|[]]]; auto.
    + intros m x I J. destruct (W3 m x I J) as [Q1 Q2]. split; auto. intro K. apply in_app_or in K as [K|[<-|[]]]; auto.
  - destruct (nth_error vs i) as [a|] eqn:E; [|discriminate]. injection H as <- _. unfold wf; cbn. rewrite app_length. cbn. split; [|split].
    + intros x I. apply in_app_or in I as [I|[<-|[]]]; [specialize (W1 x I)|]; lia.
    + intros m I. destruct (W2 m I) as [P1 P2]. split; intros x J; [specialize (P1 x J)|specialize (P2 x J)]; lia.
    + intros m x I J. destruct (W3 m x I J) as [Q1 Q2]. split; auto. intro K. apply in_app_or in K as [K|[<-|[]]]; auto.
      destruct (W2 m I) as [_ P2]. specialize (P2 _ J). lia.
  - destruct (nth_error vs i) as [a|] eqn:E; [|discriminate]. injection H as <- _. unfold wf; cbn. rewrite update_length. auto.
  - destruct (nth_error vs i) as [a|] eqn:E; [|discriminate]. injection H as <- _. unfold wf; cbn. rewrite update_length. auto.
  - destruct (nth_error vs i) as [a|] eqn:E; [|discriminate]. destruct (nth_error vs j) as [b|] eqn:E'; [|discriminate].
    injection H as <- _. unfold wf; cbn. rewrite update_length. auto.
  - destruct (nth_error vs i) as [a|] eqn:E; [|discriminate]. destruct (nth_error vs j) as [b|] eqn:E'; [|discriminate].
    injection H as <- _. apply nth_error_In in E'. unfold wf; cbn. split; [|split]; auto.
    + intros x I. apply in_update in I as [->|I]; auto.
    + intros m x I J. destruct (W3 m x I J) as [Q1 Q2]. split; auto. intro K. apply in_update in K as [->|K]; auto.
  - destruct (getAll vs ps) as [l|] eqn:E; [|discriminate]. injection H as <- _. pose proof (getAll_in _ _ _ E) as G. unfold wf; cbn. split; [|split]; auto.
    + intros m I. apply in_app_or in I as [I|[<-|[]]]; auto. cbn. split; auto. intros x [].
    + intros m x I J. apply in_app_or in I as [I|[<-|[]]]; [|destruct J]. destruct (W3 m x I J) as [Q1 Q2]. split; auto.
      intros m' I'. apply in_app_or in I' as [I'|[<-|[]]]; auto.
  - destruct (nth_error ms m) as [x|] eqn:E; [|discriminate]. injection H as <- _. apply nth_error_In in E.
    assert (S : forall y, In y (ms ++ [x]) -> In y ms) by (intros y I; apply in_app_or in I as [I|[<-|[]]]; auto).
    unfold wf; cbn. split; [|split]; auto. intros y z I J. apply S in I. destruct (W3 y z I J). split; auto.
  - destruct (nth_error ms m) as [x|] eqn:E; [|discriminate]. apply nth_error_In in E.
    destruct (eval_model on cs x a) as [[q x'] cs'] eqn:Ev. injection H as <- _.
    destruct (W2 x E) as [P1 P2].
    destruct (eval_model_spec _ _ _ _ _ _ _ Ev P1) as (S1 & S2 & S3 & S4 & S5 & S6).
    { intros y I. split; auto. apply (proj2 (W3 x y E I) x E). }
    unfold wf; cbn. split; [|split].
    + intros y I. specialize (W1 y I). lia.
    + intros y I. apply in_update in I as [->|I].
      * rewrite S1. split; [intros z J; specialize (P1 z J); lia|intros z J; apply S5; auto].
      * destruct (W2 y I) as [Y1 Y2]. split; intros z J; [specialize (Y1 z J)|specialize (Y2 z J)]; lia.
    + assert (T : forall z, In z (m_cacheP x') -> ~ In z vs /\ forall m', In m' ms -> ~ In z (m_params m')).
      { intros z J. destruct (S5 z J) as [[K|K] _]; [apply (W3 x z E K)|]. split; [intro K'; specialize (W1 z K'); lia|].
        intros m' I' K'. destruct (W2 m' I') as [Y _]. specialize (Y z K'). lia. }
      intros y z I J. assert (U : ~ In z vs /\ forall m', In m' ms -> ~ In z (m_params m')).
      { apply in_update in I as [->|I]; auto. apply (W3 y z I J). }
      split; [apply U|]. intros m' I'. apply in_update in I' as [->|I']; [rewrite S1; apply U; exact E|apply U; exact I'].
  - injection H as <- _. unfold wf; cbn. auto.
Qed.

Lemma run_app s h h' : run s (h ++ h') = match run s h with Some s' => run s' h' | None => None end.
Proof. revert s. induction h as [|o h IH]; intro s; cbn; auto. destruct (step s o) as [[s' r]|]; auto. Qed.
Lemma run_snoc s h o s' : run s (h ++ [o]) = Some s' <-> exists s1 r, run s h = Some s1 /\ step s1 o = Some (s', r).
Proof.
  rewrite run_app. destruct (run s h) as [s1|]; cbn.
  - destruct (step s1 o) as [[s2 r]|] eqn:E; split.
    + intro H. injection H as <-. eauto.
    + intros (t & q & H1 & H2). congruence.
    + discriminate.
    + intros (t & q & H1 & H2). congruence.
  - split; [discriminate|]. intros (t & q & H1 & H2). discriminate.
Qed.
Lemma wf0 : wf state0.
Proof. split; [intros x []|split; [intros m []|intros m x []]]. Qed.
Lemma wf_run h s : run state0 h = Some s -> wf s.
Proof.
  revert s. induction h as [|o h IH] using rev_ind; intros s H; [injection H as <-; apply wf0|].
  apply run_snoc in H as (s1 & r & H1 & H2). apply (wf_step _ _ _ _ (IH _ H1) H2).
Qed.

(* ---- handles ---- *)
Lemma nvars_vars rh s : run state0 (rev rh) = Some s -> nvars rh = length (st_vars s).
Proof.
  revert s. induction rh as [|o rh IH]; intros s H; [injection H as <-; reflexivity|].
  cbn [rev] in H. apply run_snoc in H as ([vs cs ms on] & r & H1 & H2). specialize (IH _ H1). cbn in IH.
  destruct o; cbn in H2 |- *.
  all: repeat match type of H2 with
       | match ?x with _ => _ end = _ => destruct x eqn:?; try discriminate
       | (let (_, _) := ?x in _) = _ => destruct x eqn:?
       end.
  all: injection H2 as <- _; cbn; rewrite ?app_length, ?update_length; cbn; lia.
Qed.

Lemma alias_spec rh s : run state0 (rev rh) = Some s -> forall i j,
  alias rh i j <-> exists x, nth_error (st_vars s) i = Some x /\ nth_error (st_vars s) j = Some x.
Proof.
  revert s. induction rh as [|o rh IH]; intros s H.
  { injection H as <-. intros i j. split; [intros []|]. intros (x & H & _). destruct i; discriminate. }
  cbn [rev] in H. apply run_snoc in H as ([vs cs ms on] & r & H1 & H2). pose proof (IH _ H1) as Q. pose proof (nvars_vars _ _ H1) as N.
  pose proof (wf_run _ _ H1) as (W & _). cbn in Q, N, W.
  destruct o; cbn in H2 |- *.
  1, 3: repeat match type of H2 with match ?x with _ => _ end = _ => destruct x eqn:?; try discriminate end; injection H2 as <- _; cbn; intros i' j';
    rewrite N; split;
    [intros [[-> ->]|(L1 & L2 & K)];
      [exists (length cs); split; apply nth_error_snoc; auto|apply Q in K as (x & K1 & K2); exists x; split; apply nth_error_snoc; auto]
    |intros (x & K1 & K2); apply nth_error_snoc in K1 as [[-> ->]|[L1 K1]]; apply nth_error_snoc in K2 as [[-> E]|[L2 K2]];
      [auto
      |apply nth_error_In, W in K2; lia
      |subst; apply nth_error_In, W in K1; lia
      |right; split; [exact L1|split; [exact L2|apply Q; eauto]]]].
  - destruct (nth_error vs i) as [a|] eqn:E; [|discriminate]. injection H2 as <- _. cbn. intros i' j'. rewrite N, Q.
    assert (T : forall k x, k <= length vs -> nth_error (vs ++ [a]) k = Some x <-> nth_error vs (if k =? length vs then i else k) = Some x).
    { intros k x L. destruct (Nat.eqb_spec k (length vs)) as [->|Nk].
      - rewrite nth_error_app2, Nat.sub_diag by lia. cbn. rewrite E. tauto.
      - rewrite nth_error_app1 by lia. tauto. }
    split.
    + intros (L1 & L2 & x & K1 & K2). exists x. split; apply T; auto.
    + intros (x & K1 & K2).
      assert (L1 : i' < length (vs ++ [a])) by (apply nth_error_Some; congruence). rewrite app_length in L1. cbn in L1.
      assert (L2 : j' < length (vs ++ [a])) by (apply nth_error_Some; congruence). rewrite app_length in L2. cbn in L2.
      split; [lia|]. split; [lia|]. exists x. split; apply T; auto; lia.
  - destruct (nth_error vs i); [|discriminate]. injection H2 as <- _. exact Q.
  - destruct (nth_error vs i); [|discriminate]. injection H2 as <- _. exact Q.
  - destruct (nth_error vs i); [|discriminate]. destruct (nth_error vs j); [|discriminate]. injection H2 as <- _. exact Q.
  - destruct (nth_error vs i) as [a|] eqn:E; [|discriminate]. destruct (nth_error vs j) as [b|] eqn:E'; [|discriminate].
    injection H2 as <- _. cbn. intros i' j'. rewrite Q.
    assert (L : i < length vs) by (apply nth_error_Some; congruence).
    assert (T : forall k x, nth_error (update vs i b) k = Some x <-> nth_error vs (if k =? i then j else k) = Some x).
    { intros k x. destruct (Nat.eqb_spec k i) as [->|Nk].
      - rewrite nth_error_update_eq by exact L. rewrite E'. tauto.
      - rewrite nth_error_update_neq by auto. tauto. }
    split; intros (x & K1 & K2); exists x; split; apply T; auto.
  - destruct (getAll vs ps); [|discriminate]. injection H2 as <- _. exact Q.
  - destruct (nth_error ms m); [|discriminate]. injection H2 as <- _. exact Q.
  - destruct (nth_error ms m) as [x|]; [|discriminate]. destruct (eval_model on cs x a) as [[q x'] cs']. injection H2 as <- _. exact Q.
  - injection H2 as <- _. exact Q.
Qed.

(* Writing through one handle. *)
Lemma read_set h s i v s' r : run state0 h = Some s -> step s (PSet i v) = Some (s', r) -> forall k d, read v0 s k = Some d ->
  (alias (rev h) k i -> read v0 s' k = Some (set_value d v)) /\ (~ alias (rev h) k i -> read v0 s' k = Some d).
Proof.
  intros H S k d D. assert (HA := alias_spec (rev h) s). rewrite rev_involutive in HA. specialize (HA H).
  destruct (wf_run _ _ H) as (W & _). destruct s as [vs cs ms on]. cbn in S, W, HA. destruct (nth_error vs i) as [x|] eqn:E; [|discriminate].
  injection S as <- _. unfold read in *. cbn in D |- *. destruct (nth_error vs k) as [y|] eqn:E'; [|discriminate]. injection D as <-.
  assert (Lx : x < length cs) by (apply W; eapply nth_error_In; eauto). split.
  - intro A'. apply HA in A' as (z & Z1 & Z2). assert (y = x) by congruence. subst y. rewrite cell_update_eq by exact Lx. reflexivity.
  - intro N. rewrite cell_update_neq; auto. intros ->. apply N, HA. exists y. auto.
Qed.
(* Assigning the attributes of another parameter. *)
Lemma read_assign h s i j s' r e : run state0 h = Some s -> step s (PAssign i j) = Some (s', r) -> read v0 s j = Some e ->
  forall k d, read v0 s k = Some d ->
  (alias (rev h) k i -> read v0 s' k = Some e) /\ (~ alias (rev h) k i -> read v0 s' k = Some d).
Proof.
  intros H S Ej k d D. assert (HA := alias_spec (rev h) s). rewrite rev_involutive in HA. specialize (HA H).
  destruct (wf_run _ _ H) as (W & _). destruct s as [vs cs ms on]. cbn in S, W, HA. unfold read in Ej, D. cbn in Ej, D. destruct (nth_error vs i) as [x|] eqn:E; [|discriminate].
  destruct (nth_error vs j) as [z|] eqn:Ez; [|discriminate]. injection Ej as <-.
  injection S as <- _. unfold read. cbn. destruct (nth_error vs k) as [y|] eqn:E'; [|discriminate]. injection D as <-.
  assert (Lx : x < length cs) by (apply W; eapply nth_error_In; eauto). split.
  - intro A'. apply HA in A' as (w & Z1 & Z2). assert (y = x) by congruence. subst y. rewrite cell_update_eq by exact Lx. reflexivity.
  - intro N. rewrite cell_update_neq; auto. intros ->. apply N, HA. exists y. auto.
Qed.
(* Copies and clones start with the attributes of the original, and evaluating
   models, or anything else, changes no parameter. *)
Lemma read_new h s i d : run state0 h = Some s -> read v0 s i = Some d ->
  (forall s' r, step s (PCopy i) = Some (s', r) \/ step s (PClone i) = Some (s', r) ->
     read v0 s' (nvars (rev h)) = Some d /\ forall k e, read v0 s k = Some e -> read v0 s' k = Some e) /\
  (forall o s' r, (exists v, o = PNew v) \/ (exists ps f b, o = MNew ps f b) \/ (exists m, o = MCopy m) \/ (exists m a, o = MEval m a) \/ (exists b, o = Enable b) ->
     step s o = Some (s', r) -> read v0 s' i = Some d).
Proof.
  intros H D. pose proof (nvars_vars (rev h) s) as N. rewrite rev_involutive in N. specialize (N H). rewrite N.
  pose proof (wf_run _ _ H) as (W & W2 & W3). destruct s as [vs cs ms on]. cbn in W, W2, W3 |- *. unfold read in D. cbn in D.
  destruct (nth_error vs i) as [x|] eqn:E; [|discriminate]. injection D as <-.
  assert (Lx : x < length cs) by (apply W; eapply nth_error_In; eauto). split.
  - intros s' r [S|S]; injection S as <- _; unfold read; cbn.
    + rewrite nth_error_app2, Nat.sub_diag by lia. cbn. split; auto. intros k e K. destruct (nth_error vs k) as [y|] eqn:Ek; [|discriminate].
      rewrite nth_error_app1, Ek by (apply nth_error_Some; congruence). exact K.
    + rewrite nth_error_app2, Nat.sub_diag by lia. cbn [nth_error]. unfold M_Memo.cell at 1. rewrite app_nth2, Nat.sub_diag by lia. split; auto.
      intros k e K. destruct (nth_error vs k) as [y|] eqn:Ek; [|discriminate].
      rewrite nth_error_app1, Ek by (apply nth_error_Some; congruence). rewrite cell_app; auto. apply W. eapply nth_error_In; eauto.
  - intros o s' r [(v & ->)|[(ps & f & b & ->)|[(m & ->)|[(m & a & ->)|(b & ->)]]]] S; cbn in S.
    + injection S as <- _. unfold read; cbn. rewrite nth_error_app1, E by (apply nth_error_Some; congruence). rewrite cell_app by exact Lx. reflexivity.
    + destruct (getAll vs ps); [|discriminate]. injection S as <- _. unfold read; cbn. rewrite E. reflexivity.
    + destruct (nth_error ms m); [|discriminate]. injection S as <- _. unfold read; cbn. rewrite E. reflexivity.
    + destruct (nth_error ms m) as [y|] eqn:Em; [|discriminate]. apply nth_error_In in Em.
      destruct (eval_model on cs y a) as [[q y'] cs'] eqn:Ev. injection S as <- _. unfold read; cbn. rewrite E.
      destruct (W2 y Em) as [P1 P2].
      destruct (eval_model_spec _ _ _ _ _ _ _ Ev P1) as (_ & _ & _ & _ & _ & S6).
      { intros z I. split; auto. apply (proj2 (W3 y z Em I) y Em). }
      rewrite S6; auto. intro K. apply (proj1 (W3 y x Em K)). eapply nth_error_In; eauto.
    + injection S as <- _. unfold read; cbn. rewrite E. reflexivity.
Qed.

(* ---- evaluations ---- *)
Definition good (s : state) (h : list op) : Prop :=
  (forall i m, nth_error (st_models s) i = Some m ->
     NoDup (m_cacheP m) /\ (forall a l, exists r, m_fn m a l = Ok r) /\
     (m_first m = true -> m_cacheP m = [] /\ m_cacheA m = a0) /\
     (m_first m = false -> length (m_cacheP m) = length (m_params m) /\ m_fn m (m_cacheA m) (values (st_cells s) (m_cacheP m)) = Ok (m_result m)) /\
     ((forall a, ~ In (MEval i a) h) -> m_first m = true)) /\
  (forall i j m m' x, nth_error (st_models s) i = Some m -> nth_error (st_models s) j = Some m' -> i <> j -> In x (m_cacheP m) -> ~ In x (m_cacheP m')) /\
  (forall i a, In (MEval i a) h -> i < length (st_models s)).

Lemma good_frame s s' h o : good s h -> (forall i a, o <> MEval i a) -> st_models s' = st_models s ->
  (forall m x, In m (st_models s) -> In x (m_cacheP m) -> cell (st_cells s') x = cell (st_cells s) x) -> good s' (h ++ [o]).
Proof.
  intros (G1 & G2 & G3) NO M F. unfold good. rewrite M. split; [|split]; auto.
  - intros i m I. destruct (G1 i m I) as (A1 & A2 & A3 & A4 & A5). repeat split; auto.
    + apply A3. assumption.
    + apply A3. assumption.
    + apply A4. assumption.
    + rewrite (values_ext (st_cells s)); [apply A4; assumption|]. intros x J. apply (F m x); auto. eapply nth_error_In; eauto.
    + intro K. apply A5. intros a J. apply (K a). apply in_or_app. auto.
  - intros i a I. apply in_app_or in I as [I|[I|[]]]; [eauto|]. exfalso. apply (NO i a). auto.
Qed.

Lemma same_params_true (cs : list (pdata V)) a b : same_params veqb v0 cs a b = Ok true -> values cs a = values cs b.
Proof.
  unfold same_params. destruct (Nat.eqb_spec (length a) (length b)) as [L|L]; [|discriminate]. cbn [negb].
  intro H. injection H as H. revert b L H. induction a as [|x a IH]; intros [|y b] L H; cbn in *; try discriminate; auto.
  apply andb_true_iff in H as [H1 H2]. destruct (veqb_spec (p_value (cell cs x)) (p_value (cell cs y))) as [E|]; [|discriminate].
  f_equal; [exact E|]. apply IH; [lia|exact H2].
Qed.
Lemma same_params_err (cs : list (pdata V)) a b : length a = length b -> exists r, same_params veqb v0 cs a b = Ok r.
Proof. unfold same_params. intros ->. rewrite Nat.eqb_refl. cbn. eauto. Qed.

Lemma good_eval on (cs : list (pdata V)) m a r m' cs' : eval_model on cs m a = (r, m', cs') ->
  (forall x, In x (m_params m) -> x < length cs) -> (forall x, In x (m_cacheP m) -> x < length cs /\ ~ In x (m_params m)) ->
  NoDup (m_cacheP m) -> (forall a l, exists r, m_fn m a l = Ok r) ->
  (m_first m = true -> m_cacheP m = [] /\ m_cacheA m = a0) ->
  (m_first m = false -> length (m_cacheP m) = length (m_params m) /\ m_fn m (m_cacheA m) (values cs (m_cacheP m)) = Ok (m_result m)) ->
  (a <> a0 -> r = m_fn m a (values cs (m_params m))) /\
  NoDup (m_cacheP m') /\ (m_first m' = true -> m_cacheP m' = [] /\ m_cacheA m' = a0) /\
  (m_first m' = false -> length (m_cacheP m') = length (m_params m) /\ m_fn m (m_cacheA m') (values cs' (m_cacheP m')) = Ok (m_result m')).
Proof.
  intros H Hp Hc ND T F1 F2. unfold M_Memo.eval_model in H. destruct (negb (m_memo m) || negb on) eqn:B.
  { injection H as <- <- <-. auto. }
  unfold same_values in H.
  destruct (assign_params v0 cs (m_cacheP m) (m_params m)) as [ps cs1] eqn:E.
  destruct (assign_params_spec _ _ _ _ _ E Hc Hp) as (A1 & A2 & A3 & A4 & A5). destruct (A5 ND) as [A6 A7]. cbn zeta in H.
  assert (VP : values cs1 (m_params m) = values cs (m_params m)).
  { apply values_ext. intros x I. apply A4; auto. intro K. apply (proj2 (Hc x K)). exact I. }
  assert (Miss : match m_fn m a (values cs1 (m_params m)) with
    | Ok r => (Ok r, mkModel (m_params m) (m_fn m) true a ps r false, cs1)
    | o => (o, mkModel (m_params m) (m_fn m) true a ps (m_result m) false, cs1) end = (r, m', cs') ->
    (a <> a0 -> r = m_fn m a (values cs (m_params m))) /\
    NoDup (m_cacheP m') /\ (m_first m' = true -> m_cacheP m' = [] /\ m_cacheA m' = a0) /\
    (m_first m' = false -> length (m_cacheP m') = length (m_params m) /\ m_fn m (m_cacheA m') (values cs' (m_cacheP m')) = Ok (m_result m'))).
  { rewrite VP. destruct (T a (values cs (m_params m))) as (q & Eq). rewrite Eq. intro K. injection K as <- <- <-. cbn.
    split; [auto|split; [auto|split; [discriminate|intros _; split; [auto|rewrite <- Eq; f_equal; exact A7]]]]. }
  destruct (aeqb_spec (m_cacheA m) a) as [Ea|Na].
  - destruct (m_first m) eqn:Fm.
    + destruct (F1 eq_refl) as [Z1 Z2].
      destruct (same_params veqb v0 cs (m_cacheP m) (m_params m)) as [same| |] eqn:Sp.
      * rewrite andb_false_r in H. exact (Miss H).
      * injection H as <- <- <-. rewrite Fm. split; [intro K; congruence|]. split; [auto|]. split; [auto|discriminate].
      * injection H as <- <- <-. rewrite Fm. split; [intro K; congruence|]. split; [auto|]. split; [auto|discriminate].
    + destruct (F2 eq_refl) as [Z1 Z2]. destruct (same_params_err cs _ _ Z1) as (same & Sp). rewrite Sp in H. destruct same.
      * cbn [negb andb] in H. injection H as <- <- <-. rewrite Fm. split; [|split; [auto|split; [discriminate|auto]]].
        intros _. rewrite <- Ea, <- (same_params_true _ _ _ Sp). auto.
      * exact (Miss H).
  - exact (Miss H).
Qed.

Lemma good_run h s : run state0 h = Some s -> early_copies h -> total_fns h -> good s h.
Proof.
  revert s. induction h as [|o h IH] using rev_ind; intros s H EC TF.
  { injection H as <-. split; [|split]; cbn.
    - intros [|i] m I; discriminate.
    - intros [|i] j m m' x I; discriminate.
    - intros i a []. }
  apply run_snoc in H as (s1 & r & H1 & H2).
  assert (G : good s1 h).
  { apply IH; auto.
    - intros h1 m h2 -> a K. apply (EC h1 m (h2 ++ [o])) with (a := a); [|exact K]. rewrite <- app_assoc. reflexivity.
    - intros ps f b I. apply (TF ps f b). apply in_or_app. auto. }
  pose proof (wf_run _ _ H1) as (W1 & W2 & W3). destruct s1 as [vs cs ms on]. cbn in W1, W2, W3.
  assert (NC : forall m y x, In m ms -> In y (m_cacheP m) -> In x vs -> x <> y).
  { intros m y x I J K ->. apply (proj1 (W3 m y I J)). exact K. }
  destruct o; cbn in H2.
  - injection H2 as <- _. apply (good_frame _ _ _ _ G); [discriminate|reflexivity|]. cbn. intros m x I J. apply cell_app. destruct (W2 m I); auto.
  - destruct (nth_error vs i) as [a|] eqn:E; [|discriminate]. injection H2 as <- _. apply (good_frame _ _ _ _ G); [discriminate|reflexivity|auto].
  - destruct (nth_error vs i) as [a|] eqn:E; [|discriminate]. injection H2 as <- _. apply (good_frame _ _ _ _ G); [discriminate|reflexivity|].
    cbn. intros m x I J. apply cell_app. destruct (W2 m I); auto.
  - destruct (nth_error vs i) as [a|] eqn:E; [|discriminate]. injection H2 as <- _. apply nth_error_In in E.
    apply (good_frame _ _ _ _ G); [discriminate|reflexivity|]. cbn. intros m x I J. apply cell_update_neq. eauto.
  - destruct (nth_error vs i) as [a|] eqn:E; [|discriminate]. injection H2 as <- _. apply nth_error_In in E.
    apply (good_frame _ _ _ _ G); [discriminate|reflexivity|]. cbn. intros m x I J. apply cell_update_neq. eauto.
  - destruct (nth_error vs i) as [a|] eqn:E; [|discriminate]. destruct (nth_error vs j) as [b|] eqn:E'; [|discriminate].
    injection H2 as <- _. apply nth_error_In in E. apply (good_frame _ _ _ _ G); [discriminate|reflexivity|]. cbn. intros m x I J. apply cell_update_neq. eauto.
  - destruct (nth_error vs i) as [a|] eqn:E; [|discriminate]. destruct (nth_error vs j) as [b|] eqn:E'; [|discriminate].
    injection H2 as <- _. apply (good_frame _ _ _ _ G); [discriminate|reflexivity|auto].
  - destruct (getAll vs ps) as [l|] eqn:E; [|discriminate]. injection H2 as <- _. destruct G as (G1 & G2 & G3). cbn in G1, G2, G3.
    split; [|split]; cbn.
    + intros i m I. apply nth_error_snoc in I as [[-> ->]|[L I]].
      * cbn. split; [constructor|]. split; [apply (TF ps f memo); apply in_or_app; right; left; reflexivity|]. repeat split; auto; discriminate.
      * destruct (G1 i m I) as (A1 & A2 & A3 & A4 & A5). split; [auto|split; [auto|split; [auto|split; [auto|]]]].
        intro K. apply A5. intros a J. apply (K a). apply in_or_app. auto.
    + intros i j m m' x I J N Ix. apply nth_error_snoc in I as [[-> ->]|[L I]]; [destruct Ix|].
      apply nth_error_snoc in J as [[-> ->]|[L' J]]; [intros []|]. eauto.
    + intros i a I. apply in_app_or in I as [I|[I|[]]]; [|discriminate]. rewrite app_length. specialize (G3 i a I). lia.
  - destruct (nth_error ms m) as [x|] eqn:E; [|discriminate]. injection H2 as <- _. destruct G as (G1 & G2 & G3). cbn in G1, G2, G3.
    assert (NE : forall a, ~ In (MEval m a) h) by (intro a; apply (EC h m []); reflexivity).
    destruct (G1 m x E) as (X1 & X2 & X3 & X4 & X5). pose proof (X5 NE) as XF. destruct (X3 XF) as [XC XA].
    split; [|split]; cbn.
    + intros i y I. apply nth_error_snoc in I as [[-> ->]|[L I]].
      * split; [auto|split; [auto|split; [auto|split; [auto|auto]]]].
      * destruct (G1 i y I) as (A1 & A2 & A3 & A4 & A5). split; [auto|split; [auto|split; [auto|split; [auto|]]]].
        intro K. apply A5. intros a J. apply (K a). apply in_or_app. auto.
    + intros i j y y' z I J N Iz. apply nth_error_snoc in I as [[-> ->]|[L I]]; [rewrite XC in Iz; destruct Iz|].
      apply nth_error_snoc in J as [[-> ->]|[L' J]]; [rewrite XC; intros []|]. eauto.
    + intros i a I. apply in_app_or in I as [I|[I|[]]]; [|discriminate]. rewrite app_length. specialize (G3 i a I). lia.
  - destruct (nth_error ms m) as [x|] eqn:E; [|discriminate]. destruct (eval_model on cs x a) as [[q x'] cs'] eqn:Ev. injection H2 as <- _.
    destruct G as (G1 & G2 & G3). cbn in G1, G2, G3. destruct (G1 m x E) as (X1 & X2 & X3 & X4 & X5).
    pose proof (nth_error_In _ _ E) as Ix. destruct (W2 x Ix) as [P1 P2].
    assert (Hc : forall y, In y (m_cacheP x) -> y < length cs /\ ~ In y (m_params x)).
    { intros y I. split; auto. apply (proj2 (W3 x y Ix I) x Ix). }
    destruct (eval_model_spec _ _ _ _ _ _ _ Ev P1 Hc) as (S1 & S2 & S3 & S4 & S5 & S6).
    destruct (good_eval _ _ _ _ _ _ _ Ev P1 Hc X1 X2 X3 X4) as (_ & Y1 & Y2 & Y3).
    assert (Lm : m < length ms) by (apply nth_error_Some; congruence).
    split; [|split]; cbn.
    + intros i y I. apply nth_error_update in I as [(-> & -> & _)|[N I]].
      * rewrite S1, S2. split; [auto|split; [auto|split; [auto|split; [auto|]]]].
        intro K. exfalso. apply (K a). apply in_or_app. right. left. reflexivity.
      * destruct (G1 i y I) as (A1 & A2 & A3 & A4 & A5). split; [auto|split; [auto|split; [auto|split]]].
        -- intro F. destruct (A4 F) as [B1 B2]. split; auto. rewrite (values_ext cs); auto.
           intros z J. apply S6; [destruct (W2 y (nth_error_In _ _ I)); auto|]. apply (G2 i m y x z I E N J).
        -- intro K. apply A5. intros b J. apply (K b). apply in_or_app. auto.
    + intros i j y y' z I J N Iz. apply nth_error_update in I as [(-> & -> & _)|[Ni I]]; apply nth_error_update in J as [(-> & -> & _)|[Nj J]].
      * contradiction.
      * destruct (S5 z Iz) as [[K|K] _]; [apply (G2 m j x y' z E J N K)|]. intro C.
        destruct (W2 y' (nth_error_In _ _ J)) as [_ B]. specialize (B z C). lia.
      * intro C. destruct (S5 z C) as [[K|K] _]; [apply (G2 i m y x z I E N Iz K)|].
        destruct (W2 y (nth_error_In _ _ I)) as [_ B]. specialize (B z Iz). lia.
      * eauto.
    + rewrite update_length. intros i b I. apply in_app_or in I as [I|[I|[]]]; [eauto|]. injection I as -> ->. exact Lm.
  - injection H2 as <- _. apply (good_frame _ _ _ _ G); [discriminate|reflexivity|auto].
Qed.

Lemma eval_current h s m mo a s' r : run state0 h = Some s -> early_copies h -> total_fns h -> a <> a0 ->
  nth_error (st_models s) m = Some mo -> step s (MEval m a) = Some (s', Some r) -> r = m_fn mo a (values (st_cells s) (m_params mo)).
Proof.
  intros H EC TF Na E S. destruct (good_run _ _ H EC TF) as (G1 & _). destruct (G1 m mo E) as (X1 & X2 & X3 & X4 & _).
  pose proof (wf_run _ _ H) as (_ & W2 & W3). pose proof (nth_error_In _ _ E) as I. destruct (W2 mo I) as [P1 P2].
  destruct s as [vs cs ms on]. cbn in *. rewrite E in S. destruct (eval_model on cs mo a) as [[q x'] cs'] eqn:Ev. injection S as _ <-.
  apply (good_eval _ _ _ _ _ _ _ Ev P1) in X1; auto.
  - apply X1. exact Na.
  - intros y J. split; auto. apply (proj2 (W3 mo y I J) mo I).
Qed.
End Params.
