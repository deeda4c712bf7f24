(* C119: standard thermodynamic properties after updates. *)
From Coq Require Import Reals Lra.
From Verif Require Import Base M_ThermoProps S_ThermoProps.
Local Open Scope R_scope.

Definition C119_statement : Prop :=
  forall (Env : Type) (sys : System Env) env0 es env t T P t', History sys env0 es env t -> update env sys T P t = Returned t' ->
  Current sys env T P t'.

Lemma num_eqb_ok x y : num_eqb x y = true <-> x = y.
Proof.
  destruct x as [a b], y as [c d]. unfold num_eqb; cbn. destruct (Req_EM_T a c), (Req_EM_T b d); cbn; split; intros H; try discriminate H; congruence.
Qed.
Lemma assign_length {A} (l : list A) i x : length (assign l i x) = length l.
Proof. revert i. induction l as [|y l IH]; intros [|i]; cbn; auto. Qed.
Lemma nth_assign {A} (l : list A) i j x d : (i < length l)%nat -> nth j (assign l i x) d = if Nat.eqb j i then x else nth j l d.
Proof.
  revert i j. induction l as [|y l IH]; intros [|i] [|j] H; cbn in *; try lia; auto. apply IH. lia.
Qed.
Section Proofs.
Variable Env : Type.
Implicit Types (sys : System Env) (env : Env).
(* The properties of the species from position [begin] on are those of the models. *)
Definition At env T P (species : list (option (SModel Env))) (begin : nat) (t : Thermo) : Prop :=
  forall k m, nth_error species k = Some m -> exists p, nth_error (t_props t) (begin + k) = Some p /\ Value env T P m p.
Definition Able env T P (species : list (option (SModel Env))) : Prop := forall m, In m species -> exists p, Value env T P m p.
Definition Outside (begin size : nat) (l l' : list SProps) : Prop :=
  length l' = length l /\ forall j, (j < begin \/ begin + size <= j)%nat -> nth_error l' j = nth_error l j.
Lemma nth_error_assign {A} (l : list A) i j x : nth_error (assign l i x) j = if Nat.eqb j i then (if Nat.ltb i (length l) then Some x else None) else nth_error l j.
Proof.
  revert i j. induction l as [|y l IH]; intros [|i] [|j]; cbn; try reflexivity.
  - destruct (Nat.eqb j i); reflexivity.
  - rewrite IH. reflexivity.
Qed.
Lemma evaluate_spec env species : forall begin T P t r, (begin + length species <= length (t_props t))%nat ->
  evaluate env species begin T P t = r ->
  match r with
  | Returned t' => t_T t' = t_T t /\ t_P t' = t_P t /\ t_Ts t' = t_Ts t /\ t_Ps t' = t_Ps t /\
      Outside begin (length species) (t_props t) (t_props t') /\ At env T P species begin t'
  | Thrown t' => t_T t' = t_T t /\ t_P t' = t_P t /\ t_Ts t' = t_Ts t /\ t_Ps t' = t_Ps t /\
      Outside begin (length species) (t_props t) (t_props t') /\ ~ Able env T P species
  | Undefined => ~ Able env T P species
  end.
Proof.
  induction species as [|m species IH]; intros begin T P t r Hl <-; cbn [evaluate].
  - repeat split; auto. intros [|k] m H; discriminate H.
  - cbn [length] in Hl. destruct (match m with Some f => f env T P | None => Ok noProps end) as [p| |] eqn:E.
    + assert (HV : Value env T P m p) by (destruct m; cbn; [exact E|injection E as <-; reflexivity]).
      set (t1 := mkThermo _ _ _ _ _). specialize (IH (S begin) T P t1 _ ltac:(cbn; rewrite assign_length; lia) eq_refl).
      assert (HO : forall l', Outside (S begin) (length species) (t_props t1) l' -> Outside begin (S (length species)) (t_props t) l' /\ nth_error l' begin = Some p).
      { intros l' [H1 H2]. cbn in H1, H2. rewrite assign_length in H1. split; [split; [exact H1|]|].
        - intros j Hj. rewrite H2 by lia. rewrite nth_error_assign. destruct (Nat.eqb_spec j begin); [lia|reflexivity].
        - rewrite H2 by lia. rewrite nth_error_assign, Nat.eqb_refl. destruct (Nat.ltb_spec begin (length (t_props t))); [reflexivity|lia]. }
      destruct (evaluate env species (S begin) T P t1) as [t'|t'|].
      * destruct IH as (A1 & A2 & A3 & A4 & A5 & A6). destruct (HO _ A5) as [B1 B2]. repeat split; auto; [apply B1|apply B1|].
        intros [|k] m' Hk; cbn in Hk.
        -- injection Hk as <-. exists p. rewrite Nat.add_0_r. auto.
        -- destruct (A6 k m' Hk) as (q & Hq & Hv). exists q. split; [|exact Hv]. rewrite <- Hq. f_equal. lia.
      * destruct IH as (A1 & A2 & A3 & A4 & A5 & A6). destruct (HO _ A5) as [B1 B2]. repeat split; auto; [apply B1|apply B1|].
        intros C. apply A6. intros m' Hm. apply C. right. exact Hm.
      * intros C. apply IH. intros m' Hm. apply C. right. exact Hm.
    + assert (HN : ~ Able env T P (m :: species)).
      { intros C. destruct (C m (or_introl eq_refl)) as (p & Hp). destruct m; cbn in Hp; [congruence|discriminate E]. }
      repeat split; auto.
    + intros C. destruct (C m (or_introl eq_refl)) as (p & Hp). destruct m; cbn in Hp; [congruence|discriminate E].
Qed.

Lemma begin_step sys i : (i < length sys)%nat -> (numSpeciesUntilPhase sys (S i) = numSpeciesUntilPhase sys i + length (nth i sys []))%nat.
Proof.
  unfold numSpeciesUntilPhase. revert i. induction sys as [|p sys IH]; intros [|i] H; cbn [firstn concat nth length] in *; try lia.
  - cbn. rewrite app_nil_r. reflexivity.
  - rewrite !app_length, IH by lia. lia.
Qed.
Lemma begin_le sys i j : (i <= j)%nat -> (numSpeciesUntilPhase sys i <= numSpeciesUntilPhase sys j)%nat.
Proof.
  intros H. induction H as [|j H IH]; [lia|]. destruct (Nat.lt_ge_cases j (length sys)) as [Hj|Hj].
  - rewrite begin_step by exact Hj. lia.
  - unfold numSpeciesUntilPhase in *. rewrite (firstn_all2 (n := S j)) by lia. rewrite (firstn_all2 (n := j)) in IH by lia. exact IH.
Qed.
Lemma begin_end sys i : (i < length sys)%nat -> (numSpeciesUntilPhase sys i + length (nth i sys []) <= length (concat sys))%nat.
Proof.
  intros H. rewrite <- begin_step by exact H. replace (length (concat sys)) with (numSpeciesUntilPhase sys (length sys)).
  - apply begin_le. lia.
  - unfold numSpeciesUntilPhase. rewrite firstn_all. reflexivity.
Qed.
Lemma nth_concat sys q m : nth_error (concat sys) q = Some m ->
  exists i k, (i < length sys)%nat /\ nth_error (nth i sys []) k = Some m /\ q = (numSpeciesUntilPhase sys i + k)%nat.
Proof.
  unfold numSpeciesUntilPhase. revert q. induction sys as [|p sys IH]; intros q H; [destruct q; discriminate H|]. cbn [concat] in H.
  destruct (Nat.lt_ge_cases q (length p)) as [Hq|Hq].
  - rewrite nth_error_app1 in H by exact Hq. exists 0%nat, q. cbn. split; [lia|]. auto.
  - rewrite nth_error_app2 in H by exact Hq. destruct (IH _ H) as (i & k & Hi & Hk & E). exists (S i), k. cbn [length nth firstn concat].
    rewrite app_length. split; [lia|]. split; [exact Hk|lia].
Qed.

Definition Shape sys (t : Thermo) : Prop :=
  length (t_Ts t) = length sys /\ length (t_Ps t) = length sys /\ length (t_props t) = length (concat sys).
Definition stored (t : Thermo) (j : nat) : num * num := (nth j (t_Ts t) zero, nth j (t_Ps t) zero).
Definition AtPhase env sys T P j t : Prop := At env T P (nth j sys []) (numSpeciesUntilPhase sys j) t.
Definition Same sys (j : nat) (t t' : Thermo) : Prop :=
  forall k, (k < length (nth j sys []))%nat -> nth_error (t_props t') (numSpeciesUntilPhase sys j + k) = nth_error (t_props t) (numSpeciesUntilPhase sys j + k).
Lemma at_same env sys T P j t t' : Same sys j t t' -> AtPhase env sys T P j t -> AtPhase env sys T P j t'.
Proof.
  intros HS HA k m Hk. destruct (HA k m Hk) as (p & Hp & Hv). exists p. split; [|exact Hv]. rewrite HS; [exact Hp|].
  apply nth_error_Some. congruence.
Qed.
(* What a phase is after it was handled. *)
Definition Step env sys T P (t t' : Thermo) : Prop :=
  Shape sys t' /\ t_T t' = t_T t /\ t_P t' = t_P t /\ forall j, (j < length sys)%nat ->
    (stored t' j = stored t j /\ Same sys j t t') \/ (stored t' j = (T, P) /\ (AtPhase env sys T P j t' \/ ~ Able env T P (nth j sys []))).
Lemma step_refl env sys T P t : Shape sys t -> Step env sys T P t t.
Proof. intros H. split; [exact H|]. split; [reflexivity|]. split; [reflexivity|]. intros j Hj. left. split; [reflexivity|]. intros k Hk. reflexivity. Qed.
Lemma step_trans env sys T P t t' t'' : Step env sys T P t t' -> Step env sys T P t' t'' -> Step env sys T P t t''.
Proof.
  intros (A1 & A2 & A3 & A4) (B1 & B2 & B3 & B4). split; [exact B1|]. split; [congruence|]. split; [congruence|]. intros j Hj.
  destruct (B4 j Hj) as [[E HS]|H]; [|right; exact H]. destruct (A4 j Hj) as [[E' HS']|[E' H']].
  - left. split; [congruence|]. intros k Hk. rewrite HS, HS' by exact Hk. reflexivity.
  - right. split; [congruence|]. destruct H' as [H'|H']; [left; apply (at_same _ _ _ _ _ _ _ HS H')|right; exact H'].
Qed.
Lemma same_outside sys i j t t' : (i < length sys)%nat -> i <> j -> (j < length sys)%nat ->
  Outside (numSpeciesUntilPhase sys i) (length (nth i sys [])) (t_props t) (t_props t') -> Same sys j t t'.
Proof.
  intros Hi Hne Hj [_ HO] k Hk. apply HO. destruct (Nat.lt_ge_cases i j) as [H|H].
  - right. pose proof (begin_le sys (S i) j H) as L. rewrite begin_step in L by exact Hi. lia.
  - left. pose proof (begin_le sys (S j) i ltac:(lia)) as L. rewrite begin_step in L by exact Hj. lia.
Qed.
Lemma updatePhase_spec env sys i T P t : Shape sys t -> (i < length sys)%nat ->
  match updatePhase env sys i T P t with
  | Returned t' => Step env sys T P t t' /\ stored t' i = (T, P) /\ ((stored t i = (T, P) /\ t' = t) \/ AtPhase env sys T P i t') /\
      forall j, (j < length sys)%nat -> j <> i -> stored t' j = stored t j /\ Same sys j t t'
  | Thrown t' => Step env sys T P t t' /\ ~ Able env T P (nth i sys [])
  | Undefined => ~ Able env T P (nth i sys [])
  end.
Proof.
  intros (S1 & S2 & S3) Hi. unfold updatePhase.
  destruct (num_eqb T (nth i (t_Ts t) zero) && num_eqb P (nth i (t_Ps t) zero)) eqn:E.
  - apply andb_true_iff in E as [E1 E2]. apply num_eqb_ok in E1, E2. split; [apply step_refl; repeat split; assumption|].
    assert (stored t i = (T, P)) as Es by (unfold stored; congruence). split; [exact Es|]. split; [auto|].
    intros j Hj Hne. split; [reflexivity|]. intros k Hk. reflexivity.
  - set (t1 := mkThermo _ _ _ _ _). pose proof (begin_end sys i Hi) as HB.
    pose proof (evaluate_spec env (nth i sys []) (numSpeciesUntilPhase sys i) T P t1 _ ltac:(cbn; lia) eq_refl) as G.
    assert (St : stored t1 i = (T, P) /\ forall j, j <> i -> stored t1 j = stored t j).
    { unfold stored, t1; cbn [t_Ts t_Ps]. split.
      - rewrite !nth_assign by lia. rewrite Nat.eqb_refl. reflexivity.
      - intros j Hj. rewrite !nth_assign by lia. destruct (Nat.eqb_spec j i); [contradiction|reflexivity]. }
    destruct St as [St1 St2].
    assert (K : forall t', t_T t' = t_T t1 /\ t_P t' = t_P t1 /\ t_Ts t' = t_Ts t1 /\ t_Ps t' = t_Ps t1 /\
        Outside (numSpeciesUntilPhase sys i) (length (nth i sys [])) (t_props t1) (t_props t') ->
        (AtPhase env sys T P i t' \/ ~ Able env T P (nth i sys [])) -> Step env sys T P t t' /\ stored t' i = (T, P) /\
          forall j, (j < length sys)%nat -> j <> i -> stored t' j = stored t j /\ Same sys j t t').
    { intros t' (A1 & A2 & A3 & A4 & A5) HA.
      assert (Es : forall j, stored t' j = stored t1 j) by (intros j; unfold stored; rewrite A3, A4; reflexivity).
      assert (Ho : forall j, (j < length sys)%nat -> j <> i -> stored t' j = stored t j /\ Same sys j t t').
      { intros j Hj Hne. split; [rewrite Es; apply St2; exact Hne|]. apply (same_outside sys i j t1 t'); auto. }
      split; [|split; [rewrite Es; exact St1|exact Ho]]. split.
      - unfold Shape. rewrite A3, A4. destruct A5 as [-> _]. cbn. rewrite !assign_length. auto.
      - split; [exact A1|]. split; [exact A2|]. intros j Hj. destruct (Nat.eq_dec j i) as [->|Hne].
        + right. split; [rewrite Es; exact St1|exact HA].
        + left. apply Ho; assumption. }
    destruct (evaluate env (nth i sys []) (numSpeciesUntilPhase sys i) T P t1) as [t'|t'|].
    + destruct G as (A1 & A2 & A3 & A4 & A5 & A6). destruct (K t') as (K1 & K2 & K3); auto 10.
    + destruct G as (A1 & A2 & A3 & A4 & A5 & A6). destruct (K t') as (K1 & K2 & K3); auto 10.
    + exact G.
Qed.
(* All phases.  A phase with the conditions at hand must have its properties. *)
Lemma updatePhases_spec env sys T P : forall n k t, (k + n = length sys)%nat -> Shape sys t ->
  (forall j, (j < k)%nat -> stored t j = (T, P)) -> 
  match updatePhases env sys (seq k n) T P t with
  | Returned t' => Step env sys T P t t' /\ (forall j, (j < length sys)%nat -> stored t' j = (T, P)) /\
      ((forall j, (j < length sys)%nat -> stored t j = (T, P) -> AtPhase env sys T P j t) -> forall j, (j < length sys)%nat -> AtPhase env sys T P j t')
  | Thrown t' => Step env sys T P t t' /\ exists j, (j < length sys)%nat /\ ~ Able env T P (nth j sys [])
  | Undefined => exists j, (j < length sys)%nat /\ ~ Able env T P (nth j sys [])
  end.
Proof.
  induction n as [|n IH]; intros k t Hk HS Hst; cbn [seq updatePhases].
  - split; [apply step_refl; exact HS|]. split; [intros j Hj; apply Hst; lia|]. intros H j Hj. apply H; [exact Hj|apply Hst; lia].
  - pose proof (updatePhase_spec env sys k T P t HS ltac:(lia)) as G. destruct (updatePhase env sys k T P t) as [t1|t1|].
    + destruct G as (G1 & G2 & G3 & G4).
      assert (Hst1 : forall j, (j < S k)%nat -> stored t1 j = (T, P)).
      { intros j Hj. destruct (Nat.eq_dec j k) as [->|Hne]; [exact G2|]. destruct G1 as (_ & _ & _ & G1).
        destruct (G1 j ltac:(lia)) as [[E _]|[E _]]; [rewrite E; apply Hst; lia|exact E]. }
      specialize (IH (S k) t1 ltac:(lia) (proj1 G1) Hst1).
      destruct (updatePhases env sys (seq (S k) n) T P t1) as [t'|t'|].
      * destruct IH as (I1 & I2 & I3). split; [apply (step_trans _ _ _ _ _ _ _ G1 I1)|]. split; [exact I2|]. intros H. apply I3.
        intros j Hj Ej. destruct (Nat.eq_dec j k) as [->|Hne].
        -- destruct G3 as [[Es ->]|G3]; [apply H; assumption|exact G3].
        -- assert (HSame : Same sys j t t1 /\ stored t1 j = stored t j).
           { destruct (G4 j Hj Hne) as [A B]. auto. }
           destruct HSame as [HSame Es]. apply (at_same _ _ _ _ _ _ _ HSame). apply H; [exact Hj|congruence].
      * destruct IH as (I1 & I2). split; [apply (step_trans _ _ _ _ _ _ _ G1 I1)|exact I2].
      * exact IH.
    + destruct G as (G1 & G2). split; [exact G1|]. exists k. split; [lia|exact G2].
    + exists k. split; [lia|exact G].
Qed.
Definition AllAble env sys T P : Prop := Able env T P (concat sys).
Lemma able_phase env sys T P j : (j < length sys)%nat -> AllAble env sys T P -> Able env T P (nth j sys []).
Proof. intros Hj H m Hm. apply H. apply in_concat. exists (nth j sys []). split; [apply nth_In; exact Hj|exact Hm]. Qed.
Lemma forall2_nth {A B} (Rl : A -> B -> Prop) l l' : length l' = length l ->
  (forall q a, nth_error l q = Some a -> exists b, nth_error l' q = Some b /\ Rl a b) -> Forall2 Rl l l'.
Proof.
  revert l'. induction l as [|a l IH]; intros [|b l'] E H; try discriminate E; constructor.
  - destruct (H 0%nat a eq_refl) as (b' & Eb & Hb). injection Eb as <-. exact Hb.
  - apply IH; [cbn in E; lia|]. intros q x Hq. apply (H (S q) x Hq).
Qed.
Lemma current_all env sys T P t : Shape sys t -> t_T t = T -> t_P t = P -> (forall j, (j < length sys)%nat -> AtPhase env sys T P j t) -> Current sys env T P t.
Proof.
  intros (_ & _ & S3) ET EP H. split; [exact ET|]. split; [exact EP|]. apply forall2_nth; [exact S3|].
  intros q m Hq. destruct (nth_concat sys q m Hq) as (i & k & Hi & Hk & ->). apply (H i Hi k m Hk).
Qed.
Lemma update_spec env sys T P t : Shape sys t ->
  match update env sys T P t with
  | Returned t' => Step env sys T P (mkThermo T P (t_Ts t) (t_Ps t) (t_props t)) t' /\
      ((forall j, (j < length sys)%nat -> stored t j = (T, P) -> AtPhase env sys T P j t) -> Current sys env T P t')
  | Thrown t' => Step env sys T P (mkThermo T P (t_Ts t) (t_Ps t) (t_props t)) t' /\ ~ AllAble env sys T P
  | Undefined => ~ AllAble env sys T P
  end.
Proof.
  intros HS. unfold update. set (t0 := mkThermo T P (t_Ts t) (t_Ps t) (t_props t)).
  pose proof (updatePhases_spec env sys T P (length sys) 0 t0 eq_refl HS ltac:(intros j Hj; lia)) as G.
  destruct (updatePhases env sys (seq 0 (length sys)) T P t0) as [t'|t'|].
  - destruct G as (G1 & _ & G3). split; [exact G1|]. intros H. destruct G1 as (A1 & A2 & A3 & _). apply current_all; auto.
  - destruct G as (G1 & j & Hj & HN). split; [exact G1|]. intros C. apply HN. apply able_phase; assumption.
  - destruct G as (j & Hj & HN). intros C. apply HN. apply able_phase; assumption.
Qed.

(* Conditions of the updates so far. *)
Definition conditions (es : list (Event Env)) : list (num * num) :=
  flat_map (fun e => match e with Updated T P => [(T, P)] | Changed _ => [] end) es.
Lemma new_shape sys : Shape sys (newThermo sys).
Proof. repeat split; apply repeat_length. Qed.
Lemma new_stored sys j : stored (newThermo sys) j = (zero, zero).
Proof. unfold stored; cbn. rewrite !nth_repeat. reflexivity. Qed.
Lemma step_history env sys T P t t' es : Shape sys t -> Step env sys T P (mkThermo T P (t_Ts t) (t_Ps t) (t_props t)) t' ->
  (forall j, (j < length sys)%nat -> stored t j = (zero, zero) \/ In (stored t j) (conditions es)) ->
  forall j, (j < length sys)%nat -> stored t' j = (zero, zero) \/ In (stored t' j) (conditions (es ++ [Updated T P])).
Proof.
  intros HS (_ & _ & _ & H) HI j Hj. unfold conditions. rewrite flat_map_app. cbn. destruct (H j Hj) as [[E _]|[E _]]; rewrite E.
  - destruct (HI j Hj) as [HZ|HZ]; [left; exact HZ|right; apply in_app_iff; left; exact HZ].
  - right. apply in_app_iff. right. left. reflexivity.
Qed.
Lemma history_stored sys env0 es env t : History sys env0 es env t -> Shape sys t /\
  forall j, (j < length sys)%nat -> stored t j = (zero, zero) \/ In (stored t j) (conditions es).
Proof.
  induction 1 as [env|env0 es env t T P t' _ [IS IH] E|env0 es env t T P t' _ [IS IH] E|env0 es env t env' _ [IS IH]].
  - split; [apply new_shape|]. intros j _. left. apply new_stored.
  - pose proof (update_spec env sys T P t IS) as G. rewrite E in G. destruct G as [G _]. split; [apply G|]. apply (step_history env sys T P t t' es IS G IH).
  - pose proof (update_spec env sys T P t IS) as G. rewrite E in G. destruct G as [G _]. split; [apply G|]. apply (step_history env sys T P t t' es IS G IH).
  - split; [exact IS|]. unfold conditions. rewrite flat_map_app. cbn. rewrite app_nil_r. exact IH.
Qed.
Lemma history_constant sys env0 es env t : History sys env0 es env t -> (forall e, ~ In (Changed e) es) ->
  env = env0 /\ forall j, (j < length sys)%nat -> stored t j = (zero, zero) \/ ~ Able env (fst (stored t j)) (snd (stored t j)) (nth j sys []) \/
    AtPhase env sys (fst (stored t j)) (snd (stored t j)) j t.
Proof.
  assert (K : forall env T P t t', Step env sys T P (mkThermo T P (t_Ts t) (t_Ps t) (t_props t)) t' ->
    (forall j, (j < length sys)%nat -> stored t j = (zero, zero) \/ ~ Able env (fst (stored t j)) (snd (stored t j)) (nth j sys []) \/
      AtPhase env sys (fst (stored t j)) (snd (stored t j)) j t) ->
    forall j, (j < length sys)%nat -> stored t' j = (zero, zero) \/ ~ Able env (fst (stored t' j)) (snd (stored t' j)) (nth j sys []) \/
      AtPhase env sys (fst (stored t' j)) (snd (stored t' j)) j t').
  { intros env1 T P t1 t1' (_ & _ & _ & HG) IH j Hj. destruct (HG j Hj) as [[E' HSame]|[E' HA]].
    - rewrite E'. destruct (IH j Hj) as [H|[H|H]]; [left; exact H|right; left; exact H|right; right].
      apply (at_same env1 sys _ _ j _ t1' HSame). exact H.
    - rewrite E'. cbn [fst snd]. right. tauto. }
  intros HH. induction HH as [env|env0 es env t T P t' HH IH E|env0 es env t T P t' HH IH E|env0 es env t env' HH IH]; intros Hc.
  - split; [reflexivity|]. intros j _. left. apply new_stored.
  - destruct IH as [-> IH]; [intros e He; apply (Hc e), in_app_iff; left; exact He|]. split; [reflexivity|].
    pose proof (update_spec env0 sys T P t (proj1 (history_stored _ _ _ _ _ HH))) as G. rewrite E in G. destruct G as [G _].
    apply (K _ _ _ _ _ G IH).
  - destruct IH as [-> IH]; [intros e He; apply (Hc e), in_app_iff; left; exact He|]. split; [reflexivity|].
    pose proof (update_spec env0 sys T P t (proj1 (history_stored _ _ _ _ _ HH))) as G. rewrite E in G. destruct G as [G _].
    apply (K _ _ _ _ _ G IH).
  - destruct (Hc env'). apply in_app_iff. right. left. reflexivity.
Qed.
End Proofs.

(* As long as what models read does not change, an update at conditions where all models
   can be evaluated gives their properties, whatever was done and failed before.  The
   conditions must not both be zero. *)
Theorem C119_partial : forall (Env : Type) (sys : System Env) env0 es env t T P, History sys env0 es env t -> (forall e, ~ In (Changed e) es) ->
  (T, P) <> ((0, 0), (0, 0)) -> (forall m, In m (concat sys) -> exists p, Value env T P m p) ->
  exists t', update env sys T P t = Returned t' /\ Current sys env T P t'.
Proof.
  intros Env sys env0 es env t T P HH Hc H0 HA. pose proof (history_stored Env _ _ _ _ _ HH) as [HS _].
  destruct (history_constant Env _ _ _ _ _ HH Hc) as [-> HI].
  pose proof (update_spec Env env0 sys T P t HS) as G.
  destruct (update env0 sys T P t) as [t'|t'|]; [|destruct G as [_ []]; exact HA|destruct G; exact HA].
  exists t'. split; [reflexivity|]. apply G. intros j Hj E. destruct (HI j Hj) as [H|[H|H]]; rewrite E in H.
  - destruct (H0 H).
  - destruct H. apply able_phase; assumption.
  - exact H.
Qed.
Print Assumptions C119_partial.
(* At conditions that are new to the object an update that returns gives the properties
   of the models as they are now, and it does not return if one of them throws. *)
Theorem C119_new_partial : forall (Env : Type) (sys : System Env) env0 es env t T P, History sys env0 es env t ->
  ~ In (Updated T P) es -> (T, P) <> ((0, 0), (0, 0)) ->
  (forall t', update env sys T P t = Returned t' -> Current sys env T P t') /\
  ((exists t', update env sys T P t = Returned t') <-> forall m, In m (concat sys) -> exists p, Value env T P m p).
Proof.
  intros Env sys env0 es env t T P HH Hn H0. pose proof (history_stored Env _ _ _ _ _ HH) as [HS HI].
  pose proof (update_spec Env env sys T P t HS) as G.
  assert (K : forall j, (j < length sys)%nat -> stored t j = (T, P) -> AtPhase Env env sys T P j t).
  { intros j Hj E. destruct (HI j Hj) as [H|H]; rewrite E in H; [destruct (H0 H)|]. destruct Hn.
    unfold conditions in H. apply in_flat_map in H as ([T' P'|e] & He & HT); cbn in HT; [|destruct HT]. destruct HT as [E'|[]]. injection E' as -> ->. exact He. }
  destruct (update env sys T P t) as [t'|t'|].
  - destruct G as [_ G]. specialize (G K). split; [intros t1 E; injection E as <-; exact G|]. split; [|intros _; exists t'; reflexivity].
    intros _ m Hm. destruct G as (_ & _ & HF). clear -HF Hm. induction HF as [|m' p l l' Hv HF IH]; [destruct Hm|].
    destruct Hm as [->|Hm]; [exists p; exact Hv|apply IH; exact Hm].
  - destruct G as [_ G]. split; [intros t1 E; discriminate E|]. split; [intros (t1 & E); discriminate E|]. intros HA. destruct G. exact HA.
  - split; [intros t1 E; discriminate E|]. split; [intros (t1 & E); discriminate E|]. intros HA. destruct G. exact HA.
Qed.
Print Assumptions C119_new_partial.

(* A model that fails: the update fails, and the same call once more does not. *)
Definition failing : System unit := [[Some (fun _ _ _ => Err)]].
Lemma num_eqb_refl x : num_eqb x x = true.
Proof. apply num_eqb_ok. reflexivity. Qed.
Lemma num_eqb_neq x y : x <> y -> num_eqb x y = false.
Proof. intros H. destruct (num_eqb x y) eqn:E; [|reflexivity]. apply num_eqb_ok in E. contradiction. Qed.
Theorem C119_retry_refuted : exists t t', update tt failing (300, 0) (100000, 0) (newThermo failing) = Thrown t /\
  update tt failing (300, 0) (100000, 0) t = Returned t' /\ ~ exists p, Value tt (300, 0) (100000, 0) (Some (fun _ _ _ => Err)) p.
Proof.
  unfold update, failing; cbn [length seq updatePhases]. unfold updatePhase; cbn [t_Ts t_Ps newThermo length repeat nth].
  rewrite (num_eqb_neq (300, 0) zero) by (intros E; injection E as E; lra). cbn [andb evaluate nth]. eexists. eexists. split; [reflexivity|].
  cbn [t_Ts t_Ps assign nth]. rewrite !num_eqb_refl. cbn [andb]. split; [reflexivity|]. intros (p & Hp). discriminate Hp.
Qed.
Print Assumptions C119_retry_refuted.
(* A parameter that changes, or of which the derivative is asked: the properties do not follow. *)
Definition heated : System num := [[Some (fun h _ _ => Ok (mkSP zero h zero zero zero))]].
Theorem C119_parameter_refuted : forall h h' T P, h' <> h -> (T, P) <> (zero, zero) -> exists t, History heated h [Updated T P; Changed h'] h' t /\
  update h' heated T P t = Returned t /\ ~ Current heated h' T P t.
Proof.
  intros h h' T P Hh H0.
  destruct (C119_partial num heated h [] h (newThermo heated) T P) as (t & Et & HC).
  - constructor.
  - intros e [].
  - exact H0.
  - intros m [<-|[]]. eexists. reflexivity.
  - exists t. assert (HH : History heated h [Updated T P; Changed h'] h' t).
    { apply (history_changed heated h [Updated T P] h t h'). apply (history_returned heated h [] h (newThermo heated) T P t); [constructor|exact Et]. }
    split; [exact HH|].
    assert (Es : num_eqb T (nth 0 (t_Ts t) zero) && num_eqb P (nth 0 (t_Ps t) zero) = true).
    { revert Et. unfold update, heated; cbn [length seq updatePhases]. unfold updatePhase; cbn [t_Ts t_Ps newThermo length repeat nth].
      destruct (num_eqb T zero && num_eqb P zero) eqn:E; cbn [evaluate nth]; intros E'; injection E' as <-; cbn [t_Ts t_Ps nth assign]; [exact E|].
      rewrite !num_eqb_refl. reflexivity. }
    destruct HC as (HT & HP & HF). split.
    + unfold update, heated; cbn [length seq updatePhases]. unfold updatePhase; cbn [t_Ts t_Ps]. rewrite Es. rewrite <- HT, <- HP at 1. destruct t; reflexivity.
    + intros (_ & _ & HF'). inversion HF as [|m p l l' Hv HF1 E1 E2]; subst. rewrite <- E2 in HF'. inversion HF' as [|m' p' k k' Hv' _]; subst.
      cbn in Hv, Hv'. rewrite <- Hv in Hv'. injection Hv' as E. contradiction.
Qed.
Print Assumptions C119_parameter_refuted.
Theorem C119_refuted : ~ C119_statement.
Proof.
  intros H. destruct C119_retry_refuted as (t & t' & E1 & E2 & HN).
  assert (HH : History failing tt [Updated (300, 0) (100000, 0)] tt t) by (apply (history_thrown failing tt [] tt (newThermo failing) _ _ t); [constructor|exact E1]).
  destruct (H unit failing tt _ tt t _ _ t' HH E2) as (_ & _ & HF). inversion HF as [|m p l l' Hv _]; subst. apply HN. exists p. exact Hv.
Qed.
Print Assumptions C119_refuted.
(* Derived properties, with their derivatives. *)
Theorem C119_derived_partial : forall t i p, fst (t_T t) <> 0 -> nth_error (t_props t) i = Some p ->
  exists s u a, nth_error (standardEntropies t) i = Some s /\ nth_error (standardInternalEnergies t) i = Some u /\
    nth_error (standardHelmholtzEnergies t) i = Some a /\ Derived (t_T t) (t_P t) p s u a.
Proof.
  intros t i p HT Hp. unfold standardEntropies, standardInternalEnergies, standardHelmholtzEnergies.
  rewrite !nth_error_map, Hp. cbn [option_map]. do 3 eexists. split; [reflexivity|]. split; [reflexivity|]. split; [reflexivity|].
  destruct (t_T t) as [T dT], (t_P t) as [P dP], p as [[G dG] [H dH] [V dV] Cp Cv]. cbn in HT.
  constructor; unfold nadd, times, nsub, nmul, ndiv; cbn [fst snd s_G0 s_H0 s_V0]; f_equal; field; exact HT.
Qed.
Print Assumptions C119_derived_partial.
Example C119_nonvacuous : exists t t', History heated (5, 0) [Updated (300, 0) (100000, 0)] (5, 0) t /\
  update (5, 0) heated (300, 1) (100000, 0) t = Returned t' /\ t_props t' = [mkSP zero (5, 0) zero zero zero].
Proof.
  destruct (C119_partial num heated (5, 0) [] (5, 0) (newThermo heated) (300, 0) (100000, 0)) as (t & Et & HC).
  - constructor.
  - intros e [].
  - intros E. injection E as E. lra.
  - intros m [<-|[]]. eexists. reflexivity.
  - assert (HH : History heated (5, 0) [Updated (300, 0) (100000, 0)] (5, 0) t) by (apply (history_returned heated (5, 0) [] (5, 0) (newThermo heated)); [constructor|exact Et]).
    destruct (C119_partial num heated (5, 0) _ (5, 0) t (300, 1) (100000, 0) HH) as (t' & Et' & (_ & _ & HF)).
    + intros e [E|[]]. discriminate E.
    + intros E. injection E as E. lra.
    + intros m [<-|[]]. eexists. reflexivity.
    + exists t, t'. split; [exact HH|]. split; [exact Et'|]. inversion HF as [|m p l l' Hv HF1 E1 E2]; subst. cbn in Hv. injection Hv as <-.
      inversion HF1. reflexivity.
Qed.

