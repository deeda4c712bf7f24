(* Conditions: each setter writes its own input. *)
From Verif Require Import Base S_System S_State S_Chem M_Strings M_Formula M_Chem M_Algorithms M_System M_Units M_State M_Specs
  S_Equilibrium P_Algorithms P_State P_Specs P_Specs2 P_Restrictions.

Lemma index_at l n : In n l -> FirstAt (fun x => x = n) l (M_Algorithms.index str_eqb l n) /\ M_Algorithms.index str_eqb l n < length l.
Proof.
  intro I. unfold M_Algorithms.index.
  assert (L : indexfn l (fun x => str_eqb x n) < length l).
  { apply indexfn_lt. exists n. split; auto. apply str_eqb_eq. reflexivity. }
  split; auto. apply (indexfn_FirstAt (fun x => x = n) (fun x => str_eqb x n) l (fun x => str_eqb_eq x n)). auto.
Qed.
Lemma index_out l n : ~ In n l -> length l <= M_Algorithms.index str_eqb l n.
Proof.
  intro N. unfold M_Algorithms.index. destruct (Nat.lt_ge_cases (indexfn l (fun x => str_eqb x n)) (length l)) as [L|L]; auto.
  apply indexfn_lt in L as (x & I & E). apply str_eqb_eq in E. subst. contradiction.
Qed.

Lemma scatter_ok idxs : forall vs l, length idxs = length vs -> Forall (fun i => i < length l) idxs -> NoDup idxs ->
  exists l', scatter l idxs vs = Ok l' /\ length l' = length l /\
    (forall k i v, nth_error idxs k = Some i -> nth_error vs k = Some v -> nth_error l' i = Some v) /\
    (forall i, ~ In i idxs -> nth_error l' i = nth_error l i).
Proof.
  induction idxs as [|i idxs IH]; intros [|v vs] l L F D; try discriminate.
  - exists l. cbn. repeat split; auto. intros [|k]; discriminate.
  - inversion F; inversion D; subst. cbn [scatter]. destruct (Nat.ltb_spec i (length l)) as [Li|]; [|lia].
    destruct (IH vs (upd l i v)) as (l' & E & L1 & A & B); auto. { rewrite upd_length. auto. }
    exists l'. rewrite upd_length in L1. repeat split; auto.
    + intros [|k] j w; cbn [nth_error].
      * intros E1 E2. injection E1 as <-. injection E2 as <-. rewrite B by auto. rewrite upd_nth, Nat.eqb_refl.
        destruct (Nat.ltb_spec i (length l)); [reflexivity|lia].
      * eauto.
    + intros j N. rewrite B by (intro; apply N; right; auto). rewrite upd_nth.
      destruct (Nat.eqb_spec j i); [subst; exfalso; apply N; left; auto|reflexivity].
Qed.

Section C.
Variable log : Q -> Q.
Variable fresh : nat -> Q.
Variable sys : ChemicalSystem.
Notation ccall_apply := (ccall_apply log fresh sys).

Lemma newConditions_ok cells s : Inv s -> exists c, newConditions cells s = Ok c /\ c_inputs c = q_inputs s /\
  length (c_values c) = length (c_inputs c) /\ c_species c = [] /\ c_components c = [] /\
  (forall k i p, nth_error (q_idxs s) k = Some i -> nth_error (q_params s) k = Some p -> nth_error (c_values c) i = Some (cells (pa_cell p))) /\
  (forall i, i < length (q_inputs s) -> ~ In i (q_idxs s) -> nth_error (c_values c) i = Some 0%Q).
Proof.
  intro I. destruct I. unfold newConditions.
  destruct (scatter_ok (q_idxs s) (map (fun p => cells (pa_cell p)) (q_params s)) (repeat 0%Q (numInputs s))) as (l & E & L & A & B).
  - rewrite map_length. auto.
  - rewrite Forall_forall. intros i Ii. rewrite repeat_length. apply In_nth_error in Ii as (k & K).
    destruct (nth_error (q_params s) k) as [p|] eqn:P.
    + unfold numInputs. apply nth_error_Some. rewrite (inv_par _ _ _ K P). discriminate.
    + apply nth_error_None in P. assert (k < length (q_idxs s)) by (apply nth_error_Some; congruence). lia.
  - auto.
  - rewrite E. cbn [omap bind]. eexists. split; [reflexivity|]. cbn. rewrite repeat_length in L. unfold numInputs in *. repeat split; auto.
    + intros k i p K P. eapply A; eauto. apply map_nth_error with (f := fun p => cells (pa_cell p)). auto.
    + intros i Li N. rewrite B by auto. apply nth_error_repeat. auto.
Qed.

Lemma set_registered_spec wid m c r c' : set_registered wid m c = (r, c') -> length (c_values c) = length (c_inputs c) ->
  (~ In wid (c_inputs c) /\ r = Err /\ c' = c) \/
  (In wid (c_inputs c) /\ r = omap (fun _ => tt) m /\
   ((forall v, m <> Ok v) -> c' = c) /\
   forall v, m = Ok v -> exists i, FirstAt (fun x => x = wid) (c_inputs c) i /\ c_inputs c' = c_inputs c /\
     Replaced (c_values c) i v (c_values c') /\ c_species c' = c_species c /\ c_components c' = c_components c).
Proof.
  unfold set_registered. intros H L. destruct (contains str_eqb (c_inputs c) wid) eqn:E; cbn [negb] in H.
  - apply contains_str in E. right. split; auto. destruct m as [v| |]; cbn [with_value] in H; injection H as <- <-; cbn [omap bind]; split; auto; split; auto; try discriminate.
    + intro N. destruct (N v eq_refl).
    + intros w Ew. injection Ew as <-. destruct (index_at _ _ E) as [F Li]. eexists. split; [exact F|]. cbn. repeat split; auto;
        apply upd_Replaced; rewrite L; auto.
  - left. injection H as <- <-. split; auto. intro I. apply contains_str in I. congruence.
Qed.

Lemma setter_spec x c r c' wid m : ccall_apply x c = (r, c') -> setting log x = Some (wid, m) -> (forall v u, x <> CEh v u) ->
  length (c_values c) = length (c_inputs c) ->
  (~ In wid (c_inputs c) /\ r = Err /\ c' = c) \/
  (In wid (c_inputs c) /\ r = omap (fun _ => tt) m /\
   ((forall v, m <> Ok v) -> c' = c) /\
   forall v, m = Ok v -> exists i, FirstAt (fun x => x = wid) (c_inputs c) i /\ c_inputs c' = c_inputs c /\
     Replaced (c_values c) i v (c_values c') /\ c_species c' = c_species c /\ c_components c' = c_components c).
Proof.
  intros H S N L. destruct x; cbn [setting] in S; try discriminate; try (injection S as <- <-; apply set_registered_spec; solve [auto]).
  - destruct (N v un eq_refl).
  - injection S as <- <-. cbn [M_Specs.ccall_apply] in H. destruct (in_dec str_eq_dec input (c_inputs c)) as [I|I].
    + right. destruct (index_at _ _ I) as [F Li]. destruct (Nat.leb_spec (length (c_inputs c)) (M_Algorithms.index str_eqb (c_inputs c) input)); [lia|].
      injection H as <- <-. split; auto. cbn [omap bind]. split; auto. split; [intro K; destruct (K v eq_refl)|].
      intros w Ew. injection Ew as <-. eexists. split; [exact F|]. cbn. repeat split; auto; apply upd_Replaced; rewrite L; auto.
    + left. pose proof (index_out _ _ I). destruct (Nat.leb_spec (length (c_inputs c)) (M_Algorithms.index str_eqb (c_inputs c) input)); [|lia].
      injection H as <- <-. auto.
Qed.
Lemma Eh_spec v u c r c' : ccall_apply (CEh v u) c = (r, c') -> length (c_values c) = length (c_inputs c) ->
  (~ In $"Eh" (c_inputs c) /\ r = Err /\ c' = c) \/
  (In $"Eh" (c_inputs c) /\ r = Ok tt /\
   exists i, FirstAt (fun x => x = $"Eh") (c_inputs c) i /\ c_inputs c' = c_inputs c /\
     Replaced (c_values c) i v (c_values c') /\ c_species c' = c_species c /\ c_components c' = c_components c).
Proof.
  intros H L. cbn [M_Specs.ccall_apply] in H. destruct (set_registered_spec _ _ _ _ _ H L) as [K|(I & E & _ & K)]; [left; auto|right].
  split; auto.
Qed.

(* Start amounts. *)
Lemma start_spec i v u c r c' : startWith fresh sys i v u c = (r, c') -> r <> UB ->
  (r = Err /\ c' = c /\ forall a, ~ (i < length (sys_species sys) /\ Amount sys i v u a)) \/
  (r = Ok tt /\ exists a, i < length (sys_species sys) /\ Amount sys i v u a /\
   c_inputs c' = c_inputs c /\ c_values c' = c_values c /\ c_components c' = [] /\
   exists n, Replaced n i a (c_species c') /\ length n = length (sys_species sys) /\
     (length (c_species c) = length (sys_species sys) -> n = c_species c) /\
     (length (c_species c) <> length (sys_species sys) -> n = map fresh (seq 0 (length (sys_species sys))))).
Proof.
  unfold startWith. intros H U. destruct (Nat.leb_spec (length (sys_species sys)) i) as [L|L].
  - injection H as <- <-. left. repeat split; auto. intros a [K _]. lia.
  - apply with_value_inv in H as [(a & E & H)|[(E & -> & ->)|(_ & -> & _)]]; [| |contradiction].
    + right. injection H as <- <-. split; auto. exists a. split; auto. split; [apply Amount_spec; auto|]. cbn. repeat split; auto.
      exists (if length (c_species c) =? length (sys_species sys) then c_species c else map fresh (seq 0 (length (sys_species sys)))).
      destruct (Nat.eqb_spec (length (c_species c)) (length (sys_species sys))) as [Q1|Q1].
      * split; [apply upd_Replaced; rewrite Q1; auto|]. repeat split; auto. contradiction.
      * assert (Ln : length (map fresh (seq 0 (length (sys_species sys)))) = length (sys_species sys)) by (rewrite map_length, seq_length; auto).
        split; [apply upd_Replaced; rewrite Ln; auto|]. repeat split; auto. contradiction.
    + left. repeat split; auto. intros a [_ A]. apply Amount_spec in A. congruence.
Qed.

(* Shapes over histories. *)
Definition shaped (c : Conditions) : Prop :=
  length (c_values c) = length (c_inputs c) /\
  ((c_species c = [] /\ c_components c = []) \/ (length (c_species c) = length (sys_species sys) /\ c_components c = []) \/
   (c_species c = [] /\ length (c_components c) = length (sys_elements sys) + 1)).
Lemma apply_shaped x c r c' : ccall_apply x c = (r, c') -> r <> UB -> shaped c -> shaped c' /\ c_inputs c' = c_inputs c.
Proof.
  intros H U [L S].
  assert (G : forall i v u, startWith fresh sys i v u c = (r, c') -> shaped c' /\ c_inputs c' = c_inputs c).
  { intros i v u K. apply start_spec in K as [(_ & -> & _)|(_ & a & Li & _ & E1 & E2 & E3 & n & (Ln & _) & Ln' & _)]; auto; [split; [split|]; auto|].
    split; auto. split; [congruence|]. right. left. split; auto. congruence. }
  assert (E : (exists v u, x = CEh v u) \/ forall v u, x <> CEh v u) by (destruct x; try (right; intros; discriminate); left; eauto).
  destruct E as [(v & u & ->)|NE].
  { destruct (Eh_spec _ _ _ _ _ H L) as [(_ & _ & ->)|(_ & _ & i & _ & E1 & (E2 & _) & E3 & E4)]; [split; [split|]; auto|].
    split; auto. split; [congruence|]. rewrite E3, E4. auto. }
  destruct (setting log x) as [[wid m]|] eqn:ES.
  - destruct (setter_spec _ _ _ _ _ _ H ES NE L) as [(_ & _ & ->)|(_ & -> & K0 & K)]; [split; [split|]; auto|].
    destruct m as [v| |]; [|rewrite K0 by discriminate; split; [split|]; auto..].
    destruct (K v eq_refl) as (i & _ & E1 & (E2 & _) & E3 & E4). split; auto. split; [congruence|]. rewrite E3, E4. auto.
  - destruct x; cbn [setting] in ES; try discriminate; cbn [M_Specs.ccall_apply] in H; eauto.
    + apply with_value_inv in H as [(i & E & H)|[(_ & -> & ->)|(_ & -> & _)]]; eauto; [split; [split|]; auto|contradiction].
    + destruct (Nat.eqb_spec (length n) (length (sys_species sys))); injection H as <- <-; (split; [split|]); cbn; auto.
    + destruct (Nat.eqb_spec (length b) (length (sys_elements sys) + 1)); injection H as <- <-; (split; [split|]); cbn; auto.
Qed.
Lemma crun_shaped h : forall c c', crun log fresh sys c h = Some c' -> shaped c -> shaped c' /\ c_inputs c' = c_inputs c.
Proof.
  induction h as [|x h IH]; intros c c' H S; cbn [crun] in H.
  - injection H as <-. auto.
  - destruct (ccall_apply x c) as [r c1] eqn:E.
    assert (r <> UB /\ crun log fresh sys c1 h = Some c') as [N K] by (destruct r; try discriminate; split; auto; discriminate).
    destruct (apply_shaped _ _ _ _ E N S) as [S1 E1]. destruct (IH _ _ K S1) as [S2 E2]. split; auto. congruence.
Qed.
End C.
