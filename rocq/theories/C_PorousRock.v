(* C140: copies of the states of porous rocks. *)
From Verif Require Import Base M_Strings M_Chem M_System M_State M_PorousRock C_State.

(* ---- Specification ---- *)
(* What a user can read from a rock state. *)
Definition same (a b : Rock) : Prop :=
  ch_system (rk_chemical a) = ch_system (rk_chemical b) /\ st_T (ch_state (rk_chemical a)) = st_T (ch_state (rk_chemical b)) /\
  st_P (ch_state (rk_chemical a)) = st_P (ch_state (rk_chemical b)) /\ st_n (ch_state (rk_chemical a)) = st_n (ch_state (rk_chemical b)).
(* 25 C, 1 bar and no amounts: the state documented for the constructor. *)
Definition Pristine (r : Rock) : Prop := let st := ch_state (rk_chemical r) in
  st_T st = (29815 # 100)%Q /\ st_P st = 100000%Q /\ length (st_n st) = length (sys_species (ch_system (rk_chemical r))) /\ (forall v, In v (st_n st) -> v = 0%Q).
Definition C140_statement : Prop := forall r, same (copyRock r) r /\ forall a, same (assignRock a r) r.

(* ---- Proofs ---- *)
Lemma zeros : forall l : list Q, (forall v, In v l -> v = 0%Q) -> l = repeat 0%Q (length l).
Proof. induction l as [|x l IH]; intros H; [reflexivity|]. cbn [length repeat]. rewrite (H x (or_introl eq_refl)) at 1. f_equal. apply IH. intros v I. apply H. right. exact I. Qed.
Lemma pristine_new s : Pristine (porousRockState s).
Proof. repeat split; [apply repeat_length|]. intros v I. exact (repeat_spec _ _ _ I). Qed.
Lemma pristine_same r : same (porousRockState (ch_system (rk_chemical r))) r <-> Pristine r.
Proof.
  split.
  - intros (_ & ET & EP & EN). unfold Pristine. rewrite <- ET, <- EP, <- EN. apply pristine_new.
  - intros (ET & EP & EL & EZ). repeat split; [symmetry; exact ET|symmetry; exact EP|]. rewrite (zeros _ EZ), EL. reflexivity.
Qed.

(* A new state is as documented. *)
Theorem C140_new_partial s : ch_system (rk_chemical (porousRockState s)) = s /\ Pristine (porousRockState s).
Proof. split; [reflexivity|apply pristine_new]. Qed.
Print Assumptions C140_new_partial.
(* A copy keeps the system, and is the same only if nothing was set in the original. *)
Theorem C140_copy_partial r : ch_system (rk_chemical (copyRock r)) = ch_system (rk_chemical r) /\ Pristine (copyRock r) /\ (same (copyRock r) r <-> Pristine r).
Proof. split; [reflexivity|]. split; [apply pristine_new|]. apply pristine_same. Qed.
Print Assumptions C140_copy_partial.
(* Assigning a variable, also to itself, does as little; a temporary is assigned whole. *)
Theorem C140_assign_partial a r : ch_system (rk_chemical (assignRock a r)) = ch_system (rk_chemical r) /\ Pristine (assignRock a r) /\ (same (assignRock a r) r <-> Pristine r) /\
  same (assignValue a r) r.
Proof. split; [reflexivity|]. split; [exact (pristine_new (ch_system (rk_chemical r)))|]. split; [exact (pristine_same r)|]. repeat split. Qed.
Print Assumptions C140_assign_partial.
(* Given as a chemical state, a rock state is copied whole. *)
Theorem C140_chemical_partial r : ch_system (asChemical r) = ch_system (rk_chemical r) /\ ch_state (asChemical r) = ch_state (rk_chemical r).
Proof. split; reflexivity. Qed.
Print Assumptions C140_chemical_partial.
(* What is particular to rocks always throws and changes nothing. *)
Theorem C140_throws_partial r : (forall v, setPorosity v r = (Err, r)) /\ (forall i v, setVolumeFractionAmongFluidsI i v r = (Err, r)) /\ (forall p v, setVolumeFractionAmongFluids p v r = (Err, r)) /\
  (forall i v, setVolumeFractionAmongSolidsI i v r = (Err, r)) /\ (forall p v, setVolumeFractionAmongSolids p v r = (Err, r)) /\ equilibrateRock r = (Err, r).
Proof. repeat split. Qed.
Print Assumptions C140_throws_partial.
(* After any temperature other than 25 C is set, no copy and no assignment keeps it. *)
Theorem C140_temperature_refuted s v : (0 < v)%Q -> v <> (29815 # 100)%Q -> exists r, onRock (fun _ => setTemperature v) (porousRockState s) = (Ok tt, r) /\
  st_T (ch_state (rk_chemical r)) = v /\ ~ same (copyRock r) r /\ (forall a, ~ same (assignRock a r) r) /\ ~ same (assignRock r r) r.
Proof.
  intros H N. eexists. split.
  { unfold onRock, setTemperature. destruct (Qle_bool v 0) eqn:E; [apply Qle_bool_iff in E; exfalso; apply (Qlt_not_le _ _ H E)|]. reflexivity. }
  split; [reflexivity|]. split; [|split; [intros a|]]; intros (_ & E & _); apply N; symmetry; exact E.
Qed.
Print Assumptions C140_temperature_refuted.
Theorem C140_refuted : ~ C140_statement.
Proof.
  intros H. destruct (C140_temperature_refuted sample 300 eq_refl) as (r & _ & _ & K & _); [intros C; discriminate C|]. exact (K (proj1 (H r))).
Qed.
Print Assumptions C140_refuted.

Example C140_nonvacuous : exists r, onRock (fun sys => setSpeciesAmount true sys 0 2) (porousRockState sample) = (Ok tt, r) /\ ~ Pristine r /\ ~ same (copyRock r) r /\
  ch_state (asChemical r) = ch_state (rk_chemical r) /\ Pristine (porousRockState sample).
Proof.
  eexists. split; [vm_compute; reflexivity|]. match goal with |- ~ Pristine ?r /\ _ => set (r0 := r) end.
  assert (N : ~ Pristine r0). { intros (_ & _ & _ & Z). assert (E : 2%Q = 0%Q); [apply Z; left; reflexivity|discriminate E]. }
  split; [exact N|]. split; [intros S; exact (N (proj1 (proj2 (proj2 (C140_copy_partial r0))) S))|]. split; [reflexivity|apply pristine_new].
Qed.
