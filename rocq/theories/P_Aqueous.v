(* Lemmas about aqueous mixtures and activity models. *)
From Coq Require Import Reals Qreals List Bool Lia Lra Permutation Sorting.
From Coquelicot Require Import Coquelicot.
Import ListNotations.
From Verif Require Import Base M_Strings M_Formula M_Chem M_Algorithms M_System M_Registry P_Algorithms P_Chem M_CubicEOS P_Helmholtz P_CubicEOS M_Aqueous S_Activity.
Local Open Scope R_scope.

Lemma NoDup_join {A} (a b : list A) : NoDup a -> NoDup b -> (forall k, In k a -> In k b -> False) -> NoDup (a ++ b).
Proof.
  induction 1 as [|x a N _ IH]; intros Hb H; [exact Hb|]. cbn. constructor.
  - rewrite in_app_iff. intros [I|I]; [exact (N I)|exact (H x (or_introl eq_refl) I)].
  - apply IH; [exact Hb|]. intros k I J. exact (H k (or_intror I) J).
Qed.
(* ---- Groups of species ---- *)
Definition pick (p : nat -> Species -> bool) (i : nat) (l : list Species) : list nat :=
  map fst (List.filter (fun ks => p (fst ks) (snd ks)) (combine (seq i (length l)) l)).
Definition is_neutral (w k : nat) (s : Species) : bool := negb (Nat.eqb k w) && Qeq_bool (sp_charge s) 0.
Definition is_charged (w k : nat) (s : Species) : bool := negb (Nat.eqb k w) && negb (Qeq_bool (sp_charge s) 0).
Definition is_cation (w k : nat) (s : Species) : bool := negb (Nat.eqb k w) && negb (Qeq_bool (sp_charge s) 0) && Qltb 0 (sp_charge s).
Definition is_anion (w k : nat) (s : Species) : bool := negb (Nat.eqb k w) && negb (Qeq_bool (sp_charge s) 0) && negb (Qltb 0 (sp_charge s)).
Lemma pick_cons p i s l : pick p i (s :: l) = (if p i s then [i] else []) ++ pick p (S i) l.
Proof. unfold pick. cbn. destruct (p i s); reflexivity. Qed.
Lemma initIndices_eq w l : forall i g, initIndices w i l g =
  mkGroups (gr_neutral g ++ pick (is_neutral w) i l) (gr_charged g ++ pick (is_charged w) i l)
           (gr_cations g ++ pick (is_cation w) i l) (gr_anions g ++ pick (is_anion w) i l).
Proof.
  induction l as [|s l IH]; intros i g; [cbn; rewrite !app_nil_r; destruct g; reflexivity|].
  cbn [initIndices]. rewrite IH, !pick_cons. unfold classify, is_neutral, is_charged, is_cation, is_anion.
  destruct (Nat.eqb i w); [reflexivity|]. destruct (Qeq_bool (sp_charge s) 0); [cbn; rewrite <- app_assoc; reflexivity|].
  destruct (Qltb 0 (sp_charge s)); cbn; rewrite <- !app_assoc; reflexivity.
Qed.
Lemma pick_in p l : forall i k, In k (pick p i l) <-> (i <= k)%nat /\ exists s, nth_error l (k - i) = Some s /\ p k s = true.
Proof.
  induction l as [|s l IH]; intros i k.
  - split; [intros []|]. intros (_ & s & H & _). destruct (k - i)%nat; discriminate.
  - rewrite pick_cons, in_app_iff, IH. split.
    + intros [H|(H & s' & E & Ep)].
      * destruct (p i s) eqn:E; [|destruct H]. destruct H as [<-|[]]. split; [lia|]. exists s. rewrite Nat.sub_diag. auto.
      * split; [lia|]. exists s'. replace (k - i)%nat with (S (k - S i)) by lia. auto.
    + intros (H & s' & E & Ep). destruct (Nat.eq_dec i k) as [->|N].
      * rewrite Nat.sub_diag in E. cbn in E. injection E as <-. left. rewrite Ep. left. reflexivity.
      * right. split; [lia|]. exists s'. replace (k - i)%nat with (S (k - S i)) in E by lia. auto.
Qed.
Lemma pick_sorted p l : forall i, StronglySorted Nat.lt (pick p i l).
Proof.
  induction l as [|s l IH]; intros i; [constructor|]. rewrite pick_cons. destruct (p i s); cbn; [|apply IH].
  constructor; [apply IH|]. apply Forall_forall. intros k H. apply pick_in in H. lia.
Qed.
Lemma sorted_nodup l : StronglySorted Nat.lt l -> NoDup l.
Proof. induction 1 as [|x l _ IH H]; constructor; [|exact IH]. intros I. rewrite Forall_forall in H. apply H in I. lia. Qed.

Section Mixtures.
Variables (reactions : list Dissociation) (rho eps : R -> R -> R) (l : list Species) (mx : Mixture).
Hypothesis Hmx : mkAqueousMixture reactions rho eps l = Ok mx.
Let w := mx_water mx.

Lemma mx_inv : indexWithFormula l $"H2O" = Ok (mx_water mx) /\ mx_species mx = l /\
  mx_neutral mx = pick (is_neutral w) 0 l /\ mx_charged mx = pick (is_charged w) 0 l /\
  mx_cations mx = pick (is_cation w) 0 l /\ mx_anions mx = pick (is_anion w) 0 l /\
  mx_D mx = dissociation reactions l (mx_neutral mx) (mx_charged mx) /\ mx_rho mx = rho /\ mx_epsilon mx = eps.
Proof.
  revert Hmx. unfold mkAqueousMixture, w. destruct (indexWithFormula l $"H2O") as [k| |]; [|discriminate|discriminate].
  intros H. change (Ok (let g := initIndices k 0 l (mkGroups [] [] [] []) in
    mkMixture l k (gr_neutral g) (gr_charged g) (gr_cations g) (gr_anions g) (dissociation reactions l (gr_neutral g) (gr_charged g)) rho eps) = Ok mx) in H.
  rewrite initIndices_eq in H. injection H as <-. cbn. tauto.
Qed.
Lemma water_is : exists s, nth_error l w = Some s /\ exists f, mkChemicalFormula $"H2O" = Ok f /\ equivalent f (formula s) = true.
Proof.
  destruct mx_inv as (H & _). unfold indexWithFormula in H. destruct (mkChemicalFormula $"H2O") as [f| |]; [|discriminate|discriminate].
  cbn [bind] in H. destruct (Nat.leb_spec (length l) (findWithFormula l f)) as [L|L]; [discriminate|]. injection H as H. fold w in H.
  assert (Hw : (w < length l)%nat) by lia. apply nth_error_Some in Hw. destruct (nth_error l w) as [s|] eqn:E; [|congruence].
  exists s. split; [reflexivity|]. exists f. split; [reflexivity|].
  unfold findWithFormula in H. destruct (indexfn_split l (fun s => equivalent f (formula s))) as [(l1 & x & l2 & El & Hx & _ & E2)|(_ & E2)].
  2: { change (findWithFormula l f = length l) in E2. lia. }
  rewrite E2 in H. rewrite <- H, El, nth_error_app2, Nat.sub_diag in E by lia. cbn in E. injection E as <-. exact Hx.
Qed.
Lemma w_lt : (w < length l)%nat.
Proof. destruct water_is as (s & E & _). apply nth_error_Some. congruence. Qed.
Lemma water_uncharged : charge_at l w = 0.
Proof.
  destruct water_is as (s & E & f & Ef & Eq). unfold charge_at, species_at. rewrite (nth_error_nth _ _ _ E).
  assert (Ec : Qeq (cf_charge f) 0%Q) by (revert Ef; vm_compute; intros Ef; injection Ef as <-; reflexivity).
  unfold equivalent in Eq. rewrite !andb_true_iff in Eq. destruct Eq as [_ Eq]. apply Qeq_bool_eq in Eq. cbn in Eq.
  rewrite <- RMicromega.Q2R_0. apply Qeq_eqR. rewrite <- Eq. exact Ec.
Qed.
Lemma mx_partition : Permutation (seq 0 (length l)) (w :: mx_neutral mx ++ mx_charged mx) /\ Permutation (mx_charged mx) (mx_cations mx ++ mx_anions mx).
Proof.
  destruct mx_inv as (_ & _ & -> & -> & -> & -> & _). split.
  - apply NoDup_Permutation; [apply seq_NoDup| |].
    + constructor.
      * rewrite in_app_iff, !pick_in. unfold is_neutral, is_charged. rewrite Nat.eqb_refl. intros [(_ & s & _ & H)|(_ & s & _ & H)]; discriminate.
      * apply NoDup_join; try (apply sorted_nodup, pick_sorted). intros k. rewrite !pick_in. unfold is_neutral, is_charged.
        intros (_ & s & E & H) (_ & s' & E' & H'). rewrite E in E'. injection E' as <-. destruct (Qeq_bool (sp_charge s) 0); rewrite ?andb_false_r in *; discriminate.
    + intros k. rewrite in_seq. cbn [In]. rewrite in_app_iff, !pick_in, Nat.sub_0_r. unfold is_neutral, is_charged. split.
      * intros [_ H]. cbn in H. apply nth_error_Some in H. destruct (nth_error l k) as [s|] eqn:E; [|congruence].
        destruct (Nat.eqb_spec k w) as [->|N]; [left; reflexivity|right]. destruct (Qeq_bool (sp_charge s) 0) eqn:Q; [left|right]; (split; [lia|exists s; rewrite Q; auto]).
      * intros [<-|[(_ & s & E & _)|(_ & s & E & _)]]; [pose proof w_lt; lia| |]; (split; [lia|cbn; apply nth_error_Some; congruence]).
  - apply NoDup_Permutation; [apply sorted_nodup, pick_sorted| |].
    + apply NoDup_join; try (apply sorted_nodup, pick_sorted). intros k. rewrite !pick_in. unfold is_cation, is_anion.
      intros (_ & s & E & H) (_ & s' & E' & H'). rewrite E in E'. injection E' as <-. destruct (Qltb 0 (sp_charge s)); rewrite ?andb_false_r in *; discriminate.
    + intros k. rewrite in_app_iff, !pick_in. unfold is_charged, is_cation, is_anion. split.
      * intros (H & s & E & Ep). destruct (Qltb 0 (sp_charge s)) eqn:Q; [left|right]; (split; [exact H|exists s; rewrite Ep, Q; auto]).
      * intros [(H & s & E & Ep)|(H & s & E & Ep)]; apply andb_prop in Ep; destruct Ep as [Ep _]; (split; [exact H|exists s; auto]).
Qed.
Lemma charged_neq k : In k (mx_charged mx) -> k <> w /\ charge_at l k <> 0 /\ (k < length l)%nat.
Proof.
  destruct mx_inv as (_ & _ & _ & -> & _). rewrite pick_in, Nat.sub_0_r. intros (_ & s & E & H). unfold is_charged in H. apply andb_prop in H. destruct H as [H1 H2].
  split; [intros ->; rewrite Nat.eqb_refl in H1; discriminate|]. split.
  - unfold charge_at, species_at. rewrite (nth_error_nth _ _ _ E). rewrite <- RMicromega.Q2R_0. intros Z. apply eqR_Qeq in Z. apply Qeq_bool_iff in Z. rewrite Z in H2. discriminate.
  - apply nth_error_Some. congruence.
Qed.
Lemma neutral_eq k : In k (mx_neutral mx) -> k <> w /\ charge_at l k = 0 /\ (k < length l)%nat.
Proof.
  destruct mx_inv as (_ & _ & -> & _). rewrite pick_in, Nat.sub_0_r. intros (_ & s & E & H). unfold is_neutral in H. apply andb_prop in H. destruct H as [H1 H2].
  split; [intros ->; rewrite Nat.eqb_refl in H1; discriminate|]. split.
  - unfold charge_at, species_at. rewrite (nth_error_nth _ _ _ E). rewrite <- RMicromega.Q2R_0. apply Qeq_eqR, Qeq_bool_eq, H2.
  - apply nth_error_Some. congruence.
Qed.
Lemma charged_nodup : NoDup (mx_charged mx).
Proof. destruct mx_inv as (_ & _ & _ & -> & _). apply sorted_nodup, pick_sorted. Qed.
Lemma neutral_nodup : NoDup (mx_neutral mx).
Proof. destruct mx_inv as (_ & _ & -> & _). apply sorted_nodup, pick_sorted. Qed.
End Mixtures.

(* ---- Sums ---- *)
Definition Total (l : list R) : R := fold_right Rplus 0 l.
Lemma Total_app a b : Total (a ++ b) = Total a + Total b.
Proof. induction a as [|x a IH]; cbn; [symmetry; apply Rplus_0_l|]. unfold Total in IH. rewrite IH. symmetry. apply Rplus_assoc. Qed.
Lemma Total_perm a b : Permutation a b -> Total a = Total b.
Proof. induction 1; [reflexivity| | |congruence]; unfold Total in *; cbn; lra. Qed.
Lemma Sum_Total n f : Sum n f = Total (map f (seq 0 n)).
Proof. induction n as [|n IH]; [reflexivity|]. rewrite seq_S, map_app, Total_app, <- IH. unfold Total. cbn. lra. Qed.
Lemma Sum_nth ks f : Sum (length ks) (fun j => f (nth j ks O)) = Total (map f ks).
Proof.
  rewrite Sum_Total. f_equal. induction ks as [|k ks IH]; [reflexivity|]. cbn. f_equal. rewrite <- seq_shift, map_map. exact IH.
Qed.
Lemma Sum_mixture reactions rho eps l mx f : mkAqueousMixture reactions rho eps l = Ok mx ->
  Sum (length l) f = f (mx_water mx) + Sum (length (mx_neutral mx)) (fun i => f (nth i (mx_neutral mx) O)) + Sum (length (mx_charged mx)) (fun j => f (nth j (mx_charged mx) O)).
Proof.
  intros H. rewrite !Sum_nth, Sum_Total, (Total_perm _ _ (Permutation_map f (proj1 (mx_partition _ _ _ _ _ H)))).
  cbn. rewrite map_app, Total_app. ring.
Qed.
