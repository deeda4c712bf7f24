(* Lemmas on the properties of an aqueous phase. *)
From Verif Require Import Base M_Strings M_Formula M_Chem M_Algorithms M_System M_Units S_System P_System P_Phases M_State S_State P_Algorithms P_State P_State2 S_Props P_Props M_AqueousProps.
From Coq Require Import Lqa.

(* ---- Evaluation does not depend on what was there ---- *)
Lemma phase_update_determined std sp act T P n d r d' r' :
  phase_update std sp act T P n d = (Ok tt, r) -> phase_update std sp act T P n d' = (Ok tt, r') ->
  sized (length sp) d -> sized (length sp) d' -> r = r'.
Proof.
  unfold phase_update. intros H H' Z Z'. destruct (negb (length n =? length sp)); [discriminate|].
  destruct (std_loop std sp 0 T P (mkPD T P n (d_nsum d) _ _ _ _ _ _ _ _ _ _ _ _ _ _ _ _)) as [o d2] eqn:S. destruct o as [[]| |]; try discriminate.
  destruct (std_loop std sp 0 T P (mkPD T P n (d_nsum d') _ _ _ _ _ _ _ _ _ _ _ _ _ _ _ _)) as [o' d2'] eqn:S'. destruct o' as [[]| |]; try discriminate.
  apply std_loop_spec with (k := length sp) in S; [|exact Z|lia]. apply std_loop_spec with (k := length sp) in S'; [|exact Z'|lia].
  destruct S as ((A1 & A2 & A3 & A4 & A5) & S & _), S' as ((B1 & B2 & B3 & B4 & B5) & S' & _).
  assert (E : d_G0 d2 = d_G0 d2' /\ d_H0 d2 = d_H0 d2' /\ d_V0 d2 = d_V0 d2' /\ d_Cp0 d2 = d_Cp0 d2' /\ d_Cv0 d2 = d_Cv0 d2').
  { repeat split; apply list_ext; intro j.
    all: destruct (nth_error sp j) as [s|] eqn:Es;
      [destruct (S j s Es) as (a & Ea & X1 & X2 & X3 & X4 & X5), (S' j s Es) as (a' & Ea' & Y1 & Y2 & Y3 & Y4 & Y5); rewrite Ea in Ea'; injection Ea' as <-; cbn [Nat.add] in *; congruence|].
    all: apply nth_error_None in Es; rewrite !(proj2 (nth_error_None _ j)) by lia; reflexivity. }
  destruct E as (E1 & E2 & E3 & E4 & E5). rewrite <- E1, <- E2, <- E3, <- E4, <- E5 in H'. clear - H H'.
  set (x := if Qeq_bool (sumQ n) 0 then _ else _) in *. apply with_value_inv in H as [(m & M & H)|[(_ & H & _)|(_ & H & _)]]; try discriminate. rewrite M in H'. cbn [with_value] in H'.
  destruct (Qeq_bool m 0); [discriminate|]. apply with_value_inv in H as [(a & A & H)|[(_ & H & _)|(_ & H & _)]]; try discriminate. rewrite A in H'. cbn [with_value] in H'.
  destruct (negb _); [discriminate|]. injection H as <-. injection H' as <-. cbn [d_G0 d_H0 d_V0 d_Cp0 d_Cv0]. reflexivity.
Qed.

Lemma update_loop_view stdprops acts T P n : forall rest pre p p', 
  update_loop stdprops (pre ++ rest) rest acts (length pre) (total pre) T P n p = (Ok tt, p') ->
  shaped (total (pre ++ rest)) (length (pre ++ rest)) p ->
  forall r1 ph r2, rest = r1 ++ ph :: r2 -> exists d, sized (length (ph_species ph)) d /\
    phase_update stdprops (ph_species ph) (acts (length pre + length r1)) T P (segment n (total pre + total r1) (length (ph_species ph))) d =
    (Ok tt, view p' (length pre + length r1) (total pre + total r1) (length (ph_species ph))).
Proof.
  induction rest as [|ph rest IH]; intros pre p p' H S r1 ph' r2 Er; [destruct r1; discriminate|].
  assert (H0 := H). cbn [update_loop] in H. destruct (Nat.ltb_spec (length n) (total pre + length (ph_species ph))) as [|Ln]; [discriminate|].
  apply with_value_inv in H as [(b & Eb & H)|[(_ & H & _)|(_ & H & _)]]; try discriminate.
  rewrite numSpeciesUntil_spec in Eb by (rewrite app_length; lia). injection Eb as <-.
  rewrite firstn_app, Nat.sub_diag, firstn_all, app_nil_r in H. 
  destruct (phase_update _ _ _ _ _ _ _) as [r d] eqn:U. destruct r as [[]| |]; try discriminate.
  assert (B : total pre + length (ph_species ph) <= total (pre ++ ph :: rest)) by (rewrite total_app, total_cons; lia).
  assert (Sz : sized (length (ph_species ph)) (view p (length pre) (total pre) (length (ph_species ph)))) by (eapply view_sized; [exact S|exact B]).
  pose proof (PhaseOk_full _ _ _ _ _ _ _ (phase_update_ok _ _ _ _ _ _ _ _ U Sz)) as F.
  assert (E : pre ++ ph :: rest = (pre ++ [ph]) ++ rest) by (rewrite <- app_assoc; reflexivity).
  assert (T1 : total (pre ++ [ph]) = total pre + length (ph_species ph)) by (rewrite total_app, total_cons; cbn; lia).
  assert (L1 : length (pre ++ [ph]) = Datatypes.S (length pre)) by (rewrite app_length; cbn; lia).
  assert (Lp : length pre < length (pre ++ ph :: rest)) by (rewrite app_length; cbn; lia).
  pose proof (put_shaped _ _ _ (length pre) _ _ _ S F B) as S'.
  pose proof (IH (pre ++ [ph]) (put_view p (length pre) (total pre) d) p') as K. rewrite <- E, T1, L1 in K. specialize (K H S').
  destruct r1 as [|a r1]; cbn [app] in Er; injection Er as <- Er.
  - cbn [length]. change (total []) with 0. rewrite !Nat.add_0_r.
    pose proof (update_loop_ok stdprops acts T P n rest (pre ++ [ph]) (put_view p (length pre) (total pre) d) p') as K'. rewrite <- E, T1, L1 in K'. destruct (K' H S') as (_ & _ & _ & _ & K5 & _).
    exists (view p (length pre) (total pre) (length (ph_species ph))). split; [exact Sz|]. rewrite U. f_equal. rewrite K5 by lia. symmetry. apply (view_put _ _ _ _ _ _ _ S F B Lp).
  - specialize (K r1 ph' r2 Er). rewrite total_cons. cbn [length].
    replace (length pre + Datatypes.S (length r1)) with (Datatypes.S (length pre) + length r1) by lia.
    replace (total pre + (length (ph_species ph) + total r1)) with (total pre + length (ph_species ph) + total r1) by lia. exact K.
Qed.

(* ---- Sums ---- *)
Fixpoint QS (n : nat) (f : nat -> Q) : Q := match n with O => 0 | S k => QS k f + f k end%Q.
Lemma QS_ext n f g : (forall i, i < n -> (f i == g i)%Q) -> (QS n f == QS n g)%Q.
Proof. induction n; cbn [QS]; intros H; [reflexivity|]. rewrite IHn, H by (intros; try apply H; lia). reflexivity. Qed.
Lemma QS_scal n c f : (QS n (fun i => c * f i) == c * QS n f)%Q.
Proof. induction n; cbn [QS]; [ring|]. rewrite IHn. ring. Qed.
Lemma QS_add n f g : (QS n (fun i => f i + g i) == QS n f + QS n g)%Q.
Proof. induction n; cbn [QS]; [ring|]. rewrite IHn. ring. Qed.
Lemma QS_zero n : (QS n (fun _ => 0) == 0)%Q.
Proof. induction n; cbn [QS]; [ring|]. rewrite IHn. ring. Qed.
Lemma QS_swap n m f : (QS n (fun i => QS m (fun j => f i j)) == QS m (fun j => QS n (fun i => f i j)))%Q.
Proof. induction n; cbn [QS]; [rewrite QS_zero; reflexivity|]. rewrite IHn, QS_add. reflexivity. Qed.
Lemma QS_delta n k f : k < n -> (QS n (fun i => if Nat.eqb i k then f i else 0) == f k)%Q.
Proof.
  assert (Z : forall n, n <= k -> (QS n (fun i => if Nat.eqb i k then f i else 0) == 0)%Q). { induction n0; cbn [QS]; intros H; [reflexivity|]. rewrite IHn0 by lia. destruct (Nat.eqb_spec n0 k); [lia|ring]. }
  induction n; cbn [QS]; intros H; [lia|]. destruct (Nat.eqb_spec n k) as [->|N]; [rewrite Z by lia; ring|]. rewrite IHn by lia. ring.
Qed.
Lemma QS_first n f : (QS (S n) f == f O + QS n (fun i => f (S i)))%Q.
Proof. induction n; cbn [QS] in *; [ring|]. rewrite IHn. ring. Qed.
Lemma dotQ_QS a : forall b, length a = length b -> (dotQ a b == QS (length a) (fun i => nth i a 0 * nth i b 0))%Q.
Proof.
  induction a as [|x a IH]; intros [|y b] L; cbn in L; try lia; [reflexivity|]. change (dotQ (x :: a) (y :: b)) with (x * y + dotQ a b)%Q. cbn [length]. rewrite QS_first. cbn [nth]. rewrite IH by lia. reflexivity.
Qed.

(* The potential of the electron from the basic species. *)
Lemma electron_core (M N B E : nat) (A R : nat -> nat -> Q) (b : nat -> nat) (u y v : nat -> Q) :
  (forall m i, m < M -> i < N -> (A m i == QS B (fun j => A m (b j) * QS M (fun m' => R j m' * A m' i)))%Q) ->
  (forall i, i < N -> (u i == QS M (fun m => y m * A m i))%Q) -> (forall j, j < B -> b j < N) ->
  (forall m, m < M -> (QS N (fun i => A m i * v i) == if Nat.eqb m E then -1 else 0)%Q) -> E < M ->
  (QS B (fun j => R j E * u (b j)) == - QS N (fun i => u i * v i))%Q.
Proof.
  intros HA Hu Hb Hv HE.
  assert (K : forall m, m < M -> (QS B (fun j => A m (b j) * R j E) == if Nat.eqb m E then 1 else 0)%Q).
  { intros m Hm. assert (K : (QS N (fun i => A m i * v i) == QS B (fun j => A m (b j) * QS M (fun m' => R j m' * QS N (fun i => A m' i * v i))))%Q).
    { rewrite (QS_ext N _ (fun i => QS B (fun j => A m (b j) * QS M (fun m' => R j m' * A m' i) * v i))%Q).
      - rewrite QS_swap. apply QS_ext. intros j Hj. rewrite <- QS_scal.
        rewrite (QS_ext N _ (fun i => QS M (fun m' => A m (b j) * (R j m' * (A m' i * v i)))%Q)).
        + rewrite QS_swap. apply QS_ext. intros m' Hm'. rewrite <- QS_scal. rewrite <- QS_scal. apply QS_ext. intros; reflexivity.
        + intros i Hi. transitivity (QS M (fun m' => A m (b j) * v i * (R j m' * A m' i))%Q); [rewrite QS_scal; ring|]. apply QS_ext. intros; ring.
      - intros i Hi. rewrite (HA m i Hm Hi) at 1. rewrite Qmult_comm, <- QS_scal. apply QS_ext. intros; ring. }
    rewrite (Hv m Hm) in K. rewrite (QS_ext B _ (fun j => (-1) * (A m (b j) * R j E))%Q) in K.
    - rewrite QS_scal in K. destruct (Nat.eqb m E); lra.
    - intros j Hj. rewrite (QS_ext M _ (fun m' => if Nat.eqb m' E then R j m' * (-1) else 0)%Q).
      + rewrite (QS_delta M E (fun m' => R j m' * (-1))%Q HE). ring.
      + intros m' Hm'. rewrite (Hv m' Hm'). destruct (Nat.eqb m' E); ring. }
  rewrite (QS_ext B _ (fun j => QS M (fun m => y m * (A m (b j) * R j E)))%Q).
  - rewrite QS_swap. rewrite (QS_ext M _ (fun m => if Nat.eqb m E then y m else 0)%Q).
    + rewrite (QS_delta M E y HE). rewrite (QS_ext N _ (fun i => QS M (fun m => y m * (A m i * v i)))%Q).
      * rewrite QS_swap. rewrite (QS_ext M _ (fun m => if Nat.eqb m E then - y m else 0)%Q).
        -- rewrite (QS_delta M E (fun m => - y m)%Q HE). ring.
        -- intros m Hm. rewrite QS_scal, (Hv m Hm). destruct (Nat.eqb m E); ring.
      * intros i Hi. rewrite (Hu i Hi), Qmult_comm, <- QS_scal. apply QS_ext. intros; ring.
    + intros m Hm. rewrite QS_scal, (K m Hm). destruct (Nat.eqb m E); ring.
  - intros j Hj. rewrite (Hu (b j) (Hb j Hj)), <- QS_scal. apply QS_ext. intros; ring.
Qed.

(* ---- The object ---- *)
Lemma findPhase_first phases a : forall i, findPhaseWithState phases a = Ok i -> i <= length phases /\
  (forall j p, j < i -> nth_error phases j = Some p -> exists b, phaseAggregateState p = Ok b /\ b <> a) /\
  (forall p, nth_error phases i = Some p -> phaseAggregateState p = Ok a).
Proof.
  induction phases as [|p ps IH]; cbn [findPhaseWithState]; intros i H; [injection H as <-; split; [cbn; lia|split; [intros; lia|intros p E; destruct O; discriminate]]|].
  destruct (phaseAggregateState p) as [b| |] eqn:Eb; try discriminate. cbn [bind] in H. destruct (state_eqb b a) eqn:Es.
  - injection H as <-. split; [cbn; lia|]. split; [intros; lia|]. intros p' E. injection E as <-. apply internal_AggregateState_dec_bl in Es. congruence.
  - destruct (findPhaseWithState ps a) as [i'| |]; try discriminate. injection H as <-. destruct (IH i' eq_refl) as (I1 & I2 & I3). split; [cbn; lia|]. split; [|exact I3].
    intros [|j] p' Hj E; [injection E as <-; exists b; split; [exact Eb|]; intros ->; rewrite internal_AggregateState_dec_lb in Es by reflexivity; discriminate|]. apply (I2 j); [lia|exact E].
Qed.
Lemma findFormula_first l f cf i : mkChemicalFormula f = Ok cf -> findSpeciesWithFormula l f = Ok i -> (length l <=? i) = false -> FirstAt (fun s => equivalent cf (formula s) = true) l i.
Proof.
  intros E H L. unfold findSpeciesWithFormula in H. rewrite E in H. injection H as <-. apply Nat.leb_gt in L. unfold findWithFormula in *.
  apply (indexfn_FirstAt (fun s => equivalent cf (formula s) = true) (fun s => equivalent cf (formula s))); [intros; reflexivity|]. split; [reflexivity|exact L].
Qed.
