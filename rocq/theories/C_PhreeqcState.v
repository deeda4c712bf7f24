(* C131: the properties of a Phreeqc object at given conditions are consistent with the
   reactions of PHREEQC and do not depend on the conditions before. *)
From Coq Require Import Reals Lra Lia List.
From Verif Require Import Base M_Thermo M_PhreeqcState.
Import ListNotations.
Local Open Scope R_scope.

(* ---- Specification ---- *)
Fixpoint dot (a b : list R) : R := match a, b with x :: a', y :: b' => x * y + dot a' b' | _, _ => 0 end.
Definition species (e : Engine) : nat := (na e + ng e + nm e)%nat.
(* What PHREEQC gives has the sizes of its lists of species. *)
Record sizes (e : Engine) : Prop := {
  z_iw : (iw e < na e)%nat; z_zs : length (zs e) = na e;
  z_lk : forall a b c, length (lk e a b c) = length (stoich e);
  z_lg : forall a b c x m, length (lg e a b c x m) = na e;
  z_pr : forall a b x, length (snd (PR e a b x)) = ng e;
  z_lm : length (lm0 e) = na e }.
(* The decomposition of a matrix of independent rows solves the linear system. *)
Definition solves (e : Engine) : Prop := forall b, length b = length (stoich e) ->
  length (solve e b) = species e /\ map (fun row => dot row (solve e b)) (stoich e) = b.

(* The objects that can be made: scripts are executed one after the other, conditions
   are set in between. *)
Inductive Made : Engine -> State -> Prop :=
| made_new e s : sizes e -> solves e -> execute e blank = Ok s -> Made e s
| made_again e e' s s' : Made e s -> sizes e' -> solves e' -> execute e' s = Ok s' -> Made e' s'
| made_TP e s t p : Made e s -> Made e (setTP e s t p)
| made_TPn e s t p x s' : Made e s -> setTPn e s t p x = Ok s' -> Made e s'.

(* The activities in PHREEQC: molality times activity coefficient, for water its mole
   fraction or what the Pitzer model gives, fugacities in bar, one for minerals. *)
Definition kg_water (e : Engine) (x : list R) : R := nth (iw e) x 0 * (18015268 / 10 ^ 9).
Definition molality (e : Engine) (x : list R) (i : nat) : R := nth i x 0 / kg_water e x.
Definition strength (e : Engine) (x : list R) : R := 1 / 2 * sum (map (fun i => molality e x i * (nth i (zs e) 0) ^ 2) (seq 0 (na e))).
Definition lg_molalities (e : Engine) (x : list R) : list (option R) :=
  map (fun i => if Rlt_dec 0 (molality e x i) then Some (ln (molality e x i) / ln 10) else None) (seq 0 (na e)).
Definition activity (e : Engine) (t p : R) (x : list R) (i : nat) : R :=
  let tc := t - 273.15 in let atm := p * 9.86923267e-6 in
  let aqueous := firstn (na e) x in
  if Nat.ltb i (na e) then
    if Nat.eqb i (iw e) then (if pitzer e then AW e tc atm (strength e x) aqueous (lg_molalities e x) else nth i x 0 / sum aqueous)
    else Rpower 10 (nth i (lg e tc atm (strength e x) aqueous (lg_molalities e x)) 0) * molality e x i
  else if Nat.ltb i (na e + ng e) then
    let g := nth (i - na e) (snd (PR e atm t (firstn (ng e) (skipn (na e) x)))) (0, 0) in fst g * snd g * (p / 100000)
  else 1.
Definition standard (s : State) (i : nat) : R := nth i (G0 s) 0 / (Rgas * T s).
(* Gibbs energies and activities say what the constants of PHREEQC at the ionic
   strength say of its activities.  (Its ln 10 has eleven decimals.) *)
Definition mass_action (e : Engine) (t p : R) (x : list R) (s : State) : Prop :=
  exists la, lnActivities e s = Ok (map Some la) /\ length la = species e /\
  forall j row k, nth_error (stoich e) j = Some row -> nth_error (lk e (t - 273.15) (p * 9.86923267e-6) (strength e x)) j = Some k -> length row = species e ->
  dot row (map (fun i => standard s i + nth i la 0) (seq 0 (species e))) =
  dot row (map (fun i => ln (activity e t p x i)) (seq 0 (species e))) - 2.30258509299 * k.
Definition amounts_of (e : Engine) (x : list R) : Prop := length x = species e /\ Forall (Rle 0) x.
Definition watery (e : Engine) (x : list R) : Prop := 0 < nth (iw e) x 0.
Definition positive (e : Engine) (t p : R) (x : list R) : Prop :=
  (forall i, (i < na e)%nat -> 0 < nth i x 0) /\ (forall i, (i < species e)%nat -> 0 < activity e t p x i).

Definition C131_statement : Prop :=
  (* a script can be executed after any other one, with the results of a new object *)
  (forall e e' s, Made e s -> sizes e' -> solves e' -> forall s', execute e' blank = Ok s' -> execute e' s = Ok s') /\
  (* the results at given conditions are those of the conditions *)
  (forall e s1 s2 t p x, Made e s1 -> Made e s2 -> 0 < t -> 0 < p -> amounts_of e x -> setTPn e s1 t p x = setTPn e s2 t p x) /\
  (* and are consistent with the reactions *)
  (forall e s t p x s', Made e s -> 0 < t -> 0 < p -> amounts_of e x -> positive e t p x -> setTPn e s t p x = Ok s' -> mass_action e t p x s') /\
  (* a solute that is not there does not have the activity of the standard state *)
  (forall e s t p x s' i la, Made e s -> 0 < t -> 0 < p -> amounts_of e x -> watery e x -> setTPn e s t p x = Ok s' ->
   (i < na e)%nat -> i <> iw e -> nth i x 0 = 0 -> lnActivities e s' = Ok la -> nth i la None <> Some ((nth i (G0TPI s') 0 - nth i (G0 s') 0) / (Rgas * t))) /\
  (* constants depend on temperature and pressure *)
  (forall e s1 s2 t p x1 x2 s1' s2', Made e s1 -> Made e s2 -> 0 < t -> 0 < p -> amounts_of e x1 -> amounts_of e x2 -> setTPn e s1 t p x1 = Ok s1' -> setTPn e s2 t p x2 = Ok s2' ->
   lnEquilibriumConstants (lks s1') = lnEquilibriumConstants (lks s2')) /\
  (* another temperature leaves the activities or gives those at this temperature *)
  (forall e s t p t' p' x s1 s2, Made e s -> 0 < t -> 0 < p -> 0 < t' -> 0 < p' -> amounts_of e x -> setTPn e s t p x = Ok s1 -> setTPn e s t' p' x = Ok s2 ->
   lnActivities e (setTP e s1 t' p') = lnActivities e s1 \/ lnActivities e (setTP e s1 t' p') = lnActivities e s2).

(* ---- Lists ---- *)
Lemma assign_length {A} (x : A) : forall l i, length (assign l i x) = length l.
Proof. induction l as [|y l IH]; intros [|i]; cbn; auto. Qed.
Lemma assign_nth {A} (x d : A) : forall l i k, (i < length l)%nat -> nth k (assign l i x) d = if Nat.eqb k i then x else nth k l d.
Proof.
  induction l as [|y l IH]; intros [|i] [|k] H; cbn in *; try lia; auto. apply IH. lia.
Qed.
Lemma map2_length {A B C} (f : A -> B -> C) : forall a b, length a = length b -> length (map2 f a b) = length a.
Proof. induction a as [|x a IH]; intros [|y b] H; cbn in *; try discriminate; auto. Qed.
Lemma map2_nth {A B C} (f : A -> B -> C) da db dc : forall a b k, length a = length b -> (k < length a)%nat -> nth k (map2 f a b) dc = f (nth k a da) (nth k b db).
Proof. induction a as [|x a IH]; intros [|y b] [|k] H L; cbn in *; try lia; try discriminate; auto. apply IH; auto; lia. Qed.
Lemma nth_firstn {A} (d : A) : forall n l i, (i < n)%nat -> nth i (firstn n l) d = nth i l d.
Proof. induction n; intros [|x l] [|i] H; cbn; auto; try lia. apply IHn. lia. Qed.
Lemma list_ext {A} (d : A) (a b : list A) : length a = length b -> (forall i, (i < length a)%nat -> nth i a d = nth i b d) -> a = b.
Proof. intros. eapply nth_ext; eauto. Qed.
Lemma nth_seq_map {A} (f : nat -> A) d n i : (i < n)%nat -> nth i (map f (seq 0 n)) d = f i.
Proof. intro H. rewrite nth_indep with (d' := f O) by (rewrite map_length, seq_length; auto). rewrite map_nth, seq_nth; auto. Qed.
Lemma nth_map_seq {A} (f : nat -> A) d a n i : (i < n)%nat -> nth i (map f (seq a n)) d = f (a + i)%nat.
Proof. intro H. rewrite nth_indep with (d' := f O) by (rewrite map_length, seq_length; auto). rewrite map_nth, seq_nth; auto. Qed.
Lemma nth_map_in {A B} (f : A -> B) da db l i : (i < length l)%nat -> nth i (map f l) db = f (nth i l da).
Proof. intro H. rewrite nth_indep with (d' := f da) by (rewrite map_length; auto). apply map_nth. Qed.
Lemma dot_add : forall r a b, length a = length b -> dot r (map2 Rplus a b) = dot r a + dot r b.
Proof. induction r as [|x r IH]; intros [|y a] [|z b] H; cbn in *; try discriminate; try lra. rewrite IH by congruence. ring. Qed.
Lemma dot_scale c : forall r a, dot r (map (fun g => g * c) a) = dot r a * c.
Proof. induction r as [|x r IH]; intros [|y a]; cbn; try lra. rewrite IH. ring. Qed.
Lemma sum_ext_seq (f g : nat -> R) l : (forall i, In i l -> f i = g i) -> sum (map f l) = sum (map g l).
Proof. intro H. f_equal. apply map_ext_in. auto. Qed.
Lemma sum_scale c : forall l, sum (map (fun y => y * c) l) = sum l * c.
Proof. induction l as [|y l IH]; cbn; [ring|]. rewrite IH. ring. Qed.

(* ---- The model and the specification ---- *)
Lemma kg e x : (iw e < na e)%nat -> massH2O e x = kg_water e x.
Proof. intro H. unfold massH2O, kg_water, aq, waterMolarMass. rewrite nth_firstn; auto. Qed.
Lemma kg_positive e x : watery e x -> 0 < kg_water e x.
Proof. unfold watery, kg_water. intro. apply Rmult_lt_0_compat; lra. Qed.
Lemma aq_length e x : length x = species e -> length (aq e x) = na e.
Proof. unfold aq, species. intro. rewrite firstn_length. lia. Qed.
Lemma aq_seq e x : length x = species e -> aq e x = map (fun i => nth i x 0) (seq 0 (na e)).
Proof.
  intro H. apply (list_ext 0). { rewrite aq_length, map_length, seq_length; auto. } intros i L. rewrite aq_length in L by auto.
  rewrite nth_seq_map by auto. unfold aq. apply nth_firstn. auto.
Qed.
Lemma molalities_is e x old : (iw e < na e)%nat -> length x = species e -> watery e x -> molalities e x old = lg_molalities e x.
Proof.
  intros I L W. pose proof (kg_positive e x W) as K. unfold molalities. rewrite kg by auto. destruct (Rlt_dec 0 (kg_water e x)); [|contradiction].
  rewrite aq_seq by auto. rewrite map_map. unfold lg_molalities. apply map_ext. intro i. reflexivity.
Qed.
Lemma strength_is e x : sizes e -> length x = species e -> watery e x -> ionicStrength e x = strength e x.
Proof.
  intros Z L W. pose proof (kg_positive e x W) as K. unfold ionicStrength. rewrite kg by apply Z. destruct (Rlt_dec 0 (kg_water e x)); [|contradiction].
  unfold strength. replace (map2 (fun y z => y * z * z) (aq e x) (zs e)) with (map (fun i => nth i x 0 * nth i (zs e) 0 * nth i (zs e) 0) (seq 0 (na e))).
  2: { apply (list_ext 0). { rewrite map_length, seq_length, map2_length, aq_length; auto. rewrite aq_length; auto. symmetry. apply Z. }
       intros i Li. rewrite map_length, seq_length in Li. rewrite nth_seq_map by auto. rewrite (map2_nth _ 0 0) by (rewrite ?aq_length by auto; auto; symmetry; apply Z).
       unfold aq. rewrite nth_firstn by auto. reflexivity. }
  replace (map (fun i => molality e x i * nth i (zs e) 0 ^ 2) (seq 0 (na e))) with (map (fun y => y * / kg_water e x) (map (fun i => nth i x 0 * nth i (zs e) 0 * nth i (zs e) 0) (seq 0 (na e)))).
  2: { rewrite map_map. apply map_ext. intro i. unfold molality, Rdiv. ring. }
  rewrite sum_scale. unfold Rdiv. ring.
Qed.
Lemma atm_is p : atm_of p = p * 9.86923267e-6.
Proof. unfold atm_of, pascal_to_atm. lra. Qed.
Lemma tc_is t : tc_of t = t - 273.15.
Proof. unfold tc_of. lra. Qed.
Lemma Rgas_pos : 0 < Rgas.
Proof. unfold Rgas, universalGasConstant. lra. Qed.
Lemma ln10_pos : 0 < ln 10.
Proof. rewrite <- ln_1. apply ln_increasing; lra. Qed.

(* ---- set(T, P, n) ---- *)
Definition given (e : Engine) (s : State) (t p : R) (x : list R) : State :=
  mkState t p (ionicStrength e x) x (molalities e x (lm s)) (lks s) (G0 s) (V0 s) (lnc s) (G0TPI s) (V0TPI s) (lng_aq s) (lna_aq s) (lng_gas s) (lna_gas s) (v_aq s) (v_gas s).
Lemma setTPn_inv e s t p x s' : setTPn e s t p x = Ok s' ->
  length x = species e /\ s' = updateChemical e (updateThermo e (given e s t p x)) /\
  (length (lng_aq s') + length (lng_gas s') = na e + ng e)%nat /\ (length (lna_aq s') + length (lna_gas s') = na e + ng e)%nat.
Proof.
  unfold setTPn. destruct (Nat.eqb (length x) (na e + ng e + nm e)) eqn:E; [|discriminate]. apply Nat.eqb_eq in E. cbn [negb].
  fold (given e s t p x). set (s2 := updateChemical e (updateThermo e (given e s t p x))).
  unfold lnActivityCoefficients. destruct (Nat.eqb (length (lng_aq s2) + length (lng_gas s2) + nm e) (na e + ng e + nm e)) eqn:E1; [|discriminate]. apply Nat.eqb_eq in E1. cbn [negb bind].
  unfold lnActivities. destruct (Nat.eqb (length (lna_aq s2) + length (lna_gas s2) + nm e) (na e + ng e + nm e)) eqn:E2; [|discriminate]. apply Nat.eqb_eq in E2. cbn [negb bind].
  intro H. injection H as <-. split; [exact E|]. split; [reflexivity|]. split; lia.
Qed.
(* The members that do not depend on whether there are gases. *)
Lemma set_fields e s t p x : let s' := updateChemical e (updateThermo e (given e s t p x)) in
  T s' = t /\ P s' = p /\ I s' = ionicStrength e x /\ lm s' = molalities e x (lm s) /\ lks s' = lk e (tc_of t) (atm_of p) (ionicStrength e x) /\
  G0 s' = gibbs e t (lk e (tc_of t) (atm_of p) 0) /\ G0TPI s' = gibbs e t (lk e (tc_of t) (atm_of p) (ionicStrength e x)) /\
  lng_aq s' = map (fun g => g * ln 10) (lg e (tc_of t) (atm_of p) (ionicStrength e x) (aq e x) (molalities e x (lm s))) /\
  lna_aq s' = lnActivitiesAqueous e t p (ionicStrength e x) x (molalities e x (lm s)).
Proof. unfold updateChemical. destruct (ng e); cbn -[lnActivitiesAqueous gibbs ionicStrength molalities tc_of atm_of]; repeat (split; [reflexivity|]); reflexivity. Qed.
Lemma set_gases e s t p x : let s' := updateChemical e (updateThermo e (given e s t p x)) in let eos := PR e (atm_of p) t (gas e x) in
  ng e <> O -> lng_gas s' = map (fun y => log (snd y)) (snd eos) /\ lna_gas s' = map (fun y => log (fst y * snd y * (p / 10 ^ 5))) (snd eos) /\ v_gas s' = if Rlt_dec 0 (sum (gas e x)) then fst eos else 0.
Proof. unfold updateChemical. destruct (ng e) eqn:E; [contradiction|]. intros _. cbn -[gas pow atm_of]. auto. Qed.
Lemma set_no_gases e s t p x : let s' := updateChemical e (updateThermo e (given e s t p x)) in
  ng e = O -> lng_gas s' = lng_gas s /\ lna_gas s' = lna_gas s /\ v_gas s' = v_gas s.
Proof. unfold updateChemical. destruct (ng e) eqn:E; [|discriminate]. intros _. cbn. auto. Qed.
Lemma molalities_length e x old : length x = species e -> length old = na e -> length (molalities e x old) = na e.
Proof. intros L O. unfold molalities. destruct (Rlt_dec _ _); auto. rewrite map_length, aq_length; auto. Qed.
Lemma lna_length e t p i x ms : sizes e -> length ms = na e -> length (lnActivitiesAqueous e t p i x ms) = na e.
Proof. intros Z L. unfold lnActivitiesAqueous. rewrite assign_length, map2_length; rewrite map_length, (z_lg e Z); auto. Qed.

(* ---- The objects that can be made ---- *)
Definition gasless (s : State) : Prop := lng_gas s = [] /\ lna_gas s = [] /\ v_gas s = 0.
Definition whole (e : Engine) (s : State) : Prop := length (lm s) = na e /\ (gasless s \/ lna_gas s <> []) /\ (ng e = O -> gasless s).
Lemma set_whole e s t p x s' : sizes e -> length (lm s) = na e -> gasless s \/ lna_gas s <> [] -> setTPn e s t p x = Ok s' -> whole e s'.
Proof.
  intros Z L G H. apply setTPn_inv in H as (Lx & -> & _ & Hl). destruct (set_fields e s t p x) as (_ & _ & _ & Fm & _ & _ & _ & _ & Fa).
  rewrite Fa in Hl. rewrite lna_length in Hl; auto using molalities_length. split. { rewrite Fm. apply molalities_length; auto. }
  destruct (Nat.eq_dec (ng e) 0) as [N|N].
  - destruct (set_no_gases e s t p x N) as (A & B & C). assert (X : gasless (updateChemical e (updateThermo e (given e s t p x)))).
    { destruct G as [(G1 & G2 & G3)|G]. { unfold gasless. rewrite A, B, C. auto. } exfalso. apply G. rewrite B in Hl. destruct (lna_gas s); auto. cbn in Hl. lia. }
    auto.
  - destruct (set_gases e s t p x N) as (A & B & C). split; [|contradiction]. right. rewrite B. intro X. apply (f_equal (@length _)) in X. rewrite map_length, (z_pr e Z) in X. cbn in X. lia.
Qed.
Definition before (e : Engine) (s : State) : State :=
  mkState (T s) (P s) (I s) (n s) (lm0 e) (lks s) (G0 s) (V0 s) (lnc s) (G0TPI s) (V0TPI s) (lng_aq s) (lna_aq s) (lng_gas s) (lna_gas s) (v_aq s) (v_gas s).
Lemma made_whole e s : Made e s -> sizes e /\ solves e /\ whole e s.
Proof.
  induction 1 as [e s Z S H|e e' s s' M IH Z S H|e s t p M IH|e s t p x s' M IH H].
  - split; auto. split; auto. apply (set_whole e (before e blank) _ _ _ _ Z) in H; auto. { apply Z. } left. repeat split.
  - split; auto. split; auto. destruct IH as (_ & _ & _ & G & _). apply (set_whole e' (before e' s) _ _ _ _ Z) in H; auto. apply Z.
  - destruct IH as (Z & S & W). auto.
  - destruct IH as (Z & S & L & G & _). split; auto. split; auto. eapply set_whole; eauto.
Qed.

(* With water, what is set does not depend on the state before. *)
Lemma set_same e s1 s2 t p x : molalities e x (lm s1) = molalities e x (lm s2) ->
  (ng e = O -> lng_gas s1 = lng_gas s2 /\ lna_gas s1 = lna_gas s2 /\ v_gas s1 = v_gas s2) -> setTPn e s1 t p x = setTPn e s2 t p x.
Proof.
  intros M G. unfold setTPn. destruct (negb _); auto. fold (given e s1 t p x) (given e s2 t p x).
  assert (X : updateChemical e (updateThermo e (given e s1 t p x)) = updateChemical e (updateThermo e (given e s2 t p x))).
  { unfold updateChemical, updateThermo, given. cbn [T P I n lm lks G0 V0 lnc G0TPI V0TPI lng_aq lna_aq lng_gas lna_gas v_aq v_gas]. rewrite M.
    destruct (ng e) eqn:N; [|reflexivity]. destruct (G eq_refl) as (A & B & C). rewrite A, B, C. reflexivity. }
  rewrite X. reflexivity.
Qed.
Theorem C131_history_partial : forall e s1 s2 t p x, Made e s1 -> Made e s2 -> amounts_of e x -> watery e x -> setTPn e s1 t p x = setTPn e s2 t p x.
Proof.
  intros e s1 s2 t p x M1 M2 [L _] W. apply made_whole in M1 as (Z & _ & _ & _ & G1). apply made_whole in M2 as (_ & _ & _ & _ & G2). apply set_same.
  - rewrite !molalities_is; auto; apply Z.
  - intro N. destruct (G1 N) as (A & B & C), (G2 N) as (A' & B' & C'). rewrite A, B, C. auto.
Qed.
Print Assumptions C131_history_partial.
(* A script with a gas phase can be executed after any other one; so can one without
   when there were no gases before. *)
Theorem C131_scripts_partial : forall e e' s, Made e s -> sizes e' -> ng e' <> O \/ ng e = O -> execute e' s = execute e' blank.
Proof.
  intros e e' s M Z G. apply made_whole in M as (_ & _ & _ & _ & G1). unfold execute. apply set_same; auto.
  intro N. destruct G as [G|G]; [contradiction|]. destruct (G1 G) as (A & B & C). cbn [lng_gas lna_gas v_gas blank]. auto.
Qed.
Print Assumptions C131_scripts_partial.

(* ---- Mass action ---- *)
Lemma gibbs_rows e t ks : solves e -> length ks = length (stoich e) -> length (gibbs e t ks) = species e /\
  forall j row k, nth_error (stoich e) j = Some row -> nth_error ks j = Some k -> dot row (gibbs e t ks) = - Rgas * t * (k * ln10_short).
Proof.
  intros S L. destruct (S (lnEquilibriumConstants ks)) as [Ls Ss]. { unfold lnEquilibriumConstants. rewrite map_length. auto. }
  unfold gibbs. rewrite map_length. split; auto. intros j row k Hj Hk. rewrite dot_scale.
  assert (X : nth_error (map (fun row => dot row (solve e (lnEquilibriumConstants ks))) (stoich e)) j = nth_error (lnEquilibriumConstants ks) j) by congruence.
  unfold lnEquilibriumConstants in X at 2. rewrite !nth_error_map, Hj, Hk in X. cbn in X. injection X as ->. ring.
Qed.
Lemma log_pos x : 0 < x -> log x = Some (ln x).
Proof. intro H. unfold log. destruct (Rlt_dec 0 x); [reflexivity|contradiction]. Qed.
Lemma aqueous_is e t p x : sizes e -> length x = species e -> watery e x -> positive e t p x ->
  lnActivitiesAqueous e t p (strength e x) x (lg_molalities e x) = map (fun i => Some (ln (activity e t p x i))) (seq 0 (na e)).
Proof.
  intros Z L W [Pn Pa]. pose proof (kg_positive e x W) as K. assert (Lm : length (lg_molalities e x) = na e) by (unfold lg_molalities; rewrite map_length, seq_length; auto).
  apply (list_ext None). { rewrite lna_length, map_length, seq_length; auto. } intros i Li. rewrite lna_length in Li by auto. rewrite (nth_seq_map (fun i => Some (ln (activity e t p x i)))) by auto.
  assert (Pi := Pa i). unfold species in Pi. specialize (Pi ltac:(lia)). unfold activity in *. replace (Nat.ltb i (na e)) with true in * by (symmetry; apply Nat.ltb_lt; auto).
  unfold lnActivitiesAqueous. rewrite tc_is, atm_is. rewrite assign_nth by (rewrite map2_length; rewrite map_length, (z_lg e Z); auto; apply Z).
  unfold aq. destruct (Nat.eqb i (iw e)) eqn:E.
  - apply Nat.eqb_eq in E. subst i. destruct (pitzer e). { apply log_pos. exact Pi. } rewrite nth_firstn by auto. apply log_pos. exact Pi.
  - rewrite (map2_nth ln_a 0 None) by (rewrite map_length, (z_lg e Z); auto). rewrite (nth_map_in (fun g => g * ln 10) 0) by (rewrite (z_lg e Z); auto).
    unfold lg_molalities at 2. rewrite (nth_seq_map (fun i => if Rlt_dec 0 (molality e x i) then Some (ln (molality e x i) / ln 10) else None)) by auto.
    assert (M : 0 < molality e x i). { unfold molality. apply Rdiv_lt_0_compat; auto. }
    destruct (Rlt_dec 0 (molality e x i)); [|contradiction]. cbn [ln_a]. f_equal. rewrite ln_mult; auto. 2: apply exp_pos. unfold Rpower. rewrite ln_exp. pose proof ln10_pos. field. lra.
Qed.
Lemma gaseous_is e s t p x : sizes e -> length x = species e -> positive e t p x -> (ng e = O -> gasless s) ->
  lna_gas (updateChemical e (updateThermo e (given e s t p x))) = map (fun i => Some (ln (activity e t p x i))) (seq (na e) (ng e)).
Proof.
  intros Z L [_ Pa] G. destruct (Nat.eq_dec (ng e) 0) as [N|N].
  - destruct (set_no_gases e s t p x N) as (_ & -> & _). rewrite N. apply (G N).
  - destruct (set_gases e s t p x N) as (_ & -> & _). apply (list_ext None). { rewrite !map_length, seq_length, (z_pr e Z). auto. }
    intros i Li. rewrite map_length, (z_pr e Z) in Li. assert (Pi := Pa (na e + i)%nat). unfold species in Pi. specialize (Pi ltac:(lia)).
    rewrite (nth_map_seq (fun i => Some (ln (activity e t p x i)))) by auto. unfold activity in *. replace (Nat.ltb (na e + i) (na e)) with false in * by (symmetry; apply Nat.ltb_ge; lia).
    replace (Nat.ltb (na e + i) (na e + ng e)) with true in * by (symmetry; apply Nat.ltb_lt; lia). replace (na e + i - na e)%nat with i in * by lia.
    rewrite (nth_map_in (fun y => log (fst y * snd y * (p / 10 ^ 5))) (0, 0)) by (rewrite (z_pr e Z); auto). rewrite atm_is. unfold gas.
    replace (10 ^ 5) with 100000 by ring. apply log_pos. exact Pi.
Qed.
Lemma minerals_are e t p x : map (fun i => Some (ln (activity e t p x i))) (seq (na e + ng e) (nm e)) = repeat (Some 0) (nm e).
Proof.
  assert (H : forall k a, (na e + ng e <= a)%nat -> map (fun i => Some (ln (activity e t p x i))) (seq a k) = repeat (Some 0) k).
  { induction k as [|k IH]; intros a A; cbn; auto. rewrite IH by lia. f_equal. unfold activity. replace (Nat.ltb a (na e)) with false by (symmetry; apply Nat.ltb_ge; lia).
    replace (Nat.ltb a (na e + ng e)) with false by (symmetry; apply Nat.ltb_ge; lia). rewrite ln_1. reflexivity. }
  apply H. lia.
Qed.
Lemma map2_some (d : list R) : forall l, map2 add_to (map Some l) d = map Some (map2 Rplus l d).
Proof. revert d. intros d l. revert d. induction l as [|y l IH]; intros [|z d]; cbn; auto. rewrite IH. reflexivity. Qed.
Theorem C131_mass_action_partial : forall e s t p x s', Made e s -> 0 < t -> amounts_of e x -> positive e t p x -> setTPn e s t p x = Ok s' -> mass_action e t p x s'.
Proof.
  intros e s t p x s' M Ht [L _] Po H. apply made_whole in M as (Z & S & _ & _ & G).
  assert (W : watery e x) by (destruct Po as [Po _]; apply Po; apply Z). pose proof Rgas_pos as RP.
  pose proof (setTPn_inv _ _ _ _ _ _ H) as (_ & E & _ & Hl). destruct (set_fields e s t p x) as (FT & _ & _ & _ & _ & FG & FX & _ & FA). rewrite <- E in FT, FG, FX, FA.
  rewrite strength_is, tc_is, atm_is in * by auto. rewrite molalities_is in FA by (auto; apply Z). rewrite aqueous_is in FA by auto.
  pose proof (gaseous_is e s t p x Z L Po G) as FB. rewrite <- E in FB.
  destruct (gibbs_rows e t (lk e (t - 273.15) (p * 9.86923267e-6) 0) S (z_lk e Z _ _ _)) as [L0 _].
  destruct (gibbs_rows e t (lk e (t - 273.15) (p * 9.86923267e-6) (strength e x)) S (z_lk e Z _ _ _)) as [LX RX].
  set (A := map (fun i => ln (activity e t p x i)) (seq 0 (species e))). set (D := map2 (fun a b => (a - b) * 1 / (Rgas * t)) (G0TPI s') (G0 s')).
  assert (LA : length A = species e) by (unfold A; rewrite map_length, seq_length; auto).
  assert (LD : length D = species e) by (unfold D; rewrite map2_length; rewrite FX, ?FG; congruence).
  exists (map2 Rplus A D). split; [|split].
  - unfold lnActivities. replace (Nat.eqb _ _) with true by (symmetry; apply Nat.eqb_eq; lia). cbn [negb]. rewrite FT. fold D. rewrite <- map2_some. do 2 f_equal.
    rewrite FA, FB. rewrite <- (minerals_are e t p x). unfold A, species. rewrite map_map, !seq_app, !map_app, app_assoc. reflexivity.
  - rewrite map2_length; congruence.
  - intros j row k Hj Hk Lr. assert (X : map (fun i => standard s' i + nth i (map2 Rplus A D) 0) (seq 0 (species e)) = map2 Rplus A (map (fun g => g * / (Rgas * t)) (G0TPI s'))).
    { apply (list_ext 0). { rewrite map_length, seq_length, map2_length; rewrite ?map_length, ?FX; congruence. } intros i Li. rewrite map_length, seq_length in Li.
      rewrite (nth_seq_map (fun i => standard s' i + nth i (map2 Rplus A D) 0)) by auto. rewrite !(map2_nth Rplus 0 0) by (rewrite ?map_length, ?FX; congruence).
      unfold D. rewrite (map2_nth (fun a b => (a - b) * 1 / (Rgas * t)) 0 0) by (rewrite FX, ?FG; congruence). rewrite (nth_map_in (fun g => g * / (Rgas * t)) 0) by (rewrite FX; congruence).
      unfold standard. rewrite FT. field. lra. }
    rewrite X, dot_add by (rewrite map_length, FX; congruence). fold A. rewrite dot_scale, FX, (RX j row k Hj Hk). replace 2.30258509299 with ln10_short by (unfold ln10_short; lra). generalize ln10_short. intro c. field. lra.
Qed.
Print Assumptions C131_mass_action_partial.

(* The standard Gibbs energies are those of the constants without ionic strength, after
   either way of setting the conditions; after set(T, P) these constants are given. *)
Definition standard_right (e : Engine) (t p : R) (s : State) : Prop :=
  forall j row k, nth_error (stoich e) j = Some row -> nth_error (lk e (t - 273.15) (p * 9.86923267e-6) 0) j = Some k -> dot row (G0 s) = - Rgas * t * (2.30258509299 * k).
Theorem C131_standard_partial : forall e s t p, Made e s ->
  standard_right e t p (setTP e s t p) /\ lnEquilibriumConstants (lks (setTP e s t p)) = map (fun k => 2.30258509299 * k) (lk e (t - 273.15) (p * 9.86923267e-6) 0) /\
  (forall x s', setTPn e s t p x = Ok s' -> standard_right e t p s').
Proof.
  intros e s t p M. apply made_whole in M as (Z & S & _). destruct (gibbs_rows e t (lk e (t - 273.15) (p * 9.86923267e-6) 0) S (z_lk e Z _ _ _)) as [_ R0].
  assert (C : ln10_short = 2.30258509299) by (unfold ln10_short; lra). rewrite <- C.
  split; [|split].
  - intros j row k Hj Hk. unfold setTP, updateThermo. cbn [T P G0]. rewrite tc_is, atm_is, (R0 j row k Hj Hk), C. ring.
  - unfold setTP, updateThermo. cbn [T P lks]. rewrite tc_is, atm_is. unfold lnEquilibriumConstants. apply map_ext. intro. ring.
  - intros x s' H. apply setTPn_inv in H as (_ & -> & _). destruct (set_fields e s t p x) as (_ & _ & _ & _ & _ & FG & _). intros j row k Hj Hk. rewrite FG, tc_is, atm_is, (R0 j row k Hj Hk), C. ring.
Qed.
Print Assumptions C131_standard_partial.

(* ---- Volumes, activity constants and activity coefficients ---- *)
(* What each species and each phase has, by its index.  The volumes of PHREEQC are in
   cm3/mol. *)
Record measured (e : Engine) : Prop := { z_vm : forall a b c, length (vm_tc e a b c) = na e; z_vm0 : length (vm0 e) = nm e }.
Definition volume_at (e : Engine) (t p mu : R) (i : nat) : R :=
  if Nat.ltb i (na e) then nth i (vm_tc e (t - 273.15) (p * 9.86923267e-6) mu) 0 / 1000000
  else if Nat.ltb i (na e + ng e) then Rgas * t / p else nth (i - na e - ng e) (vm0 e) 0 / 1000000.
Definition constant_at (e : Engine) (p : R) (i : nat) : R :=
  if Nat.eqb i (iw e) then 0 else if Nat.ltb i (na e) then ln 55.508472 else if Nat.ltb i (na e + ng e) then ln (p / 100000) else 0.
Definition coefficient_at (e : Engine) (t p : R) (x : list R) (i : nat) : R :=
  if Nat.ltb i (na e) then ln 10 * nth i (lg e (t - 273.15) (p * 9.86923267e-6) (strength e x) (firstn (na e) x) (lg_molalities e x)) 0
  else if Nat.ltb i (na e + ng e) then ln (snd (nth (i - na e) (snd (PR e (p * 9.86923267e-6) t (firstn (ng e) (skipn (na e) x)))) (0, 0))) else 0.
Definition phi_positive (e : Engine) (t p : R) (x : list R) : Prop := Forall (fun y => 0 < snd y) (snd (PR e (p * 9.86923267e-6) t (firstn (ng e) (skipn (na e) x)))).
Lemma list_seq {A} (d : A) (l : list A) (f : nat -> A) a n : length l = n -> (forall i, (i < n)%nat -> nth i l d = f (a + i)%nat) -> l = map f (seq a n).
Proof.
  intros L H. apply (list_ext d). { rewrite map_length, seq_length. auto. } intros i Li. rewrite nth_map_seq by lia. apply H. lia.
Qed.
Lemma volumes_are e t p mu : measured e -> volumes e t p (vm_tc e (tc_of t) (atm_of p) mu) = map (volume_at e t p mu) (seq 0 (species e)).
Proof.
  intros [Z Z0]. unfold volumes, species. rewrite !seq_app, !map_app, <- app_assoc, tc_is, atm_is. f_equal; [|f_equal].
  - apply (list_seq 0). { rewrite map_length. auto. } intros i L. rewrite (nth_map_in _ 0) by (rewrite Z; auto). unfold volume_at. cbn [plus]. replace (Nat.ltb i (na e)) with true by (symmetry; apply Nat.ltb_lt; auto). lra.
  - apply (list_seq 0). { apply repeat_length. } intros i L. unfold volume_at. replace (Nat.ltb _ (na e)) with false by (symmetry; apply Nat.ltb_ge; lia). replace (Nat.ltb _ (na e + ng e)) with true by (symmetry; apply Nat.ltb_lt; lia).
    rewrite (nth_indep _ 0 (Rgas * t / p)) by (rewrite repeat_length; auto). apply nth_repeat.
  - apply (list_seq 0). { rewrite map_length. auto. } intros i L. rewrite (nth_map_in _ 0) by (rewrite Z0; auto). unfold volume_at. replace (Nat.ltb _ (na e)) with false by (symmetry; apply Nat.ltb_ge; lia).
    replace (Nat.ltb _ (na e + ng e)) with false by (symmetry; apply Nat.ltb_ge; lia). replace (0 + (na e + ng e) + i - na e - ng e)%nat with i by lia. lra.
Qed.
Lemma constants_are e p : sizes e -> 0 < p -> lnActivityConstants e p = map (fun i => Some (constant_at e p i)) (seq 0 (species e)).
Proof.
  intros Z Hp. pose proof (z_iw e Z) as W. apply (list_seq None). { unfold lnActivityConstants. rewrite assign_length, !app_length, !repeat_length. unfold species. lia. }
  intros i L. unfold species in L. unfold lnActivityConstants. rewrite assign_nth by (rewrite !app_length, !repeat_length; lia). unfold constant_at. cbn [plus]. destruct (Nat.eqb i (iw e)); auto.
  destruct (Nat.ltb i (na e)) eqn:E. { apply Nat.ltb_lt in E. rewrite app_nth1 by (rewrite repeat_length; auto). rewrite (nth_indep _ None (log (55508472 / 10 ^ 6))) by (rewrite repeat_length; auto). rewrite nth_repeat, log_pos by lra. do 2 f_equal. lra. }
  apply Nat.ltb_ge in E. rewrite app_nth2 by (rewrite repeat_length; auto). rewrite repeat_length.
  destruct (Nat.ltb i (na e + ng e)) eqn:E'.
  - apply Nat.ltb_lt in E'. rewrite app_nth1 by (rewrite repeat_length; lia). rewrite (nth_indep _ None (log (p / 10 ^ 5))) by (rewrite repeat_length; lia). rewrite nth_repeat. replace (10 ^ 5) with 100000 by ring. apply log_pos. lra.
  - apply Nat.ltb_ge in E'. rewrite app_nth2 by (rewrite repeat_length; lia). rewrite repeat_length. rewrite (nth_indep _ None (Some 0)) by (rewrite repeat_length; lia). apply nth_repeat.
Qed.
Lemma set_volumes e s t p x : let s' := updateChemical e (updateThermo e (given e s t p x)) in
  V0 s' = volumes e t p (vm_tc e (tc_of t) (atm_of p) 0) /\ lnc s' = lnActivityConstants e p /\ v_aq s' = volumeAqueous e (volumes e t p (vm_tc e (tc_of t) (atm_of p) (ionicStrength e x))) x.
Proof. unfold updateChemical. destruct (ng e); cbn -[volumes lnActivityConstants volumeAqueous ionicStrength tc_of atm_of]; auto. Qed.
Lemma sum_nonneg : forall l, Forall (Rle 0) l -> 0 <= sum l.
Proof. induction 1; cbn; lra. Qed.
Lemma sum_at_least : forall l i, Forall (Rle 0) l -> nth i l 0 <= sum l.
Proof.
  induction l as [|y l IH]; intros [|i] F; cbn; try lra; inversion F; subst. { pose proof (sum_nonneg l H2). lra. } specialize (IH i H2). lra.
Qed.
Lemma firstn_Forall {A} (Q : A -> Prop) : forall n l, Forall Q l -> Forall Q (firstn n l).
Proof. induction n; intros l F; cbn; auto. destruct F; auto. Qed.
(* The volumes of phases are those of the species at the ionic strength for solutions,
   of the equation of state for gases, of PHREEQC for minerals. *)
Theorem C131_volumes_partial : forall e s t p x s', Made e s -> measured e -> 0 < p -> amounts_of e x -> watery e x -> setTPn e s t p x = Ok s' ->
  V0 s' = map (volume_at e t p 0) (seq 0 (species e)) /\ V0 (setTP e s t p) = map (volume_at e t p 0) (seq 0 (species e)) /\
  lnc s' = map (fun i => Some (constant_at e p i)) (seq 0 (species e)) /\ lnc (setTP e s t p) = lnc s' /\
  exists v g, phaseMolarVolumes e s' = v :: g ++ map (fun y => y / 1000000) (vm0 e) /\
  v * sum (firstn (na e) x) = sum (map (fun i => nth i x 0 * volume_at e t p (strength e x) i) (seq 0 (na e))) /\
  g = match ng e with O => [] | _ => [if Rlt_dec 0 (sum (firstn (ng e) (skipn (na e) x))) then fst (PR e (p * 9.86923267e-6) t (firstn (ng e) (skipn (na e) x))) else 0] end.
Proof.
  intros e s t p x s' M Z' Hp [L F] W H. apply made_whole in M as (Z & _ & _ & _ & G). apply setTPn_inv in H as (_ & E & _). destruct (set_volumes e s t p x) as (A & B & C). rewrite <- E in A, B, C.
  rewrite volumes_are in A by auto. rewrite constants_are in B by auto. rewrite strength_is, volumes_are in C by auto. split; [exact A|]. split. { unfold setTP, updateThermo. cbn [T P V0]. apply volumes_are. auto. }
  split; [exact B|]. split. { rewrite B. unfold setTP, updateThermo. cbn [P lnc]. apply constants_are; auto. }
  unfold phaseMolarVolumes. exists (v_aq s'), (match ng e with O => [] | _ => [v_gas s'] end). split; [|split].
  - f_equal. f_equal. rewrite A, map_length, seq_length. rewrite skipn_map. unfold species. replace (na e + ng e + nm e - nm e)%nat with (na e + ng e)%nat by lia.
    rewrite (seq_app (na e + ng e)). rewrite skipn_app, seq_length, Nat.sub_diag, skipn_all2 by (rewrite seq_length; lia). cbn [skipn app plus].
    symmetry. apply (list_seq 0). { rewrite map_length. apply Z'. } intros i Li. rewrite (nth_map_in _ 0) by (rewrite (z_vm0 e Z'); auto). unfold volume_at.
    replace (Nat.ltb _ (na e)) with false by (symmetry; apply Nat.ltb_ge; lia). replace (Nat.ltb _ (na e + ng e)) with false by (symmetry; apply Nat.ltb_ge; lia). do 2 f_equal. lia.
  - rewrite C. unfold volumeAqueous. assert (Sp : 0 < sum (aq e x)). { pose proof (sum_at_least (aq e x) (iw e) (firstn_Forall _ _ _ F)) as X. unfold aq in X at 1. rewrite nth_firstn in X by apply Z. unfold watery in W. lra. }
    destruct (Rlt_dec 0 (sum (aq e x))); [|contradiction]. change (firstn (na e) x) with (aq e x). unfold Rdiv. rewrite Rmult_assoc, Rinv_l, Rmult_1_r by lra. f_equal.
    apply (list_seq 0). { rewrite map2_length; unfold aq; rewrite !firstn_length, map_length, seq_length; unfold species in *; lia. } intros i Li.
    rewrite (map2_nth Rmult 0 0) by (unfold aq; rewrite !firstn_length, map_length, seq_length; unfold species in *; lia). unfold aq. rewrite !nth_firstn by auto. rewrite nth_seq_map by (unfold species; lia). cbn [plus]. ring.
  - destruct (ng e) as [|k] eqn:N; auto. destruct (set_gases e s t p x) as (_ & _ & V). { congruence. } rewrite <- E in V. rewrite V, atm_is. unfold gas. rewrite N. reflexivity.
Qed.
Print Assumptions C131_volumes_partial.
Theorem C131_coefficients_partial : forall e s t p x s', Made e s -> amounts_of e x -> watery e x -> phi_positive e t p x -> setTPn e s t p x = Ok s' ->
  lnActivityCoefficients e s' = Ok (map (fun i => Some (coefficient_at e t p x i)) (seq 0 (species e))).
Proof.
  intros e s t p x s' M [L F] W Ph H. apply made_whole in M as (Z & _ & _ & _ & G). apply setTPn_inv in H as (_ & E & Hg & _). destruct (set_fields e s t p x) as (_ & _ & _ & _ & _ & _ & _ & C & _). rewrite <- E in C.
  rewrite strength_is, molalities_is, tc_is, atm_is in C by (auto; apply Z). unfold lnActivityCoefficients. replace (Nat.eqb _ _) with true by (symmetry; apply Nat.eqb_eq; lia). cbn [negb]. f_equal.
  unfold species. rewrite !seq_app, !map_app, <- app_assoc, C. cbn [plus]. f_equal; [|f_equal].
  - apply (list_seq None). { rewrite !map_length. apply Z. } intros i Li. rewrite (nth_map_in _ 0) by (rewrite map_length, (z_lg e Z); auto). rewrite (nth_map_in _ 0) by (rewrite (z_lg e Z); auto). cbn [plus]. unfold coefficient_at, aq.
    replace (Nat.ltb i (na e)) with true by (symmetry; apply Nat.ltb_lt; auto). f_equal. ring.
  - destruct (Nat.eq_dec (ng e) 0) as [N|N]. { destruct (set_no_gases e s t p x N) as (A & _). rewrite <- E in A. rewrite A, N. apply (G N). }
    destruct (set_gases e s t p x N) as (A & _). rewrite <- E in A. rewrite A, atm_is. unfold gas. apply (list_seq None). { rewrite map_length. apply Z. } intros i Li.
    rewrite (nth_map_in _ (0, 0)) by (rewrite (z_pr e Z); auto). unfold coefficient_at. replace (Nat.ltb _ (na e)) with false by (symmetry; apply Nat.ltb_ge; lia). replace (Nat.ltb _ (na e + ng e)) with true by (symmetry; apply Nat.ltb_lt; lia).
    replace (na e + i - na e)%nat with i by lia. apply log_pos. apply (proj1 (Forall_forall _ _) Ph). apply nth_In. rewrite (z_pr e Z). auto.
  - apply (list_seq None). { apply repeat_length. } intros i Li. rewrite (nth_indep _ None (Some 0)) by (rewrite repeat_length; auto). rewrite nth_repeat. unfold coefficient_at.
    replace (Nat.ltb _ (na e)) with false by (symmetry; apply Nat.ltb_ge; lia). replace (Nat.ltb _ (na e + ng e)) with false by (symmetry; apply Nat.ltb_ge; lia). reflexivity.
Qed.
Print Assumptions C131_coefficients_partial.

(* ---- Witnesses ---- *)
(* Water and two solutes A and B with the reaction A = B, and gases if k is not zero. *)
Definition ab (k : nat) (c : R -> R -> R -> R) : Engine :=
  mkEngine 3 k 0 [0; 1; 1] 0 [[0; -1; 1] ++ repeat 0 k] (fun a b m => [c a b m]) (fun _ _ _ => [18; 1; 1]) [] false
    (fun _ _ _ _ _ => [0; 0; 0]) (fun _ _ _ _ _ => 1) (fun _ _ _ => (1, repeat (1, 1) k)) (fun b => [0; 0; nth 0 b 0] ++ repeat 0 k)
    300 1 ([1; 1; 1] ++ repeat 1 k) [None; None; None].
Lemma dot_zeros : forall k b, dot (repeat 0 k) b = 0.
Proof. induction k as [|k IH]; intros [|y b]; cbn; auto. rewrite IH. ring. Qed.
Lemma ab_sizes k c : sizes (ab k c).
Proof. constructor; cbn; auto. intros. apply repeat_length. Qed.
Lemma ab_solves k c : solves (ab k c).
Proof.
  intros [|y [|z b]] H; try discriminate H. split. { cbn. rewrite repeat_length. lia. }
  cbn [solve stoich ab map app nth dot]. rewrite dot_zeros. f_equal. ring.
Qed.
Definition stateOf (o : outcome State) : State := match o with Ok s => s | _ => blank end.
Lemma ab_set k c s t p x : length (lm s) = 3%nat -> length x = (3 + k)%nat -> (k = O -> gasless s) -> exists s', setTPn (ab k c) s t p x = Ok s'.
Proof.
  intros L Lx G. unfold setTPn. cbn [na ng nm ab]. rewrite Lx, Nat.add_0_r, Nat.eqb_refl. cbn [negb]. fold (given (ab k c) s t p x).
  set (s2 := updateChemical (ab k c) (updateThermo (ab k c) (given (ab k c) s t p x))).
  destruct (set_fields (ab k c) s t p x) as (_ & _ & _ & _ & _ & _ & _ & Fg & Fa). fold s2 in Fg, Fa.
  assert (S : species (ab k c) = length x) by (unfold species; cbn; lia).
  assert (La : length (lna_aq s2) = 3%nat) by (rewrite Fa; apply (lna_length (ab k c)); [apply ab_sizes|apply molalities_length; auto]).
  assert (Lg : length (lng_aq s2) = 3%nat) by (rewrite Fg; reflexivity).
  assert (Gg : length (lng_gas s2) = k /\ length (lna_gas s2) = k).
  { destruct (Nat.eq_dec k 0) as [N|N].
    - destruct (set_no_gases (ab k c) s t p x N) as (A & B & _). fold s2 in A, B. destruct (G N) as (G1 & G2 & _). rewrite A, B, G1, G2, N. auto.
    - destruct (set_gases (ab k c) s t p x N) as (A & B & _). fold s2 in A, B. rewrite A, B, !map_length. cbn. rewrite repeat_length. auto. }
  destruct Gg as [G1 G2]. exists s2. unfold lnActivityCoefficients, lnActivities. cbn [na ng nm ab]. rewrite Lg, La, G1, G2, !Nat.add_0_r, Nat.eqb_refl. reflexivity.
Qed.
Lemma ab_new k c : exists s, execute (ab k c) blank = Ok s /\ Made (ab k c) s.
Proof.
  destruct (ab_set k c (before (ab k c) blank) 300 (1 * (1 / pascal_to_atm)) ([1; 1; 1] ++ repeat 1 k)) as [s H]; auto.
  { rewrite app_length, repeat_length. reflexivity. } { intros _. repeat split. }
  exists s. split; [exact H|]. apply made_new; auto using ab_sizes, ab_solves.
Qed.
Lemma ab_next k c s t p x : Made (ab k c) s -> length x = (3 + k)%nat -> exists s', setTPn (ab k c) s t p x = Ok s' /\ Made (ab k c) s'.
Proof.
  intros M L. pose proof M as M'. apply made_whole in M' as (_ & _ & Lm & _ & G). destruct (ab_set k c s t p x Lm L G) as [s' H]. exists s'. split; auto. eapply made_TPn; eauto.
Qed.
Lemma nonneg3 a b c : 0 <= a -> 0 <= b -> 0 <= c -> Forall (Rle 0) [a; b; c].
Proof. auto. Qed.
(* The activities of water and the two solutes. *)
Lemma ab_activities c s t p x s' : setTPn (ab 0 c) s t p x = Ok s' -> exists a b d, x = [a; b; d] /\ T s' = t /\ I s' = ionicStrength (ab 0 c) x /\
  G0 s' = [0 * (- Rgas * t); 0 * (- Rgas * t); c (tc_of t) (atm_of p) 0 * ln10_short * (- Rgas * t)] /\
  G0TPI s' = [0 * (- Rgas * t); 0 * (- Rgas * t); c (tc_of t) (atm_of p) (ionicStrength (ab 0 c) x) * ln10_short * (- Rgas * t)] /\
  lks s' = [c (tc_of t) (atm_of p) (ionicStrength (ab 0 c) x)] /\ lm s' = molalities (ab 0 c) x (lm s) /\
  lna_aq s' = lnActivitiesAqueous (ab 0 c) t p (ionicStrength (ab 0 c) x) x (molalities (ab 0 c) x (lm s)) /\ lna_gas s' = lna_gas s.
Proof.
  intro H. apply setTPn_inv in H as (L & -> & _). destruct x as [|a [|b [|d [|? x]]]]; try discriminate L. exists a, b, d.
  destruct (set_fields (ab 0 c) s t p [a; b; d]) as (FT & _ & FI & FM & FK & FG & FX & _ & FA). destruct (set_no_gases (ab 0 c) s t p [a; b; d] eq_refl) as (_ & FB & _).
  rewrite FT, FI, FM, FK, FG, FX, FA, FB. repeat (split; [reflexivity|]). reflexivity.
Qed.
Lemma ab_ln c s t p x s' m0 m1 m2 : Made (ab 0 c) s -> setTPn (ab 0 c) s t p x = Ok s' -> molalities (ab 0 c) x (lm s) = [m0; m1; m2] ->
  let i := ionicStrength (ab 0 c) x in exists w, lna_aq s' = [w; ln_a (0 * ln 10) m1; ln_a (0 * ln 10) m2] /\ lna_gas s' = [] /\
  lnActivities (ab 0 c) s' = Ok [add_to w ((0 * (- Rgas * t) - 0 * (- Rgas * t)) * 1 / (Rgas * t)); add_to (ln_a (0 * ln 10) m1) ((0 * (- Rgas * t) - 0 * (- Rgas * t)) * 1 / (Rgas * t));
    add_to (ln_a (0 * ln 10) m2) ((c (tc_of t) (atm_of p) i * ln10_short * (- Rgas * t) - c (tc_of t) (atm_of p) 0 * ln10_short * (- Rgas * t)) * 1 / (Rgas * t))].
Proof.
  intros M H Hm. apply made_whole in M as (_ & _ & _ & _ & G). destruct (G eq_refl) as (_ & G2 & _). destruct (ab_activities c s t p x s' H) as (a & b & d & -> & ET & _ & E0 & EX & _ & _ & EA & EB).
  rewrite Hm in EA. rewrite G2 in EB. cbv zeta. eexists. split; [rewrite EA; unfold lnActivitiesAqueous; cbn [lg ab map map2 assign iw]; reflexivity|]. split; [exact EB|].
  unfold lnActivities. rewrite EB, EA, ET, E0, EX. unfold lnActivitiesAqueous. cbn [lg ab map map2 assign iw length na ng nm plus Nat.eqb negb app repeat]. reflexivity.
Qed.
Lemma ab_wet c a b d old : 0 < a -> molalities (ab 0 c) [a; b; d] old = [log10 (a / (a * waterMolarMass)); log10 (b / (a * waterMolarMass)); log10 (d / (a * waterMolarMass))].
Proof.
  intro A. unfold molalities. change (massH2O (ab 0 c) [a; b; d]) with (a * waterMolarMass). destruct (Rlt_dec 0 (a * waterMolarMass)) as [_|N]. { reflexivity. }
  exfalso. apply N. apply Rmult_lt_0_compat; auto. unfold waterMolarMass. lra.
Qed.
Lemma ab_dry c b d old : molalities (ab 0 c) [0; b; d] old = old.
Proof. unfold molalities. change (massH2O (ab 0 c) [0; b; d]) with (0 * waterMolarMass). destruct (Rlt_dec 0 (0 * waterMolarMass)); auto. lra. Qed.
Lemma water_mass : 0 < waterMolarMass.
Proof. unfold waterMolarMass. lra. Qed.
Lemma log10_pos x : 0 < x -> log10 x = Some (ln x / ln 10).
Proof. intro. unfold log10. destruct (Rlt_dec 0 x); [reflexivity|contradiction]. Qed.

(* Without water the molalities are those of the conditions before. *)
Theorem C131_dry_refuted : exists e s1 s2 t p x s1' s2', Made e s1 /\ Made e s2 /\ 0 < t /\ 0 < p /\ amounts_of e x /\
  setTPn e s1 t p x = Ok s1' /\ setTPn e s2 t p x = Ok s2' /\ lnActivities e s1' <> lnActivities e s2'.
Proof.
  set (c := fun _ _ _ : R => 0). destruct (ab_new 0 c) as (s & _ & M). pose proof water_mass as WM. pose proof ln10_pos as LP.
  destruct (ab_next 0 c s 300 100000 [1; 1; 1] M eq_refl) as (s1 & H1 & M1). destruct (ab_next 0 c s 300 100000 [1; 2; 1] M eq_refl) as (s2 & H2 & M2).
  destruct (ab_next 0 c s1 300 100000 [0; 1; 1] M1 eq_refl) as (s1' & H1' & _). destruct (ab_next 0 c s2 300 100000 [0; 1; 1] M2 eq_refl) as (s2' & H2' & _).
  exists (ab 0 c), s1, s2, 300, 100000, [0; 1; 1], s1', s2'. split; auto. split; auto. split; [lra|]. split; [lra|]. split. { split; [reflexivity|]. apply nonneg3; lra. } split; auto. split; auto.
  destruct (ab_activities _ _ _ _ _ _ H1) as (? & ? & ? & _ & _ & _ & _ & _ & _ & L1 & _). destruct (ab_activities _ _ _ _ _ _ H2) as (? & ? & ? & _ & _ & _ & _ & _ & _ & L2 & _).
  rewrite ab_wet in L1, L2 by lra.
  destruct (ab_ln c s1 300 100000 [0; 1; 1] s1' _ _ _ M1 H1' ltac:(rewrite ab_dry; exact L1)) as (w1 & _ & _ & ->).
  destruct (ab_ln c s2 300 100000 [0; 1; 1] s2' _ _ _ M2 H2' ltac:(rewrite ab_dry; exact L2)) as (w2 & _ & _ & ->).
  rewrite !(log10_pos (1 / (1 * waterMolarMass))), (log10_pos (2 / (1 * waterMolarMass))) by (apply Rdiv_lt_0_compat; lra). cbn [ln_a add_to option_map].
  intro X. injection X as _ X. assert (D : ln (1 / (1 * waterMolarMass)) < ln (2 / (1 * waterMolarMass))).
  { apply ln_increasing. { apply Rdiv_lt_0_compat; lra. } unfold Rdiv. apply Rmult_lt_compat_r; [apply Rinv_0_lt_compat|]; lra. }
  assert (Y : forall y, y / ln 10 * ln 10 = y) by (intro; field; lra). rewrite !Y in X. lra.
Qed.
Print Assumptions C131_dry_refuted.

(* A solute that is not there has activity one. *)
Theorem C131_absent_refuted : exists e s t p x s' i la, Made e s /\ 0 < t /\ 0 < p /\ amounts_of e x /\ watery e x /\ setTPn e s t p x = Ok s' /\
  (i < na e)%nat /\ i <> iw e /\ nth i x 0 = 0 /\ lnActivities e s' = Ok la /\ nth i la None = Some ((nth i (G0TPI s') 0 - nth i (G0 s') 0) / (Rgas * t)) /\ nth i la None = Some 0.
Proof.
  set (c := fun _ _ _ : R => 0). destruct (ab_new 0 c) as (s & _ & M). pose proof water_mass as WM. pose proof Rgas_pos as RP.
  destruct (ab_next 0 c s 300 100000 [1; 0; 1] M eq_refl) as (s' & H & _).
  assert (N : log10 (0 / (1 * waterMolarMass)) = None). { unfold log10. destruct (Rlt_dec _ _) as [L|]; auto. unfold Rdiv in L. rewrite Rmult_0_l in L. lra. }
  destruct (ab_ln c s 300 100000 [1; 0; 1] s' _ _ _ M H (ab_wet c 1 0 1 _ ltac:(lra))) as (w & _ & _ & E). rewrite N in E.
  destruct (ab_activities _ _ _ _ _ _ H) as (? & ? & ? & _ & _ & _ & E0 & EX & _).
  exists (ab 0 c), s, 300, 100000, [1; 0; 1], s', 1%nat. eexists. split; auto. split; [lra|]. split; [lra|]. split. { split; [reflexivity|]. apply nonneg3; lra. }
  split. { unfold watery. cbn. lra. } split; auto. split; [cbn; lia|]. split; [cbn; lia|]. split; [reflexivity|]. split; [exact E|].
  rewrite E0, EX. cbn [nth ln_a add_to option_map]. split; f_equal; field; lra.
Qed.
Print Assumptions C131_absent_refuted.

(* The constants after set(T, P, n) are those at the ionic strength. *)
Lemma ab_strength c b d : ionicStrength (ab 0 c) [1; b; d] = (b + d) * (1 / 2 / waterMolarMass).
Proof.
  unfold ionicStrength. change (massH2O (ab 0 c) [1; b; d]) with (1 * waterMolarMass). pose proof water_mass. destruct (Rlt_dec 0 (1 * waterMolarMass)) as [_|N]; [|exfalso; lra].
  cbn [aq na ab firstn zs map2 sum]. replace (1 * waterMolarMass) with waterMolarMass by ring. generalize (1 / 2 / waterMolarMass). intro q. ring.
Qed.
Theorem C131_constants_refuted : exists e s t p x1 x2 s1 s2, Made e s /\ 0 < t /\ 0 < p /\ amounts_of e x1 /\ amounts_of e x2 /\
  setTPn e s t p x1 = Ok s1 /\ setTPn e s t p x2 = Ok s2 /\ lnEquilibriumConstants (lks s1) <> lnEquilibriumConstants (lks s2).
Proof.
  set (c := fun _ _ m : R => m). destruct (ab_new 0 c) as (s & _ & M). pose proof water_mass as WM.
  destruct (ab_next 0 c s 300 100000 [1; 1; 1] M eq_refl) as (s1 & H1 & _). destruct (ab_next 0 c s 300 100000 [1; 2; 1] M eq_refl) as (s2 & H2 & _).
  exists (ab 0 c), s, 300, 100000, [1; 1; 1], [1; 2; 1], s1, s2. split; auto. split; [lra|]. split; [lra|]. split. { split; [reflexivity|]. apply nonneg3; lra. } split. { split; [reflexivity|]. apply nonneg3; lra. }
  split; auto. split; auto. destruct (ab_activities _ _ _ _ _ _ H1) as (? & ? & ? & _ & _ & _ & _ & _ & K1 & _). destruct (ab_activities _ _ _ _ _ _ H2) as (? & ? & ? & _ & _ & _ & _ & _ & K2 & _).
  rewrite K1, K2. unfold c at 1 3. rewrite !ab_strength. cbn [lnEquilibriumConstants map]. intro X. injection X as X. assert (Q : 0 < 1 / 2 / waterMolarMass) by (apply Rdiv_lt_0_compat; lra).
  revert X. generalize (1 / 2 / waterMolarMass), Q. unfold ln10_short. intros q Hq X. lra.
Qed.
Print Assumptions C131_constants_refuted.

(* After set(T, P) the activities have Gibbs energies of two temperatures. *)
Theorem C131_temperature_refuted : exists e s t p t' x s1 s2, Made e s /\ 0 < t /\ 0 < p /\ 0 < t' /\ amounts_of e x /\ setTPn e s t p x = Ok s1 /\ setTPn e s t' p x = Ok s2 /\
  lnActivities e s1 = lnActivities e s2 /\ lnActivities e (setTP e s1 t' p) <> lnActivities e s1.
Proof.
  set (c := fun a _ _ : R => a). destruct (ab_new 0 c) as (s & _ & M). pose proof water_mass as WM. pose proof Rgas_pos as RP.
  destruct (ab_next 0 c s 300 100000 [1; 1; 1] M eq_refl) as (s1 & H1 & _). destruct (ab_next 0 c s 400 100000 [1; 1; 1] M eq_refl) as (s2 & H2 & _).
  exists (ab 0 c), s, 300, 100000, 400, [1; 1; 1], s1, s2. split; auto. split; [lra|]. split; [lra|]. split; [lra|]. split. { split; [reflexivity|]. apply nonneg3; lra. } split; auto. split; auto.
  destruct (ab_ln c s 300 100000 [1; 1; 1] s1 _ _ _ M H1 (ab_wet c 1 1 1 _ ltac:(lra))) as (w1 & A1 & B1 & E1). destruct (ab_ln c s 400 100000 [1; 1; 1] s2 _ _ _ M H2 (ab_wet c 1 1 1 _ ltac:(lra))) as (w2 & A2 & B2 & E2).
  destruct (ab_activities _ _ _ _ _ _ H1) as (? & ? & ? & _ & ET & _ & E0 & EX & _ & _ & EA & _). destruct (ab_activities _ _ _ _ _ _ H2) as (? & ? & ? & _ & _ & _ & _ & _ & _ & _ & EA2 & _).
  rewrite (log10_pos (1 / (1 * waterMolarMass))) in E1, E2, A1, A2 by (apply Rdiv_lt_0_compat; lra). cbn [ln_a add_to option_map] in E1, E2, A1, A2.
  assert (W : w1 = w2). { rewrite EA in A1. rewrite EA2 in A2. unfold lnActivitiesAqueous in A1, A2. cbn [lg ab map map2 assign iw pitzer] in A1, A2. apply (f_equal (hd None)) in A1. apply (f_equal (hd None)) in A2. cbn [hd] in A1, A2. rewrite <- A1, <- A2. reflexivity. }
  split.
  - rewrite E1, E2, W. unfold c. assert (O : forall a d, (a - a) * 1 / d = 0) by (intros; unfold Rdiv; ring). rewrite !O. reflexivity.
  - rewrite E1. unfold lnActivities, setTP, updateThermo. cbn [T P G0 G0TPI lna_aq lna_gas]. rewrite A1, B1, EX. unfold gibbs, lnEquilibriumConstants. unfold c.
    cbn [lk solve ab map nth app repeat length na ng nm plus Nat.eqb negb map2 add_to option_map]. intro X. injection X as _ _ X. apply Rplus_eq_reg_l in X.
    unfold tc_of in X. assert (Y : ((300 - 27315 / 100) * ln10_short * (- Rgas * 300) - (400 - 27315 / 100) * ln10_short * (- Rgas * 400)) * 1 / (Rgas * 400) = ln10_short * ((400 - 273.15) - (300 - 273.15) * (3 / 4))).
    { unfold Rdiv. replace 273.15 with (27315 * / 100) by lra. generalize ln10_short. intro l. field. lra. }
    rewrite Y in X. replace (((300 - 27315 / 100) * ln10_short * (- Rgas * 300) - (300 - 27315 / 100) * ln10_short * (- Rgas * 300)) * 1 / (Rgas * 300)) with 0 in X by (field; lra). unfold ln10_short in X. lra.
Qed.
Print Assumptions C131_temperature_refuted.

(* A script without gases after one with gases: the arrays of gases are kept and more
   values than species are written. *)
Theorem C131_gases_refuted : exists e e' s s', Made e s /\ sizes e' /\ solves e' /\ execute e' blank = Ok s' /\ execute e' s = UB.
Proof.
  set (c := fun _ _ _ : R => 0). destruct (ab_new 1 c) as (s & Hs & M). destruct (ab_new 0 c) as (s' & H' & _). exists (ab 1 c), (ab 0 c), s, s'.
  split; auto. split; [apply ab_sizes|]. split; [apply ab_solves|]. split; auto.
  apply setTPn_inv in Hs as (_ & E & _). destruct (set_gases (ab 1 c) (before (ab 1 c) blank) 300 (1 * (1 / pascal_to_atm)) ([1; 1; 1] ++ repeat 1 1)) as (G & _). { discriminate. }
  change (s = updateChemical (ab 1 c) (updateThermo (ab 1 c) (given (ab 1 c) (before (ab 1 c) blank) 300 (1 * (1 / pascal_to_atm)) ([1; 1; 1] ++ repeat 1 1)))) in E. rewrite <- E in G.
  change (setTPn (ab 0 c) (before (ab 0 c) s) 300 (1 * (1 / pascal_to_atm)) [1; 1; 1] = UB). unfold setTPn. cbn [length na ng nm ab plus Nat.eqb negb]. fold (given (ab 0 c) (before (ab 0 c) s) 300 (1 * (1 / pascal_to_atm)) [1; 1; 1]).
  destruct (set_no_gases (ab 0 c) (before (ab 0 c) s) 300 (1 * (1 / pascal_to_atm)) [1; 1; 1] eq_refl) as (A & _). destruct (set_fields (ab 0 c) (before (ab 0 c) s) 300 (1 * (1 / pascal_to_atm)) [1; 1; 1]) as (_ & _ & _ & _ & _ & _ & _ & Fg & _).
  unfold lnActivityCoefficients at 1. rewrite A, Fg. change (lng_gas (before (ab 0 c) s)) with (lng_gas s). rewrite G, !map_length. reflexivity.
Qed.
Print Assumptions C131_gases_refuted.
Theorem C131_refuted : ~ C131_statement.
Proof.
  intros (_ & H & _). destruct C131_dry_refuted as (e & s1 & s2 & t & p & x & s1' & s2' & M1 & M2 & Ht & Hp & A & E1 & E2 & D). apply D.
  specialize (H e s1 s2 t p x M1 M2 Ht Hp A). rewrite E1, E2 in H. injection H as ->. reflexivity.
Qed.
Print Assumptions C131_refuted.
(* Conditions that meet the hypotheses: the reaction of two solutes, with a gas. *)
Example C131_nonvacuous : exists s s', let e := ab 1 (fun a _ m => a + m) in let x := [55; 1; 2; 3] in
  Made e s /\ amounts_of e x /\ watery e x /\ positive e 300 100000 x /\ setTPn e s 300 100000 x = Ok s' /\ length (stoich e) = 1%nat /\ measured e /\ phi_positive e 300 100000 x.
Proof.
  set (c := fun a _ m : R => a + m). destruct (ab_new 1 c) as (s & _ & M). destruct (ab_next 1 c s 300 100000 [55; 1; 2; 3] M eq_refl) as (s' & H & _). exists s, s'. cbv zeta.
  split; [exact M|]. split. { split; [reflexivity|]. repeat (constructor; [lra|]). constructor. } split. { unfold watery. cbn. lra. } split; [|split; [exact H|split; [reflexivity|split; [constructor; reflexivity|repeat constructor; cbn; lra]]]]. split.
  - intros [|[|[|i]]] L; cbn in *; try lra. lia.
  - pose proof water_mass as WM. unfold waterMolarMass in WM. intros [|[|[|[|i]]]] L; unfold activity, molality, kg_water; cbn -[Rpower pow] in *.
    + lra. + apply Rmult_lt_0_compat; [apply exp_pos|]. apply Rdiv_lt_0_compat; lra. + apply Rmult_lt_0_compat; [apply exp_pos|]. apply Rdiv_lt_0_compat; lra. + lra. + unfold species in L. cbn in L. lia.
Qed.
