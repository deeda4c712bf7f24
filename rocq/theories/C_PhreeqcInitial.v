(* Property C137: a Phreeqc object has the state that PHREEQC computed for the script. *)
From Coq Require Import Lqa.
From Verif Require Import Base M_Strings M_Formula M_Algorithms P_Specs M_PhreeqcInitial.
Local Open Scope nat_scope.

(* ---- specification ---- *)
(* What PHREEQC's lists are like: no species or phase twice, and a single unknown for each
   mineral of the assemblage. *)
Definition phases_of (l : list (option str * Q)) : list str :=
  flat_map (fun u => match fst u with Some p => [p] | None => [] end) l.
Definition sound (pq : Pq) : Prop :=
  NoDup (aqueous pq) /\ NoDup (gaseous pq) /\ NoDup (minerals pq) /\ NoDup (phases_of (unknowns pq)) /\
  (forall p, In p (minerals pq) -> In p (phases_of (unknowns pq))).
(* The amount of a mineral in the assemblage: the moles of its unknown. *)
Definition in_assemblage (pq : Pq) (p : str) (m : Q) : Prop := In (Some p, m) (unknowns pq).

(* The amounts of the object, by kind of species and by name. *)
Definition reported (o : Object) (a g m : list (str * Q)) : Prop :=
  o_n o = map snd a ++ map snd g ++ map snd m /\
  map fst a = aqueous (o_pq o) /\ map fst g = gaseous (o_pq o) /\ map fst m = minerals (o_pq o).

(* The state PHREEQC computed: [pq] is what it holds when the script is done. *)
Definition state_of (pq : Pq) (o : Object) : Prop :=
  o_T o = tk_x pq /\ (o_P o * pascal_to_atm == patm_x pq)%Q /\
  aqueous (o_pq o) = aqueous pq /\ gaseous (o_pq o) = gaseous pq /\ minerals (o_pq o) = minerals pq /\
  exists a g m, reported o a g m /\
    (forall s x, In (s, x) a -> x = moles pq s) /\
    (forall p x, In (p, x) g -> x = moles_x pq p) /\
    (forall p x, In (p, x) m -> in_assemblage pq p x).

Definition C137_statement : Prop := forall run pq, sound (run pq) -> exists o, execute run pq = Ok o /\ state_of (run pq) o.

(* ---- lemmas ---- *)
Lemma fromUnknowns_in l p n m : NoDup (phases_of l) -> In (Some p, m) l -> fromUnknowns l p n = m.
Proof.
  induction l as [|[[q|] x] l IH]; intros N I; [destruct I| |].
  - cbn [fromUnknowns]. cbn in N. inversion N; subst. destruct I as [I|I].
    + injection I as -> ->. rewrite str_eqb_refl. reflexivity.
    + assert (p <> q) by (intros ->; apply H1; unfold phases_of; apply in_flat_map; exists (Some q, m); split; [exact I|left; reflexivity]).
      rewrite (proj2 (str_eqb_neq _ _) H). auto.
  - cbn [fromUnknowns]. destruct I as [I|I]; [discriminate I|]. auto.
Qed.
Lemma fromUnknowns_out l p n : ~ In p (phases_of l) -> fromUnknowns l p n = n.
Proof.
  induction l as [|[[q|] x] l IH]; intro N; cbn [fromUnknowns]; [reflexivity| |].
  - cbn in N. rewrite (proj2 (str_eqb_neq p q)); [apply IH; tauto|intros ->; tauto].
  - apply IH. exact N.
Qed.
Lemma phases_of_in l p : In p (phases_of l) <-> exists m, In (Some p, m) l.
Proof.
  unfold phases_of. rewrite in_flat_map. split.
  - intros ([[q|] m] & I & J); [|destruct J]. destruct J as [->|[]]. exists m. exact I.
  - intros (m & I). exists (Some p, m). split; [exact I|left; reflexivity].
Qed.

Lemma length_amounts pq : length (amountsOfSpecies pq (aqueous pq) ++ amountsOfPhases pq (gaseous pq) ++ amountsOfPhases pq (minerals pq)) =
  length (aqueous pq) + length (gaseous pq) + length (minerals pq).
Proof. unfold amountsOfSpecies, amountsOfPhases. rewrite !app_length, !map_length. lia. Qed.

Lemma initialize_ok pq : exists o, initializeChemicalState pq = Ok o /\ o_T o = tk_x pq /\ o_P o = (patm_x pq * atm_to_pascal)%Q /\
  o_n o = map (moles pq) (aqueous pq) ++ map (amountOfPhase pq) (gaseous pq) ++ map (amountOfPhase pq) (minerals pq) /\
  aqueous (o_pq o) = aqueous pq /\ gaseous (o_pq o) = gaseous pq /\ minerals (o_pq o) = minerals pq /\ unknowns (o_pq o) = unknowns pq /\
  critical (o_pq o) = critical pq /\ tk_x (o_pq o) = tk_x pq /\ patm_x (o_pq o) = (patm_x pq * atm_to_pascal * pascal_to_atm)%Q.
Proof.
  unfold initializeChemicalState. cbv zeta. unfold set. rewrite length_amounts, Nat.eqb_refl. eexists. split; [reflexivity|].
  cbn. repeat split; reflexivity.
Qed.

Lemma execute_ok run pq : exists o, execute run pq = Ok o /\ o_T o = tk_x (run pq) /\ o_P o = (patm_x (run pq) * atm_to_pascal)%Q /\
  o_n o = map (moles (run pq)) (aqueous (run pq)) ++ map (amountOfPhase (run pq)) (gaseous (run pq)) ++ map (amountOfPhase (run pq)) (minerals (run pq)) /\
  aqueous (o_pq o) = aqueous (run pq) /\ gaseous (o_pq o) = gaseous (run pq) /\ minerals (o_pq o) = minerals (run pq).
Proof.
  unfold execute. destruct (initialize_ok (initializeCritical (run pq))) as (o & E & A & B & C & D & F & G & _).
  exists o. cbn in *. repeat split; assumption.
Qed.

Lemma atm : (atm_to_pascal * pascal_to_atm == 1)%Q.
Proof. reflexivity. Qed.

(* ---- temperature, pressure, aqueous species ---- *)
(* Executing always gives an object, with the temperature, pressure and amounts of aqueous
   species of PHREEQC, and one amount for each species in the order of their names. *)
Theorem C137_conditions_partial : forall run pq o, execute run pq = Ok o ->
  o_T o = tk_x (run pq) /\ (o_P o * pascal_to_atm == patm_x (run pq))%Q /\
  (0 <= patm_x (run pq) -> Qabs.Qabs (o_P o - 101325 * patm_x (run pq)) <= (1 # 10000) * patm_x (run pq))%Q.
Proof.
  intros run pq o E. destruct (execute_ok run pq) as (o' & E' & A & B & _). rewrite E in E'. injection E' as <-.
  split; [exact A|]. rewrite B. split.
  - rewrite <- Qmult_assoc, atm. ring.
  - intro H. assert (X : (patm_x (run pq) * atm_to_pascal - 101325 * patm_x (run pq) == (atm_to_pascal - 101325) * patm_x (run pq))%Q) by ring.
    rewrite X, Qabs.Qabs_Qmult, (Qabs.Qabs_pos (patm_x (run pq)) H). apply Qmult_le_compat_r; [|exact H]. vm_compute. discriminate.
Qed.
Print Assumptions C137_conditions_partial.

Theorem C137_amounts_partial : forall run pq, exists o a g m, execute run pq = Ok o /\ reported o a g m /\
  (forall s x, In (s, x) a -> x = moles (run pq) s) /\
  (forall p x, In (p, x) (g ++ m) ->
     ((0 < moles_x (run pq) p)%Q -> x = moles_x (run pq) p) /\
     ((moles_x (run pq) p <= 0)%Q -> ~ In p (phases_of (unknowns (run pq))) -> x = moles_x (run pq) p) /\
     ((moles_x (run pq) p <= 0)%Q -> NoDup (phases_of (unknowns (run pq))) -> forall y, in_assemblage (run pq) p y -> x = y)).
Proof.
  intros run pq. destruct (execute_ok run pq) as (o & E & _ & _ & C & D & F & G).
  exists o, (map (fun s => (s, moles (run pq) s)) (aqueous (run pq))), (map (fun p => (p, amountOfPhase (run pq) p)) (gaseous (run pq))),
    (map (fun p => (p, amountOfPhase (run pq) p)) (minerals (run pq))).
  split; [exact E|]. split; [|split].
  - unfold reported. rewrite C, D, F, G, !map_map. cbn [fst snd]. rewrite !map_id. auto.
  - intros s x I. apply in_map_iff in I as (s' & J & _). injection J as <- <-. reflexivity.
  - intros p x I. rewrite <- map_app in I. apply in_map_iff in I as (p' & J & _). injection J as -> <-.
    unfold amountOfPhase. cbv zeta. split; [|split].
    + intro H. destruct (Qle_bool (moles_x (run pq) p) 0) eqn:L; [|reflexivity]. apply Qle_bool_iff in L. exfalso. lra.
    + intros H N. destruct (Qle_bool (moles_x (run pq) p) 0); [apply fromUnknowns_out; exact N|reflexivity].
    + intros H N y I. rewrite (proj2 (Qle_bool_iff _ _) H). apply fromUnknowns_in; assumption.
Qed.
Print Assumptions C137_amounts_partial.

(* The whole state is PHREEQC's when no gas without amount is in the assemblage and PHREEQC has
   no moles_x of the minerals. *)
Theorem C137_state_partial : forall run pq, sound (run pq) ->
  (forall p, In p (gaseous (run pq)) -> In p (phases_of (unknowns (run pq))) -> (0 < moles_x (run pq) p)%Q) ->
  (forall p, In p (minerals (run pq)) -> (moles_x (run pq) p <= 0)%Q) ->
  exists o, execute run pq = Ok o /\ state_of (run pq) o.
Proof.
  intros run pq (_ & _ & _ & N & U) HG HM. destruct (C137_amounts_partial run pq) as (o & a & g & m & E & R & A & B).
  exists o. split; [exact E|]. destruct (C137_conditions_partial run pq o E) as (C & P & _).
  destruct (execute_ok run pq) as (o' & E' & _ & _ & _ & D & F & G). rewrite E in E'. injection E' as <-.
  split; [exact C|]. split; [exact P|]. split; [exact D|]. split; [exact F|]. split; [exact G|].
  exists a, g, m. split; [exact R|]. split; [exact A|]. destruct R as (_ & _ & Rg & Rm). split.
  - intros p x I. destruct (B p x (in_or_app _ _ _ (or_introl I))) as (B1 & B2 & _).
    assert (J : In p (gaseous (run pq))) by (rewrite <- F, <- Rg; exact (in_map fst _ _ I)).
    destruct (Qlt_le_dec 0 (moles_x (run pq) p)) as [L|L]; [auto|].
    destruct (in_dec (list_eq_dec ascii_dec) p (phases_of (unknowns (run pq)))) as [K|K]; [|auto].
    exfalso. specialize (HG p J K). lra.
  - intros p x I. destruct (B p x (in_or_app _ _ _ (or_intror I))) as (_ & _ & B3).
    assert (J : In p (minerals (run pq))) by (rewrite <- G, <- Rm; exact (in_map fst _ _ I)).
    destruct (proj1 (phases_of_in _ _) (U p J)) as (y & Y). rewrite (B3 (HM p J) N y Y). exact Y.
Qed.
Print Assumptions C137_state_partial.

(* ---- a second script ---- *)
Lemma writes_out ks : forall f vs x, ~ In x ks -> writes f ks vs x = f x.
Proof.
  induction ks as [|k ks IH]; intros f [|v vs] x N; cbn [writes]; try reflexivity.
  rewrite IH; [|intro I; apply N; right; exact I]. unfold upd. rewrite (proj2 (str_eqb_neq x k)); [reflexivity|]. intros ->. apply N. left. reflexivity.
Qed.
Lemma writes_map (h : str -> Q) ks : forall f x, In x ks -> writes f ks (map h ks) x = h x.
Proof.
  induction ks as [|k ks IH]; intros f x I; [destruct I|]. cbn [map writes].
  destruct (in_dec (list_eq_dec ascii_dec) x ks) as [J|J]; [apply IH; exact J|].
  rewrite writes_out by exact J. destruct I as [->|I]; [|contradiction]. unfold upd. rewrite str_eqb_refl. reflexivity.
Qed.

Lemma skipn_app_exact {A} (a b : list A) k : length a = k -> skipn k (a ++ b) = b.
Proof. intros <-. rewrite skipn_app, skipn_all, Nat.sub_diag. reflexivity. Qed.

(* What the object leaves in PHREEQC: the amounts it reported, as moles_x of the minerals. *)
Lemma left_behind run pq o p : execute run pq = Ok o -> In p (minerals (run pq)) -> moles_x (o_pq o) p = amountOfPhase (run pq) p.
Proof.
  intros E I. unfold execute, initializeChemicalState in E. cbv zeta in E. unfold set in E. rewrite length_amounts, Nat.eqb_refl in E.
  injection E as <-. cbn [o_pq moles_x]. cbn [minerals gaseous aqueous initializeCritical].
  rewrite app_assoc, (skipn_app_exact _ _ (length (aqueous (run pq)) + length (gaseous (run pq)))) by (unfold amountsOfSpecies, amountsOfPhases; rewrite app_length, !map_length; reflexivity).
  unfold amountsOfPhases. rewrite writes_map by exact I. reflexivity.
Qed.

(* If PHREEQC leaves the moles_x of a mineral alone while it works on the next script, the
   amount of the mineral stays that of the first script, whatever the second one says. *)
Definition amount_in (o : Object) (p : str) (x : Q) : Prop := exists a g m, reported o a g m /\ In (p, x) m.
Lemma mineral_amount run pq o p : execute run pq = Ok o -> In p (minerals (run pq)) -> amount_in o p (amountOfPhase (run pq) p).
Proof.
  intros E I. destruct (execute_ok run pq) as (o' & E' & _ & _ & C & D & F & G). rewrite E in E'. injection E' as <-.
  exists (map (fun s => (s, moles (run pq) s)) (aqueous (run pq))), (map (fun p => (p, amountOfPhase (run pq) p)) (gaseous (run pq))),
    (map (fun p => (p, amountOfPhase (run pq) p)) (minerals (run pq))).
  split; [unfold reported; rewrite C, D, F, G, !map_map; cbn [fst snd]; rewrite !map_id; auto|].
  apply in_map_iff. exists p. auto.
Qed.
Theorem C137_stale_refuted : forall run1 run2 pq o1 p, execute run1 pq = Ok o1 -> In p (minerals (run1 pq)) ->
  In p (minerals (run2 (o_pq o1))) -> moles_x (run2 (o_pq o1)) p = moles_x (o_pq o1) p ->
  (0 < amountOfPhase (run1 pq) p)%Q ->
  exists o2 x, execute run2 (o_pq o1) = Ok o2 /\ amount_in o1 p x /\ amount_in o2 p x.
Proof.
  intros run1 run2 pq o1 p E I J K L. destruct (execute_ok run2 (o_pq o1)) as (o2 & E2 & _).
  exists o2, (amountOfPhase (run1 pq) p). split; [exact E2|]. split; [exact (mineral_amount _ _ _ _ E I)|].
  pose proof (mineral_amount _ _ _ _ E2 J) as M. unfold amountOfPhase in M at 1. cbv zeta in M. rewrite K, (left_behind _ _ _ _ E I) in M.
  destruct (Qle_bool (amountOfPhase (run1 pq) p) 0) eqn:Z; [apply Qle_bool_iff in Z; exfalso; lra|exact M].
Qed.
Print Assumptions C137_stale_refuted.

(* A solution with calcite: two moles in the first script, five in the second. *)
Definition none : str -> Q := fun _ => 0%Q.
Definition no_critical : str -> Q * Q * Q := fun _ => (0, 0, 0)%Q.
Definition blank : Pq := mkPq 0 0 none none [] no_critical [] [] [].
Definition script (gases phases : list str) (gas : str -> Q) (us : list (option str * Q)) (keep : bool) : Pq -> Pq := fun pq =>
  mkPq 350 2 (fun s => if str_eqb s $"H2O" then 55%Q else 1%Q) (if keep then fun p => if contains str_eqb gases p then gas p else moles_x pq p else gas)
    us no_critical [$"H2O"; $"Na+"] gases phases.
Definition first_script := script [] [$"Calcite"] none [(None, 3%Q); (Some $"Calcite", 2%Q)] true.
Definition second_script := script [] [$"Calcite"] none [(None, 3%Q); (Some $"Calcite", 5%Q)] true.
Lemma calcite_sound us : NoDup (phases_of us) -> In $"Calcite" (phases_of us) -> forall pq gas k, sound (script [] [$"Calcite"] gas us k pq).
Proof.
  intros N I pq gas k. unfold sound, script. cbn [aqueous gaseous minerals unknowns]. split; [repeat constructor; cbn; intuition discriminate|].
  split; [constructor|]. split; [repeat constructor; intros []|]. split; [exact N|]. intros p [<-|[]]. exact I.
Qed.
Theorem C137_second_refuted : exists run1 run2 pq o1 o2, sound (run1 pq) /\ sound (run2 (o_pq o1)) /\
  execute run1 pq = Ok o1 /\ state_of (run1 pq) o1 /\ execute run2 (o_pq o1) = Ok o2 /\ ~ state_of (run2 (o_pq o1)) o2.
Proof.
  destruct (C137_state_partial first_script blank) as (o1 & E1 & S1).
  { apply calcite_sound; [repeat constructor; intros []|left; reflexivity]. }
  { intros p []. } { intros p [<-|[]]. vm_compute. discriminate. }
  exists first_script, second_script, blank, o1.
  assert (X1 : o_n o1 = [55; 1; 2]%Q) by (vm_compute in E1; injection E1 as <-; reflexivity).
  destruct (execute_ok second_script (o_pq o1)) as (o2 & E2 & _ & _ & C2 & _). exists o2.
  split; [apply calcite_sound; [repeat constructor; intros []|left; reflexivity]|].
  split; [apply calcite_sound; [repeat constructor; intros []|left; reflexivity]|].
  split; [exact E1|]. split; [exact S1|]. split; [exact E2|].
  assert (X2 : o_n o2 = [55; 1; 2]%Q) by (rewrite C2; vm_compute in E1; injection E1 as <-; vm_compute; reflexivity).
  intros (_ & _ & Da & Dg & Dm & a & g & m & (R & Ra & Rg & Rm) & _ & _ & M). rewrite X2 in R. rewrite Da in Ra. rewrite Dg in Rg. rewrite Dm in Rm.
  cbn in Ra, Rg, Rm. destruct g; [|discriminate]. destruct m as [|[p x] [|]]; try discriminate. injection Rm as ->.
  destruct a as [|[s1 y1] [|[s2 y2] [|]]]; try discriminate. cbn in R. injection R as _ _ <-.
  specialize (M $"Calcite" 2%Q (or_introl eq_refl)). unfold in_assemblage, second_script, script in M. cbn in M.
  destruct M as [M|[M|[]]]; [discriminate M|]. injection M as M. discriminate M.
Qed.
Print Assumptions C137_second_refuted.

(* A gas that is in the assemblage as well is counted twice. *)
Definition both := script [$"CO2(g)"] [$"CO2(g)"] (fun _ => 3%Q) [(Some $"CO2(g)", 1%Q)] false.
Theorem C137_both_refuted : exists run pq o, sound (run pq) /\ execute run pq = Ok o /\ ~ state_of (run pq) o /\
  exists g m, gaseous (run pq) = [g] /\ minerals (run pq) = [m] /\ g = m /\ moles_x (run pq) g = 3%Q /\ in_assemblage (run pq) m 1 /\
    o_n o = [55; 1; 3; 3]%Q.
Proof.
  destruct (execute_ok both blank) as (o & E & _ & _ & C & _). exists both, blank, o.
  assert (X : o_n o = [55; 1; 3; 3]%Q) by (rewrite C; vm_compute; reflexivity).
  split; [|split; [exact E|split]].
  - unfold sound, both, script. cbn [aqueous gaseous minerals unknowns]. split; [repeat constructor; cbn; intuition discriminate|].
    split; [repeat constructor; intros []|]. split; [repeat constructor; intros []|]. split; [repeat constructor; intros []|].
    intros p [<-|[]]. left. reflexivity.
  - intros (_ & _ & Da & Dg & Dm & a & g & m & (R & Ra & Rg & Rm) & _ & _ & M). rewrite X in R. rewrite Da in Ra. rewrite Dg in Rg. rewrite Dm in Rm.
    cbn in Ra, Rg, Rm. destruct g as [|[q y] [|]]; try discriminate. destruct m as [|[p x] [|]]; try discriminate. injection Rm as ->.
    destruct a as [|[s1 y1] [|[s2 y2] [|]]]; try discriminate. cbn in R. injection R as _ _ _ <-.
    specialize (M $"CO2(g)" 3%Q (or_introl eq_refl)). unfold in_assemblage, both, script in M. cbn in M. destruct M as [M|[]]. injection M as M. discriminate M.
  - exists $"CO2(g)", $"CO2(g)". repeat split; try reflexivity; [left; reflexivity|exact X].
Qed.
Print Assumptions C137_both_refuted.

(* A gas phase that is gone gives its gas the amount in the assemblage. *)
Definition gone := script [$"CO2(g)"] [$"CO2(g)"] none [(Some $"CO2(g)", 1%Q)] false.
Theorem C137_gone_refuted : exists run pq o, sound (run pq) /\ execute run pq = Ok o /\ gaseous (run pq) = [$"CO2(g)"] /\
  moles_x (run pq) $"CO2(g)" = 0%Q /\ o_n o = [55; 1; 1; 1]%Q.
Proof.
  destruct (execute_ok gone blank) as (o & E & _ & _ & C & _). exists gone, blank, o. split; [|split; [exact E|split; [reflexivity|split; [reflexivity|]]]].
  - unfold sound, gone, script. cbn [aqueous gaseous minerals unknowns]. split; [repeat constructor; cbn; intuition discriminate|].
    split; [repeat constructor; intros []|]. split; [repeat constructor; intros []|]. split; [repeat constructor; intros []|].
    intros p [<-|[]]. left. reflexivity.
  - rewrite C. vm_compute. reflexivity.
Qed.
Print Assumptions C137_gone_refuted.

(* ---- critical properties ---- *)
(* Three numbers of a gas, each kept if not zero and else taken from the table; other gases and
   phases keep theirs. *)
Definition kept_or (own tab new : Q) : Prop := (~ (own == 0)%Q -> new = own) /\ ((own == 0)%Q -> new = tab).
Lemma kept_or_if own tab : kept_or own tab (if Qeq_bool own 0 then tab else own).
Proof.
  split; intro H.
  - destruct (Qeq_bool own 0) eqn:E; [apply Qeq_bool_iff in E; contradiction|reflexivity].
  - rewrite (proj2 (Qeq_bool_iff _ _) H). reflexivity.
Qed.
Lemma fold_completed l : NoDup l -> forall f x,
  fold_left (fun f g => fun x => if str_eqb x g then completed (f g) g else f x) l f x =
  if contains str_eqb l x then completed (f x) x else f x.
Proof.
  induction l as [|g l IH]; intros N f x; cbn [fold_left]; [reflexivity|]. inversion N; subst. rewrite IH by assumption.
  destruct (str_eqb x g) eqn:E.
  - apply str_eqb_eq in E. subst x. rewrite (proj2 (contains_str_false _ _) H1), (proj2 (contains_str (g :: l) g)); [reflexivity|left; reflexivity].
  - apply str_eqb_neq in E. destruct (contains str_eqb l x) eqn:C.
    + apply contains_str in C. rewrite (proj2 (contains_str (g :: l) x)); [reflexivity|right; exact C].
    + apply contains_str_false in C. rewrite (proj2 (contains_str_false (g :: l) x)); [reflexivity|]. intros [->|I]; [apply E; reflexivity|contradiction].
Qed.

Lemma critical_after run pq o : execute run pq = Ok o -> critical (o_pq o) = critical (initializeCritical (run pq)).
Proof. intro E. unfold execute in E. destruct (initialize_ok (initializeCritical (run pq))) as (o' & E' & _ & _ & _ & _ & _ & _ & _ & C & _). rewrite E in E'. injection E' as <-. exact C. Qed.

Theorem C137_critical_partial : forall run pq o, sound (run pq) -> execute run pq = Ok o -> forall g tc pc om,
  critical (run pq) g = (tc, pc, om) ->
  (forall t p w, In g (gaseous (run pq)) -> In (g, (t, p, w)) critical_properties ->
     exists tc' pc' om', critical (o_pq o) g = (tc', pc', om') /\ kept_or tc t tc' /\
       kept_or pc (p * (986923267 # 1000000000))%Q pc' /\ kept_or om w om') /\
  (~ In g (gaseous (run pq)) \/ ~ In g (map fst critical_properties) -> critical (o_pq o) g = (tc, pc, om)).
Proof.
  intros run pq o (_ & NG & _) E g tc pc om H. rewrite (critical_after _ _ _ E). cbn [initializeCritical critical].
  rewrite (fold_completed _ NG). split.
  - intros t p w I J. rewrite (proj2 (contains_str _ _) I), H. unfold completed.
    assert (L : lookup critical_properties g = Some (t, p, w)).
    { assert (D : NoDup (map fst critical_properties)) by (vm_compute; repeat constructor; cbn; intuition discriminate).
      revert J D. generalize critical_properties. intro l. induction l as [|[k v] l IH]; intros J D; [destruct J|]. cbn [lookup].
      cbn in D. inversion D; subst. destruct J as [J|J]; [injection J as -> ->; rewrite str_eqb_refl; reflexivity|].
      rewrite (proj2 (str_eqb_neq g k)); [auto|]. intros ->. apply H2. exact (in_map fst _ _ J). }
    rewrite L. exists (if Qeq_bool tc 0 then t else tc), (if Qeq_bool pc 0 then convertBarToAtm p else pc), (if Qeq_bool om 0 then w else om).
    split; [reflexivity|]. split; [apply kept_or_if|]. split; apply kept_or_if.
  - intro D. destruct (contains str_eqb (gaseous (run pq)) g) eqn:C; [|exact H]. apply contains_str in C. destruct D as [D|D]; [contradiction|].
    rewrite H. unfold completed. assert (L : lookup critical_properties g = None); [|rewrite L; reflexivity].
    revert D. generalize critical_properties. intro l. induction l as [|[k v] l IH]; intro D; [reflexivity|]. cbn [lookup]. cbn in D.
    rewrite (proj2 (str_eqb_neq g k)); [apply IH; tauto|intros ->; tauto].
Qed.
Print Assumptions C137_critical_partial.

(* So the gases of the table always have a positive critical temperature and pressure. *)
Theorem C137_positive_partial : forall run pq o g tc pc om, sound (run pq) -> execute run pq = Ok o ->
  critical (run pq) g = (tc, pc, om) -> (0 <= tc)%Q -> (0 <= pc)%Q -> In g (gaseous (run pq)) -> In g (map fst critical_properties) ->
  exists tc' pc' om', critical (o_pq o) g = (tc', pc', om') /\ (0 < tc')%Q /\ (0 < pc')%Q.
Proof.
  intros run pq o g tc pc om S E H A B I J. destruct (C137_critical_partial run pq o S E g tc pc om H) as (K & _).
  apply in_map_iff in J as ([g' [[t p] w]] & Jg & J). cbn in Jg. subst g'. destruct (K t p w I J) as (tc' & pc' & om' & E' & (T1 & T2) & (P1 & P2) & _).
  assert (Z : (0 < t)%Q /\ (0 < p)%Q).
  { clear -J. unfold critical_properties in J. repeat (destruct J as [J|J]; [injection J as _ <- <- _; split; reflexivity|]). destruct J. }
  exists tc', pc', om'. split; [exact E'|]. split.
  - destruct (Qeq_dec tc 0) as [Y|Y]; [rewrite (T2 Y); apply Z|rewrite (T1 Y)]. apply Qle_lteq in A as [A|A]; [exact A|]. exfalso. apply Y. symmetry. exact A.
  - destruct (Qeq_dec pc 0) as [Y|Y]; [rewrite (P2 Y); destruct Z as (_ & Z); nra|rewrite (P1 Y)]. apply Qle_lteq in B as [B|B]; [exact B|]. exfalso. apply Y. symmetry. exact B.
Qed.
Print Assumptions C137_positive_partial.

Theorem C137_refuted : ~ C137_statement.
Proof.
  intro H. destruct C137_both_refuted as (run & pq & o & S & E & N & _). destruct (H run pq S) as (o' & E' & St).
  rewrite E in E'. injection E' as <-. contradiction.
Qed.
Print Assumptions C137_refuted.

(* A brine with carbon dioxide and calcite: everything as PHREEQC has it. *)
Definition whole := script [$"CO2(g)"; $"N2(g)"] [$"Calcite"] (fun p => if str_eqb p $"CO2(g)" then 3%Q else 0%Q) [(None, 4%Q); (Some $"Calcite", 2%Q)] false.
Example C137_nonvacuous : sound (whole blank) /\
  match execute whole blank with
  | Ok o => o_T o = 350%Q /\ (o_P o * pascal_to_atm == 2)%Q /\ o_n o = [55; 1; 3; 0; 2]%Q /\
      critical (o_pq o) $"N2(g)" = (1262 # 10, (340 # 10) * (986923267 # 1000000000), 38 # 1000)%Q /\ state_of (whole blank) o
  | _ => False
  end.
Proof.
  assert (S : sound (whole blank)).
  { unfold sound, whole, script. cbn [aqueous gaseous minerals unknowns]. split; [repeat constructor; cbn; intuition discriminate|].
    split; [repeat constructor; cbn; intuition discriminate|]. split; [repeat constructor; intros []|]. split; [repeat constructor; intros []|].
    intros p [<-|[]]. left. reflexivity. }
  split; [exact S|]. destruct (C137_state_partial whole blank S) as (o & E & St).
  { intros p [<-|[<-|[]]] [I|[]]; discriminate I. } { intros p [<-|[]]. vm_compute. discriminate. }
  rewrite E. split; [apply St|]. split; [apply St|]. split; [|split; [|exact St]].
  - destruct (execute_ok whole blank) as (o' & E' & _ & _ & C & _). rewrite E in E'. injection E' as <-. rewrite C. vm_compute. reflexivity.
  - rewrite (critical_after _ _ _ E). vm_compute. reflexivity.
Qed.
