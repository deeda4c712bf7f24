(* Property C136: the species of ThermoFun databases. *)
From Verif Require Import Base M_Strings M_Formula M_Chem M_Algorithms P_Algorithms M_System S_System P_System P_Phases
  P_Specs C_System M_ThermoFun.
Local Open Scope nat_scope.

(* ---- specification ---- *)
(* A file: its substances have distinct, non-empty symbols and known aggregate states, and
   the elements of their formulas have no negative molar mass. *)
Definition sound_file (parse : str -> list (TElement * Q)) (subs : list TSubstance) : Prop :=
  NoDup (map ts_symbol subs) /\
  (forall s, In s subs -> ts_symbol s <> [] /\ ts_class s <> Undefined /\
     forall e q, In (e, q) (parse (ts_formula s)) -> (0 <= te_mass e)%Q).

(* An element as in ThermoFun, its molar mass in kg/mol instead of g/mol. *)
Definition same_element (p : TElement * Q) (p' : Element * Q) : Prop :=
  el_symbol (fst p') = te_symbol (fst p) /\ el_name (fst p') = te_name (fst p) /\
  (1000 * el_mass (fst p') == te_mass (fst p))%Q /\ snd p' = snd p.

(* A species as the substance says, its aggregate state apart. *)
Definition same_substance (parse : str -> list (TElement * Q)) (s : TSubstance) (sp : Species) : Prop :=
  name sp = ts_symbol s /\ cf_str (formula sp) = ts_formula s /\ sp_substance sp = ts_name s /\ sp_charge sp = ts_charge s /\
  exists l, Selected (fun p => te_symbol (fst p) <> $"Zz") (parse (ts_formula s)) l /\ Forall2 same_element l (sp_elements sp).

(* A number and its derivative along (dT, dP), by the chain rule. *)
Definition follows (t : TScalar) (dT dP : Q) (r : real) : Prop :=
  (rval r == val t)%Q /\ (rder r == ddt t * dT + ddp t * dP)%Q.
Definition scaled (k : Q) (t : TScalar) : TScalar := mkTScalar (k * val t)%Q (k * ddt t)%Q (k * ddp t)%Q.
Definition same_props (o : TProps) (dT dP : Q) (r : StandardThermoProps) : Prop :=
  follows (gibbs_energy o) dT dP (G0 r) /\ follows (enthalpy o) dT dP (H0 r) /\
  follows (scaled (1 # 100000) (volume o)) dT dP (V0 r) /\
  follows (heat_capacity_cp o) dT dP (Cp0 r) /\ follows (heat_capacity_cv o) dT dP (Cv0 r).
(* The values alone. *)
Definition same_values (o : TProps) (r : StandardThermoProps) : Prop :=
  (rval (G0 r) == val (gibbs_energy o))%Q /\ (rval (H0 r) == val (enthalpy o))%Q /\
  (100000 * rval (V0 r) == val (volume o))%Q /\
  (rval (Cp0 r) == val (heat_capacity_cp o))%Q /\ (rval (Cv0 r) == val (heat_capacity_cv o))%Q.

Definition C136_statement : Prop := forall parse engine subs, sound_file parse subs ->
  exists db, fromFile parse subs = Ok db /\
  Forall2 (fun s sp => same_substance parse s sp /\ aggregateState sp = Ok (ts_class s)) subs (db_species db) /\
  forall s T P, In s subs -> exists r, standardModel engine subs s T P = Ok r /\
    same_props (engine (rval T) (rval P) (ts_symbol s)) (rder T) (rder P) r.

(* ---- the elements of a substance ---- *)
Lemma elements_loop_spec l : forall es, elements_loop l = Ok es ->
  exists k, Selected (fun p => te_symbol (fst p) <> $"Zz") l k /\ Forall2 same_element k es.
Proof.
  induction l as [|[e q] l IH]; intros es H; cbn [elements_loop] in H.
  - injection H as <-. exists []. split; constructor.
  - destruct (str_eqb (te_symbol e) $"Zz") eqn:E.
    + apply str_eqb_eq in E. destruct (IH _ H) as (k & A & B). exists k. split; [|exact B]. apply sel_skip; [|exact A]. cbn. auto.
    + apply str_eqb_neq in E. destruct (createElement e) as [c| |] eqn:C; cbn [bind] in H; try discriminate.
      destruct (elements_loop l) as [r| |]; cbn [omap bind] in H; try discriminate. injection H as <-.
      destruct (IH r eq_refl) as (k & A & B). exists ((e, q) :: k). split; [apply sel_take; [exact E|exact A]|].
      constructor; [|exact B]. unfold createElement in C. cbv zeta in C. destruct (Qle_bool 0 _); [|discriminate].
      injection C as <-. unfold same_element. cbn. split; [reflexivity|]. split; [reflexivity|]. split; [ring|reflexivity].
Qed.

Lemma elements_loop_total l : (forall e q, In (e, q) l -> (0 <= te_mass e)%Q) -> exists es, elements_loop l = Ok es.
Proof.
  induction l as [|[e q] l IH]; intro H; cbn [elements_loop]; [eexists; reflexivity|].
  destruct IH as (es & E); [intros e' q' I; eapply H; right; exact I|].
  destruct (str_eqb (te_symbol e) $"Zz"); [eexists; exact E|].
  unfold createElement. cbv zeta.
  assert (L : Qle_bool 0 (te_mass e * (1 # 1000)) = true).
  { apply Qle_bool_iff. apply Qmult_le_0_compat; [eapply H; left; reflexivity|discriminate]. }
  rewrite L. cbn [bind]. rewrite E. cbn [omap bind]. eexists; reflexivity.
Qed.

(* ---- adding a species with a new name ---- *)
(* The state a species is given when its own is not stored. *)
Definition settled (n : str) (u a : AggregateState) : Prop :=
  (u <> Undefined /\ a = u) \/
  (u = Undefined /\ exists b, identifyAggregateState n = Ok b /\ ((b <> Undefined /\ a = b) \/ (b = Undefined /\ a = Aqueous))).

Lemma addSpecies_new db s db' : ~ In (name s) (db_names db) -> addSpecies db s = Ok db' ->
  exists s' a, db_species db' = db_species db ++ [s'] /\ db_names db' = name s :: db_names db /\
    name s' = name s /\ kept s s' /\ aggregateState s' = Ok a /\ settled (name s) (sp_state s) a.
Proof.
  intros F H. unfold addSpecies in H. cbn [unique_name] in H. rewrite (proj2 (contains_str_false _ _) F) in H. cbn [bind] in H.
  rewrite str_eqb_refl in H. destruct (aggregateState s) as [a1| |] eqn:A1; cbn [bind] in H; try discriminate.
  set (s2 := match a1 with Undefined => with_state s Aqueous | _ => s end) in H.
  assert (N2 : name s2 = name s) by (unfold s2; destruct a1; reflexivity).
  assert (K2 : kept s s2) by (unfold s2, kept; destruct a1; cbn; auto 6).
  assert (A2 : exists a, aggregateState s2 = Ok a /\ settled (name s) (sp_state s) a).
  { unfold s2, settled. unfold aggregateState in A1 |- *. destruct (sp_state s) eqn:S;
      try (injection A1 as <-; cbn; rewrite S; eexists; split; [reflexivity|]; left; split; [discriminate|reflexivity]).
    destruct a1; cbn; rewrite ?S; try (rewrite A1; eexists; split; [reflexivity|]; right; split; [reflexivity|]; eexists; split; [reflexivity|]; left; split; [discriminate|reflexivity]).
    exists Aqueous. split; [reflexivity|]. right. split; [reflexivity|]. exists Undefined. split; [exact A1|]. right. auto. }
  destruct A2 as (a & A2 & A3). rewrite A2 in H. cbn [bind] in H. injection H as <-. exists s2, a. cbn.
  edestruct (fold_addElement_spec (map fst (sp_elements s2))) as (F1 & F2 & _). rewrite F1, F2, N2. cbn. auto 8.
Qed.

Lemma addSubstances_spec parse mem l : forall k db db', NoDup (map ts_symbol l) -> (forall s, In s l -> ts_symbol s <> []) ->
  (forall s, In s l -> ~ In (ts_symbol s) (db_names db)) -> addSubstances parse (fun k => Ok (mem k)) k db l = Ok db' ->
  exists sps, db_species db' = db_species db ++ sps /\ Forall2 (same_substance parse) l sps /\
    (forall i s sp, nth_error l i = Some s -> nth_error sps i = Some sp ->
       exists a, aggregateState sp = Ok a /\ settled (ts_symbol s) (mem (k + i)) a).
Proof.
  induction l as [|s l IH]; intros k db db' N E F H; cbn [addSubstances] in H.
  - injection H as <-. exists []. rewrite app_nil_r. split; [reflexivity|]. split; [constructor|]. intros [|i]; discriminate.
  - destruct (createSpecies parse (Ok (mem k)) s) as [sp| |] eqn:C; cbn [bind] in H; try discriminate.
    destruct (addSpecies db sp) as [db1| |] eqn:A; cbn [bind] in H; try discriminate.
    unfold createSpecies, createElements in C. cbn [bind] in C. destruct (elements_loop (parse (ts_formula s))) as [es| |] eqn:L; cbn [omap bind] in C; try discriminate.
    injection C as <-. destruct (elements_loop_spec _ _ L) as (ks & L1 & L2).
    assert (Nm : name (mkSpecies (ts_symbol s) (ts_formula s) (ts_name s) es (ts_charge s) (mem k) []) = ts_symbol s).
    { unfold name. cbn. destruct (ts_symbol s) eqn:Z; [|reflexivity]. destruct (E s); [left; reflexivity|exact Z]. }
    destruct (addSpecies_new _ _ _ ltac:(rewrite Nm; apply F; left; reflexivity) A) as (s' & a & B1 & B2 & B3 & B4 & B5 & B6).
    rewrite Nm in B2, B3, B6. cbn in B6. inversion N; subst.
    destruct (IH (S k) db1 db') as (sps & D1 & D2 & D3); auto.
    { intros t I. apply E. right; exact I. }
    { intros t I. rewrite B2. intros [J|J]; [|eapply F; [right; exact I|exact J]]. apply H2. rewrite J. apply in_map. exact I. }
    exists (s' :: sps). split; [rewrite D1, B1, <- app_assoc; reflexivity|]. split.
    + constructor; [|exact D2]. destruct B4 as (K1 & K2 & K3 & K4 & _). cbn in *. unfold same_substance.
      split; [exact B3|]. split; [unfold formula; cbn; exact K1|]. split; [exact K2|]. split; [exact K4|].
      exists ks. split; [exact L1|]. rewrite K3. exact L2.
    + intros [|i] t tp; cbn.
      * intros [= <-] [= <-]. exists a. rewrite Nat.add_0_r. auto.
      * intros I J. rewrite <- plus_n_Sm. exact (D3 i t tp I J).
Qed.

(* Whatever the memory holds, the species are the substances of the file, one by one and in
   order, aggregate states apart. *)
Theorem C136_species_partial : forall parse mem subs db, sound_file parse subs -> fromFileOn parse mem subs = Ok db ->
  Forall2 (same_substance parse) subs (db_species db).
Proof.
  intros parse mem subs db (N & H) E.
  destruct (addSubstances_spec parse mem subs 0 emptyDB db N (fun s I => proj1 (H s I)) (fun s I J => J) E) as (sps & A & B & _).
  rewrite A. exact B.
Qed.
Print Assumptions C136_species_partial.

(* Hence their molar masses, in kg/mol, with the electrons of the charge and without "Zz". *)
Lemma selected_mass l k es : Selected (fun p => te_symbol (fst p) <> $"Zz") l k -> Forall2 same_element k es ->
  (1000 * Qsum (map (fun p => el_mass (fst p) * snd p) es) ==
   Qsum (map (fun p => if str_eqb (te_symbol (fst p)) $"Zz" then 0 else te_mass (fst p) * snd p) l))%Q.
Proof.
  intro S. revert es. induction S as [|x l k P S IH|x l k P S IH]; intros es F.
  - inversion F; subst. reflexivity.
  - inversion F; subst. destruct H1 as (_ & _ & M & Q). cbn [map Qsum]. rewrite <- (IH _ H3).
    rewrite (proj2 (str_eqb_neq _ _) P), <- M, Q. ring.
  - cbn [map Qsum]. rewrite <- (IH _ F). assert (X : te_symbol (fst x) = $"Zz").
    { destruct (str_eqb (te_symbol (fst x)) $"Zz") eqn:Z; [apply str_eqb_eq in Z; exact Z|]. apply str_eqb_neq in Z. contradiction. }
    rewrite X, str_eqb_refl. ring.
Qed.

Theorem C136_mass_partial : forall parse mem subs db i s sp, sound_file parse subs -> fromFileOn parse mem subs = Ok db ->
  nth_error subs i = Some s -> nth_error (db_species db) i = Some sp ->
  (1000 * (molarMass sp + ts_charge s * molarMassElectron) ==
   Qsum (map (fun p => if str_eqb (te_symbol (fst p)) $"Zz" then 0 else te_mass (fst p) * snd p) (parse (ts_formula s))))%Q.
Proof.
  intros parse mem subs db i s sp F E I J. pose proof (C136_species_partial _ _ _ _ F E) as G.
  assert (X : same_substance parse s sp).
  { clear -G I J. revert i I J. induction G as [|x y l r P G IH]; intros [|i]; cbn; try discriminate.
    - intros [= <-] [= <-]. exact P.
    - apply IH. }
  destruct X as (_ & _ & _ & Q & l & S & L). rewrite <- (selected_mass _ _ _ S L). unfold molarMass. rewrite elements_mass_sum, Q. ring.
Qed.
Print Assumptions C136_mass_partial.

(* The database is one that public calls make: distinct names, one element for each symbol,
   every element of every species present (C16_database). *)
Lemma addSubstances_run parse mem l : forall k db db', addSubstances parse (fun k => Ok (mem k)) k db l = Ok db' -> exists ops, dbrun db ops = Ok db'.
Proof.
  induction l as [|s l IH]; intros k db db' H; cbn [addSubstances] in H.
  - injection H as <-. exists []. reflexivity.
  - destruct (createSpecies parse (Ok (mem k)) s) as [sp| |]; cbn [bind] in H; try discriminate.
    destruct (addSpecies db sp) as [db1| |] eqn:A; cbn [bind] in H; try discriminate.
    destruct (IH _ _ _ H) as (ops & R). exists (OpSpecies sp :: ops). cbn [dbrun dbstep]. rewrite A. exact R.
Qed.

Theorem C136_elements_partial : forall parse mem subs db, sound_file parse subs -> fromFileOn parse mem subs = Ok db ->
  NoDup (map el_symbol (db_elements db)) /\
  (forall s e q, In s subs -> In (e, q) (parse (ts_formula s)) -> te_symbol e <> $"Zz" ->
     exists e', In e' (db_elements db) /\ el_symbol e' = te_symbol e).
Proof.
  intros parse mem subs db F E. destruct (addSubstances_run _ _ _ _ _ _ E) as (ops & R).
  destruct (C16_database db (ex_intro _ ops R)) as (_ & D & C & _). split; [exact D|].
  intros s e q I J Z. pose proof (C136_species_partial _ _ _ _ F E) as G.
  assert (X : exists sp, In sp (db_species db) /\ same_substance parse s sp).
  { clear -G I. induction G as [|x y l r P G IH]; [destruct I|]. destruct I as [<-|I]; [exists y; split; [left; reflexivity|exact P]|].
    destruct (IH I) as (sp & A & B). exists sp. split; [right; exact A|exact B]. }
  destruct X as (sp & K & (_ & _ & _ & _ & l & S & L)).
  assert (Y : In (e, q) l).
  { clear -S J Z. induction S as [|x l k P S IH|x l k P S IH]; [destruct J| |]; destruct J as [->|J]; auto; [left; reflexivity|right; auto|cbn in P; contradiction]. }
  assert (W : exists p', In p' (sp_elements sp) /\ el_symbol (fst p') = te_symbol e).
  { clear -L Y. induction L as [|x y l r P L IH]; [destruct Y|]. destruct Y as [->|Y].
    - exists y. split; [left; reflexivity|]. destruct P as (P & _). exact P.
    - destruct (IH Y) as (p & A & B). exists p. split; [right; exact A|exact B]. }
  destruct W as ([e' q'] & W & V). destruct (C sp e' q' K W) as (e2 & A & B). exists e2. split; [exact A|]. rewrite B. exact V.
Qed.
Print Assumptions C136_elements_partial.

(* Loading succeeds if no memory reads as Undefined. *)
Theorem C136_total_partial : forall parse mem subs, sound_file parse subs -> (forall k, mem k <> Undefined) ->
  exists db, fromFileOn parse mem subs = Ok db.
Proof.
  intros parse mem subs (_ & H) M. unfold fromFileOn. generalize 0 emptyDB. revert H.
  induction subs as [|s l IH]; intros H k db; cbn [addSubstances]; [eexists; reflexivity|].
  destruct (elements_loop_total (parse (ts_formula s))) as (es & L); [apply H; left; reflexivity|].
  unfold createSpecies, createElements. cbn [bind]. rewrite L. cbn [omap bind].
  match goal with |- context [addSpecies db ?x] => destruct (addSpecies_total db x) as (db1 & A); [cbn; apply M|] end.
  rewrite A. cbn [bind]. apply IH. intros t I. apply H. right. exact I.
Qed.
Print Assumptions C136_total_partial.

(* Refusal: a negative molar mass of an element other than "Zz". *)
Theorem C136_negative_partial : forall parse mem s l e q, In (e, q) (parse (ts_formula s)) -> te_symbol e <> $"Zz" -> (te_mass e < 0)%Q ->
  fromFileOn parse mem (s :: l) = Err.
Proof.
  intros parse mem s l e q I Z M. unfold fromFileOn. cbn [addSubstances]. unfold createSpecies, createElements.
  assert (X : elements_loop (parse (ts_formula s)) = Err); [|rewrite X; reflexivity].
  revert I. generalize (parse (ts_formula s)). intro p. induction p as [|[c d] p IH]; intros []; cbn [elements_loop].
  - injection H as -> ->. rewrite (proj2 (str_eqb_neq _ _) Z). unfold createElement. cbv zeta.
    destruct (Qle_bool 0 (te_mass e * (1 # 1000))) eqn:L; [|reflexivity]. apply Qle_bool_iff in L. exfalso.
    apply (Qlt_not_le _ _ M). apply Qmult_le_r with (z := (1 # 1000)%Q); [reflexivity|]. rewrite Qmult_0_l. exact L.
  - destruct (str_eqb (te_symbol c) $"Zz"); [auto|]. unfold createElement. cbv zeta. destruct (Qle_bool 0 _); [|reflexivity].
    cbn [bind]. rewrite (IH H). reflexivity.
Qed.
Print Assumptions C136_negative_partial.

(* ---- aggregate states ---- *)
(* What the states really are: what the memory holds, or, where that reads as Undefined, the
   suffix or charge in the symbol, and else Aqueous. *)
Theorem C136_states_partial : forall parse mem subs db i s sp, sound_file parse subs -> fromFileOn parse mem subs = Ok db ->
  nth_error subs i = Some s -> nth_error (db_species db) i = Some sp ->
  exists a, aggregateState sp = Ok a /\ settled (ts_symbol s) (mem i) a.
Proof.
  intros parse mem subs db i s sp (N & H) E I J.
  destruct (addSubstances_spec parse mem subs 0 emptyDB db N (fun s I => proj1 (H s I)) (fun s I J => J) E) as (sps & A & _ & C).
  cbn in A. rewrite A in J. exact (C i s sp I J).
Qed.
Print Assumptions C136_states_partial.

(* The states of the file are not read: another file that differs in them alone gives the same database. *)
Definition with_class (c : TSubstance -> AggregateState) (s : TSubstance) : TSubstance :=
  mkTSubstance (ts_symbol s) (ts_formula s) (ts_name s) (ts_charge s) (c s).
Theorem C136_blind_refuted : forall parse mem subs c, fromFileOn parse mem (map (with_class c) subs) = fromFileOn parse mem subs.
Proof.
  intros parse mem subs c. unfold fromFileOn. generalize 0 emptyDB. induction subs as [|s l IH]; intros k db; [reflexivity|].
  cbn [map addSubstances]. unfold createSpecies, createElements. cbn.
  destruct (elements_loop (parse (ts_formula s))) as [es| |]; cbn [omap bind]; try reflexivity.
  destruct (addSpecies db _) as [d| |]; cbn [bind]; auto.
Qed.
Print Assumptions C136_blind_refuted.

(* So no contents of the memory give every file its states. *)
Definition eC12 : TElement := mkTElement $"C" $"Carbon" 12.
Definition eO16 : TElement := mkTElement $"O" $"Oxygen" 16.
Definition eCa : TElement := mkTElement $"Ca" $"Calcium" 40.
Definition eZz : TElement := mkTElement $"Zz" $"Charge" 0.
Definition sample_parse (f : str) : list (TElement * Q) :=
  if str_eqb f $"CaCO3" then [(eC12, 1%Q); (eCa, 1%Q); (eO16, 3%Q)]
  else if str_eqb f $"CO3-2" then [(eC12, 1%Q); (eO16, 3%Q); (eZz, (-2)%Q)] else [(eC12, 1%Q); (eO16, 2%Q)].
Definition CO2gas : TSubstance := mkTSubstance $"CO2" $"CO2" $"Carbon dioxide" 0 Gas.
Definition CO3ion : TSubstance := mkTSubstance $"CO3-2" $"CO3-2" $"Carbonate" (-2) Aqueous.
Definition calcite : TSubstance := mkTSubstance $"Calcite" $"CaCO3" $"Calcite" 0 CrystallineSolid.
Definition sample_subs := [CO2gas; CO3ion; calcite].
Lemma sample_sound c : (forall s, In s sample_subs -> c s <> Undefined) -> sound_file sample_parse (map (with_class c) sample_subs).
Proof.
  intro C. split.
  - cbn. repeat constructor; cbn; intuition discriminate.
  - intros s I. split; [|split].
    + destruct I as [<-|[<-|[<-|[]]]]; discriminate.
    + destruct I as [<-|[<-|[<-|[]]]]; apply C; cbn; auto.
    + destruct I as [<-|[<-|[<-|[]]]]; cbn; intros e q J; repeat (destruct J as [J|J]; [injection J as <- <-; discriminate|]); destruct J.
Qed.

Theorem C136_states_refuted : forall mem, exists parse subs, sound_file parse subs /\
  forall db, fromFileOn parse mem subs = Ok db -> exists i s sp a, nth_error subs i = Some s /\ nth_error (db_species db) i = Some sp /\
    aggregateState sp = Ok a /\ a <> ts_class s.
Proof.
  intro mem. set (x := if state_eqb (mem 2) Undefined then Aqueous else mem 2).
  set (c := fun _ : TSubstance => if state_eqb x Gas then Solid else Gas).
  exists sample_parse, (map (with_class c) sample_subs). pose proof (sample_sound c) as S.
  assert (U : forall s, In s sample_subs -> c s <> Undefined) by (intros s _; unfold c; destruct (state_eqb x Gas); discriminate).
  split; [exact (S U)|]. intros db E. pose proof (C136_species_partial _ _ _ _ (S U) E) as F.
  cbn [map sample_subs] in F. destruct (db_species db) as [|s1 [|s2 [|s3 r3]]] eqn:HD; try (exfalso; inversion F as [|? ? ? ? _ F1]; subst; inversion F1 as [|? ? ? ? _ F2]; subst; inversion F2; fail); try (exfalso; inversion F as [|? ? ? ? _ F1]; subst; inversion F1; fail); try (exfalso; inversion F; fail).
  destruct (C136_states_partial sample_parse mem (map (with_class c) sample_subs) db 2 (with_class c calcite) s3 (S U) E eq_refl) as (a & A & T); [rewrite ?HD; reflexivity|].
  exists 2, (with_class c calcite), s3, a. split; [reflexivity|]. split; [rewrite ?HD; reflexivity|]. split; [exact A|].
  assert (X : a = x).
  { destruct T as [(T & ->)|(T & b & B & D)].
    - unfold x. destruct (state_eqb (mem 2) Undefined) eqn:Z; [apply state_eqb_eq in Z; contradiction|reflexivity].
    - unfold x. rewrite T. cbn [state_eqb AggregateState_beq]. assert (b = Undefined) by (vm_compute in B; congruence). subst b.
      destruct D as [(D & _)|(_ & ->)]; [contradiction|reflexivity]. }
  rewrite X. cbn. unfold c. destruct x; discriminate.
Qed.
Print Assumptions C136_states_refuted.

(* By the rules of C++ no file with a substance can be loaded at all. *)
Theorem C136_undefined_refuted : forall parse s subs, fromFile parse (s :: subs) = UB.
Proof. reflexivity. Qed.
Print Assumptions C136_undefined_refuted.

(* ---- standard properties ---- *)
Theorem C136_values_partial : forall engine subs s T P, In s subs -> exists r, standardModel engine subs s T P = Ok r /\
  same_values (engine (rval T) (rval P) (ts_symbol s)) r /\
  (rder (G0 r) == 0)%Q /\ (rder (H0 r) == 0)%Q /\ (rder (V0 r) == 0)%Q /\ (rder (Cp0 r) == 0)%Q /\ (rder (Cv0 r) == 0)%Q.
Proof.
  intros engine subs s T P I. unfold standardModel, props.
  rewrite (proj2 (contains_str _ _) (in_map ts_symbol _ _ I)). eexists. split; [reflexivity|].
  unfold same_values. cbn. repeat split; try reflexivity. ring.
Qed.
Print Assumptions C136_values_partial.

(* A species not in the file has no properties. *)
Theorem C136_absent_partial : forall engine subs T P x, ~ In x (map ts_symbol subs) -> props engine subs T P x = Err.
Proof. intros engine subs T P x N. unfold props. rewrite (proj2 (contains_str_false _ _) N). reflexivity. Qed.
Print Assumptions C136_absent_partial.

(* The derivatives are right exactly when they vanish. *)
Theorem C136_derivatives_partial : forall engine subs s T P r, In s subs -> standardModel engine subs s T P = Ok r ->
  let o := engine (rval T) (rval P) (ts_symbol s) in
  (same_props o (rder T) (rder P) r <->
   forall t, In t [gibbs_energy o; enthalpy o; volume o; heat_capacity_cp o; heat_capacity_cv o] ->
     (ddt t * rder T + ddp t * rder P == 0)%Q).
Proof.
  intros engine subs s T P r I E o. unfold standardModel, props in E. rewrite (proj2 (contains_str _ _) (in_map ts_symbol _ _ I)) in E.
  cbv zeta in E. fold o in E. injection E as <-. unfold same_props, follows, convertProps, scaled. cbn [G0 H0 V0 Cp0 Cv0 ofdouble rval rder val ddt ddp]. split.
  - intros ((_ & A) & (_ & B) & (_ & C) & (_ & D) & (_ & F)) t J.
    destruct J as [<-|[<-|[<-|[<-|[<-|[]]]]]]; try (symmetry; assumption).
    assert (X : (ddt (volume o) * rder T + ddp (volume o) * rder P == 100000 * ((1 # 100000) * ddt (volume o) * rder T + (1 # 100000) * ddp (volume o) * rder P))%Q) by ring.
    rewrite X, <- C. reflexivity.
  - intro H. repeat split; try reflexivity; try (symmetry; apply H; cbn; auto 6; fail).
    + ring.
    + assert (X : ((1 # 100000) * ddt (volume o) * rder T + (1 # 100000) * ddp (volume o) * rder P == (1 # 100000) * (ddt (volume o) * rder T + ddp (volume o) * rder P))%Q) by ring.
      rewrite X, (H (volume o)); [reflexivity|cbn; auto].
Qed.
Print Assumptions C136_derivatives_partial.

(* A Gibbs energy that falls with temperature. *)
Definition sample_engine (T P : Q) (_ : str) : TProps :=
  mkTProps (mkTScalar (-1000 - 200 * T) (-200) 0) (mkTScalar (-1000) 0 0) (mkTScalar (37 # 10) 0 0) (mkTScalar 80 0 0) (mkTScalar 80 0 0).
Theorem C136_derivatives_refuted : exists engine subs s T P r, In s subs /\ standardModel engine subs s T P = Ok r /\
  ~ same_props (engine (rval T) (rval P) (ts_symbol s)) (rder T) (rder P) r.
Proof.
  exists sample_engine, sample_subs, calcite, (mkReal 300 1), (mkReal 100000 0). eexists. split; [right; right; left; reflexivity|].
  split; [vm_compute; reflexivity|]. intros ((_ & A) & _). vm_compute in A. discriminate A.
Qed.
Print Assumptions C136_derivatives_refuted.

Theorem C136_refuted : ~ C136_statement.
Proof.
  intro H. destruct (H sample_parse sample_engine sample_subs) as (db & E & _); [|discriminate E].
  exact (sample_sound ts_class ltac:(intros s [<-|[<-|[<-|[]]]]; discriminate)).
Qed.
Print Assumptions C136_refuted.

(* A file of a gas, an ion and a mineral; with the memory zeroed all three are gases, and with
   Undefined in it all three are aqueous. *)
Example C136_nonvacuous :
  sound_file sample_parse sample_subs /\
  match fromFileOn sample_parse (fun _ => Gas) sample_subs with
  | Ok db => map name (db_species db) = [$"CO2"; $"CO3-2"; $"Calcite"] /\
      map el_symbol (db_elements db) = [$"C"; $"O"; $"Ca"] /\
      map symbols (db_species db) = [[$"C"; $"O"]; [$"C"; $"O"]; [$"C"; $"Ca"; $"O"]] /\
      map sp_charge (db_species db) = [0; -2; 0]%Q /\
      map name (speciesWithAggregateState db Gas) = [$"CO2"; $"CO3-2"; $"Calcite"]
  | _ => False
  end /\
  match fromFileOn sample_parse (fun _ => Undefined) sample_subs with
  | Ok db => map name (speciesWithAggregateState db Aqueous) = [$"CO2"; $"CO3-2"; $"Calcite"]
  | _ => False
  end /\
  match standardModel sample_engine sample_subs calcite (mkReal 300 1) (mkReal 100000 0) with
  | Ok r => (rval (G0 r) == -61000 /\ rval (V0 r) == 37 # 1000000 /\ rder (G0 r) == 0)%Q
  | _ => False
  end.
Proof.
  split; [exact (sample_sound ts_class ltac:(intros s [<-|[<-|[<-|[]]]]; discriminate))|].
  split; [vm_compute; repeat split; reflexivity|]. split; [vm_compute; reflexivity|]. vm_compute. repeat split; reflexivity.
Qed.
