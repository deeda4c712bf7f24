(* Properties C16, C18 - C22, C65 - C68: databases, species lists, phases and
   chemical systems. *)
From Coq Require Import Sorted Permutation.
From Verif Require Import Base M_Strings S_Strings P_Strings M_Formula P_Formula M_Chem M_Algorithms P_Algorithms
  M_System S_System P_System P_Phases.

(* Databases obtained by some history of public calls. *)
Definition reachable (db : Database) : Prop := exists ops, dbrun emptyDB ops = Ok db.
Lemma reachable_inv db : reachable db -> inv db.
Proof. intros (ops & H). exact (dbrun_inv ops emptyDB db empty_inv H). Qed.

(* Sample elements and species. *)
Definition eC := mkElem $"C" $"Carbon" (12 # 1000) [].
Definition eO := mkElem $"O" $"Oxygen" (16 # 1000) [].
Definition eH := mkElem $"H" $"Hydrogen" (1 # 1000) [].
Definition sCO2g := mkSpecies $"CO2(g)" $"CO2" $"CO2" [(eC, 1%Q); (eO, 2%Q)] 0%Q Gas [$"carbon"].
Definition sCO2 := mkSpecies $"CO2" $"CO2" $"CO2" [(eC, 1%Q); (eO, 2%Q)] 0%Q Undefined [$"carbon"; $"neutral"].
Definition sH := mkSpecies $"H+" $"H+" $"H+" [(eH, 1%Q)] 1%Q Undefined [$"ion"].
Definition sH2O := mkSpecies $"H2O" $"H2O" $"H2O" [(eH, 2%Q); (eO, 1%Q)] 0%Q Undefined [].

(* ---- C16: a database has distinct names and symbols ---- *)
Theorem C16_database : forall db, reachable db ->
  NoDup (map name (db_species db)) /\
  NoDup (map el_symbol (db_elements db)) /\
  (forall s e q, In s (db_species db) -> In (e, q) (sp_elements s) ->
     exists e', In e' (db_elements db) /\ el_symbol e' = el_symbol e) /\
  (forall s, In s (db_species db) -> exists a, aggregateState s = Ok a /\ a <> Undefined) /\
  (forall a, Selected (fun s => aggregateState s = Ok a) (db_species db) (speciesWithAggregateState db a)).
Proof.
  intros db R. pose proof (reachable_inv db R) as I. pose proof (fun a => group_Selected db a I) as G.
  destruct I as (_ & B & _ & D & E & F & _). repeat split; auto.
  intros s e q I J. specialize (E s (e, q) I J). apply in_map_iff in E as (e' & E & K). exists e'. auto.
Qed.
Print Assumptions C16_database.

(* Adding a species appends one species, renamed with the least number of "!"
   that makes its name new, keeps all others and never removes elements. *)
Theorem C16_add : forall db s db', reachable db -> addSpecies db s = Ok db' -> exists k s' es,
  db_species db' = db_species db ++ [s'] /\ db_elements db' = db_elements db ++ es /\
  name s' = bangs (name s) k /\
  ~ In (name s') (map name (db_species db)) /\ (forall j, j < k -> In (bangs (name s) j) (map name (db_species db))) /\
  sp_formula s' = sp_formula s /\ sp_substance s' = sp_substance s /\ sp_elements s' = sp_elements s /\
  sp_charge s' = sp_charge s /\ sp_tags s' = sp_tags s.
Proof.
  intros db s db' R H. destruct (reachable_inv db R) as (A & _).
  destruct (addSpecies_spec db s db' H) as (k & s' & E1 & (es & E2) & _ & N & F & L & K & _).
  exists k, s', es. split; [exact E1|]. split; [exact E2|]. split; [exact N|]. split; [rewrite <- A; exact F|].
  split; [|exact K]. intros j J. apply A, L. exact J.
Qed.
Print Assumptions C16_add.

(* A species with a stored aggregate state can always be added. *)
Theorem C16_add_total : forall db s, sp_state s <> Undefined -> exists db', addSpecies db s = Ok db'.
Proof. exact addSpecies_total. Qed.
Print Assumptions C16_add_total.

Definition sample_ops := [OpElement eH; OpSpecies sCO2g; OpSpecies sCO2; OpSpecies sH; OpSpecies sCO2; OpSpecies sCO2; OpSpecies sH2O].
Definition sampleDB : Database := match dbrun emptyDB sample_ops with Ok db => db | _ => emptyDB end.
Lemma sampleDB_reachable : reachable sampleDB.
Proof. exists sample_ops. vm_compute. reflexivity. Qed.
Example C16_nonvacuous : reachable sampleDB /\
  map name (db_species sampleDB) = [$"CO2(g)"; $"CO2"; $"H+"; $"CO2!"; $"CO2!!"; $"H2O"] /\
  map el_symbol (db_elements sampleDB) = [$"H"; $"C"; $"O"] /\
  map name (speciesWithAggregateState sampleDB Aqueous) = [$"CO2"; $"H+"; $"CO2!"; $"CO2!!"; $"H2O"] /\
  (exists db', addSpecies sampleDB sCO2 = Ok db') /\ sp_state sCO2g <> Undefined.
Proof.
  split; [exact sampleDB_reachable|]. split; [vm_compute; reflexivity|]. split; [vm_compute; reflexivity|].
  split; [vm_compute; reflexivity|]. split; [eexists; vm_compute; reflexivity|discriminate].
Qed.

(* ---- C65: renaming a duplicate changes only the name ---- *)
Definition C65_statement : Prop := forall db s db' a, reachable db -> aggregateState s = Ok a -> a <> Undefined ->
  addSpecies db s = Ok db' ->
  exists s', db_species db' = db_species db ++ [s'] /\ sp_elements s' = sp_elements s /\ sp_charge s' = sp_charge s /\
    sp_tags s' = sp_tags s /\ aggregateState s' = Ok a.

(* A gas whose state comes from its name "CO2(g)" becomes aqueous when added a
   second time, since "CO2(g)!" has no suffix any more. *)
Definition sCO2u := mkSpecies $"CO2(g)" $"CO2" $"CO2" [(eC, 1%Q); (eO, 2%Q)] 0%Q Undefined [].
Theorem C65_rename_refuted : ~ C65_statement.
Proof.
  intro H.
  assert (R : reachable (match dbrun emptyDB [OpSpecies sCO2u] with Ok db => db | _ => emptyDB end)).
  { exists [OpSpecies sCO2u]. vm_compute. reflexivity. }
  destruct (addSpecies (match dbrun emptyDB [OpSpecies sCO2u] with Ok db => db | _ => emptyDB end) sCO2u) as [db'| |] eqn:E;
    [|vm_compute in E; discriminate|vm_compute in E; discriminate].
  destruct (H _ sCO2u db' Gas R) as (s' & S & _ & _ & _ & A); [vm_compute; reflexivity|discriminate|exact E|].
  vm_compute in E. injection E as <-. vm_compute in S. injection S as <-. vm_compute in A. discriminate.
Qed.
Print Assumptions C65_rename_refuted.

(* It holds for species whose aggregate state is stored, and for every species
   whose name is not yet taken.  Missing: species whose state is derived from a
   name that is already taken. *)
Theorem C65_rename_partial : forall db s db' a, reachable db -> aggregateState s = Ok a -> a <> Undefined ->
  addSpecies db s = Ok db' -> sp_state s <> Undefined \/ ~ In (name s) (map name (db_species db)) ->
  exists s', db_species db' = db_species db ++ [s'] /\ sp_elements s' = sp_elements s /\ sp_charge s' = sp_charge s /\
    sp_tags s' = sp_tags s /\ aggregateState s' = Ok a.
Proof.
  intros db s db' a R A U H C. destruct (reachable_inv db R) as (N & _).
  destruct (addSpecies_spec db s db' H) as (k & s' & E1 & _ & _ & N' & F & L & (K1 & K2 & K3 & K4 & K5) & (b & B1 & B2 & B3 & _) & _).
  exists s'. split; [exact E1|]. split; [exact K3|]. split; [exact K4|]. split; [exact K5|].
  assert (W : aggregateState (if Nat.eqb k 0 then s else with_name s (name s')) = Ok a).
  { destruct (Nat.eqb_spec k 0) as [->|Nk]; auto. destruct C as [C|C].
    - unfold aggregateState in *. cbn. destruct (sp_state s); congruence.
    - exfalso. apply C. apply N. specialize (L 0 ltac:(lia)). unfold bangs in L. cbn in L. rewrite app_nil_r in L. exact L. }
  rewrite W in B3. destruct (state_eqb (sp_state s) (sp_state s')); congruence.
Qed.
Print Assumptions C65_rename_partial.
Example C65_nonvacuous : aggregateState sCO2g = Ok Gas /\ sp_state sCO2g <> Undefined /\ In (name sCO2g) (map name (db_species sampleDB)) /\
  exists db', addSpecies sampleDB sCO2g = Ok db'.
Proof.
  split; [vm_compute; reflexivity|]. split; [discriminate|]. split; [vm_compute; left; reflexivity|]. eexists; vm_compute; reflexivity.
Qed.

(* ---- C18: species list queries ---- *)
Theorem C18_names : forall l names,
  (forall r, withNames l names = Ok r <-> Forall2 (fun n s => First (fun s => name s = n) l s) names r) /\
  (withNames l names = Err <-> exists n, In n names /\ ~ exists s, In s l /\ name s = n) /\
  withNames l names <> UB.
Proof. exact withNames_spec. Qed.
Print Assumptions C18_names.

Theorem C18_formulas : forall l formulas r, withFormulas l formulas = Ok r <->
  Forall2 (fun f s => exists cf, mkChemicalFormula f = Ok cf /\ First (fun s => equivalent cf (formula s) = true) l s) formulas r.
Proof. exact withFormulas_spec. Qed.
Print Assumptions C18_formulas.

Theorem C18_substances : forall l xs r, (forall s, In s l -> exists y, substance s = Ok y) ->
  (withSubstances l xs = Ok r <-> Forall2 (fun x s => First (fun s => substance s = Ok x) l s) xs r).
Proof. exact withSubstances_spec. Qed.
Print Assumptions C18_substances.

Theorem C18_state : forall l a r, withAggregateState l a = Ok r <->
  (forall s, In s l -> exists b, aggregateState s = Ok b) /\ Selected (fun s => aggregateState s = Ok a) l r.
Proof. exact withAggregateState_spec. Qed.
Print Assumptions C18_state.

Theorem C18_elements : forall l syms,
  Selected (fun s => forall e q, In (e, q) (sp_elements s) -> In (el_symbol e) syms) l (withElements l syms).
Proof. exact withElements_spec. Qed.
Print Assumptions C18_elements.

Theorem C18_elements_of : forall l formulas r, withElementsOf l formulas = Ok r ->
  Selected (fun s => forall e q, In (e, q) (sp_elements s) ->
    exists f cf, In f formulas /\ mkChemicalFormula f = Ok cf /\ In (el_symbol e) (map fst (cf_elements cf))) l r.
Proof. exact withElementsOf_spec. Qed.
Print Assumptions C18_elements_of.

Theorem C18_tags : forall l tag tags, tag <> [] -> tags <> [] ->
  Selected (fun s => In tag (sp_tags s)) l (withTag l tag) /\
  Selected (fun s => ~ In tag (sp_tags s)) l (withoutTag l tag) /\
  Selected (fun s => forall t, In t tags -> In t (sp_tags s)) l (withTags l tags).
Proof. intros. split; [apply withTag_spec|split; [apply withoutTag_spec|apply withTags_spec]]; auto. Qed.
Print Assumptions C18_tags.

(* Excluding tags is expected to leave the species that have none of them. *)
Definition C18_without_tags_statement : Prop := forall l tags,
  Selected (fun s => forall t, In t tags -> ~ In t (sp_tags s)) l (withoutTags l tags).
Theorem C18_without_tags_refuted : ~ C18_without_tags_statement.
Proof.
  intro H. specialize (H [sCO2g] [$"carbon"; $"ion"]). vm_compute in H. inversion H as [|x l r P S|x l r P S]; subst.
  - apply (P $"carbon"); left; reflexivity.
  - inversion S.
Qed.
Print Assumptions C18_without_tags_refuted.

(* What it leaves: every species that lacks at least one of the tags.  With one
   tag this is the expected selection.  Missing: two or more tags. *)
Theorem C18_without_tags_partial : forall l tags,
  Selected (fun s => tags = [] \/ exists t, In t tags /\ ~ In t (sp_tags s)) l (withoutTags l tags) /\
  (forall t, tags = [t] -> Selected (fun s => forall t, In t tags -> ~ In t (sp_tags s)) l (withoutTags l tags)).
Proof.
  intros l tags. pose proof (withoutTags_spec l tags) as H. split; auto. intros t ->.
  induction H; constructor; auto.
  - destruct H as [H|(u & [<-|[]] & N)]; [discriminate|]. intros v [<-|[]]. exact N.
  - intro K. apply H. right. exists t. split; [left; reflexivity|apply K; left; reflexivity].
Qed.
Print Assumptions C18_without_tags_partial.

Example C18_nonvacuous :
  let l := [sCO2g; sCO2; sH; sH2O] in
  omap (map name) (withNames l [$"H2O"; $"CO2"]) = Ok [$"H2O"; $"CO2"] /\ withNames l [$"X"] = Err /\
  omap (map name) (withFormulas l [$"OCO"]) = Ok [$"CO2(g)"] /\
  omap (map name) (withSubstances l [$"CO2"]) = Ok [$"CO2(g)"] /\
  omap (map name) (withAggregateState l Aqueous) = Ok [$"H+"] /\
  map name (withElements l [$"H"; $"O"]) = [$"H+"; $"H2O"] /\
  omap (map name) (withElementsOf l [$"H2O"]) = Ok [$"H+"; $"H2O"] /\
  map name (withTag l $"carbon") = [$"CO2(g)"; $"CO2"] /\ map name (withTags l [$"carbon"; $"neutral"]) = [$"CO2"] /\
  map name (withoutTag l $"carbon") = [$"H+"; $"H2O"].
Proof. vm_compute. repeat (split; [reflexivity|]). reflexivity. Qed.

(* ---- C19: global numbering of species ---- *)
(* The phase found for a species index, its offset, and the species itself. *)
Theorem C19_find : forall phases i,
  (i < length (collectSpecies phases) -> exists pre ph post off, phases = pre ++ ph :: post /\
     findWithSpecies phases i = length pre /\ numSpeciesUntilPhase phases (length pre) = Ok off /\
     off <= i < off + length (ph_species ph) /\
     nth_error (collectSpecies phases) i = nth_error (ph_species ph) (i - off)) /\
  (length (collectSpecies phases) <= i -> findWithSpecies phases i = length phases).
Proof.
  intros phases i. assert (T : length (collectSpecies phases) = total phases) by (rewrite collectSpecies_eq; reflexivity). rewrite T.
  destruct (find_phase_spec phases 0 0 i (Nat.le_0_l i)) as [F1 F2]. split.
  - intro L. destruct F1 as (pre & ph & post & -> & F & B); [exact L|]. exists pre, ph, post, (total pre).
    split; [reflexivity|]. split; [exact F|].
    split; [rewrite numSpeciesUntil_spec by (rewrite app_length; lia); rewrite firstn_app, firstn_all, Nat.sub_diag; cbn; rewrite app_nil_r; reflexivity|].
    split; [lia|]. replace i with (total pre + (i - total pre)) at 1 by lia. apply nth_collect. lia.
  - intro L. apply F2. exact L.
Qed.
Print Assumptions C19_find.

(* Conversely every (phase, local index) pair is the pair of one global index. *)
Theorem C19_inverse : forall phases p ph off j, nth_error phases p = Some ph -> numSpeciesUntilPhase phases p = Ok off ->
  j < length (ph_species ph) ->
  findWithSpecies phases (off + j) = p /\ off + j < length (collectSpecies phases) /\
  nth_error (collectSpecies phases) (off + j) = nth_error (ph_species ph) j.
Proof.
  intros phases p ph off j N O L. apply nth_error_split in N as (pre & post & -> & <-).
  rewrite numSpeciesUntil_spec in O by (rewrite app_length; lia). injection O as <-.
  rewrite firstn_app, firstn_all, Nat.sub_diag. cbn [firstn]. rewrite app_nil_r.
  pose proof (nth_collect pre ph post j L) as E.
  split; [apply findWithSpecies_at; exact L|]. split; [|exact E].
  apply nth_error_Some. rewrite E. apply nth_error_Some. exact L.
Qed.
Print Assumptions C19_inverse.

(* Offsets are defined exactly for indices up to the number of phases; the last
   one is the number of species. *)
Theorem C19_offsets : forall phases p,
  (p <= length phases -> numSpeciesUntilPhase phases p = Ok (length (collectSpecies (firstn p phases)))) /\
  (length phases < p -> numSpeciesUntilPhase phases p = UB) /\
  numSpeciesUntilPhase phases (length phases) = Ok (length (collectSpecies phases)).
Proof.
  intros phases p. split; [|split].
  - intro L. rewrite numSpeciesUntil_spec, collectSpecies_eq by exact L. reflexivity.
  - apply numSpeciesUntil_UB.
  - rewrite numSpeciesUntil_spec, collectSpecies_eq, firstn_all by lia. reflexivity.
Qed.
Print Assumptions C19_offsets.

(* Finding a phase by the name of a species. *)
Theorem C19_by_name : forall phases n,
  (forall ph, First (fun ph => exists s, In s (ph_species ph) /\ name s = n) phases ph ->
     nth_error phases (findWithSpeciesName phases n) = Some ph) /\
  ((~ exists ph s, In ph phases /\ In s (ph_species ph) /\ name s = n) -> findWithSpeciesName phases n = length phases).
Proof.
  intros phases n.
  assert (S : forall ph, containsfn (ph_species ph) (fun s => str_eqb (name s) n) = true <-> exists s, In s (ph_species ph) /\ name s = n).
  { intro ph. rewrite containsfn_spec. split; intros (s & I & E); exists s; (split; [exact I|]); apply str_eqb_eq; exact E. }
  destruct (First_indexfn _ _ phases S) as (F1 & F2 & _). split; [exact F1|]. intro N.
  assert (E : nth_error phases (findWithSpeciesName phases n) = None).
  { apply F2. intros (ph & I & s & J & K). apply N. exists ph, s. auto. }
  apply nth_error_None in E. pose proof (indexfn_le phases (fun p => containsfn (ph_species p) (fun s => str_eqb (name s) n))).
  unfold findWithSpeciesName in *. lia.
Qed.
Print Assumptions C19_by_name.

Example C19_nonvacuous :
  let phases := [mkPhase $"A" [sH; sH2O]; mkPhase $"Empty" []; mkPhase $"G" [sCO2g]] in
  map (findWithSpecies phases) [0; 1; 2; 3] = [0; 0; 2; 3] /\ numSpeciesUntilPhase phases 2 = Ok 2 /\
  findWithSpeciesName phases $"CO2(g)" = 2.
Proof. vm_compute. repeat (split; [reflexivity|]). reflexivity. Qed.

(* ---- C20: formula matrix ---- *)
Theorem C20_entries : forall phases, let sys := mkChemicalSystem phases in
  let n := length (sys_species sys) in let m := length (sys_elements sys) in
  length (sys_matrix sys) = S m /\ (forall row, In row (sys_matrix sys) -> length row = n) /\
  (forall i s, nth_error (sys_species sys) i = Some s ->
     (forall j e, nth_error (sys_elements sys) j = Some e -> exists row, nth_error (sys_matrix sys) j = Some row /\
        (forall q, NoDup (symbols s) -> (exists e', In (e', q) (sp_elements s) /\ el_symbol e' = el_symbol e) -> nth_error row i = Some q) /\
        (~ In (el_symbol e) (symbols s) -> nth_error row i = Some 0%Q)) /\
     (exists row, nth_error (sys_matrix sys) m = Some row /\ nth_error row i = Some (sp_charge s))) /\
  NoDup (map el_symbol (sys_elements sys)) /\
  (forall x, In x (map el_symbol (sys_elements sys)) <-> exists s, In s (sys_species sys) /\ In x (symbols s)) /\
  StronglySorted (fun a b => (el_mass a <= el_mass b)%Q) (sys_elements sys).
Proof.
  intros phases. cbv zeta. unfold mkChemicalSystem. cbn [sys_species sys_elements sys_matrix].
  set (l := collectSpecies phases). set (E := collectElements l).
  assert (L : length (fixDuplicateSpeciesNames l) = length l).
  { rewrite <- (map_length name (fixDuplicateSpeciesNames l)), fixSpecies_names, makeunique_length, map_length. reflexivity. }
  assert (PR : forall B (f : Species -> B), (forall x n, f (with_name x n) = f x) -> map f (fixDuplicateSpeciesNames l) = map f l).
  { intros B f H. apply rename_proj. exact H. }
  destruct (collectElements_spec l) as (ND & EL & _ & SO). fold E in ND, EL, SO. unfold formulaMatrix.
  split; [rewrite app_length, map_length; cbn [length]; lia|]. split.
  { intros row I. rewrite L. apply in_app_or in I as [I|[<-|[]]]; [|apply map_length].
    apply in_map_iff in I as (e & <- & _). apply map_length. }
  split; [|split; [exact ND|split; [|exact SO]]].
  - intros i s Hs. split.
    + intros j e He.
      exists (map (fun s => el_coefficient (sp_elements s) (el_symbol e)) l).
      split; [rewrite nth_error_app1 by (rewrite map_length; apply nth_error_Some; congruence); rewrite nth_error_map, He; reflexivity|].
      assert (R : nth_error (map (fun s => el_coefficient (sp_elements s) (el_symbol e)) l) i = Some (el_coefficient (sp_elements s) (el_symbol e))).
      { rewrite <- (PR _ (fun s => el_coefficient (sp_elements s) (el_symbol e))) by reflexivity. rewrite nth_error_map, Hs. reflexivity. }
      rewrite R. split.
      * intros q NDs (e' & I & <-). f_equal. apply el_coefficient_in; auto.
      * intro N. f_equal. apply el_coefficient_notin. exact N.
    + exists (map sp_charge l). split.
      * rewrite nth_error_app2 by (rewrite map_length; lia). rewrite map_length, Nat.sub_diag. reflexivity.
      * rewrite <- (PR _ sp_charge) by reflexivity. rewrite nth_error_map, Hs. reflexivity.
  - intro x. rewrite EL. pose proof (PR _ symbols (fun _ _ => eq_refl)) as PS.
    split; intros (s & I & J); apply (in_map symbols) in I; [rewrite <- PS in I|rewrite PS in I];
      apply in_map_iff in I as (t & Et & I); exists t; (split; [exact I|]); rewrite Et; exact J.
Qed.
Print Assumptions C20_entries.

(* Conservation of mass: the mass of the species equals the mass of the element
   amounts A n, corrected by the mass of the electrons. *)
Definition conserves (phases : list Phase) : Prop := forall n, let sys := mkChemicalSystem phases in
  exists rows zrow, sys_matrix sys = rows ++ [zrow] /\
  (dotQ (map molarMass (sys_species sys)) n ==
   dotQ (map el_mass (sys_elements sys)) (map (fun row => dotQ row n) rows) - molarMassElectron * dotQ zrow n)%Q.
Definition C20_statement : Prop := forall phases, conserves phases.

(* It fails when a composition lists the same element twice: the matrix only
   sees the first coefficient, while the molar mass counts both. *)
Definition sOO := mkSpecies $"OO" $"OO" $"OO" [(eO, 1%Q); (eO, 1%Q)] 0%Q Gas [].
Theorem C20_mass_refuted : ~ C20_statement.
Proof.
  intro H. destruct (H [mkPhase $"G" [sOO]] [1%Q]) as (rows & z & E & M).
  vm_compute in E. destruct rows as [|r [|r' rows]]; [discriminate| |destruct rows; discriminate].
  injection E as <- <-. vm_compute in M. discriminate.
Qed.
Print Assumptions C20_mass_refuted.

(* It holds when every composition lists an element once and elements of the
   same symbol have the same mass.  Missing: other compositions. *)
Theorem C20_mass_partial : forall phases,
  (forall s, In s (collectSpecies phases) -> NoDup (symbols s)) ->
  (forall s s' e e' q q', In s (collectSpecies phases) -> In s' (collectSpecies phases) ->
     In (e, q) (sp_elements s) -> In (e', q') (sp_elements s') -> el_symbol e = el_symbol e' -> (el_mass e == el_mass e')%Q) ->
  conserves phases.
Proof.
  intros phases H1 H2 n. unfold mkChemicalSystem. cbn [sys_species sys_elements sys_matrix].
  set (l := collectSpecies phases) in *. set (E := collectElements l).
  exists (map (fun e => map (fun s => el_coefficient (sp_elements s) (el_symbol e)) l) E), (map sp_charge l). split; [reflexivity|].
  unfold fixDuplicateSpeciesNames. rewrite (rename_proj molarMass) by reflexivity. rewrite map_map.
  destruct (collectElements_spec l) as (ND & EL & FI & _). apply mass_conserved; auto.
  - intros s x I J. apply EL. exists s. auto.
  - intros s e q k I J K S. specialize (FI k K). apply First_In in FI as [FI _].
    apply in_concat in FI as (y & IY & FI). apply in_map_iff in IY as (s' & <- & IS). apply in_map_iff in FI as ([k' q'] & <- & FI).
    apply (H2 s' s k' e q' q IS I FI J S).
Qed.
Print Assumptions C20_mass_partial.

Example C20_nonvacuous : let phases := [mkPhase $"A" [sH; sH2O]; mkPhase $"G" [sCO2g]] in
  (forall s, In s (collectSpecies phases) -> NoDup (symbols s)) /\
  sys_matrix (mkChemicalSystem phases) = [[1; 2; 0]; [0; 0; 1]; [0; 1; 2]; [1; 0; 0]]%Q.
Proof.
  split; [|vm_compute; reflexivity]. intros s I. cbn in I.
  destruct I as [<-|[<-|[<-|[]]]]; repeat (constructor; [cbn; intuition discriminate|]); constructor.
Qed.

(* ---- C21: names in a chemical system ---- *)
Definition C21_statement : Prop := forall phases, let sys := mkChemicalSystem phases in
  NoDup (map name (sys_species sys)) /\ NoDup (map ph_name (sys_phases sys)) /\
  map name (collectSpecies (sys_phases sys)) = map name (sys_species sys).

Definition named (n : str) := mkSpecies n $"X" $"X" [(eO, 1%Q)] 0%Q Solid [].
Theorem C21_names_refuted : ~ C21_statement.
Proof.
  intro H. destruct (H [mkPhase $"A" [named $"Q!"]; mkPhase $"B" [named $"Q"]; mkPhase $"C" [named $"Q"]]) as (N & _ & _).
  vm_compute in N. inversion N as [|x l Hx Hl]; subst. apply Hx. right; left; reflexivity.
Qed.
Print Assumptions C21_names_refuted.

(* Even without a clash of suffixed names, the species of the phases keep their
   old names when the global species are renamed. *)
Theorem C21_phase_names_refuted : exists phases, let sys := mkChemicalSystem phases in
  NoDup (map name (sys_species sys)) /\ map name (collectSpecies (sys_phases sys)) <> map name (sys_species sys).
Proof.
  exists [mkPhase $"A" [named $"Q"]; mkPhase $"B" [named $"Q"]]. split.
  - vm_compute. repeat (constructor; [cbn; intuition discriminate|]). constructor.
  - vm_compute. discriminate.
Qed.
Print Assumptions C21_phase_names_refuted.

(* What holds.  Missing: names that are suffixed forms of others, and agreement
   of the phases with the global species after a renaming. *)
Theorem C21_names_partial : forall phases, let sys := mkChemicalSystem phases in
  (suffix_free $"!" (map name (collectSpecies phases)) -> NoDup (map name (sys_species sys))) /\
  (suffix_free $"!" (map ph_name phases) -> NoDup (map ph_name (sys_phases sys))) /\
  (NoDup (map name (collectSpecies phases)) -> sys_species sys = collectSpecies phases /\ sys_species sys = collectSpecies (sys_phases sys)) /\
  (NoDup (map ph_name phases) -> sys_phases sys = phases) /\
  length (sys_phases sys) = length phases /\ map ph_species (sys_phases sys) = map ph_species phases /\
  Forall2 (fun s s' => sp_elements s' = sp_elements s /\ sp_charge s' = sp_charge s /\ exists k, name s' = bangs (name s) k)
    (collectSpecies phases) (sys_species sys).
Proof.
  intros phases sys. unfold sys, mkChemicalSystem. cbn [sys_species sys_phases].
  set (l := collectSpecies phases).
  assert (PS : map ph_species (fixDuplicatePhaseNames phases) = map ph_species phases) by (apply rename_proj; reflexivity).
  split; [|split; [|split; [|split; [|split; [|split]]]]].
  - intro H. rewrite fixSpecies_names. apply makeunique_partial; [discriminate|exact H].
  - intro H. rewrite fixPhase_names. apply makeunique_partial; [discriminate|exact H].
  - intro H. assert (E : fixDuplicateSpeciesNames l = l).
    { unfold fixDuplicateSpeciesNames. rewrite makeunique_distinct by exact H. apply rename_same. }
    split; [exact E|]. rewrite E, collectSpecies_eq, PS. unfold l. rewrite collectSpecies_eq. reflexivity.
  - intro H. unfold fixDuplicatePhaseNames. rewrite makeunique_distinct by exact H. apply rename_same.
  - rewrite <- (map_length ph_species), PS, map_length. reflexivity.
  - exact PS.
  - unfold fixDuplicateSpeciesNames. destruct (makeunique_partial (map name l) $"!") as (_ & F & _).
    revert F. generalize (makeunique (map name l) $"!") as us. induction l as [|s r IH]; intros us F; inversion F as [|? u ? us' (k & K) F']; subst; [constructor|].
    cbn [rename]. constructor; [|apply IH; exact F'].
    assert (C : forall k, copies k $"!" = repeat "!"%char k).
    { clear. induction k as [|k IH]; [reflexivity|]. cbn [copies]. rewrite IH. change $"!" with ["!"%char].
      rewrite <- (repeat_cons k "!"%char). reflexivity. }
    destruct (str_eqb_spec (name s) (name s ++ copies k $"!")) as [E|N].
    + split; [reflexivity|]. split; [reflexivity|]. exists 0. unfold bangs. cbn. rewrite app_nil_r. reflexivity.
    + split; [reflexivity|]. split; [reflexivity|]. exists k. unfold bangs. rewrite <- C. apply name_with_name.
      intro E. apply app_eq_nil in E as [E1 E2]. rewrite E2, app_nil_r in N. congruence.
Qed.
Print Assumptions C21_names_partial.
Example C21_nonvacuous : let phases := [mkPhase $"A" [named $"Q"; named $"R"]; mkPhase $"B" [named $"S"]] in
  NoDup (map name (collectSpecies phases)) /\ NoDup (map ph_name phases) /\ suffix_free $"!" (map name (collectSpecies phases)).
Proof.
  split; [|split].
  - vm_compute. repeat (constructor; [cbn; intuition discriminate|]). constructor.
  - vm_compute. repeat (constructor; [cbn; intuition discriminate|]). constructor.
  - intros u v k Hu Hv E. apply (f_equal (fun s => last s "x"%char)) in E.
    rewrite last_copies in E by discriminate. cbn in Hu.
    destruct Hu as [<-|[<-|[<-|[]]]]; vm_compute in E; discriminate.
Qed.

(* ---- C22: building phases from selections ---- *)
Definition C22_statement : Prop := forall db elements gp, reachable db ->
  (exists ph a, convertPhase db elements gp = Ok ph /\ forall s, In s (ph_species ph) -> aggregateState s = Ok a) \/
  convertPhase db elements gp = Err.

Theorem C22_phase_refuted : ~ C22_statement.
Proof.
  intro H. destruct (H emptyDB [$"H"] (mkGP $"G" Gas [] [] [])) as [(ph & a & E & _)|E].
  - exists []. reflexivity.
  - discriminate E.
  - discriminate E.
Qed.
Print Assumptions C22_phase_refuted.

(* Undefined behaviour occurs exactly for empty selections.  Missing: those. *)
Theorem C22_phase_partial : forall db elements gp, reachable db ->
  (select_species gp db elements = Err /\ convertPhase db elements gp = Err) \/
  (select_species gp db elements = Ok [] /\ convertPhase db elements gp = UB) \/
  (exists l, l <> [] /\ select_species gp db elements = Ok l /\ convertPhase db elements gp = Ok (mkPhase (gp_name gp) l) /\
     forall s, In s l -> aggregateState s = Ok (gp_state gp)).
Proof. intros db els gp R. apply convertPhase_spec, reachable_inv, R. Qed.
Print Assumptions C22_phase_partial.

(* The same for the species given directly to a phase. *)
Theorem C22_with_species_partial : forall p l, l <> [] -> (forall s, In s l -> aggregateState s <> UB) ->
  (exists a, (forall s, In s l -> aggregateState s = Ok a) /\ withSpecies p l = Ok (mkPhase (ph_name p) l)) \/
  ((~ exists a, forall s, In s l -> aggregateState s = Ok a) /\ withSpecies p l = Err).
Proof. exact withSpecies_spec. Qed.
Print Assumptions C22_with_species_partial.
Example C22_nonvacuous : let gp := mkGP $"Aq" Aqueous [] [] [$"carbon"] in
  omap (map name) (select_species gp sampleDB [$"H"; $"O"; $"C"]) = Ok [$"H+"; $"H2O"] /\
  withSpecies (mkPhase $"P" []) [sCO2g; sH] = Err.
Proof. vm_compute. split; reflexivity. Qed.

(* ---- C66: generators make one phase per species ---- *)
Definition C66_statement : Prop := forall db elements g l, reachable db -> select_species g db elements = Ok l ->
  exists gps, convertGenerator db elements g = Ok gps /\
    Forall2 (fun s gp => gp_name gp = name s /\ convertPhase db elements gp = Ok (mkPhase (name s) [s])) l gps.

(* The name of a species is given to a parameter that splits at spaces. *)
Theorem C66_generator_refuted : ~ C66_statement.
Proof.
  intro H.
  assert (R : reachable (match dbrun emptyDB [OpSpecies (named $"Alpha Quartz")] with Ok db => db | _ => emptyDB end)).
  { exists [OpSpecies (named $"Alpha Quartz")]. vm_compute. reflexivity. }
  destruct (H _ [$"O"] (mkGP $"M" Solid [] [] []) [named $"Alpha Quartz"] R) as (gps & E & F); [vm_compute; reflexivity|].
  vm_compute in E. injection E as <-. inversion F as [|? ? ? ? [_ X] _]; subst. vm_compute in X. discriminate.
Qed.
Print Assumptions C66_generator_refuted.

(* Missing: names that contain white space. *)
Theorem C66_generator_partial : forall db elements g l, reachable db -> select_species g db elements = Ok l ->
  (forall s, In s l -> name s <> [] /\ forall c, In c (name s) -> isspace c = false) ->
  exists gps, convertGenerator db elements g = Ok gps /\
    Forall2 (fun s gp => gp_name gp = name s /\ forall elements', convertPhase db elements' gp = Ok (mkPhase (name s) [s])) l gps.
Proof. intros db els g l R. apply convertGenerator_spec, reachable_inv, R. Qed.
Print Assumptions C66_generator_partial.
Example C66_nonvacuous : let g := mkGP $"Aq" Aqueous [] [$"H"; $"O"] [] in
  omap (map name) (select_species g sampleDB []) = Ok [$"H+"; $"H2O"] /\
  omap (map gp_name) (convertGenerator sampleDB [] g) = Ok [$"H+"; $"H2O"].
Proof. vm_compute. split; reflexivity. Qed.

(* ---- C67: the order of declarations does not matter ---- *)
Theorem C67_order : forall db gps gens gps' gens' phases, Permutation gps gps' -> Permutation gens gens' ->
  convertPhases db gps gens = Ok phases ->
  exists phases', convertPhases db gps' gens' = Ok phases' /\ Permutation (map ph_species phases) (map ph_species phases').
Proof. exact convertPhases_perm. Qed.
Print Assumptions C67_order.

(* An element counts as mentioned when some declaration lists it or names a
   species that has it. *)
Definition is_mentioned (db : Database) (gps : list GenericPhase) (x : str) : Prop :=
  exists gp, In gp gps /\ (In x (gp_symbols gp) \/
    exists s e q, In s (db_species db) /\ In (name s) (gp_names gp) /\ In (e, q) (sp_elements s) /\ el_symbol e = x).
Theorem C67_speciation : forall db gps gens phases i gp, reachable db -> convertPhases db gps gens = Ok phases ->
  nth_error gps i = Some gp -> gp_names gp = [] -> gp_symbols gp = [] -> gp_exclude gp = [] ->
  exists ph, nth_error phases i = Some ph /\
    Selected (fun s => aggregateState s = Ok (gp_state gp) /\
      forall e q, In (e, q) (sp_elements s) -> is_mentioned db (gps ++ gens) (el_symbol e)) (db_species db) (ph_species ph).
Proof.
  intros db gps gens phases i gp R H N G1 G2 G3.
  destruct (convertPhases_speciation db gps gens phases i gp (reachable_inv db R) H N G1 G2 G3) as (ph & P & S).
  exists ph. split; [exact P|].
  assert (M : forall x, mentioned db (gps ++ gens) x <-> is_mentioned db (gps ++ gens) x).
  { intro x. split; intros (g & I & [J|(s & K)]); exists g; (split; [exact I|]); auto; right.
    - destruct K as (K1 & K2 & K3). unfold symbols in K3. apply in_map_iff in K3 as ([e q] & E & K3). exists s, e, q. auto.
    - destruct K as (e & q & K1 & K2 & K3 & <-). exists s. split; [exact K1|]. split; [exact K2|].
      unfold symbols. apply in_map_iff. exists (e, q). auto. }
  clear - S M. induction S; constructor; auto.
  - destruct H as [H1 H2]. split; [exact H1|]. intros e q I. apply M. eauto.
  - intros [K1 K2]. apply H. split; [exact K1|]. intros e q I. apply M. eauto.
Qed.
Print Assumptions C67_speciation.
Example C67_nonvacuous :
  omap (map (fun p => map name (ph_species p)))
    (convertPhases sampleDB [mkGP $"Aq" Aqueous [] [] []; mkGP $"G" Gas [$"CO2(g)"] [] []] []) =
  Ok [[$"CO2"; $"CO2!"; $"CO2!!"]; [$"CO2(g)"]].
Proof. vm_compute. reflexivity. Qed.

(* ---- C68: aggregate states and names ---- *)
(* The symbols documented for the aggregate states. *)
Inductive symbol_of : str -> AggregateState -> Prop :=
| sym_g : symbol_of $"g" Gas | sym_l : symbol_of $"l" Liquid | sym_s : symbol_of $"s" Solid
| sym_pl : symbol_of $"pl" Plasma | sym_cd : symbol_of $"cd" CondensedPhase | sym_fl : symbol_of $"fl" Fluid
| sym_lc : symbol_of $"lc" LiquidCrystal | sym_cr : symbol_of $"cr" CrystallineSolid | sym_am : symbol_of $"am" AmorphousSolid
| sym_vit : symbol_of $"vit" Vitreous | sym_ads : symbol_of $"ads" Adsorbed | sym_mon : symbol_of $"mon" Monomeric
| sym_pol : symbol_of $"pol" Polymeric | sym_ss : symbol_of $"ss" SolidSolution | sym_ex : symbol_of $"ex" IonExchange
| sym_aq : symbol_of $"aq" Aqueous.
Lemma symbol_table w a : symbol_of w a <-> In (w, a) state_symbols.
Proof.
  split.
  - destruct 1; vm_compute; tauto.
  - intros H. repeat (destruct H as [H|H]; [injection H; intros <- <-; constructor|]). destruct H.
Qed.
(* A suffix of lower-case words with exactly one state symbol gives that state. *)
Theorem C68_suffix : forall base w a words, symbol_of w a -> In w words ->
  (forall u b, symbol_of u b -> In u words -> u = w) ->
  (forall u, In u words -> u <> [] /\ forall c, In c u -> isupper c = false /\ c <> "("%char /\ c <> " "%char /\ c <> ","%char) ->
  identifyAggregateState (base ++ $"(" ++ intersperse $", " words ++ $")") = Ok a.
Proof.
  intros base w a words I0 J U0 H. pose proof (proj1 (symbol_table w a) I0) as I.
  assert (U : forall u b, In (u, b) state_symbols -> In u words -> u = w) by (intros u b K; apply (U0 u b), symbol_table, K).
  unfold identifyAggregateState.
  change (base ++ $"(" ++ intersperse $", " words ++ $")") with (base ++ "("%char :: intersperse $", " words ++ [")"%char]).
  rewrite split_suffix_some.
  - cbn [bind snd]. rewrite <- join_correct, split_join.
    + rewrite (first_state_unique state_symbols words w a state_symbols_NoDup I J U). reflexivity.
    + discriminate.
    + intros c K. cbn in K. cbn. tauto.
    + apply Forall_forall. intros u K. destruct (H u K) as [N C]. split; [exact N|].
      intros c Ic D. destruct (C c Ic) as (_ & _ & C1 & C2). cbn in D. destruct D as [D|[D|[]]]; congruence.
  - intros c K. assert (Q : forall ws, (forall u, In u ws -> In u words) -> In c (intersperse $", " ws) -> isupper c = false /\ c <> "("%char).
    { clear K. induction ws as [|u ws IH]; intros S K; [destruct K|]. destruct ws as [|v ws].
      - destruct (H u (S u (or_introl eq_refl))) as [_ C]. destruct (C c K) as (C1 & C2 & _). auto.
      - change (In c (u ++ $", " ++ intersperse $", " (v :: ws))) in K. apply in_app_or in K as [K|K].
        + destruct (H u (S u (or_introl eq_refl))) as [_ C]. destruct (C c K) as (C1 & C2 & _). auto.
        + destruct K as [<-|[<-|K]]; [split; [reflexivity|discriminate]|split; [reflexivity|discriminate]|].
          apply IH; auto. intros x X. apply S. right. exact X. }
    apply (Q words); auto.
Qed.
Print Assumptions C68_suffix.

(* No closing bracket at the end: the charge decides. *)
Theorem C68_charge : forall n q, n <> [] -> last_opt n <> Some ")"%char -> parseElectricCharge n = Ok q ->
  identifyAggregateState n = Ok (if Qeq_bool q 0 then Undefined else Aqueous).
Proof.
  intros n q N L C. unfold identifyAggregateState. rewrite split_suffix_none by auto. cbn [bind fst snd].
  replace (first_state state_symbols (split [] $" ,")) with (@None AggregateState) by (vm_compute; reflexivity).
  rewrite C. cbn [omap bind]. destruct (Qeq_bool q 0); reflexivity.
Qed.
Print Assumptions C68_charge.

Theorem C68_print_parse : forall a, parseAggregateState (state_name a) = a.
Proof. destruct a; vm_compute; reflexivity. Qed.
Print Assumptions C68_print_parse.

Example C68_nonvacuous :
  identifyAggregateState $"CaCO3(s, calcite)" = Ok Solid /\ identifyAggregateState $"HCO3-" = Ok Aqueous /\
  identifyAggregateState $"Ca(OH)2" = Ok Undefined /\ symbol_of $"s" Solid.
Proof. vm_compute. repeat (split; [reflexivity|]). constructor. Qed.
