(* C17: loading a database document terminates and keeps definition-before-use order. *)
From Coq Require Import Relations.
From Verif Require Import Base M_Strings M_Algorithms M_Formula M_Chem M_System M_Attribs M_Registry M_Yaml M_DatabaseYaml S_DatabaseYaml P_DatabaseYaml.
Local Open Scope nat_scope.

(* Every node of the document has been loaded. *)
Definition complete (snodes : list yaml) (p : Parsed) : Prop :=
  forall n, In n snodes -> exists l, In l (pa_species p) /\ named n (ld_name l).
Definition C17_statement : Prop := forall readQ read readN registry doc,
  (exists fuel, load readQ read readN registry fuel doc <> UB) /\
  (forall fuel p, load readQ read readN registry fuel doc = Ok p ->
     exists snodes, listed doc $"Species" snodes /\ complete snodes p /\ ordered readQ read readN snodes p).

Lemma section_listed doc key l : section_nodes doc key = Ok l -> listed doc key l.
Proof.
  unfold section_nodes. intros H. apply bind_inv in H as (c & C & H). destruct c as [v|].
  - apply child_field in C. destruct v as [| |s|[|]]; try discriminate; injection H as <-.
    + right. split; [reflexivity|]. intros l' F. pose proof (field_det _ _ _ _ C F). discriminate.
    + right. split; [reflexivity|]. intros l' F. pose proof (field_det _ _ _ _ C F). discriminate.
    + left. exact C.
    + right. split; [reflexivity|]. intros l' F. pose proof (field_det _ _ _ _ C F). discriminate.
  - injection H as <-. right. split; [reflexivity|]. intros l' F. apply child_field in F. congruence.
Qed.
Lemma listed_det doc key l l' : listed doc key l -> listed doc key l' -> l = l'.
Proof.
  intros [A|[-> A]] [B|[-> B]]; auto.
  - pose proof (field_det _ _ _ _ A B) as E. injection E. auto.
  - destruct (B _ A).
  - destruct (A _ B).
Qed.
Lemma load_inv readQ read readN registry fuel doc p : load readQ read readN registry fuel doc = Ok p ->
  exists snodes, listed doc $"Species" snodes /\ complete snodes p /\ inv readQ read readN snodes p.
Proof.
  unfold load. intros H. apply bind_inv in H as (enodes & E & H). apply bind_inv in H as (els & A & H). apply bind_inv in H as (snodes & Sn & H).
  exists snodes. split; [apply section_listed; exact Sn|].
  destruct (addAll_spec readQ read readN registry enodes snodes fuel snodes [] (mkParsed els []) p eq_refl (inv_empty _ _ _ _ els) (fun m F => match F with end) H) as (I & C & _).
  split; [|exact I]. intros n N. destruct (C n N) as (x & X & J). apply in_map_iff in J as (l & L & J). exists l. split; [exact J|]. rewrite L. exact X.
Qed.

(* Whenever loading ends without an exception: every species is there once, after
   its reactants, with its elements, and is what the first node with its name says. *)
Theorem C17_order_partial : forall readQ read readN registry fuel doc p, load readQ read readN registry fuel doc = Ok p ->
  exists snodes, listed doc $"Species" snodes /\ complete snodes p /\ ordered readQ read readN snodes p.
Proof.
  intros readQ read readN registry fuel doc p H. destruct (load_inv _ _ _ _ _ _ _ H) as (s & A & B & C). exists s. split; [exact A|]. split; [exact B|]. apply inv_ordered. exact C.
Qed.
Print Assumptions C17_order_partial.

Lemma addElements_ub readQ : forall l els, addElements readQ els l <> UB.
Proof. induction l as [|n l IH]; intros els H; cbn in H; [discriminate|]. apply bind_ub in H as [H|(r & _ & H)]; [destruct (addElementNode_ub _ _ _ H)|eapply IH; eauto]. Qed.
Lemma section_ub doc key : section_nodes doc key <> UB.
Proof. unfold section_nodes. intros H. apply bind_ub in H as [H|(c & _ & H)]; [destruct (child_ub _ _ H)|]. destruct c as [[| | |[|]]|]; discriminate. Qed.
Lemma load_mono readQ read readN registry fuel doc : load readQ read readN registry fuel doc <> UB -> load readQ read readN registry (S fuel) doc = load readQ read readN registry fuel doc.
Proof. unfold load. do 3 (apply bind_mono; intros ? _). apply addAll_mono. Qed.
Lemma load_more readQ read readN registry fuel more doc : load readQ read readN registry fuel doc <> UB -> load readQ read readN registry (more + fuel) doc = load readQ read readN registry fuel doc.
Proof. intros U. induction more as [|m IH]; [reflexivity|]. cbn [Nat.add]. rewrite load_mono; [exact IH|]. rewrite IH. exact U. Qed.

(* Loading terminates for every document in which no species is formed, directly or
   not, from itself: one outcome, reached with a recursion no deeper than the number
   of species. *)
Theorem C17_terminates_partial : forall readQ read readN registry doc snodes,
  listed doc $"Species" snodes -> ~ cyclic snodes ->
  exists r, r <> UB /\ forall fuel, length snodes < fuel -> load readQ read readN registry fuel doc = r.
Proof.
  intros readQ read readN registry doc snodes L N. exists (load readQ read readN registry (S (length snodes)) doc).
  assert (U : load readQ read readN registry (S (length snodes)) doc <> UB).
  { intros H. unfold load in H. apply bind_ub in H as [H|(enodes & E & H)]; [destruct (section_ub _ _ H)|].
    apply bind_ub in H as [H|(els & A & H)]; [destruct (addElements_ub _ _ _ H)|].
    apply bind_ub in H as [H|(s & Sn & H)]; [destruct (section_ub _ _ H)|].
    pose proof (listed_det _ _ _ _ L (section_listed _ _ _ Sn)) as <-.
    destruct (addAll_chain readQ read readN registry enodes snodes (length snodes) snodes [] (mkParsed els []) eq_refl (inv_empty _ _ _ _ els) (fun m F => match F with end) H) as (x & C).
    apply N. apply (chain_cyclic readQ read readN snodes (S (length snodes)) x); [lia|exact C]. }
  split; [exact U|]. intros fuel F. replace fuel with ((fuel - S (length snodes)) + S (length snodes)) by lia. apply load_more. exact U.
Qed.
Print Assumptions C17_terminates_partial.

(* A document in which some species is formed from itself, directly or not, is never
   loaded. *)
Theorem C17_cyclic_partial : forall readQ read readN registry doc snodes,
  listed doc $"Species" snodes -> cyclic snodes -> forall fuel p, load readQ read readN registry fuel doc <> Ok p.
Proof.
  intros readQ read readN registry doc snodes L (x & C) fuel p H.
  destruct (load_inv _ _ _ _ _ _ _ H) as (s & A & B & I). pose proof (listed_det _ _ _ _ L A) as <-.
  pose (ns := map ld_name (pa_species p)).
  assert (St : forall a b, uses snodes a b -> forall i, nth_error ns i = Some a -> exists j, j < i /\ nth_error ns j = Some b).
  { intros a b (n & f & t & c & D & F & R & J) i Hi. unfold ns in Hi. rewrite nth_error_map in Hi. destruct (nth_error (pa_species p) i) as [l|] eqn:E; [|discriminate].
    injection Hi as Hi. apply nth_error_split in E as (pre & post & E & Li). destruct (inv_from _ _ _ _ _ I l) as (n' & D' & Sa); [rewrite E; apply in_elt|].
    rewrite Hi in D'. pose proof (describes_det _ _ _ _ D D') as <-.
    destruct (says_thermo _ _ _ _ _ Sa) as [(f' & t' & v & m & F1 & F2 & _ & _ & _ & _ & F3 & _)|(F1 & _)].
    - pose proof (field_det _ _ _ _ F F1) as <-. pose proof (field_det _ _ _ _ R F2) as Q. injection Q as <-. rewrite <- F3 in J.
      apply in_map_iff in J as ([r c'] & Q & J). injection Q as Q1 Q2. cbn in Q1.
      pose proof (inv_before _ _ _ _ _ I pre l post E r c' J) as Jp. apply In_nth_error in Jp as (j & Jp). exists j.
      assert (j < length pre) by (apply nth_error_Some; congruence). split; [lia|]. unfold ns. rewrite nth_error_map, E, nth_error_app1 by assumption. rewrite Jp. cbn. congruence.
    - rewrite (F1 f t F R) in J. destruct J. }
  assert (Ct : forall a b, clos_trans str (uses snodes) a b -> forall i, nth_error ns i = Some a -> exists j, j < i /\ nth_error ns j = Some b).
  { intros a b K. induction K as [a b K|a b c K1 IH1 K2 IH2]; intros i Hi; [eauto|]. destruct (IH1 i Hi) as (j & J1 & J2). destruct (IH2 j J2) as (k & K3 & K4). exists k. split; [lia|exact K4]. }
  assert (Dx : exists n, describes snodes x n).
  { clear -C. apply clos_trans_t1n in C. inversion C as [y K|y z K]; destruct K as (n & _ & _ & _ & D & _); eauto. }
  destruct Dx as (n & D). destruct (B n (describes_in _ _ _ D)) as (l & Jl & Nl). pose proof (named_det _ _ _ (describes_named _ _ _ D) Nl) as Hx.
  assert (Jx : In x ns) by (rewrite Hx; apply in_map; exact Jl). apply In_nth_error in Jx as (i & Hi).
  destruct (Ct x x C i Hi) as (j & Lj & Hj).
  pose proof (proj1 (NoDup_nth_error ns) (inv_once _ _ _ _ _ I) i j) as Q. assert (i = j); [|lia]. apply Q; [apply nth_error_Some; congruence|congruence].
Qed.
Print Assumptions C17_cyclic_partial.

(* ---- Two species formed from each other ---- *)
Definition rxn_node : yaml := YMap [($"ConstLgK", YMap [($"lgKr", YScalar $"6.35")])].
Definition node (nm fm els rs : str) : yaml :=
  YMap [($"Name", YScalar nm); ($"Formula", YScalar fm); ($"AggregateState", YScalar $"Aqueous"); ($"Elements", YScalar els);
        ($"FormationReaction", YMap [($"Reactants", YScalar rs); ($"ReactionThermoModel", rxn_node)])].
Definition node1 : yaml := node $"CO2" $"CO2" $"1:C 2:O" $"1:CO3-2".
Definition node2 : yaml := node $"CO3-2" $"CO3-2" $"1:C 3:O" $"1:CO2".
Definition round_doc : yaml := YMap [($"Species", YSeq [node1; node2])].

Section Round.
Variable readQ : str -> option Q.
Variable read : str -> option double.
Variable readN : str -> option nat.
Notation add f := (addSpecies readQ read readN default_elements f [] [node1; node2]).
Lemma found els x : In x [$"C"; $"O"] -> exists e els', (match findElement els x with Some e => Ok (e, els) | None => addElementSymbol readQ default_elements [] els x end) = Ok (e, els').
Proof.
  intros J. destruct (findElement els x); [eauto|]. unfold addElementSymbol. cbn [findNode bind].
  destruct J as [<-|[<-|[]]]; (destruct (element_withSymbol default_elements _) eqn:E; [eauto|vm_compute in E; discriminate]).
Qed.
Lemma composed els l : (forall x c, In (x, c) l -> In x [$"C"; $"O"]) -> exists re els', createElements readQ default_elements [] els l = Ok (re, els').
Proof.
  revert els. induction l as [|[x c] l IH]; intros els J; cbn [createElements]; [eauto|].
  destruct (found els x) as (e & els' & ->); [eapply J; left; reflexivity|]. cbn [bind fst snd].
  destruct (IH els') as (re & els2 & ->); [intros; eapply J; right; eauto|]. cbn. eauto.
Qed.
Lemma step_round f els nd other : (nd = node1 /\ other = node2 \/ nd = node2 /\ other = node1) ->
  (forall els', add f (mkParsed els' []) other = UB) -> add (S f) (mkParsed els []) nd = UB.
Proof.
  intros K U.
  assert (CE : exists re els', createElementalComposition readQ default_elements [] els nd = Ok (re, els')).
  { unfold createElementalComposition. destruct K as [[-> _]|[-> _]]; cbn [bind]; (match goal with |- context [req_string ?n ?k] => let t := eval vm_compute in (req_string n k) in change (req_string n k) with t end); cbn [bind]; apply composed;
    intros x c J; vm_compute in J; repeat (destruct J as [J|J]; [injection J as <- _; cbn; tauto|]); destruct J. }
  destruct CE as (re & els' & CE).
  assert (FR : createFormationReaction read [node1; node2] (add f) (mkParsed els' []) nd = UB).
  { destruct K as [[-> ->]|[-> ->]]; unfold createFormationReaction.
    - change (child node1 $"FormationReaction") with (Ok (Some (YMap [($"Reactants", YScalar $"1:CO3-2"); ($"ReactionThermoModel", rxn_node)]))). cbn [bind].
      change (req_string (YMap [($"Reactants", YScalar $"1:CO3-2"); ($"ReactionThermoModel", rxn_node)]) $"Reactants") with (Ok $"1:CO3-2"). cbn [bind].
      replace (parseNumberStringPairs $"1:CO3-2") with [($"CO3-2", 1%Q)] by (vm_compute; reflexivity). cbn [createReactants pa_species]. change (findLoaded [] $"CO3-2") with (@None Loaded). cbn [bind].
      unfold addSpeciesName. change (findNode $"Name" $"CO3-2" [node1; node2]) with (Ok (Some node2)). cbn [bind]. rewrite U. reflexivity.
    - change (child node2 $"FormationReaction") with (Ok (Some (YMap [($"Reactants", YScalar $"1:CO2"); ($"ReactionThermoModel", rxn_node)]))). cbn [bind].
      change (req_string (YMap [($"Reactants", YScalar $"1:CO2"); ($"ReactionThermoModel", rxn_node)]) $"Reactants") with (Ok $"1:CO2"). cbn [bind].
      replace (parseNumberStringPairs $"1:CO2") with [($"CO2", 1%Q)] by (vm_compute; reflexivity). cbn [createReactants pa_species]. change (findLoaded [] $"CO2") with (@None Loaded). cbn [bind].
      unfold addSpeciesName. change (findNode $"Name" $"CO2" [node1; node2]) with (Ok (Some node1)). cbn [bind]. rewrite U. reflexivity. }
  cbn [addSpecies pa_elements pa_species].
  destruct K as [[-> _]|[-> _]];
    (repeat match goal with |- context [at_key ?n ?k] => let t := eval vm_compute in (at_key n k) in change (at_key n k) with t; cbn [bind] end;
     repeat match goal with |- context [defined ?n ?k] => let t := eval vm_compute in (defined n k) in change (defined n k) with t; cbn [bind] end; cbn [negb andb];
     repeat match goal with |- context [req_string ?n ?k] => let t := eval vm_compute in (req_string n k) in change (req_string n k) with t; cbn [bind] end;
     match goal with |- context [findLoaded [] ?x] => change (findLoaded [] x) with (@None Loaded) end; cbn [bind];
     match goal with |- context [opt_string ?n ?k] => let t := eval vm_compute in (opt_string n k) in change (opt_string n k) with t end; cbn [bind];
     match goal with |- context [opt_rational readQ ?n ?k] => let t := eval vm_compute in (opt_rational readQ n k) in change (opt_rational readQ n k) with t end; cbn [bind];
     match goal with |- context [state_eqb ?a ?b] => let t := eval vm_compute in (state_eqb a b) in change (state_eqb a b) with t end; cbn [bind];
     rewrite CE; cbn [bind fst snd]; rewrite FR; reflexivity).
Qed.
Lemma round_ub f : forall els, add f (mkParsed els []) node1 = UB /\ add f (mkParsed els []) node2 = UB.
Proof.
  induction f as [|f IH]; intros els; [split; reflexivity|]. split.
  - apply (step_round f els node1 node2); [left; auto|]. intros els'. apply IH.
  - apply (step_round f els node2 node1); [right; auto|]. intros els'. apply IH.
Qed.
Lemma round_load f : load readQ read readN default_elements f round_doc = UB.
Proof.
  unfold load. change (section_nodes round_doc $"Elements") with (@Ok (list yaml) []). cbn [bind addElements].
  change (section_nodes round_doc $"Species") with (Ok [node1; node2]). cbn [bind addAllSpecies]. rewrite (proj1 (round_ub f [])). reflexivity.
Qed.
End Round.
Theorem C17_refuted : ~ C17_statement.
Proof.
  intros H. destruct (H (fun _ => None) (fun _ => None) (fun _ => None) default_elements round_doc) as [(f & U) _]. apply U. apply round_load.
Qed.
Print Assumptions C17_refuted.

(* ---- The database ---- *)
Lemma contains_str l x : contains str_eqb l x = true <-> In x l.
Proof. apply P_Algorithms.contains_spec. intros a b. apply str_eqb_eq. Qed.
Lemma addElement_noop db e : In (el_symbol e) (db_symbols db) -> addElement db e = db.
Proof. intros J. unfold addElement. apply contains_str in J. rewrite J. reflexivity. Qed.
Lemma addElements_noop l : forall db, (forall e, In e l -> In (el_symbol e) (db_symbols db)) -> fold_left addElement l db = db.
Proof. induction l as [|e l IH]; intros db J; [reflexivity|]. cbn. rewrite addElement_noop by (apply J; left; reflexivity). apply IH. intros; apply J; right; assumption. Qed.
Lemma addElements_db l : forall db, let db' := fold_left addElement l db in
  db_species db' = db_species db /\ db_names db' = db_names db /\ incl (db_symbols db) (db_symbols db') /\ incl (db_elements db) (db_elements db') /\
  (forall e, In e l -> In (el_symbol e) (db_symbols db')) /\
  (forall e, findElement l (el_symbol e) = Some e -> ~ In (el_symbol e) (db_symbols db) -> In e (db_elements db')).
Proof.
  induction l as [|a l IH]; intros db db'; subst db'.
  - cbn. repeat split; try apply incl_refl; intros e E; [destruct E|discriminate].
  - cbn [fold_left]. destruct (IH (addElement db a)) as (A & B & C & D & E & F).
    assert (K : (In (el_symbol a) (db_symbols db) /\ addElement db a = db) \/
       (~ In (el_symbol a) (db_symbols db) /\ addElement db a = mkDB (db_species db) (db_elements db ++ [a]) (el_symbol a :: db_symbols db) (db_names db) (db_groups db))).
    { unfold addElement. destruct (contains str_eqb (db_symbols db) (el_symbol a)) eqn:G; [left|right]; (split; [|reflexivity]); [apply contains_str; exact G|].
      intros J. apply contains_str in J. congruence. }
    assert (Sy : incl (db_symbols db) (db_symbols (addElement db a)) /\ In (el_symbol a) (db_symbols (addElement db a)) /\ incl (db_elements db) (db_elements (addElement db a)) /\
       db_species (addElement db a) = db_species db /\ db_names (addElement db a) = db_names db).
    { destruct K as [[K1 ->]|[K1 ->]]; cbn; repeat split; auto using incl_refl, incl_tl, incl_appl. }
    destruct Sy as (S1 & S2 & S3 & S4 & S5). repeat split; [congruence|congruence|eapply incl_tran; eauto|eapply incl_tran; eauto| |].
    + intros e [<-|J]; [apply C; exact S2|auto].
    + intros e G N. unfold findElement in G. rewrite first_find in G. cbn [List.find] in G. destruct (str_eqb_spec (el_symbol a) (el_symbol e)) as [Q|Q].
      * injection G as <-. apply D. destruct K as [[K1 K2]|[K1 K2]]; [contradiction|]. rewrite K2. cbn. apply in_app_iff. right. left. reflexivity.
      * apply F; [unfold findElement; rewrite first_find; exact G|]. destruct K as [[K1 K2]|[K1 K2]]; rewrite K2; [exact N|]. cbn. intros [J|J]; auto.
Qed.
Lemma addSpecies_db db s : ~ In (name s) (db_names db) -> sp_state s <> Undefined -> (forall e c, In (e, c) (sp_elements s) -> In (el_symbol e) (db_symbols db)) ->
  exists g, M_System.addSpecies db s = Ok (mkDB (db_species db ++ [s]) (db_elements db) (db_symbols db) (name s :: db_names db) g).
Proof.
  intros N U E. unfold M_System.addSpecies. cbn [unique_name].
  destruct (contains str_eqb (db_names db) (name s)) eqn:C; [apply contains_str in C; contradiction|]. cbn [bind]. rewrite str_eqb_refl.
  assert (A : aggregateState s = Ok (sp_state s)) by (unfold aggregateState; destruct (sp_state s); try reflexivity; contradiction).
  rewrite A. cbn [bind]. replace (match sp_state s with Undefined => with_state s Aqueous | _ => s end) with s by (destruct (sp_state s); try reflexivity; contradiction).
  rewrite addElements_noop; [|intros e J; cbn; apply in_map_iff in J as ([e' c] & <- & J); eapply E; eauto]. rewrite A. cbn. eexists. reflexivity.
Qed.
Lemma toDatabase_inv readQ read readN snodes p : inv readQ read readN snodes p ->
  exists db, toDatabase p = Ok db /\ db_species db = map ld_species (pa_species p) /\ db_elements db = db_elements (fold_left addElement (pa_elements p) emptyDB).
Proof.
  intros I.
  unfold toDatabase. destruct (addElements_db (pa_elements p) emptyDB) as (A & B & _ & _ & C & _). cbn zeta in *.
  set (db0 := fold_left addElement (pa_elements p) emptyDB) in *. cbn in A, B.
  assert (K : forall l pre db, map ld_species (pa_species p) = pre ++ l -> db_species db = pre -> db_names db = rev (map name pre) -> db_symbols db = db_symbols db0 -> db_elements db = db_elements db0 ->
     exists db', fold_left (fun d s => bind d (fun x => M_System.addSpecies x s)) l (Ok db) = Ok db' /\ db_species db' = pre ++ l /\ db_elements db' = db_elements db0).
  { induction l as [|s l IH]; intros pre db E S N Y L; [exists db; rewrite app_nil_r; auto|]. cbn [fold_left bind].
    assert (Js : In s (map ld_species (pa_species p))) by (rewrite E; apply in_elt). apply in_map_iff in Js as (x & Qx & Jx).
    destruct (inv_from _ _ _ _ _ I x Jx) as (n & _ & Sa).
    destruct (addSpecies_db db s) as (g & ->).
    - rewrite N, <- in_rev. intros J. pose proof (inv_once _ _ _ _ _ I) as ND.
      replace (map ld_name (pa_species p)) with (map name (map ld_species (pa_species p))) in ND by (rewrite map_map; reflexivity).
      rewrite E, map_app in ND. cbn in ND. apply NoDup_remove_2 in ND. apply ND. apply in_app_iff. left. exact J.
    - destruct (says_state _ _ _ _ _ Sa) as (t & _ & _ & U). rewrite Qx in U. exact U.
    - intros e c J. rewrite Y. apply C. rewrite <- Qx in J. apply (findElement_some _ _ _ (inv_elements _ _ _ _ _ I x e c Jx J)).
    - cbn [bind]. destruct (IH (pre ++ [s]) (mkDB (db_species db ++ [s]) (db_elements db) (db_symbols db) (name s :: db_names db) g)) as (db' & F & G & M); cbn; auto.
      + rewrite <- app_assoc. exact E.
      + rewrite S. reflexivity.
      + rewrite N, map_app, rev_app_distr. reflexivity.
      + exists db'. split; [exact F|]. split; [rewrite G, <- app_assoc; reflexivity|exact M]. }
  destruct (K (map ld_species (pa_species p)) [] db0 eq_refl A B eq_refl eq_refl) as (db & F & S & L). cbn in S. exists db. auto.
Qed.
(* The database made from the lists has the same species, none renamed, and all their
   elements. *)
Theorem C17_database_partial : forall readQ read readN registry fuel doc p, load readQ read readN registry fuel doc = Ok p ->
  exists db, toDatabase p = Ok db /\ db_species db = map ld_species (pa_species p) /\
    forall s e c, In s (db_species db) -> In (e, c) (sp_elements s) -> In e (db_elements db).
Proof.
  intros readQ read readN registry fuel doc p H. destruct (load_inv _ _ _ _ _ _ _ H) as (snodes & _ & _ & I). clear H.
  destruct (toDatabase_inv _ _ _ _ _ I) as (db & F & S & L). exists db. split; [exact F|]. split; [exact S|].
  destruct (addElements_db (pa_elements p) emptyDB) as (_ & _ & _ & _ & _ & D). cbn zeta in D.
  intros s e c J Je. rewrite S in J. apply in_map_iff in J as (x & <- & Jx). rewrite L. apply D; [apply (inv_elements _ _ _ _ _ I x e c Jx Je)|]. intros [].
Qed.
Print Assumptions C17_database_partial.

(* A document in which a species comes before the species it is formed from. *)
Definition node3 : yaml :=
  YMap [($"Name", YScalar $"CO3-2"); ($"Formula", YScalar $"CO3-2"); ($"AggregateState", YScalar $"Aqueous"); ($"Elements", YScalar $"1:C 3:O");
        ($"Charge", YScalar $"-2"); ($"StandardThermoModel", YMap [($"Constant", YMap [($"G0", YScalar $"0")])])].
Definition good_doc : yaml := YMap [($"Elements", YSeq [YMap [($"Symbol", YScalar $"C"); ($"MolarMass", YScalar $"0")]]); ($"Species", YSeq [node1; node3])].
Definition ex_readQ (t : str) : option Q := Some (atof t).
Definition ex_read (t : str) : option double := Some (Fin (atof t)).
Example C17_nonvacuous : listed good_doc $"Species" [node1; node3] /\ ~ cyclic [node1; node3] /\
  match load ex_readQ ex_read (fun _ => None) default_elements 3 good_doc with
  | Ok p => map ld_name (pa_species p) = [$"CO3-2"; $"CO2"] /\ map el_symbol (pa_elements p) = [$"C"; $"O"]
  | _ => False
  end.
Proof.
  split; [left; apply child_field; reflexivity|]. 
  assert (L : listed good_doc $"Species" [node1; node3]) by (left; apply child_field; reflexivity).
  split; [|vm_compute; auto]. intros C.
  destruct (load ex_readQ ex_read (fun _ => None) default_elements 3 good_doc) as [p| |] eqn:E; [|vm_compute in E; discriminate|vm_compute in E; discriminate].
  exact (C17_cyclic_partial _ _ _ _ _ _ L C 3 p E).
Qed.
