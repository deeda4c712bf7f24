(* A database is written and read again. *)
From Coq Require Import Qabs.
From Verif Require C_Yaml.
From Verif Require Import Base M_Strings M_Algorithms M_Formula M_Chem M_System M_Attribs M_Registry M_Yaml M_DatabaseYaml M_DatabaseOut
  S_Strings S_DatabaseYaml S_DatabaseOut P_Strings P_Formula P_DatabaseYaml P_Ostream C_DatabaseYaml.
Local Open Scope nat_scope.

(* ---- Lists of numbers and names ---- *)
Lemma add_coeff_new acc k q : ~ In k (map fst acc) -> add_coeff acc k q = acc ++ [(k, q)].
Proof.
  induction acc as [|[e c] acc IH]; cbn; [reflexivity|]. intros N. destruct (str_eqb_spec e k) as [->|_]; [tauto|]. rewrite IH by tauto. reflexivity.
Qed.
Definition word (p : str * Q) : str := ostream (snd p) ++ ":"%char :: fst p.
Lemma word_pair p : colon_pair (word p) = (ostream (snd p), fst p).
Proof.
  unfold colon_pair, word. rewrite P_Chem.cut_colon_spec; [reflexivity|]. intros J. apply ostream_chars in J as [_ J]. exact (J eq_refl).
Qed.
Lemma fold_words l : forall acc, NoDup (map fst acc ++ map fst l) ->
  fold_left (fun pairs w => let (n, symbol) := colon_pair w in add_coeff pairs symbol (atof n)) (map word l) acc = acc ++ map (fun p => (fst p, atof (ostream (snd p)))) l.
Proof.
  induction l as [|p l IH]; intros acc N; cbn [map fold_left]; [rewrite app_nil_r; reflexivity|]. rewrite word_pair. cbn [map] in N.
  rewrite add_coeff_new.
  - rewrite IH; [rewrite <- app_assoc; reflexivity|]. rewrite map_app, <- app_assoc. exact N.
  - apply NoDup_remove_2 in N. intros J. apply N. apply in_app_iff. left. exact J.
Qed.
Lemma pairs_back l : NoDup (map fst l) -> (forall k, In k (map fst l) -> ~ In " "%char k) ->
  parseNumberStringPairs (coefficients_text l) = map (fun p => (fst p, atof (ostream (snd p)))) l.
Proof.
  intros N S. unfold parseNumberStringPairs, coefficients_text. rewrite split_join.
  - apply (fold_words l []). exact N.
  - discriminate.
  - intros c J. exact J.
  - apply Forall_map, Forall_forall. intros p J. split; [destruct (ostream (snd p)); discriminate|]. intros c Jc [<-|[]].
    apply in_app_iff in Jc as [Jc|[Jc|Jc]]; [apply ostream_chars in Jc as [Jc _]; exact (Jc eq_refl)|discriminate|].
    apply (S (fst p)); [apply in_map; exact J|exact Jc].
Qed.
Lemma Tokens_none delims s ws : Tokens delims s ws -> forall w, In w ws -> none_in delims w.
Proof. induction 1; intros v J; [destruct J|]. destruct J as [<-|J]; auto. Qed.
Lemma cut_colon_tail w a b : cut_colon w = Some (a, b) -> incl b w.
Proof.
  revert a b. induction w as [|c w IH]; intros a b; cbn; [discriminate|]. destruct (Ascii.eqb c ":").
  - intros E. injection E as _ <-. apply incl_tl, incl_refl.
  - destruct (cut_colon w) as [[x y]|] eqn:E; [|discriminate]. cbn. intros K. injection K as _ <-. apply incl_tl. eapply IH. reflexivity.
Qed.
Lemma pairs_keys t : NoDup (map fst (parseNumberStringPairs t)) /\ forall k, In k (map fst (parseNumberStringPairs t)) -> ~ In " "%char k.
Proof.
  unfold parseNumberStringPairs.
  assert (W : forall w, In w (split t $" ") -> ~ In " "%char w).
  { intros w J K. apply (Tokens_none _ _ _ (proj1 (split_correct t $" " _) eq_refl) w J " "%char K). left. reflexivity. }
  revert W. generalize (split t $" "). intros ws.
  assert (G : forall (ws : list str) (acc : list (str * Q)), (forall w : str, In w ws -> ~ In " "%char w) -> NoDup (map fst acc) -> (forall k : str, In k (map fst acc) -> ~ In " "%char k) ->
     let r := fold_left (fun pairs w => let (n, symbol) := colon_pair w in add_coeff pairs symbol (atof n)) ws acc in NoDup (map fst r) /\ forall k, In k (map fst r) -> ~ In " "%char k).
  { clear ws. induction ws as [|w ws IH]; intros acc W N S; cbn [fold_left]; [auto|].
    destruct (colon_pair w) as [n k] eqn:E.
    assert (K : ~ In " "%char k).
    { intros J. apply (W w); [left; reflexivity|]. unfold colon_pair in E. destruct (cut_colon w) as [[a b]|] eqn:F; injection E as -> ->; [eapply cut_colon_tail; eauto|exact J]. }
    apply IH; [intros; apply W; right; assumption| |].
    - rewrite add_coeff_keys. destruct (in_dec str_eq_dec k (map fst acc)); [exact N|apply NoDup_snoc; assumption].
    - intros x J. rewrite add_coeff_keys in J. destruct (in_dec str_eq_dec k (map fst acc)); [auto|]. apply in_app_iff in J as [J|[<-|[]]]; auto. }
  intros W. apply (G ws []); [exact W|constructor|intros k []].
Qed.

Lemma NoDup_left {A} (l m : list A) : NoDup (l ++ m) -> NoDup l.
Proof.
  induction l as [|a l IH]; cbn; intros N; [constructor|]. apply NoDup_cons_iff in N as [N1 N2]. constructor; [|auto]. intros J. apply N1, in_app_iff. left. exact J.
Qed.

(* ---- Names ---- *)
Lemma state_back a : a <> Undefined -> parseAggregateState (state_name a) = a.
Proof. destruct a; intros N; solve [reflexivity | destruct (N eq_refl)]. Qed.
Lemma same_name R a b : same R a b -> ld_name a = ld_name b.
Proof. intros H. inversion H; subst. assumption. Qed.
Lemma findLoaded_absent R pre sps x : Forall2 (same R) pre sps -> ~ In x (map ld_name pre) -> findLoaded sps x = None.
Proof.
  intros F N. unfold findLoaded. rewrite first_find. induction F as [|a b pre sps H F IH]; [reflexivity|]. cbn.
  apply same_name in H. cbn in N. destruct (str_eqb_spec (ld_name b) x) as [E|_]; [destruct N; left; congruence|]. apply IH. tauto.
Qed.
Lemma findLoaded_same R pre sps r : Forall2 (same R) pre sps -> NoDup (map ld_name pre) -> In r pre -> exists r', findLoaded sps (ld_name r) = Some r' /\ same R r r'.
Proof.
  intros F N J. unfold findLoaded. rewrite first_find. induction F as [|a b pre sps H F IH]; [destruct J|]. cbn. cbn in N. apply NoDup_cons_iff in N as [N1 N2].
  destruct J as [->|J].
  - rewrite (same_name _ _ _ H), str_eqb_refl. eauto.
  - destruct (str_eqb_spec (ld_name b) (ld_name r)) as [E|_]; [|auto]. destruct N1. rewrite (same_name _ _ _ H), E. apply in_map. exact J.
Qed.
Lemma findElement_same l l' x e : Forall2 same_element l l' -> findElement l x = Some e -> exists e', findElement l' x = Some e' /\ same_element e e'.
Proof.
  intros F. unfold findElement. rewrite !first_find. induction F as [|a b l l' H F IH]; [discriminate|]. cbn. destruct H as (H1 & H2 & H3 & H4). rewrite H1.
  destruct (str_eqb (el_symbol b) x); [|exact IH]. intros K. injection K as ->. exists b. split; [reflexivity|]. repeat split; assumption.
Qed.

(* ---- The elements of the database ---- *)
Lemma dedup_spec l : forall db, db_symbols db = rev (map el_symbol (db_elements db)) -> NoDup (map el_symbol (db_elements db)) ->
  let db' := fold_left addElement l db in
  NoDup (map el_symbol (db_elements db')) /\
  (forall x e, findElement (db_elements db ++ l) x = Some e -> findElement (db_elements db') x = Some e) /\
  incl (db_elements db') (db_elements db ++ l) /\
  (NoDup (map el_symbol (db_elements db ++ l)) -> db_elements db' = db_elements db ++ l).
Proof.
  induction l as [|a l IH]; intros db S N; cbn zeta; cbn [fold_left].
  - rewrite app_nil_r. repeat split; auto using incl_refl.
  - assert (E : In (el_symbol a) (db_symbols db) <-> In (el_symbol a) (map el_symbol (db_elements db))) by (rewrite S, <- in_rev; reflexivity).
    destruct (in_dec str_eq_dec (el_symbol a) (db_symbols db)) as [J|J].
    + rewrite addElement_noop by exact J. destruct (IH db S N) as (A & B & C & D). split; [exact A|]. split; [|split].
      * intros x e K. apply B. unfold findElement in *. rewrite first_find in *. rewrite find_app in K |- *. cbn [List.find] in K. destruct (List.find _ (db_elements db)) eqn:G; [exact K|].
        destruct (str_eqb_spec (el_symbol a) x) as [Q|Q]; [|exact K]. exfalso. apply E, in_map_iff in J as (b & Qb & Jb).
        pose proof (find_none _ _ G b Jb) as Z. cbn in Z. rewrite Qb, Q, str_eqb_refl in Z. discriminate.
      * intros x K. apply C in K. apply in_app_iff in K as [K|K]; apply in_app_iff; [left|right; right]; exact K.
      * intros K. exfalso. rewrite map_app in K. cbn in K. apply NoDup_remove_2 in K. apply K, in_app_iff. left. apply E. exact J.
    + assert (F : addElement db a = mkDB (db_species db) (db_elements db ++ [a]) (el_symbol a :: db_symbols db) (db_names db) (db_groups db)).
      { unfold addElement. destruct (contains str_eqb (db_symbols db) (el_symbol a)) eqn:G; [apply contains_str in G; contradiction|reflexivity]. }
      rewrite F. destruct (IH (mkDB (db_species db) (db_elements db ++ [a]) (el_symbol a :: db_symbols db) (db_names db) (db_groups db))) as (A & B & C & D); cbn [db_elements db_symbols] in *.
      * rewrite map_app, rev_app_distr, S. reflexivity.
      * rewrite map_app. apply NoDup_snoc; [exact N|]. rewrite E in J. exact J.
      * rewrite <- !app_assoc in B, C, D. cbn [app] in B, C, D. auto.
Qed.

(* ---- The elements made by the parser are sound ---- *)
Section Sound.
Variable readQ : str -> option Q.
Variable read : str -> option double.
Variable readN : str -> option nat.
Variable registry : list Element.
Hypothesis Hreg : Forall sound registry.
Variables enodes snodes : list yaml.
Lemma elementOf_sound symbol mass nm tags e : elementOf symbol mass nm tags = Ok e -> sound e.
Proof.
  unfold elementOf. destruct symbol as [|c s]; [discriminate|]. cbn [is_empty]. destruct (Qltb mass 0) eqn:L; [discriminate|]. intros E. injection E as <-.
  repeat split; cbn; [discriminate|destruct nm; discriminate|]. unfold Qltb in L. apply negb_false_iff, Qle_bool_iff in L. exact L.
Qed.
Lemma addElementNode_sound els n e els' : Forall sound els -> addElementNode readQ els n = Ok (e, els') -> Forall sound els'.
Proof.
  intros S H. unfold addElementNode in H. repeat (apply bind_inv in H as (? & ? & H)). injection H as <- <-. apply Forall_app. split; [exact S|].
  constructor; [|constructor]. eapply elementOf_sound. eassumption.
Qed.
Lemma createElements_sound l : forall els cs els', Forall sound els -> createElements readQ registry enodes els l = Ok (cs, els') -> Forall sound els'.
Proof.
  induction l as [|[x c] l IH]; intros els cs els' S H; cbn [createElements] in H; [injection H as <- <-; exact S|].
  apply bind_inv in H as ([e els1] & E & H). apply bind_inv in H as ([cs' els2] & E' & H). cbn [fst snd] in *. injection H as <- <-. apply (IH els1 cs' els2); [|exact E'].
  destruct (findElement els x); [injection E as <- <-; exact S|]. unfold addElementSymbol in E. apply bind_inv in E as (o & F & E). destruct o as [n|].
  - eapply addElementNode_sound; eauto.
  - unfold element_withSymbol in E. rewrite first_find in E. destruct (List.find _ registry) eqn:G; [|discriminate]. injection E as <- <-. apply Forall_app. split; [exact S|].
    constructor; [|constructor]. apply find_some in G as [G _]. rewrite Forall_forall in Hreg. auto.
Qed.
Lemma addElements_sound l : forall els els', Forall sound els -> addElements readQ els l = Ok els' -> Forall sound els'.
Proof.
  induction l as [|n l IH]; intros els els' S H; cbn in H; [injection H as <-; exact S|]. apply bind_inv in H as ([e els1] & E & H).
  eapply IH; [|exact H]. eapply addElementNode_sound; eauto.
Qed.
Lemma addSpecies_sound f : forall st n l st', Forall sound (pa_elements st) -> addSpecies readQ read readN registry f enodes snodes st n = Ok (l, st') -> Forall sound (pa_elements st').
Proof.
  induction f as [|f IH]; intros st n l st' S H; [discriminate|].
  apply addSpecies_inv in H as (nm & _ & [[_ ->]|(_ & sp & re & els' & rr & st1 & m & A & B & _ & _ & _ & _ & _ & _ & _ & _ & _ & _ & _ & ->)]); [exact S|]. cbn.
  unfold createElementalComposition in A. apply bind_inv in A as (t & _ & A). apply createElements_sound in A; [|exact S].
  assert (S' : Forall sound (pa_elements (mkParsed els' (pa_species st)))) by exact A. clear A. revert B S'. generalize (mkParsed els' (pa_species st)). clear - IH.
  intros st0 B S. unfold createFormationReaction in B. apply bind_inv in B as (c & _ & B). destruct c as [g|]; [|injection B as <- <-; exact S].
  apply bind_inv in B as (t & _ & B). apply bind_inv in B as ([rs st2] & B & D). apply bind_inv in D as (m & _ & D). cbn [fst snd] in D. injection D as _ <-.
  revert st0 rs st2 S B. induction (parseNumberStringPairs t) as [|[x c] l IHl]; intros st0 rs st2 S B; cbn [createReactants] in B; [injection B as _ <-; exact S|].
  apply bind_inv in B as ([s st3] & E & B). apply bind_inv in B as ([rs' st4] & E' & B). cbn [fst snd] in *. injection B as _ <-. apply (IHl st3 rs' st4); [|exact E'].
  destruct (findLoaded (pa_species st0) x); [injection E as _ <-; exact S|]. unfold addSpeciesName in E. apply bind_inv in E as (o & _ & E). destruct o as [nd|]; [|discriminate].
  eapply IH; eauto.
Qed.
Lemma addAll_sound f l : forall st p, Forall sound (pa_elements st) -> addAllSpecies readQ read readN registry f enodes snodes st l = Ok p -> Forall sound (pa_elements p).
Proof.
  induction l as [|n l IH]; intros st p S H; cbn in H; [injection H as <-; exact S|]. apply bind_inv in H as ([x st1] & E & H). cbn [snd] in H.
  eapply IH; [|exact H]. eapply addSpecies_sound; eauto.
Qed.
End Sound.
Lemma load_sound readQ read readN registry fuel doc p : Forall sound registry -> load readQ read readN registry fuel doc = Ok p -> Forall sound (pa_elements p).
Proof.
  intros S H. unfold load in H. apply bind_inv in H as (enodes & E & H). apply bind_inv in H as (els & A & H). apply bind_inv in H as (snodes & _ & H).
  eapply addAll_sound; [exact S| |exact H]. eapply addElements_sound; [|exact A]. constructor.
Qed.

(* ---- Writing and reading ---- *)
Section Back.
Variable printQ : Q -> str.
Variable readQ : str -> option Q.
Variable print : double -> str.
Variable read : str -> option double.
Variable printN : nat -> str.
Variable readN : str -> option nat.
Hypothesis HQ : forall q, exists q', readQ (printQ q) = Some q' /\ (q' == q)%Q.
Hypothesis Hc : C_Yaml.codec print read printN readN.

Lemma mapM_scalar l : mapM as_string (map YScalar l) = Ok l.
Proof. induction l as [|x l IH]; [reflexivity|]. cbn. rewrite IH. reflexivity. Qed.
Lemma addElementNode_back e els : sound e -> exists e', addElementNode readQ els (encodeElement printQ e) = Ok (e', els ++ [e']) /\ same_element e e'.
Proof.
  intros (S1 & S2 & S3). destruct (HQ (el_mass e)) as (q & R & Q).
  assert (L : Qltb q 0 = false) by (unfold Qltb; apply negb_false_iff, Qle_bool_iff; rewrite Q; exact S3).
  assert (F : child (encodeElement printQ e) $"Symbol" = Ok (Some (YScalar (el_symbol e))) /\ child (encodeElement printQ e) $"MolarMass" = Ok (Some (YScalar (printQ (el_mass e)))) /\
     child (encodeElement printQ e) $"Name" = Ok (Some (YScalar (el_name e))) /\
     child (encodeElement printQ e) $"Tags" = Ok (match el_tags e with [] => None | l => Some (strings l) end)).
  { unfold encodeElement, unless. destruct (el_name e); [contradiction|]. destruct (el_tags e); repeat split; reflexivity. }
  destruct F as (F1 & F2 & F3 & F4). exists (mkElem (el_symbol e) (el_name e) q (el_tags e)). split; [|repeat split; cbn; auto; symmetry; exact Q].
  unfold addElementNode, req_string, req_rational, opt_string, opt_strings, at_key. rewrite F1, F2, F3, F4. cbn [bind as_string]. unfold as_rational. cbn [bind as_string]. rewrite R. cbn [bind].
  assert (G : forall s : str, s <> [] -> is_empty s = false) by (intros [|]; [contradiction|reflexivity]).
  destruct (el_tags e) as [|t ts] eqn:T; [|unfold strings; cbn [as_strings]; rewrite mapM_scalar]; cbn [bind]; unfold elementOf; rewrite (G _ S1), L, (G _ S2); reflexivity.
Qed.
Lemma addElements_back l : Forall sound l -> forall els, exists l', addElements readQ els (map (encodeElement printQ) l) = Ok (els ++ l') /\ Forall2 same_element l l'.
Proof.
  induction 1 as [|e l S F IH]; intros els; cbn [map addElements]; [exists []; rewrite app_nil_r; auto|].
  destruct (addElementNode_back e els S) as (e' & -> & Q). cbn [bind snd]. destruct (IH (els ++ [e'])) as (l' & -> & G). exists (e' :: l'). rewrite <- app_assoc. auto.
Qed.
Variable registry : list Element.
Lemma createElements_back enodes els (g : Q -> Q) cs : (forall e c, In (e, c) cs -> exists e', findElement els (el_symbol e) = Some e' /\ same_element e e') ->
  exists cs', createElements readQ registry enodes els (map (fun p => (el_symbol (fst p), g (snd p))) cs) = Ok (cs', els) /\
    Forall2 (fun p p' => same_element (fst p) (fst p') /\ snd p' = g (snd p)) cs cs'.
Proof.
  induction cs as [|[e c] cs IH]; intros F; cbn [map createElements]; [exists []; auto|]. cbn [fst snd].
  destruct (F e c (or_introl eq_refl)) as (e' & -> & S). cbn [bind snd]. destruct IH as (cs' & -> & G); [intros; eapply F; right; eauto|]. cbn [bind fst snd].
  exists ((e', g c) :: cs'). split; [reflexivity|]. constructor; auto.
Qed.
Lemma createReactants_back R snodes add els sps (g : Q -> Q) rs :
  (forall r c, In (r, c) rs -> R c (g c) /\ exists r', findLoaded sps (ld_name r) = Some r' /\ same R r r') ->
  exists rs', createReactants snodes add (mkParsed els sps) (map (fun p => (ld_name (fst p), g (snd p))) rs) = Ok (rs', mkParsed els sps) /\ same_reactants R rs rs'.
Proof.
  induction rs as [|[r c] rs IH]; intros F; cbn [map createReactants]; [exists []; split; [reflexivity|constructor]|]. cbn [fst snd pa_species].
  destruct (F r c (or_introl eq_refl)) as (Rc & r' & -> & S). cbn [bind snd]. destruct IH as (rs' & -> & G); [intros; eapply F; right; eauto|]. cbn [bind fst snd].
  exists ((r', g c) :: rs'). split; [reflexivity|]. constructor; auto.
Qed.
Lemma std_back v m : StandardThermoModelYAML read readN v = Ok m -> all_or_none m -> StandardThermoModelYAML read readN (serializeStd print printN m) = Ok m.
Proof.
  intros D K. destruct m; cbn [serializeStd].
  - cbn -[decodeConstant encodeConstant]. rewrite (C_Yaml.rt_Constant _ _ _ _ Hc). reflexivity.
  - cbn -[decodeHKF encodeHKF]. rewrite (C_Yaml.rt_HKF _ _ _ _ Hc). cbn [omap].
    assert (T : hk_Tmax p = Fin 0).
    { unfold StandardThermoModelYAML in D. destruct v as [| | |[|[m0 v] []]]; try discriminate.
      assert (H : forall {A} (f : A -> StdModel) (o : outcome A), omap f o = Ok (SHKF p) -> exists a, o = Ok a /\ f a = SHKF p) by (intros A f [a| |] E; try discriminate; injection E; eauto).
      repeat match type of D with (if ?b then _ else _) = _ => destruct b end; try discriminate D; apply H in D as (a & D & E); try discriminate E. injection E as <-.
      unfold decodeHKF in D. repeat (apply bind_inv in D as (? & ? & D)). injection D as <-. reflexivity. }
    destruct p. cbn in *. subst. reflexivity.
  - cbn -[decodeHP encodeHP]. cbn in K. destruct K as [K|(K1 & K2 & K3 & K4 & K5)]; [rewrite (C_Yaml.rt_HP _ _ _ _ Hc _ K); reflexivity|].
    rewrite (C_Yaml.rt_HP0 _ _ _ _ Hc); [|rewrite K2; reflexivity]. destruct p. cbn in *. subst. reflexivity.
  - cbn -[decodeMK encodeMK]. rewrite (C_Yaml.rt_MK _ _ _ _ Hc). reflexivity.
  - cbn -[decodeMin encodeMin]. rewrite (C_Yaml.rt_Min _ _ _ _ Hc). reflexivity.
  - cbn -[decodeWater encodeWater]. rewrite (C_Yaml.rt_Water _ _ _ _ Hc). reflexivity.
  - exfalso. unfold StandardThermoModelYAML in D. destruct v as [| | |[|[m0 v] []]]; try discriminate.
    repeat match type of D with (if ?b then _ else _) = _ => destruct b end; try discriminate D; match type of D with omap _ ?o = _ => destruct o; discriminate D end.
Qed.
Lemma rxn_back v m : ReactionThermoModelYAML read v = Ok m -> ReactionThermoModelYAML read (serializeRxn print m) = Ok m.
Proof.
  intros D. pose proof (proj2 (C_Yaml.C59_models_partial _ _ _ _ Hc) m) as H. destruct (ReactionThermoModelYAML read (serializeRxn print m)); [congruence| |contradiction].
  exfalso. subst m. unfold ReactionThermoModelYAML in D. destruct v as [| | |[|[m0 v] []]]; try discriminate.
  repeat match type of D with (if ?b then _ else _) = _ => destruct b end; try discriminate D; match type of D with omap _ ?o = _ => destruct o; discriminate D end.
Qed.

(* What is written of a species whose substance and state are given. *)
Definition plain (l : Loaded) : yaml :=
  let s := ld_species l in
  YMap ([($"Name", YScalar (name s)); ($"Formula", YScalar (sp_formula s)); ($"Substance", YScalar (sp_substance s));
     ($"Elements", YScalar (coefficients_text (map (fun p => (el_symbol (fst p), snd p)) (sp_elements s))))] ++
    unless (Qeq_bool (sp_charge s) 0) $"Charge" (YScalar (printQ (sp_charge s))) ++
    [($"AggregateState", YScalar (state_name (sp_state s)))] ++
    match ld_reaction l with
    | Some (r :: rs, m) => [($"FormationReaction", encodeReaction print (r :: rs) m)]
    | _ => [($"StandardThermoModel", match ld_model l with Some m => serializeStd print printN m | None => YNull end)]
    end ++
    unless (match sp_tags s with [] => true | _ => false end) $"Tags" (strings (sp_tags s))).
Lemma encodeSpecies_plain l : sp_substance (ld_species l) <> [] -> sp_state (ld_species l) <> Undefined -> encodeSpecies printQ print printN l = Ok (plain l).
Proof.
  intros S U. unfold encodeSpecies, plain, substance, aggregateState. destruct (sp_substance (ld_species l)) as [|c t]; [contradiction|]. cbn [bind].
  destruct (sp_state (ld_species l)); try contradiction; reflexivity.
Qed.
Definition rxn_of (l : Loaded) : option yaml := match ld_reaction l with Some (r :: rs, m) => Some (encodeReaction print (r :: rs) m) | _ => None end.
Definition std_of (l : Loaded) : option yaml :=
  match ld_reaction l with Some (r :: rs, m) => None | _ => Some (match ld_model l with Some m => serializeStd print printN m | None => YNull end) end.
Lemma plain_fields l : let s := ld_species l in
  child (plain l) $"Name" = Ok (Some (YScalar (name s))) /\ child (plain l) $"Formula" = Ok (Some (YScalar (sp_formula s))) /\
  child (plain l) $"Substance" = Ok (Some (YScalar (sp_substance s))) /\
  child (plain l) $"Elements" = Ok (Some (YScalar (coefficients_text (map (fun p => (el_symbol (fst p), snd p)) (sp_elements s))))) /\
  child (plain l) $"Charge" = Ok (if Qeq_bool (sp_charge s) 0 then None else Some (YScalar (printQ (sp_charge s)))) /\
  child (plain l) $"AggregateState" = Ok (Some (YScalar (state_name (sp_state s)))) /\
  child (plain l) $"FormationReaction" = Ok (rxn_of l) /\ child (plain l) $"StandardThermoModel" = Ok (std_of l) /\
  child (plain l) $"Tags" = Ok (match sp_tags s with [] => None | t => Some (strings t) end).
Proof.
  cbn zeta. unfold plain, rxn_of, std_of, unless. generalize (coefficients_text (map (fun p => (el_symbol (fst p), snd p)) (sp_elements (ld_species l)))). intros txt.
  generalize (YScalar (printQ (sp_charge (ld_species l)))). generalize (state_name (sp_state (ld_species l))). intros st ch.
  destruct (Qeq_bool (sp_charge (ld_species l)) 0), (sp_tags (ld_species l)) as [|tg tgs], (ld_reaction l) as [[[|r rs] m]|]; repeat split; reflexivity.
Qed.

(* A species is read again, the species before it having been read again. *)
Lemma addSpecies_back (R : Q -> Q -> Prop) f enodes snodes els sps p pre l post n :
  (forall c, coefficient_in p c -> R c (atof (ostream c))) ->
  NoDup (map ld_name (pa_species p)) -> pa_species p = pre ++ l :: post -> (forall r c, In (r, c) (reactants l) -> In r pre) ->
  says readQ read readN n l -> bare (sp_formula (ld_species l)) -> (forall m, ld_model l = Some m -> all_or_none m) ->
  (forall e c, In (e, c) (sp_elements (ld_species l)) -> exists e', findElement els (el_symbol e) = Some e' /\ same_element e e') ->
  Forall2 (same R) pre sps ->
  exists l', addSpecies readQ read readN registry (S f) enodes snodes (mkParsed els sps) (plain l) = Ok (l', mkParsed els (sps ++ [l'])) /\ same R l l'.
Proof.
  intros HR ND E B Sa Ba Mo El F2.
  assert (Jl : In l (pa_species p)) by (rewrite E; apply in_elt).
  destruct (plain_fields l) as (F1 & Ff & Fs & Fe & Fc & Fa & Fr & Fm & Ft). cbn zeta in *.
  destruct (says_some _ _ _ _ _ Sa) as [S1 S2]. destruct (says_state _ _ _ _ _ Sa) as (t0 & _ & _ & U). destruct Ba as [B1 [sx B2]].
  assert (Nm : is_empty (name (ld_species l)) = false /\ name (ld_species l) <> []) by (unfold name; destruct (sp_name (ld_species l)); [contradiction|]; split; [reflexivity|discriminate]).
  assert (Sb : sp_substance (ld_species l) <> []).
  { destruct (says_substance _ _ _ _ _ Sa) as [(t & _ & T & ->)|[_ ->]]; assumption. }
  assert (Ab : findLoaded sps (name (ld_species l)) = None).
  { apply (findLoaded_absent R pre); [exact F2|]. rewrite E, map_app in ND. cbn in ND. apply NoDup_remove_2 in ND. intros J. apply ND, in_app_iff. left. exact J. }
  (* elements *)
  destruct (says_elements _ _ _ _ _ Sa) as (te & _ & Te).
  assert (Pe : parseNumberStringPairs (coefficients_text (map (fun p => (el_symbol (fst p), snd p)) (sp_elements (ld_species l)))) =
     map (fun p => (el_symbol (fst p), atof (ostream (snd p)))) (sp_elements (ld_species l))).
  { rewrite pairs_back; [rewrite map_map; reflexivity| |]; rewrite Te; apply pairs_keys. }
  destruct (createElements_back enodes els (fun c => atof (ostream c)) (sp_elements (ld_species l)) El) as (cs' & Ce & Cs).
  assert (Cn : is_empty cs' = false) by (destruct Cs; [contradiction|reflexivity]).
  (* charge *)
  assert (Ch : exists q, opt_rational readQ (plain l) $"Charge" = Ok q /\ (sp_charge (ld_species l) == q)%Q).
  { unfold opt_rational. rewrite Fc. cbn [bind]. destruct (Qeq_bool (sp_charge (ld_species l)) 0) eqn:Z.
    - exists 0%Q. split; [reflexivity|]. apply Qeq_bool_iff. exact Z.
    - destruct (HQ (sp_charge (ld_species l))) as (q & Rq & Qq). exists q. unfold as_rational. cbn [bind as_string]. rewrite Rq. split; [reflexivity|symmetry; exact Qq]. }
  destruct Ch as (q & Chq & Qq).
  (* tags *)
  assert (Tg : createTags (plain l) = Ok (sp_tags (ld_species l))).
  { unfold createTags. rewrite Ft. cbn [bind]. destruct (sp_tags (ld_species l)); [reflexivity|]. unfold strings. rewrite mapM_scalar. reflexivity. }
  (* reaction and model *)
  assert (Th : exists rr, createFormationReaction read snodes (addSpecies readQ read readN registry f enodes snodes) (mkParsed els sps) (plain l) = Ok (rr, mkParsed els sps) /\
     createStandardThermoModel read readN (plain l) = Ok (ld_model l) /\ same_reaction R (ld_reaction l) (keep_reaction rr) /\
     (match rxn_of l with Some _ => true | None => false end) = reaction_initialized rr /\
     (match std_of l with Some _ => true | None => false end) = model_initialized (ld_model l) /\ reaction_initialized rr = negb (model_initialized (ld_model l))).
  { unfold createFormationReaction, createStandardThermoModel. rewrite Fr, Fm. cbn [bind].
    destruct (says_thermo _ _ _ _ _ Sa) as [(g & t & v & m & _ & _ & _ & M0 & R0 & Rn & Rt & Rm)|(_ & v & m & _ & R0 & M0 & Sm)].
    - unfold rxn_of, std_of. rewrite R0, M0. destruct (reactants l) as [|r rs] eqn:Er; [contradiction|]. cbn [bind].
      assert (Rd : req_string (encodeReaction print (r :: rs) m) $"Reactants" = Ok (coefficients_text (map (fun p => (ld_name (fst p), snd p)) (r :: rs)))) by reflexivity.
      assert (Rk : createReactionThermoModel read (encodeReaction print (r :: rs) m) = Ok m).
      { unfold createReactionThermoModel. change (at_key (encodeReaction print (r :: rs) m) $"ReactionThermoModel") with (Ok (serializeRxn print m)). cbn [bind]. apply (rxn_back v). exact Rm. }
      rewrite Rd. cbn [bind]. rewrite pairs_back by (rewrite Rt; apply pairs_keys). rewrite map_map. cbn [fst snd].
      destruct (createReactants_back R snodes (addSpecies readQ read readN registry f enodes snodes) els sps (fun c => atof (ostream c)) (r :: rs)) as (rs' & Cr & Sr).
      { intros r0 c J. split.
        - apply HR. exists l. split; [exact Jl|]. right. rewrite Er. change c with (snd (r0, c)). apply in_map. exact J.
        - apply (findLoaded_same R pre); [exact F2| |eapply B; exact J]. rewrite E, map_app in ND. apply NoDup_left in ND. exact ND. }
      cbn [fst snd] in Cr. match goal with |- context [createReactants ?a ?b ?c ?d] => replace (createReactants a b c d) with (Ok (rs', mkParsed els sps)) by (symmetry; exact Cr) end. cbn [bind]. rewrite Rk. cbn [bind fst snd]. exists (Some (rs', m)).
      inversion Sr; subst. cbn. repeat split. constructor. exact Sr.
    - unfold rxn_of, std_of. rewrite R0, M0. cbn [bind]. exists None. rewrite (std_back v m Sm (Mo m M0)). cbn. repeat split. constructor. }
  destruct Th as (rr & T1 & T2 & T3 & T4 & T5 & T6).
  exists (mkLoaded (mkSpecies (name (ld_species l)) (sp_formula (ld_species l)) (sp_substance (ld_species l)) cs' q (sp_state (ld_species l)) (sp_tags (ld_species l))) (keep_reaction rr) (ld_model l)).
  split.
  - cbn [addSpecies]. unfold at_key, defined, req_string, opt_string, at_key. rewrite F1, Ff, Fs, Fa, Fe, Fr, Fm. cbn [bind as_string].
    assert (Bo : negb (match rxn_of l with Some _ => true | None => false end) && negb (match std_of l with Some _ => true | None => false end) = false).
    { rewrite T4, T5, T6. destruct (model_initialized (ld_model l)); reflexivity. }
    rewrite Bo. cbn [pa_species pa_elements]. rewrite Ab, Chq. cbn [bind]. rewrite state_back by exact U.
    replace (state_eqb (sp_state (ld_species l)) Undefined) with false by (destruct (sp_state (ld_species l)); try reflexivity; contradiction).
    unfold createElementalComposition, req_string, at_key. rewrite Fe. cbn [bind as_string]. rewrite Pe, Ce. cbn [bind fst snd]. rewrite T1. cbn [bind fst snd]. rewrite T2. cbn [bind]. rewrite Tg. cbn [bind].
    unfold speciesOf. cbn [at_name at_formula at_elements at_state at_model at_reaction at_substance at_charge at_tags]. rewrite (proj1 Nm).
    replace (is_empty (sp_formula (ld_species l))) with false by (destruct (sp_formula (ld_species l)); [contradiction|reflexivity]). rewrite Cn.
    replace (state_eqb (sp_state (ld_species l)) Undefined) with false by (destruct (sp_state (ld_species l)); try reflexivity; contradiction).
    rewrite T6. destruct (model_initialized (ld_model l)); cbn [negb andb]; rewrite B2; cbn [bind fst];
      (replace (is_empty (sp_substance (ld_species l))) with false by (destruct (sp_substance (ld_species l)); [contradiction|reflexivity])); reflexivity.
  - destruct l as [s r m]. cbn [ld_species ld_reaction ld_model] in *. apply same_loaded; cbn; auto.
    + destruct (name s); [destruct (proj2 Nm eq_refl)|reflexivity].
    + assert (HRe : forall c, In c (map snd (sp_elements s)) -> R c (atof (ostream c))) by (intros c J; apply HR; exists (mkLoaded s r m); split; [exact Jl|left; exact J]).
      clear - Cs HRe. induction Cs as [|a b la lb [H1 H2] Cs IH]; [constructor|]. constructor; [|apply IH; intros c J; apply HRe; right; exact J].
      split; [exact H1|]. rewrite H2. apply HRe. left. reflexivity.
Qed.
Lemma addAll_back (R : Q -> Q -> Prop) f enodes snodes els p :
  (forall c, coefficient_in p c -> R c (atof (ostream c))) ->
  NoDup (map ld_name (pa_species p)) ->
  (forall pre l post, pa_species p = pre ++ l :: post -> forall r c, In (r, c) (reactants l) -> In r pre) ->
  (forall l, In l (pa_species p) -> exists n, says readQ read readN n l) -> bare_formulas p -> plain_models p ->
  (forall l e c, In l (pa_species p) -> In (e, c) (sp_elements (ld_species l)) -> exists e', findElement els (el_symbol e) = Some e' /\ same_element e e') ->
  forall post pre sps, pa_species p = pre ++ post -> Forall2 (same R) pre sps ->
  exists sps', addAllSpecies readQ read readN registry (S f) enodes snodes (mkParsed els sps) (map plain post) = Ok (mkParsed els (sps ++ sps')) /\ Forall2 (same R) post sps'.
Proof.
  intros HR ND B Sa Ba Mo El. induction post as [|l post IH]; intros pre sps E F.
  - exists []. cbn. rewrite app_nil_r. auto.
  - assert (Jl : In l (pa_species p)) by (rewrite E; apply in_elt). destruct (Sa l Jl) as (n & Sn).
    destruct (addSpecies_back R f enodes snodes els sps p pre l post n HR ND E (B pre l post E) Sn (Ba l Jl) (fun m => Mo l m Jl) (fun e c => El l e c Jl) F) as (l' & A & S).
    cbn [map addAllSpecies]. rewrite A. cbn [bind snd]. destruct (IH (pre ++ [l]) (sps ++ [l'])) as (sps' & G & H).
    + rewrite <- app_assoc. exact E.
    + apply Forall2_app; auto.
    + exists (l' :: sps'). rewrite <- app_assoc in G. auto.
Qed.
Lemma encodeAll_plain l : (forall x, In x l -> sp_substance (ld_species x) <> [] /\ sp_state (ld_species x) <> Undefined) ->
  mapM (encodeSpecies printQ print printN) l = Ok (map plain l).
Proof.
  induction l as [|x l IH]; intros H; [reflexivity|]. cbn [mapM map]. destruct (H x (or_introl eq_refl)) as [A B]. rewrite (encodeSpecies_plain x A B). cbn [bind].
  rewrite IH by (intros; apply H; right; assumption). reflexivity.
Qed.
Lemma section_sequence (l : list yaml) (els sps : yaml) :
  section_nodes (YMap [($"Elements", els); ($"Species", sequence l)]) $"Species" = Ok l /\
  section_nodes (YMap [($"Elements", sequence l); ($"Species", sps)]) $"Elements" = Ok l.
Proof. destruct l; split; reflexivity. Qed.

Lemma back (R : Q -> Q -> Prop) fuel doc p : Forall sound registry -> load readQ read readN registry fuel doc = Ok p ->
  (forall c, coefficient_in p c -> R c (atof (ostream c))) -> bare_formulas p -> plain_models p ->
  exists y p', write printQ print printN p = Ok y /\ (forall f, load readQ read readN registry (S f) y = Ok p') /\ same_database R p p'.
Proof.
  intros Sr L HR Ba Mo. destruct (load_inv _ _ _ _ _ _ _ L) as (snodes & _ & _ & I). pose proof (load_sound _ _ _ _ _ _ _ Sr L) as Se.
  destruct (toDatabase_inv _ _ _ _ _ I) as (db & Db & _ & De).
  destruct (dedup_spec (pa_elements p) emptyDB eq_refl (NoDup_nil _)) as (D1 & D2 & D3 & _). cbn zeta in *. rewrite <- De in *. cbn [db_elements emptyDB app] in D2, D3.
  assert (Sd : Forall sound (db_elements db)) by (apply Forall_forall; intros e J; rewrite Forall_forall in Se; apply Se, D3, J).
  destruct (addElements_back (db_elements db) Sd []) as (els & Ae & Fe). cbn [app] in Ae.
  set (enodes := map (encodeElement printQ) (db_elements db)) in *. set (nodes := map plain (pa_species p)).
  assert (Sp : forall l, In l (pa_species p) -> exists n, says readQ read readN n l) by (intros l J; destruct (inv_from _ _ _ _ _ I l J) as (n & _ & Sn); eauto).
  destruct (addAll_back R 0 enodes nodes els p HR (inv_once _ _ _ _ _ I) (inv_before _ _ _ _ _ I) Sp Ba Mo) with (post := pa_species p) (pre := @nil Loaded) (sps := @nil Loaded) as (sps & As & Fs); [|reflexivity|constructor|].
  { intros l e c Jl Je. apply (findElement_same (db_elements db)); [exact Fe|]. apply D2. apply (inv_elements _ _ _ _ _ I l e c Jl Je). }
  exists (YMap [($"Elements", sequence enodes); ($"Species", sequence nodes)]), (mkParsed els sps).
  assert (W : write printQ print printN p = Ok (YMap [($"Elements", sequence enodes); ($"Species", sequence nodes)])).
  { unfold write. rewrite Db. cbn [bind]. unfold encodeDatabase. rewrite encodeAll_plain; [reflexivity|]. intros x J. destruct (Sp x J) as (n & Sn). split.
    - destruct (says_substance _ _ _ _ _ Sn) as [(t & _ & T & ->)|[_ ->]]; [exact T|apply (Ba x J)].
    - destruct (says_state _ _ _ _ _ Sn) as (t & _ & _ & U). exact U. }
  assert (Ld : forall f, load readQ read readN registry (S f) (YMap [($"Elements", sequence enodes); ($"Species", sequence nodes)]) = Ok (mkParsed els sps)).
  { intros f. unfold load. rewrite (proj2 (section_sequence enodes YNull (sequence nodes))). cbn [bind]. rewrite Ae. cbn [bind].
    rewrite (proj1 (section_sequence nodes (sequence enodes) YNull)). cbn [bind]. fold nodes in As. cbn [app] in As.
    clear - As. revert As. generalize nodes at 2 4. generalize (mkParsed els []). intros st l. revert st. induction l as [|n l IH]; intros st H; [exact H|]. cbn [addAllSpecies] in *.
    apply bind_inv in H as (r & H1 & H2).
    assert (M : addSpecies readQ read readN registry (S f) enodes nodes st n = Ok r).
    { clear - H1. induction f as [|f IHf]; [exact H1|]. rewrite addSpecies_mono; [exact IHf|]. rewrite IHf. discriminate. }
    rewrite M. cbn [bind]. apply IH. exact H2. }
  split; [exact W|]. split; [exact Ld|].
  destruct (load_inv _ _ _ _ _ _ _ (Ld 0)) as (snodes' & _ & _ & I'). destruct (toDatabase_inv _ _ _ _ _ I') as (db' & Db' & _ & De').
  exists db, db'. split; [exact Db|]. split; [exact Db'|]. split; [|exact Fs].
  destruct (dedup_spec els emptyDB eq_refl (NoDup_nil _)) as (_ & _ & _ & D4). cbn zeta in D4. cbn [db_elements emptyDB app pa_elements] in D4, De'. rewrite De', D4; [exact Fe|].
  assert (Q : map el_symbol els = map el_symbol (db_elements db)).
  { clear - Fe. induction Fe as [|a b la lb (H & _) F IH]; [reflexivity|]. cbn. congruence. }
  rewrite Q. exact D1.
Qed.
End Back.
