(* C115: a database loaded from a document, written and loaded again is the same. *)
From Coq Require Import Qabs.
From Verif Require Import Base M_Strings M_Algorithms M_Formula M_Chem M_System M_Attribs M_Registry M_Yaml M_DatabaseYaml M_DatabaseOut
  S_DatabaseYaml S_DatabaseOut P_DatabaseYaml P_Ostream C_Yaml C_DatabaseYaml P_DatabaseOut.
Local Open Scope nat_scope.

(* The database is written, and the document can be loaded, with a recursion of depth
   one, and gives the same database. *)
Definition survives_writing (R : Q -> Q -> Prop) (ok : Parsed -> Prop) : Prop :=
  forall printQ readQ print read printN readN, codec print read printN readN -> (forall q, exists q', readQ (printQ q) = Some q' /\ (q' == q)%Q) ->
  forall registry fuel doc p, Forall sound registry -> load readQ read readN registry fuel doc = Ok p -> ok p ->
  exists y p', write printQ print printN p = Ok y /\ (forall f, load readQ read readN registry (S f) y = Ok p') /\ same_database R p p'.
Definition C115_statement : Prop := survives_writing Qeq (fun _ => True).

(* With formulas that have no suffix and models whose parameters are all used, the
   database is the same but for the coefficients, which are rounded to six digits. *)
Theorem C115_rounded_partial : survives_writing (fun c c' => nearest_six c' c) (fun p => bare_formulas p /\ plain_models p).
Proof.
  intros printQ readQ print read printN readN Hc HQ registry fuel doc p S L [B M].
  exact (back printQ readQ print read printN readN HQ Hc registry _ fuel doc p S L (fun c _ => ostream_nearest c) B M).
Qed.
Print Assumptions C115_rounded_partial.
(* If moreover no coefficient has more than six digits it is the same. *)
Theorem C115_exact_partial : survives_writing Qeq (fun p => exact_coefficients p /\ bare_formulas p /\ plain_models p).
Proof.
  intros printQ readQ print read printN readN Hc HQ registry fuel doc p S L (E & B & M).
  apply (back printQ readQ print read printN readN HQ Hc registry _ fuel doc p S L); auto. intros c J. symmetry. apply nearest_exact; [apply ostream_nearest|apply E; exact J].
Qed.
Print Assumptions C115_exact_partial.

(* ---- What has been written once ---- *)
Lemma same_reactants_coefficients R l l' : same_reactants R l l' -> Forall2 R (map snd l) (map snd l').
Proof. induction 1; cbn; constructor; auto. Qed.
Lemma same_again p p' : same_database (fun c c' => nearest_six c' c) p p' -> bare_formulas p -> plain_models p -> exact_coefficients p' /\ bare_formulas p' /\ plain_models p'.
Proof.
  intros (db & db' & _ & _ & _ & F) B M.
  assert (G : forall l', In l' (pa_species p') -> exists l, In l (pa_species p) /\ same (fun c c' => nearest_six c' c) l l').
  { revert F. generalize (pa_species p) (pa_species p'). intros sl sl' F. induction F as [|a b la lb H F IH]; intros l' J; [destruct J|].
    destruct J as [<-|J]; [exists a; split; [left; reflexivity|exact H]|]. destruct (IH l' J) as (l & Jl & Hl). exists l. split; [right; exact Jl|exact Hl]. }
  assert (N : forall l l', Forall2 (fun c c' => nearest_six c' c) l l' -> forall c, In c l' -> six_significant c).
  { intros l l' H. induction H as [|a b la lb H _ IH]; intros c J; [destruct J|]. destruct J as [<-|J]; [apply H|auto]. }
  split; [|split].
  - intros c (l' & J & K). destruct (G l' J) as (l & _ & H). inversion H; subst. unfold reactants in K. cbn [ld_species ld_reaction] in K. destruct K as [K|K].
    + match goal with X : Forall2 _ (sp_elements s) (sp_elements s') |- _ => eapply (N (map snd (sp_elements s)) (map snd (sp_elements s'))); [|exact K]; clear - X; induction X as [|a b la lb [_ H] _ IH]; cbn; constructor; auto end.
    + match goal with X : same_reaction _ _ _ |- _ => inversion X; subst; [destruct K|] end. eapply N; [|exact K]. apply same_reactants_coefficients. eassumption.
  - intros l' J. destruct (G l' J) as (l & Jl & H). specialize (B l Jl). inversion H; subst. cbn in *. congruence.
  - intros l' m J K. destruct (G l' J) as (l & Jl & H). apply (M l m Jl). inversion H; subst. exact K.
Qed.
(* Whatever has been written once and loaded survives being written exactly. *)
Theorem C115_again_partial : forall printQ readQ print read printN readN, codec print read printN readN -> (forall q, exists q', readQ (printQ q) = Some q' /\ (q' == q)%Q) ->
  forall registry fuel doc p, Forall sound registry -> load readQ read readN registry fuel doc = Ok p -> bare_formulas p -> plain_models p ->
  exists y p' y' p'', write printQ print printN p = Ok y /\ (forall f, load readQ read readN registry (S f) y = Ok p') /\
    write printQ print printN p' = Ok y' /\ (forall f, load readQ read readN registry (S f) y' = Ok p'') /\ same_database Qeq p' p''.
Proof.
  intros printQ readQ print read printN readN Hc HQ registry fuel doc p S L B M.
  destruct (C115_rounded_partial _ _ _ _ _ _ Hc HQ _ _ _ _ S L (conj B M)) as (y & p' & W & L' & D).
  destruct (C115_exact_partial _ _ _ _ _ _ Hc HQ _ _ _ _ S (L' 0) (same_again _ _ D B M)) as (y' & p'' & W' & L'' & D').
  exists y, p', y', p''. auto.
Qed.
Print Assumptions C115_again_partial.

(* ---- Documents that do not survive ---- *)
Definition ex_printQ (q : Q) : str := printD (Fin q).
Definition ex_readQ1 (t : str) : option Q := match readD t with Some (Fin q) => Some q | _ => None end.
Lemma ex_Q q : exists q', ex_readQ1 (ex_printQ q) = Some q' /\ (q' == q)%Q.
Proof. exists q. unfold ex_readQ1, ex_printQ. rewrite (codec_num _ _ _ _ unary_codec). split; reflexivity. Qed.
Definition el_node (x : str) : yaml := YMap [($"Symbol", YScalar x); ($"MolarMass", YScalar (ex_printQ 1))].
Definition const_model : yaml := serializeStd printD printU (SConstant (mkConstant (Fin 1) (Fin 2) (Fin 3) (Fin 4) (Fin 5))).
Definition sp_node (nm fm els : str) (model : yaml) : yaml :=
  YMap [($"Name", YScalar nm); ($"Formula", YScalar fm); ($"AggregateState", YScalar $"Solid"); ($"Elements", YScalar els); ($"StandardThermoModel", model)].
Definition doc_of (nm fm els : str) (model : yaml) : yaml :=
  YMap [($"Elements", YSeq [el_node $"Fe"; el_node $"S"]); ($"Species", YSeq [sp_node nm fm els model])].
Notation loads doc := (load ex_readQ1 readD readU [] 1 doc).
Definition again (doc : yaml) : outcome Parsed := bind (loads doc) (fun p => bind (write ex_printQ printD printU p) (fun y => loads y)).
(* What the statement says of a document. *)
Lemma survives_doc R ok doc p : survives_writing R ok -> loads doc = Ok p -> ok p -> exists p', again doc = Ok p' /\ Forall2 (same R) (pa_species p) (pa_species p').
Proof.
  intros H L K. destruct (H _ _ _ _ _ _ unary_codec ex_Q [] 1 doc p (Forall_nil _) L K) as (y & p' & W & L' & db & db' & _ & _ & _ & F).
  exists p'. split; [|exact F]. unfold again. rewrite L. cbn [bind]. rewrite W. cbn [bind]. apply (L' 0).
Qed.
Definition six_digit_check (q : Q) : bool := Qeq_bool (atof (ostream q)) q.
Lemma six_digit_check_spec q : six_digit_check q = true -> six_significant q.
Proof.
  intros H. apply Qeq_bool_iff in H. destruct (ostream_nearest q) as [(m & e & M & E) _]. exists m, e. split; [exact M|]. rewrite <- H. exact E.
Qed.

(* Coefficients with more than six digits. *)
Definition digits_doc : yaml := doc_of $"Pyrrhotite" $"FeS" $"0.8754321:Fe 1:S" const_model.
Definition suffix_doc : yaml := doc_of $"Mackinawite" $"FeS(b)(s)" $"1:Fe 1:S" const_model.
Definition empty_doc : yaml := doc_of $"Troilite" $"(s)" $"1:Fe 1:S" const_model.
Definition powell_model : yaml := YMap [($"HollandPowell", YMap (map (fun k => (k, num printD (Fin 0)))
  [$"Gf"; $"Hf"; $"Sr"; $"Vr"; $"a"; $"b"; $"c"; $"d"; $"alpha0"; $"kappa0"; $"kappa0p"; $"kappa0pp"] ++ [($"numatoms", num printD (Fin 2)); ($"Tmax", num printD (Fin 1))]))].
Definition powell_doc : yaml := doc_of $"Troilite" $"FeS" $"1:Fe 1:S" powell_model.
(* What is known of the documents. *)
Definition good_parts (check_digits check_formula check_model : bool) (o : outcome Parsed) : bool :=
  match o with
  | Ok p => forallb (fun l =>
      (negb check_digits || forallb six_digit_check (map snd (sp_elements (ld_species l)) ++ map snd (reactants l))) &&
      (negb check_formula || (negb (is_empty (sp_formula (ld_species l))) &&
         match splitSpeciesNameSuffix (sp_formula (ld_species l)) with Ok (f, _) => str_eqb f (sp_formula (ld_species l)) | _ => false end)) &&
      (negb check_model || match ld_model l with Some (SHollandPowell h) => negb (is_zero (hp_kappa0 h)) | _ => true end)) (pa_species p)
  | _ => false
  end.
Lemma good_digits b c o p : good_parts true b c o = true -> o = Ok p -> exact_coefficients p.
Proof.
  intros G L q (l & J & K). rewrite L in G. cbn [good_parts] in G. rewrite forallb_forall in G. specialize (G l J). apply andb_true_iff in G as [G _]. apply andb_true_iff in G as [G _].
  cbn [negb orb] in G. rewrite forallb_forall in G. apply six_digit_check_spec, G, in_app_iff. exact K.
Qed.
Lemma good_formula a c o p : good_parts a true c o = true -> o = Ok p -> bare_formulas p.
Proof.
  intros G L l J. rewrite L in G. cbn [good_parts] in G. rewrite forallb_forall in G. specialize (G l J). apply andb_true_iff in G as [G _]. apply andb_true_iff in G as [_ G].
  cbn [negb orb] in G. apply andb_true_iff in G as [G1 G2]. split; [intros E; rewrite E in G1; discriminate|]. destruct (splitSpeciesNameSuffix (sp_formula (ld_species l))) as [[f sx]| |]; try discriminate.
  apply str_eqb_eq in G2. exists sx. rewrite G2. reflexivity.
Qed.
Lemma good_model a b o p : good_parts a b true o = true -> o = Ok p -> plain_models p.
Proof.
  intros G L l m J K. rewrite L in G. cbn [good_parts] in G. rewrite forallb_forall in G. specialize (G l J). apply andb_true_iff in G as [_ G]. cbn [negb orb] in G. rewrite K in G.
  destruct m; try exact I. left. apply negb_true_iff. exact G.
Qed.
Definition first_of {A} (f : Loaded -> A) (o : outcome Parsed) : option A := match o with Ok p => match pa_species p with l :: _ => Some (f l) | [] => None end | _ => None end.
Lemma first_same R doc p p' l : loads doc = Ok p -> again doc = Ok p' -> first_of (fun l => l) (loads doc) = Some l -> Forall2 (same R) (pa_species p) (pa_species p') ->
  exists l', first_of (fun l => l) (again doc) = Some l' /\ same R l l'.
Proof.
  intros L A E F. unfold first_of in *. rewrite L in E. rewrite A. destruct F as [|a b la lb H F]; [discriminate|]. injection E as ->. eauto.
Qed.

(* A coefficient with seven digits is changed. *)
Theorem C115_digits_refuted : ~ survives_writing Qeq (fun p => bare_formulas p /\ plain_models p).
Proof.
  intros H. destruct (loads digits_doc) as [p| |] eqn:L; [|vm_compute in L; discriminate L|vm_compute in L; discriminate L].
  destruct (survives_doc _ _ digits_doc p H L) as (p' & A & F); [split; [apply (good_formula false false (loads digits_doc))|apply (good_model false false (loads digits_doc))]; try exact L; vm_compute; reflexivity|].
  destruct (first_of (fun l => l) (loads digits_doc)) as [l|] eqn:E; [|vm_compute in E; discriminate E].
  destruct (first_same _ _ _ _ _ L A E F) as (l' & E' & S).
  assert (Q : exists c c', map snd (sp_elements (ld_species l)) = c /\ map snd (sp_elements (ld_species l')) = c' /\ Forall2 Qeq c c').
  { do 2 eexists. split; [reflexivity|]. split; [reflexivity|]. inversion S; subst. cbn. match goal with X : Forall2 _ (sp_elements s) _ |- _ => clear - X; induction X as [|a b la lb [_ H] _ IH]; cbn; constructor; auto end. }
  destruct Q as (c & c' & C & C' & Q).
  assert (X : first_of (fun l => map snd (sp_elements (ld_species l))) (loads digits_doc) = Some c) by (unfold first_of in *; destruct (loads digits_doc) as [q| |]; try discriminate E; destruct (pa_species q); [discriminate E|]; injection E as ->; congruence).
  assert (Y : first_of (fun l => map snd (sp_elements (ld_species l))) (again digits_doc) = Some c') by (unfold first_of in *; destruct (again digits_doc) as [q| |]; try discriminate E'; destruct (pa_species q); [discriminate E'|]; injection E' as ->; congruence).
  vm_compute in X, Y. injection X as <-. injection Y as <-. inversion Q as [|? ? ? ? B]. vm_compute in B. discriminate B.
Qed.
Print Assumptions C115_digits_refuted.
Theorem C115_refuted : ~ C115_statement.
Proof. intros H. apply C115_digits_refuted. intros printQ readQ print read printN readN Hc HQ registry fuel doc p S L _. exact (H _ _ _ _ _ _ Hc HQ _ _ _ _ S L I). Qed.
Print Assumptions C115_refuted.
(* So is a formula that still ends with lower-case letters in brackets once its suffix
   has been removed. *)
Theorem C115_formulas_refuted : ~ survives_writing Qeq (fun p => exact_coefficients p /\ plain_models p).
Proof.
  intros H. destruct (loads suffix_doc) as [p| |] eqn:L; [|vm_compute in L; discriminate L|vm_compute in L; discriminate L].
  destruct (survives_doc _ _ suffix_doc p H L) as (p' & A & F); [split; [apply (good_digits false false (loads suffix_doc))|apply (good_model false false (loads suffix_doc))]; try exact L; vm_compute; reflexivity|].
  destruct (first_of (fun l => l) (loads suffix_doc)) as [l|] eqn:E; [|vm_compute in E; discriminate E].
  destruct (first_same _ _ _ _ _ L A E F) as (l' & E' & S).
  assert (Q : sp_formula (ld_species l) = sp_formula (ld_species l')) by (inversion S; subst; assumption).
  assert (X : first_of (fun l => sp_formula (ld_species l)) (loads suffix_doc) = Some (sp_formula (ld_species l))) by (unfold first_of in *; destruct (loads suffix_doc) as [q| |]; try discriminate E; destruct (pa_species q); [discriminate E|]; injection E as ->; congruence).
  assert (Y : first_of (fun l => sp_formula (ld_species l)) (again suffix_doc) = Some (sp_formula (ld_species l'))) by (unfold first_of in *; destruct (again suffix_doc) as [q| |]; try discriminate E'; destruct (pa_species q); [discriminate E'|]; injection E' as ->; congruence).
  rewrite <- Q, <- X in Y. vm_compute in Y. discriminate Y.
Qed.
Print Assumptions C115_formulas_refuted.
(* The formula of a species may be only a suffix; what is written of that species
   cannot be loaded. *)
Theorem C115_unreadable_refuted : exists doc p y, load ex_readQ1 readD readU [] 1 doc = Ok p /\ exact_coefficients p /\ plain_models p /\
  write ex_printQ printD printU p = Ok y /\ forall fuel, load ex_readQ1 readD readU [] (S fuel) y = Err.
Proof.
  destruct (loads empty_doc) as [p| |] eqn:L; [|vm_compute in L; discriminate L|vm_compute in L; discriminate L].
  destruct (write ex_printQ printD printU p) as [y| |] eqn:W.
  - exists empty_doc, p, y. split; [exact L|]. split; [apply (good_digits false false (loads empty_doc)); [vm_compute; reflexivity|exact L]|].
    split; [apply (good_model false false (loads empty_doc)); [vm_compute; reflexivity|exact L]|]. split; [exact W|].
    assert (E : load ex_readQ1 readD readU [] 1 y = Err).
    { assert (A : again empty_doc = Err) by (vm_compute; reflexivity). unfold again in A. rewrite L in A. cbn [bind] in A. rewrite W in A. exact A. }
    intros fuel. replace (S fuel) with (fuel + 1) by lia. rewrite load_more; [exact E|]. rewrite E. discriminate.
  - assert (A : bind (loads empty_doc) (write ex_printQ printD printU) = Err) by (rewrite L; exact W). vm_compute in A. discriminate A.
  - assert (A : bind (loads empty_doc) (write ex_printQ printD printU) = UB) by (rewrite L; exact W). vm_compute in A. discriminate A.
Qed.
Print Assumptions C115_unreadable_refuted.
(* Parameters of the model of Holland and Powell are lost if kappa0 is zero. *)
Theorem C115_models_refuted : ~ survives_writing Qeq (fun p => exact_coefficients p /\ bare_formulas p).
Proof.
  intros H. destruct (loads powell_doc) as [p| |] eqn:L; [|vm_compute in L; discriminate L|vm_compute in L; discriminate L].
  destruct (survives_doc _ _ powell_doc p H L) as (p' & A & F); [split; [apply (good_digits false false (loads powell_doc))|apply (good_formula false false (loads powell_doc))]; try exact L; vm_compute; reflexivity|].
  destruct (first_of (fun l => l) (loads powell_doc)) as [l|] eqn:E; [|vm_compute in E; discriminate E].
  destruct (first_same _ _ _ _ _ L A E F) as (l' & E' & S).
  assert (Q : ld_model l = ld_model l') by (inversion S; subst; reflexivity).
  assert (X : first_of ld_model (loads powell_doc) = Some (ld_model l)) by (unfold first_of in *; destruct (loads powell_doc) as [q| |]; try discriminate E; destruct (pa_species q); [discriminate E|]; injection E as ->; congruence).
  assert (Y : first_of ld_model (again powell_doc) = Some (ld_model l')) by (unfold first_of in *; destruct (again powell_doc) as [q| |]; try discriminate E'; destruct (pa_species q); [discriminate E'|]; injection E' as ->; congruence).
  rewrite <- Q, <- X in Y. vm_compute in Y. discriminate Y.
Qed.
Print Assumptions C115_models_refuted.

(* A document with a reaction that meets all the conditions. *)
Definition rxn_text : yaml := serializeRxn printD (RVantHoff (mkVantHoff (Fin 1) (Fin 2) (Fin 3) (Fin 4))).
Definition whole_doc : yaml :=
  YMap [($"Elements", YSeq [el_node $"Fe"; el_node $"S"; el_node $"Fe"]);
        ($"Species", YSeq [YMap [($"Name", YScalar $"Pyrite"); ($"Formula", YScalar $"FeS2(s)"); ($"AggregateState", YScalar $"Solid"); ($"Elements", YScalar $"1:Fe 2:S");
           ($"Charge", YScalar (ex_printQ 0)); ($"Tags", YScalar $"sulfide  mineral"); ($"FormationReaction", YMap [($"Reactants", YScalar $"1:Troilite 0.125:S8(s)"); ($"ReactionThermoModel", rxn_text)])];
           sp_node $"Troilite" $"FeS" $"1:Fe 1:S" const_model; sp_node $"S8(s)" $"S8" $"8:S" const_model])].
Example C115_nonvacuous : Forall sound default_elements /\ codec printD readD printU readU /\ (forall q, exists q', ex_readQ1 (ex_printQ q) = Some q' /\ (q' == q)%Q) /\
  exists p, load ex_readQ1 readD readU [] 2 whole_doc = Ok p /\ exact_coefficients p /\ bare_formulas p /\ plain_models p /\
    map ld_name (pa_species p) = [$"Troilite"; $"S8(s)"; $"Pyrite"] /\ length (pa_elements p) = 3.
Proof.
  split; [|split; [exact unary_codec|split; [exact ex_Q|]]].
  - apply Forall_forall. intros e J.
    assert (G : forallb (fun e => negb (is_empty (el_symbol e)) && negb (is_empty (el_name e)) && Qle_bool 0 (el_mass e)) default_elements = true) by (vm_compute; reflexivity).
    rewrite forallb_forall in G. specialize (G e J). apply andb_true_iff in G as [G G3]. apply andb_true_iff in G as [G1 G2].
    split; [intros E; rewrite E in G1; discriminate|]. split; [intros E; rewrite E in G2; discriminate|]. apply Qle_bool_iff. exact G3.
  - assert (G : good_parts true true true (load ex_readQ1 readD readU [] 2 whole_doc) = true) by (vm_compute; reflexivity).
    destruct (load ex_readQ1 readD readU [] 2 whole_doc) as [p| |] eqn:L; [|discriminate G|discriminate G]. exists p. split; [reflexivity|].
    split; [exact (good_digits _ _ _ p G eq_refl)|]. split; [exact (good_formula _ _ _ p G eq_refl)|]. split; [exact (good_model _ _ _ p G eq_refl)|].
    assert (N : omap (fun p => (map ld_name (pa_species p), length (pa_elements p))) (load ex_readQ1 readD readU [] 2 whole_doc) = Ok ([$"Troilite"; $"S8(s)"; $"Pyrite"], 3)) by (vm_compute; reflexivity).
    rewrite L in N. cbn [omap] in N. injection N as N1 N2. auto.
Qed.
