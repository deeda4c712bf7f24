(* C138: critical properties of the species of a phase with a cubic equation of state. *)
From Verif Require Import Base M_Strings M_Formula M_Chem M_Algorithms M_System M_Registry M_CubicModel C_Registry.

(* ---- the property ---- *)
(* The species has the elements of a formula, each with the same coefficient. *)
Definition SameElements (s : Species) (f : ChemicalFormula) : Prop :=
  forall e, (coefficient (cf_elements f) e == el_coefficient (sp_elements s) e)%Q.
(* The line of the table of substances (a name and, for some, a formula) is one of the species:
   it has its elements when it lists a formula. *)
Definition OwnLine (s : Species) (line : Critical * list str) : Prop :=
  forall n fs f, snd line = n :: fs -> In f fs -> exists g, mkChemicalFormula f = Ok g /\ SameElements s g.
(* Each species of an accepted phase gets the values of a line of its own. *)
Definition C138_statement : Prop :=
  forall species c, cubic_setup all_substances species = Ok c ->
  forall i s, nth_error species i = Some s ->
  exists line, In line critical_table /\ OwnLine s line /\
    nth_error (cs_Tcr c) i = Some (cr_T (fst line)) /\ nth_error (cs_Pcr c) i = Some (cr_P (fst line)) /\
    nth_error (cs_omega c) i = Some (cr_omega (fst line)).

(* A name designates a substance of the registry. *)
Definition Designates (reg : list Substance) (n : str) (x : Substance) : Prop :=
  exists k i, correctName n = Ok k /\ In k (su_names x) /\ nth_error reg i = Some x /\
  forall j y, j < i -> nth_error reg j = Some y -> ~ In k (su_names y).
Definition Unknown (reg : list Substance) (n : str) : Prop :=
  exists k, correctName n = Ok k /\ forall x, In x reg -> ~ In k (su_names x).

(* ---- the lookup ---- *)
Lemma find_some_first l k x : crit_find l k = Some x ->
  exists i, In k (su_names x) /\ nth_error l i = Some x /\ forall j y, j < i -> nth_error l j = Some y -> ~ In k (su_names y).
Proof.
  rewrite find_spec. induction l as [|a l IH]; [discriminate|]. cbn [List.find]. destruct (contains str_eqb (su_names a) k) eqn:C.
  - intros E. injection E as <-. exists 0. split; [apply contains_In; auto|]. split; auto. intros j y L. inversion L.
  - intros E. destruct (IH E) as (i & I & N & F). exists (S i). split; auto. split; auto.
    intros [|j] y L Nj; [injection Nj as <-; intros I'; apply contains_In in I'; congruence|]. apply (F j y); auto. lia.
Qed.
Lemma find_none_all l k : crit_find l k = None -> forall x, In x l -> ~ In k (su_names x).
Proof. rewrite find_spec. intros E x I J. pose proof (find_none _ _ E _ I) as F. cbn in F. apply contains_In in J. congruence. Qed.
Lemma first_find l k x i : In k (su_names x) -> nth_error l i = Some x ->
  (forall j y, j < i -> nth_error l j = Some y -> ~ In k (su_names y)) -> crit_find l k = Some x.
Proof.
  intros I N F. rewrite find_spec. revert i N F. induction l as [|a l IH]; intros i N F; [destruct i; discriminate|].
  cbn [List.find]. destruct i as [|i].
  - injection N as ->. apply contains_In in I. rewrite I. auto.
  - destruct (contains str_eqb (su_names a) k) eqn:C.
    + exfalso. apply (F 0 a); auto; [lia|]. apply contains_In; auto.
    + apply (IH i); auto. intros j y L Nj. apply (F (S j) y); auto. lia.
Qed.
Lemma all_find_none l k : (forall x, In x l -> ~ In k (su_names x)) -> crit_find l k = None.
Proof.
  intros F. destruct (crit_find l k) as [x|] eqn:E; auto. destruct (find_some_first _ _ _ E) as (i & I & N & _).
  exfalso. apply (F x); auto. eapply nth_error_In; eauto.
Qed.
Lemma get_some reg n x : crit_get reg n = Ok (Some x) <-> Designates reg n x.
Proof.
  unfold crit_get, Designates. split.
  - destruct (correctName n) as [k| |]; try discriminate. cbn. intros E. injection E as E.
    destruct (find_some_first _ _ _ E) as (i & I & N & F). exists k, i. auto.
  - intros (k & i & -> & I & N & F). cbn. now rewrite (first_find reg k x i).
Qed.
Lemma get_none reg n : crit_get reg n = Ok None <-> Unknown reg n.
Proof.
  unfold crit_get, Unknown. split.
  - destruct (correctName n) as [k| |]; try discriminate. cbn. intros E. injection E as E. exists k. split; auto. apply find_none_all; auto.
  - intros (k & -> & F). cbn. now rewrite all_find_none.
Qed.

(* The first of the three names that designates a substance decides. *)
Inductive Decides (reg : list Substance) : list str -> Substance -> Prop :=
| decides_here n ns x : Designates reg n x -> Decides reg (n :: ns) x
| decides_next n ns x : Unknown reg n -> Decides reg ns x -> Decides reg (n :: ns) x.
Lemma any_decides reg ns x : crit_get_any reg ns = Ok (Some x) <-> Decides reg ns x.
Proof.
  induction ns as [|n ns IH]; cbn [crit_get_any].
  - split; [discriminate|inversion 1].
  - split.
    + destruct (crit_get reg n) as [[y|]| |] eqn:G; cbn [bind]; intros E; try discriminate.
      * injection E as ->. apply decides_here, get_some; auto.
      * apply decides_next; [apply get_none; auto|apply IH; auto].
    + inversion 1 as [? ? ? D|? ? ? U D]; subst.
      * apply get_some in D. rewrite D. auto.
      * apply get_none in U. rewrite U. cbn. apply IH; auto.
Qed.
Lemma any_none reg ns : crit_get_any reg ns = Ok None <-> Forall (Unknown reg) ns.
Proof.
  induction ns as [|n ns IH]; cbn [crit_get_any]; [split; auto|]. split.
  - destruct (crit_get reg n) as [[y|]| |] eqn:G; cbn [bind]; intros E; try discriminate.
    constructor; [apply get_none; auto|apply IH; auto].
  - inversion 1 as [|? ? U F]; subst. apply get_none in U. rewrite U. cbn. apply IH; auto.
Qed.
Lemma species_iff reg s d : species_critical reg s = Ok d <->
  exists b x, substance s = Ok b /\ Decides reg [b; sp_formula s; name s] x /\ su_data x = d.
Proof.
  unfold species_critical, lookup_names. split.
  - destruct (substance s) as [b| |]; try discriminate. cbn [omap bind].
    destruct (crit_get_any reg [b; cf_str (formula s); name s]) as [[x|]| |] eqn:G; cbn [bind]; try discriminate.
    intros E. injection E as <-. exists b, x. split; auto. split; auto. apply any_decides. exact G.
  - intros (b & x & -> & D & <-). cbn [omap bind]. apply any_decides in D.
    change (cf_str (formula s)) with (sp_formula s). rewrite D. auto.
Qed.

Lemma mapM_iff {A B} (f : A -> outcome B) l o : mapM f l = Ok o <-> Forall2 (fun x y => f x = Ok y) l o.
Proof.
  revert o. induction l as [|a l IH]; intros o; cbn.
  - split; [intros E; injection E as <-; auto|inversion 1; auto].
  - split.
    + destruct (f a) as [b| |] eqn:F; try discriminate. cbn. destruct (mapM f l) as [o'| |] eqn:M; try discriminate.
      cbn. intros E. injection E as <-. constructor; auto. apply IH; auto.
    + inversion 1 as [|? ? ? ? F Fs]; subst. rewrite F. cbn. apply IH in Fs. rewrite Fs. auto.
Qed.

(* What a phase is given: the values, species by species, of the substance that the first
   known one of substance name, formula and species name designates; a vapour when the first
   species is a gas and a liquid when it is a liquid.  No other phase is accepted, for every
   registry. *)
Inductive Given (reg : list Substance) : list Species -> list Q -> list Q -> list Q -> Prop :=
| given_nil : Given reg [] [] [] []
| given_cons s b x l T P w : substance s = Ok b -> Decides reg [b; sp_formula s; name s] x -> Given reg l T P w ->
    Given reg (s :: l) (cr_T (su_data x) :: T) (cr_P (su_data x) :: P) (cr_omega (su_data x) :: w).
Lemma given_data reg l : forall data, Forall2 (fun s d => species_critical reg s = Ok d) l data ->
  Given reg l (map cr_T data) (map cr_P data) (map cr_omega data).
Proof.
  induction l as [|s l IH]; intros data F; inversion F as [|? d ? data' E Fs]; subst; [constructor|].
  apply species_iff in E as (b & x & B & D & <-). cbn. econstructor; eauto.
Qed.
Lemma data_given reg l T P w : Given reg l T P w ->
  exists data, Forall2 (fun s d => species_critical reg s = Ok d) l data /\ T = map cr_T data /\ P = map cr_P data /\ w = map cr_omega data.
Proof.
  induction 1 as [|s b x l T P w B D G (data & F & -> & -> & ->)]; [exists []; auto|].
  exists (su_data x :: data). split; auto. constructor; auto. apply species_iff. eauto.
Qed.
Theorem C138_given_partial : forall reg species T P w fluid,
  cubic_setup reg species = Ok (mkSetup T P w fluid) <->
  Given reg species T P w /\
  exists s rest, species = s :: rest /\
    (aggregateState s = Ok Gas /\ fluid = EOSVapor \/ aggregateState s = Ok Liquid /\ fluid = EOSLiquid).
Proof.
  intros reg species T P w fluid. unfold cubic_setup. split.
  - destruct (mapM (species_critical reg) species) as [data| |] eqn:M; try discriminate. cbn [bind].
    destruct (phase_fluid species) as [fl| |] eqn:Fl; try discriminate. cbn [omap bind]. intros E. injection E as <- <- <- <-.
    apply mapM_iff in M. split; [apply given_data; auto|].
    destruct species as [|s rest]; [discriminate|]. exists s, rest. split; auto.
    cbn in Fl. destruct (aggregateState s) as [a| |]; try discriminate. cbn in Fl. destruct a; try discriminate; injection Fl as <-; auto.
  - intros (G & s & rest & E & A). apply data_given in G as (data & F & -> & -> & ->). apply mapM_iff in F. rewrite F. cbn [bind].
    rewrite E. unfold phase_fluid. destruct A as [(-> & ->)|(-> & ->)]; reflexivity.
Qed.
Print Assumptions C138_given_partial.

(* A species none of whose names is known is refused, whatever the other species are: the
   phase is never accepted, and the outcome is an error when the species before it are known. *)
Theorem C138_refused_partial : forall reg before s after b,
  substance s = Ok b -> Forall (Unknown reg) [b; sp_formula s; name s] ->
  (forall c, cubic_setup reg (before ++ s :: after) <> Ok c) /\
  ((exists T P w, Given reg before T P w) -> cubic_setup reg (before ++ s :: after) = Err).
Proof.
  intros reg before s after b B U.
  assert (E : species_critical reg s = Err).
  { unfold species_critical, lookup_names. rewrite B. cbn [omap bind]. change (cf_str (formula s)) with (sp_formula s).
    apply any_none in U. rewrite U. reflexivity. }
  split.
  - intros [T P w fl] H. apply C138_given_partial in H as (G & _). apply data_given in G as (data & F & _).
    apply Forall2_app_inv_l in F as (d1 & d2 & _ & F2 & _). inversion F2 as [|? ? ? ? E' _]; subst. congruence.
  - intros (T & P & w & G). apply data_given in G as (data & F & _). clear T P w. unfold cubic_setup.
    assert (M : mapM (species_critical reg) (before ++ s :: after) = Err).
    { clear B U. induction F as [|a d l ds Fa F IH]; cbn [mapM app]; [rewrite E; reflexivity|]. rewrite Fa. cbn [bind]. rewrite IH. reflexivity. }
    rewrite M. reflexivity.
Qed.
Print Assumptions C138_refused_partial.

(* Positive critical values in the registry reach the equation of state, whose assertions
   then hold; those of the built-in table are positive. *)
Lemma Given_length reg l T P w : Given reg l T P w -> length T = length l /\ length P = length l /\ length w = length l.
Proof. induction 1; cbn; intuition. Qed.
Lemma Decides_In reg ns x : Decides reg ns x -> In x reg.
Proof. induction 1 as [n ns x (k & i & _ & _ & N & _)|]; auto. eapply nth_error_In; eauto. Qed.
Theorem C138_asserts_partial : forall reg species c,
  (forall x, In x reg -> 0 < cr_T (su_data x) /\ 0 < cr_P (su_data x))%Q ->
  cubic_setup reg species = Ok c -> eos_asserts (length species) c = true.
Proof.
  intros reg species [T P w fl] Pos H. apply C138_given_partial in H as (G & _).
  destruct (Given_length _ _ _ _ _ G) as (L1 & L2 & L3).
  assert (L : forall q, (0 < q)%Q -> negb (Qle_bool q 0) = true).
  { intros q Hq. apply negb_true_iff, not_true_iff_false. rewrite Qle_bool_iff. apply Qlt_not_le. auto. }
  unfold eos_asserts. cbn [cs_Tcr cs_Pcr cs_omega]. rewrite L1, L2, L3, Nat.eqb_refl. cbn [andb].
  apply andb_true_iff. clear L1 L2 L3. induction G as [|s b x l T P w B D G [IT IP]]; [auto|].
  destruct (Pos x (Decides_In _ _ _ D)). cbn [forallb]. rewrite IT, IP, !L; auto.
Qed.
Print Assumptions C138_asserts_partial.
Theorem C138_positive_partial : forall x, In x all_substances -> (0 < cr_T (su_data x) /\ 0 < cr_P (su_data x))%Q.
Proof.
  apply Forall_forall. apply Forall_forall. intros x I.
  assert (F : forallb (fun x => negb (Qle_bool (cr_T (su_data x)) 0) && negb (Qle_bool (cr_P (su_data x)) 0)) all_substances = true) by (vm_compute; reflexivity).
  rewrite forallb_forall in F. specialize (F x I). apply andb_true_iff in F as [A B].
  split; apply Qnot_le_lt; rewrite <- Qle_bool_iff; apply not_true_iff_false, negb_true_iff; auto.
Qed.
Print Assumptions C138_positive_partial.

(* The lookup of each name of each line of the table finds that line. *)
Definition q_eqb (a b : Q) : bool := Z.eqb (Qnum a) (Qnum b) && Pos.eqb (Qden a) (Qden b).
Lemma q_eqb_ok a b : q_eqb a b = true -> a = b.
Proof.
  unfold q_eqb. rewrite andb_true_iff, Z.eqb_eq, Pos.eqb_eq. destruct a, b. cbn. intros [-> ->]. auto.
Qed.
Definition crit_eqb (a b : Critical) : bool := q_eqb (cr_T a) (cr_T b) && q_eqb (cr_P a) (cr_P b) && q_eqb (cr_omega a) (cr_omega b).
Lemma crit_eqb_ok a b : crit_eqb a b = true -> a = b.
Proof.
  unfold crit_eqb. rewrite !andb_true_iff. destruct a, b. cbn. intros [[A B] C].
  apply q_eqb_ok in A. apply q_eqb_ok in B. apply q_eqb_ok in C. congruence.
Qed.
Definition line_found (line : Critical * list str) : bool :=
  forallb (fun n => match crit_get all_substances n with Ok (Some x) => crit_eqb (su_data x) (fst line) | _ => false end) (snd line).
Lemma lines_found : forallb line_found critical_table = true.
Proof. vm_compute. reflexivity. Qed.
Lemma line_get line n : In line critical_table -> In n (snd line) -> exists x, crit_get all_substances n = Ok (Some x) /\ su_data x = fst line.
Proof.
  intros I J. pose proof lines_found as F. rewrite forallb_forall in F. specialize (F _ I).
  unfold line_found in F. rewrite forallb_forall in F. specialize (F _ J).
  destruct (crit_get all_substances n) as [[x|]| |]; try discriminate. exists x. split; auto. apply crit_eqb_ok; auto.
Qed.
Lemma get_same n m : correctName n = correctName m -> crit_get all_substances n = crit_get all_substances m.
Proof. unfold crit_get. intros ->. auto. Qed.

(* A species whose substance is written as a name of the table, up to letter case, blanks for
   dashes and suffix, gets the values of that line; and so does one whose substance the table
   does not know and whose formula is written in the line. *)
Theorem C138_table_partial : forall line n s b, In line critical_table -> In n (snd line) -> substance s = Ok b ->
  (correctName b = correctName n -> species_critical all_substances s = Ok (fst line)) /\
  (Unknown all_substances b -> sp_formula s = n -> species_critical all_substances s = Ok (fst line)).
Proof.
  intros line n s b I J B. destruct (line_get _ _ I J) as (x & G & D). split.
  - intros E. apply species_iff. exists b, x. split; auto. split; auto. apply decides_here, get_some. rewrite (get_same _ _ E). auto.
  - intros U E. apply species_iff. exists b, x. split; auto. split; auto. apply decides_next; auto. apply decides_here, get_some. rewrite E. auto.
Qed.
Print Assumptions C138_table_partial.

(* The gases of single elements: each line named after an element is found with the formula
   of that element, one atom or two, except the line of radon. *)
Definition element_ok (e : Element) : bool :=
  match crit_get all_substances (el_name e) with
  | Ok (Some x) =>
      match crit_get all_substances (el_symbol e), crit_get all_substances (el_symbol e ++ $"2") with
      | Ok (Some y), Ok None | Ok None, Ok (Some y) => crit_eqb (su_data x) (su_data y)
      | _, _ => false
      end
  | Ok None => true
  | _ => false
  end.
Lemma elements_ok : forallb (fun e => element_ok e || str_eqb (el_name e) $"Radon") default_elements = true.
Proof. vm_compute. reflexivity. Qed.
Theorem C138_elements_partial : forall e x, In e default_elements -> el_name e <> $"Radon" ->
  Designates all_substances (el_name e) x ->
  exists y f, (f = el_symbol e \/ f = el_symbol e ++ $"2") /\ Designates all_substances f y /\ su_data y = su_data x.
Proof.
  intros e x I N D. pose proof elements_ok as F. rewrite forallb_forall in F. specialize (F _ I).
  apply orb_true_iff in F as [F|F]; [|exfalso; apply N; destruct (str_eqb_spec (el_name e) $"Radon"); auto; discriminate].
  apply get_some in D. unfold element_ok in F. rewrite D in F.
  destruct (crit_get all_substances (el_symbol e)) as [[y|]| |] eqn:E1;
  destruct (crit_get all_substances (el_symbol e ++ $"2")) as [[z|]| |] eqn:E2; try discriminate.
  - exists y, (el_symbol e). split; auto. split; [apply get_some; auto|]. symmetry. apply crit_eqb_ok; auto.
  - exists z, (el_symbol e ++ $"2"). split; auto. split; [apply get_some; auto|]. symmetry. apply crit_eqb_ok; auto.
Qed.
Print Assumptions C138_elements_partial.

(* ---- findings ---- *)
Definition el (symbol nm : str) : Element := mkElem symbol nm 1%Q [].
Definition gas (nm form subst : str) (es : list (Element * Q)) : Species := mkSpecies nm form subst es 0%Q Gas [].
Definition radon : Species := gas $"Rn(g)" $"Rn" [] [(el $"Rn" $"Radon", 1%Q)].
Definition radium : Species := gas $"Ra(g)" $"Ra" [] [(el $"Ra" $"Radium", 1%Q)].
Definition cobalt : Species := gas $"Co(g)" $"Co" [] [(el $"Co" $"Cobalt", 1%Q)].
Definition dicaesium : Species := gas $"Cs2(g)" $"Cs2" [] [(el $"Cs" $"Caesium", 2%Q)].
Definition ether : Species := gas $"CH3OCH3(g)" $"C2H6O" $"DIMETHYL-ETHER" [(el $"C" $"Carbon", 2%Q); (el $"H" $"Hydrogen", 6%Q); (el $"O" $"Oxygen", 1%Q)].
Definition carbonic : Species := gas $"CO2(g)" $"CO2" [] [(el $"C" $"Carbon", 1%Q); (el $"O" $"Oxygen", 2%Q)].
Definition water : Species := mkSpecies $"H2O(l)" $"H2O" $"Water" [(el $"H" $"Hydrogen", 2%Q); (el $"O" $"Oxygen", 1%Q)] 0%Q Undefined [].
Definition ice : Species := mkSpecies $"Water(s)" $"H2O" [] [] 0%Q Solid [].

(* The table names radon but gives it the symbol of radium: the gas Rn(g) is refused, and
   Ra(g) gets the values of radon. *)
Theorem C138_radon_refuted : ~ (forall e x, In e default_elements -> Designates all_substances (el_name e) x ->
  exists y f, (f = el_symbol e \/ f = el_symbol e ++ $"2") /\ Designates all_substances f y /\ su_data y = su_data x) /\
  cubic_setup all_substances [radon] = Err /\
  species_critical all_substances radium = species_critical all_substances (gas $"Rn(g)" $"Rn" $"Radon" []) /\
  species_critical all_substances radium = Ok (mkCrit (377 # 1) (6280000 # 1) (0 # 1)).
Proof.
  split; [|vm_compute; auto]. intros H.
  destruct (crit_get all_substances $"Radon") as [[x|]| |] eqn:G; try (vm_compute in G; discriminate).
  apply get_some in G. destruct (H (nth 85 default_elements (el [] [])) x) as (y & f & F & D & _).
  - apply nth_In. vm_compute. lia.
  - exact G.
  - apply get_some in D. destruct F as [-> | ->]; vm_compute in D; discriminate.
Qed.
Print Assumptions C138_radon_refuted.

(* Letter case is dropped from formulas as from names: cobalt gets the values of carbon
   monoxide and dicaesium those of carbon disulfide. *)
Theorem C138_case_refuted :
  species_critical all_substances cobalt = species_critical all_substances (gas $"CO(g)" $"CO" [] []) /\
  species_critical all_substances dicaesium = species_critical all_substances (gas $"CS2(g)" $"CS2" [] []) /\
  (exists d, species_critical all_substances cobalt = Ok d) /\ (exists d, species_critical all_substances dicaesium = Ok d) /\
  ~ (forall e, (el_coefficient (sp_elements cobalt) e == coefficient (cf_elements (f_of $"CO")) e)%Q).
Proof.
  split; [vm_compute; auto|]. split; [vm_compute; auto|]. split; [eexists; vm_compute; reflexivity|]. split; [eexists; vm_compute; reflexivity|].
  intros H. specialize (H $"Co"). vm_compute in H. discriminate.
Qed.
Print Assumptions C138_case_refuted.
Theorem C138_refuted : ~ C138_statement.
Proof.
  intros H. destruct (cubic_setup all_substances [cobalt]) as [c| |] eqn:E; try (vm_compute in E; discriminate).
  destruct (H _ _ E 0 cobalt eq_refl) as (line & I & O & T & _).
  assert (F : forallb (fun l => negb (match nth_error (cs_Tcr c) 0 with Some t => q_eqb t (cr_T (fst l)) | None => true end) ||
     match snd l with _ :: f :: _ => match mkChemicalFormula f with Ok g => negb (Qeq_bool (coefficient (cf_elements g) $"Co") 1) | _ => true end | _ => false end) critical_table = true).
  { vm_compute in E. injection E as <-. vm_compute. reflexivity. }
  rewrite forallb_forall in F. specialize (F _ I). apply orb_true_iff in F as [F|F].
  - rewrite T in F. unfold q_eqb in F. rewrite Z.eqb_refl, Pos.eqb_refl in F. discriminate.
  - destruct (snd line) as [|n [|f fs]] eqn:S; try discriminate. destruct (O n (f :: fs) f S (or_introl eq_refl)) as (g & G & SE).
    rewrite G in F. specialize (SE $"Co"). rewrite negb_true_iff, <- not_true_iff_false, Qeq_bool_iff in F. apply F. rewrite SE. vm_compute. reflexivity.
Qed.
Print Assumptions C138_refuted.

(* A substance that the table does not list gets the values of another one with its formula. *)
Theorem C138_isomer_refuted : ~ (forall s b d, substance s = Ok b -> Unknown all_substances b -> species_critical all_substances s <> Ok d) /\
  species_critical all_substances ether = species_critical all_substances (gas [] $"Ethanol" [] []).
Proof.
  split; [|vm_compute; reflexivity]. intros H.
  destruct (species_critical all_substances ether) as [d| |] eqn:E; try (vm_compute in E; discriminate).
  refine (H ether $"DIMETHYL-ETHER" d eq_refl _ E). apply get_none. vm_compute. reflexivity.
Qed.
Print Assumptions C138_isomer_refuted.

(* Only the first species is asked for its state: a solid after a gas is accepted, before it refused. *)
Theorem C138_mixed_refuted : ~ (forall reg species c s, cubic_setup reg species = Ok c -> In s species ->
  aggregateState s = Ok Gas \/ aggregateState s = Ok Liquid) /\
  cubic_setup all_substances [ice; carbonic] = Err.
Proof.
  split; [|vm_compute; reflexivity]. intros H.
  destruct (cubic_setup all_substances [carbonic; ice]) as [c| |] eqn:E; try (vm_compute in E; discriminate).
  destruct (H _ _ _ ice E (or_intror (or_introl eq_refl))) as [A|A]; discriminate.
Qed.
Print Assumptions C138_mixed_refuted.
(* A phase of no species is undefined. *)
Theorem C138_empty_refuted : ~ (forall reg species, cubic_setup reg species <> UB).
Proof. intros H. apply (H [] []). reflexivity. Qed.
Print Assumptions C138_empty_refuted.

(* A mixture of carbon dioxide and water (named by its substance), a liquid, and one species
   that nothing knows. *)
Example C138_nonvacuous :
  cubic_setup all_substances [carbonic; water] =
    Ok (mkSetup [1521 # 5; 6471 # 10]%Q [7383000 # 1; 22055000 # 1]%Q [28 # 125; 69 # 200]%Q EOSVapor) /\
  (exists c, cubic_setup all_substances [water; carbonic] = Ok c /\ cs_fluid c = EOSLiquid) /\
  Forall (Unknown all_substances) [$"Xx"; $"Xx"; $"Xx(g)"] /\
  SameElements carbonic (f_of $"CO2").
Proof.
  split; [vm_compute; reflexivity|]. split; [eexists; vm_compute; split; reflexivity|]. split.
  - repeat constructor; apply get_none; vm_compute; reflexivity.
  - intros e. vm_compute cf_elements. cbn [sp_elements carbonic gas]. unfold coefficient, el_coefficient. cbn.
    destruct (str_eqb_spec $"C" e); destruct (str_eqb_spec $"O" e); subst; try reflexivity; discriminate.
Qed.
