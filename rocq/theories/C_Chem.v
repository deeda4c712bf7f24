(* Properties C05, C09, C10, C61, C62, C63. *)
From Coq Require Import Permutation Qabs.
From Verif Require Import Base M_Strings M_Formula M_Chem S_Formula S_Strings S_Chem P_Strings P_Formula P_Chem P_Printing.

(* ---- C05: formula equivalence ---- *)
(* Same charge and same assignment of amounts to elements. *)
Theorem C05_equivalent : forall f g, listed_once (cf_elements f) -> listed_once (cf_elements g) ->
  (equivalent f g = true <->
    (cf_charge f == cf_charge g)%Q /\
    forall e q, assigns (cf_elements f) e q <-> assigns (cf_elements g) e q).
Proof. exact equivalent_spec. Qed.
Print Assumptions C05_equivalent.

(* In terms of the coefficient query, when no element has coefficient zero. *)
Theorem C05_coefficient : forall f g, listed_once (cf_elements f) -> listed_once (cf_elements g) ->
  (forall e q, In (e, q) (cf_elements f) -> ~ (q == 0)%Q) ->
  (forall e q, In (e, q) (cf_elements g) -> ~ (q == 0)%Q) ->
  (equivalent f g = true <->
    (cf_charge f == cf_charge g)%Q /\
    forall e, (coefficient (cf_elements f) e == coefficient (cf_elements g) e)%Q).
Proof. exact equivalent_coefficient. Qed.
Print Assumptions C05_coefficient.

Theorem C05_relation :
  (forall f, listed_once (cf_elements f) -> equivalent f f = true) /\
  (forall f g, listed_once (cf_elements f) -> listed_once (cf_elements g) -> equivalent f g = true -> equivalent g f = true) /\
  (forall f g h, listed_once (cf_elements f) -> listed_once (cf_elements g) -> listed_once (cf_elements h) ->
     equivalent f g = true -> equivalent g h = true -> equivalent f h = true).
Proof. exact equivalent_relation. Qed.
Print Assumptions C05_relation.

Theorem C05_order : forall f g, listed_once (cf_elements f) -> (cf_charge f == cf_charge g)%Q ->
  Permutation (cf_elements f) (cf_elements g) -> equivalent f g = true.
Proof. exact equivalent_permutation. Qed.
Print Assumptions C05_order.

(* Every formula built from a string lists each element once. *)
Theorem C05_parsed : forall s f, mkChemicalFormula s = Ok f -> listed_once (cf_elements f).
Proof. exact mkChemicalFormula_listed. Qed.
Print Assumptions C05_parsed.

Example C05_nonvacuous :
  match mkChemicalFormula $"CaCO3", mkChemicalFormula $"CO2CaO", mkChemicalFormula $"CO3Ca++" with
  | Ok f, Ok g, Ok h => equivalent f g = true /\ equivalent f h = false
  | _, _, _ => False
  end.
Proof. vm_compute. split; reflexivity. Qed.

(* ---- C09: reaction equations ---- *)
Definition int_term (t : term) : Prop :=
  match fst t with Some n => fpart n = None /\ ~ (num_value n == 0)%Q | None => True end.

Definition C09_statement : Prop :=
  (forall rs ps, Forall term_wf rs -> Forall term_wf ps ->
    exists res, parseReactionEquation (print_equation rs ps) = Ok res /\
      Forall2 same_pair res (map (signed (-(1))) rs ++ map (signed 1) ps)) /\
  (forall rs ps, Forall term_wf rs -> Forall term_wf ps -> Forall int_term (rs ++ ps) -> rs <> [] -> ps <> [] ->
    let eq := map (signed (-(1))) rs ++ map (signed 1) ps in
    exists res, parseReactionEquation (equation_to_string eq) = Ok res /\ Forall2 same_pair res eq).

(* H2O = H+ + OH- is printed as "H2O= H+ O". *)
Theorem C09_roundtrip_refuted : ~ C09_statement.
Proof.
  intros [_ H].
  assert (W : forall s, In s [$"H2O"; $"H+"; $"OH-"] -> term_wf (None, s)).
  { intros s Hs. unfold term_wf; cbn. cbn in Hs.
    destruct Hs as [<-|[<-|[<-|[]]]]; (repeat split; try discriminate);
      cbn in H0; repeat (destruct H0 as [<-|H0]; [discriminate|]); destruct H0. }
  destruct (H [(None, $"H2O")] [(None, $"H+"); (None, $"OH-")]) as (res & E & F).
  - repeat (apply Forall_cons; [apply W; cbn; tauto|]); apply Forall_nil.
  - repeat (apply Forall_cons; [apply W; cbn; tauto|]); apply Forall_nil.
  - repeat constructor.
  - discriminate.
  - discriminate.
  - vm_compute in E. injection E as <-. vm_compute in F.
    inversion F as [|a1 b1 l1 m1 _ F1]; subst. inversion F1 as [|a2 b2 l2 m2 _ F2]; subst.
    inversion F2 as [|a3 b3 l3 m3 [F3 _] _]; subst. discriminate F3.
Qed.
Print Assumptions C09_roundtrip_refuted.

(* What holds: reading an equation.  Missing: printing, which drops the plus
   signs between products and the last three characters. *)
Theorem C09_parse_partial : forall rs ps, Forall term_wf rs -> Forall term_wf ps ->
  exists res, parseReactionEquation (print_equation rs ps) = Ok res /\
    Forall2 same_pair res (map (signed (-(1))) rs ++ map (signed 1) ps).
Proof. exact parseReactionEquation_print. Qed.
Print Assumptions C09_parse_partial.

(* What holds of printing: put back three characters at the end, and reading
   gives the reactants and then the products, in order, each coefficient
   within half a unit of the sixth decimal. *)
Theorem C09_print_partial : forall eq : list (str * Q),
  Forall (fun p => fst p <> [] /\ fst p <> $"+" /\ forall c, In c (fst p) -> c <> " "%char /\ c <> "="%char /\ c <> "*"%char) eq ->
  (exists p, In p eq /\ snd p < 0)%Q -> (exists p, In p eq /\ 0 < snd p)%Q ->
  exists u res, length u = 3%nat /\ parseReactionEquation (equation_to_string eq ++ u) = Ok res /\
    Forall2 (fun a b => fst a = fst b /\ (Qabs (snd a - snd b) <= 1 # 2000000)%Q) res
      (filter (fun p => negb (Qle_bool 0 (snd p))) eq ++ filter (fun p => negb (Qle_bool (snd p) 0)) eq).
Proof.
  intros eq Hn (p & Hp & Np) (r & Hr & Nr). apply equation_to_string_read; [exact Hn| |].
  - intros E. assert (In p (reactants_of eq)) as I; [|rewrite E in I; destruct I]. apply filter_In. split; [exact Hp|]. unfold Qltb. destruct (Qle_bool 0 (snd p)) eqn:K; [|reflexivity]. apply Qle_bool_iff in K. exfalso. apply (Qlt_not_le _ _ Np K).
  - intros E. assert (In r (products_of eq)) as I; [|rewrite E in I; destruct I]. apply filter_In. split; [exact Hr|]. unfold Qltb. destruct (Qle_bool (snd r) 0) eqn:K; [|reflexivity]. apply Qle_bool_iff in K. exfalso. apply (Qlt_not_le _ _ Nr K).
Qed.
Print Assumptions C09_print_partial.
Example C09_print_nonvacuous : equation_to_string [($"H2O", (-2)%Q); ($"H2", 2%Q); ($"O2", 1%Q)] = $"2.000000*H2O= 2.000000*H2 " /\
  parseReactionEquation ($"2.000000*H2O= 2.000000*H2 " ++ $"O2 ") = Ok [($"H2O", (-2000000 # 1000000)%Q); ($"H2", (2000000 # 1000000)%Q); ($"O2", 1%Q)].
Proof. split; vm_compute; reflexivity. Qed.

Example C09_nonvacuous :
  let rs := [(None, $"CO2"); (Some {| ipart := $"2"; fpart := None |}, $"H2O")] in
  let ps := [(None, $"H3O+"); (Some {| ipart := $"1"; fpart := Some $"0" |}, $"HCO3-")] in
  Forall term_wf rs /\ Forall term_wf ps /\ print_equation rs ps = $"CO2 + 2*H2O = H3O+ + 1.0*HCO3-".
Proof.
  cbn zeta. split; [|split; [|reflexivity]]; repeat constructor; cbn; try discriminate;
    unfold all_digits; intros; cbn in *;
    repeat match goal with H : _ \/ _ |- _ => destruct H as [<-|H] end; try contradiction; try discriminate; reflexivity.
Qed.

(* ---- C10: molar mass ---- *)
(* A species constructed from a formula has the mass of the formula, computed
   by recursion over its groups, minus charge times the electron mass; unknown
   elements are rejected. *)
Theorem C10_species_mass : forall table m f z, formula_wf f ->
  (forall e, In e (appearances f) -> find_element table e = Some (m e)) ->
  parseElectricCharge (print f) = Ok z ->
  exists q, speciesMolarMass table (print f) = Ok q /\ (q == formula_mass m f - z * electron_mass)%Q.
Proof. exact speciesMolarMass_print. Qed.
Print Assumptions C10_species_mass.

Theorem C10_unknown_element : forall table f z, formula_wf f -> parseElectricCharge (print f) = Ok z ->
  (exists e, In e (appearances f) /\ find_element table e = None) ->
  speciesMolarMass table (print f) = Err.
Proof. exact speciesMolarMass_unknown. Qed.
Print Assumptions C10_unknown_element.

(* Merging, scaling and reordering compositions. *)
Theorem C10_additive :
  (forall a b, computeMolarMass (a ++ b) == computeMolarMass a + computeMolarMass b)%Q /\
  (forall k l, computeMolarMass (map (fun p => (fst p, k * snd p)) l) == k * computeMolarMass l)%Q /\
  (forall a b, Permutation a b -> computeMolarMass a == computeMolarMass b)%Q.
Proof. exact (conj computeMolarMass_app (conj computeMolarMass_scale computeMolarMass_perm)). Qed.
Print Assumptions C10_additive.

(* OH- *)
Example C10_nonvacuous :
  let table := [($"H", (1#1000)%Q); ($"O", (16#1000)%Q)] in
  let f := FElem $"O" None (FElem $"H" None (FSkip "-" FEnd)) in
  formula_wf f /\ print f = $"OH-" /\ parseElectricCharge (print f) = Ok (-1 # 1)%Q /\
  (forall e, In e (appearances f) -> exists m, find_element table e = Some m).
Proof.
  cbn zeta. split; [|split; [reflexivity|split; [vm_compute; reflexivity|]]].
  - cbn. unfold symbol_wf. repeat split; try discriminate.
    + exists "O"%char, []. repeat split; intros ? [].
    + exists "H"%char, []. repeat split; intros ? [].
  - cbn. intros e [<-|[<-|[]]]; eexists; vm_compute; reflexivity.
Qed.

(* ---- C61: equality of reaction equations ---- *)
Definition C61_statement : Prop :=
  (forall a, equation_eqb a a = true) /\
  (forall a b, equation_eqb a b = true -> equation_eqb b a = true) /\
  (forall a b c, equation_eqb a b = true -> equation_eqb b c = true -> equation_eqb a c = true).

(* Differences up to epsilon are ignored, so equality is not transitive. *)
Theorem C61_equality_refuted : ~ C61_statement.
Proof.
  intros (_ & _ & H).
  specialize (H [($"A", 1%Q)] [($"A", (1 + epsilon)%Q)] [($"A", (1 + 2 * epsilon)%Q)]).
  vm_compute in H. specialize (H eq_refl eq_refl). discriminate.
Qed.
Print Assumptions C61_equality_refuted.

(* What holds: reflexivity, symmetry, and the exact meaning.  Missing:
   transitivity. *)
Theorem C61_equality_partial :
  (forall a, equation_eqb a a = true) /\
  (forall a b, equation_eqb a b = true -> equation_eqb b a = true) /\
  (forall a b, equation_eqb a b = true <->
    (forall x, In x (map fst a) <-> In x (map fst b)) /\
    (forall x, Qabs (coefficient a x - coefficient b x) <= 1 # (2^52))%Q).
Proof. exact (conj equation_eqb_refl (conj equation_eqb_sym equation_eqb_spec)). Qed.
Print Assumptions C61_equality_partial.

Example C61_nonvacuous :
  equation_eqb [($"A", (-1 # 1)%Q); ($"B", 2%Q)] [($"B", 2%Q); ($"A", (-1 # 1)%Q)] = true /\
  equation_eqb [($"A", (-1 # 1)%Q); ($"B", 2%Q)] [($"B", 2%Q); ($"A", (1 # 1)%Q)] = false.
Proof. vm_compute. split; reflexivity. Qed.

(* ---- C62: lists of number:symbol words ---- *)
Theorem C62_pairs : forall ps, Forall pair_wf ps ->
  let res := parseNumberStringPairs (intersperse $" " (map print_pair ps)) in
  map fst res = first_appearances (map snd ps) /\ NoDup (map fst res) /\
  forall e q, In (e, q) res -> (q == total e ps)%Q.
Proof. exact parseNumberStringPairs_print. Qed.
Print Assumptions C62_pairs.

Example C62_nonvacuous :
  let two := {| ipart := $"2"; fpart := None |} in
  let ps := [(two, $"H"); (two, $"O"); (two, $"H")] in
  Forall pair_wf ps /\ intersperse $" " (map print_pair ps) = $"2:H 2:O 2:H" /\ (total $"H" ps == 4)%Q.
Proof.
  cbn zeta. split; [|split; [reflexivity|vm_compute; reflexivity]].
  repeat constructor; cbn; try discriminate; unfold all_digits; intros; cbn in *;
    repeat match goal with H : _ \/ _ |- _ => destruct H as [<-|H] end; try contradiction; try discriminate; reflexivity.
Qed.

(* ---- C63: lists of coefficient:species words ---- *)
Definition C63_statement : Prop := forall s, parseReaction s <> UB.

(* A word without colon reads past the end of a one-word list. *)
Theorem C63_reaction_refuted : ~ C63_statement.
Proof. intros H. apply (H $"H2O"). vm_compute. reflexivity. Qed.
Print Assumptions C63_reaction_refuted.

(* What holds: well-formed lists are read as written.  Missing: rejection of
   malformed words. *)
Theorem C63_reaction_partial : forall ps, Forall pair_wf ps ->
  (forall p, In p ps -> snd p <> [] /\ ~ In ":"%char (snd p)) ->
  exists res, parseReaction (intersperse $" " (map print_pair ps)) = Ok res /\
    Forall2 same_pair res (map (fun p => (snd p, num_value (fst p))) ps).
Proof. exact parseReaction_print. Qed.
Print Assumptions C63_reaction_partial.

Example C63_nonvacuous :
  let two := {| ipart := $"2"; fpart := None |} in
  let ps := [(two, $"H2O"); (two, $"CO2")] in
  Forall pair_wf ps /\ (forall p, In p ps -> snd p <> [] /\ ~ In ":"%char (snd p)).
Proof.
  cbn zeta. split.
  - repeat constructor; cbn; try discriminate; unfold all_digits; intros; cbn in *;
      repeat match goal with H : _ \/ _ |- _ => destruct H as [<-|H] end; try contradiction; try discriminate; reflexivity.
  - intros p [<-|[<-|[]]]; (split; [discriminate|]); cbn; intros H;
      repeat match goal with H : _ \/ _ |- _ => destruct H as [H|H] end; try contradiction; discriminate.
Qed.
