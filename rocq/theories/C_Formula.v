(* Properties C01, C02, C03, C04, C60. *)
From Verif Require Import Base M_Strings M_Formula S_Formula P_Formula.

(* ---- C01: formulas parse to their additive composition ---- *)
Theorem C01_formula : forall f, formula_wf f ->
  exists res, parseChemicalFormula (print f) = Ok res /\
    map fst res = first_appearances (appearances f) /\
    NoDup (map fst res) /\
    (forall e q, In (e, q) res -> (q == atoms e f)%Q).
Proof. exact parseChemicalFormula_print. Qed.
Print Assumptions C01_formula.

Ltac wf_solve :=
  cbn; unfold symbol_wf, num_wf, all_digits; cbn;
  repeat match goal with
  | |- _ /\ _ => split
  | |- exists _ _, _ => do 2 eexists; split; [reflexivity|]
  | |- True => exact I
  | |- ?a = ?a => reflexivity
  | H : _ \/ _ |- _ => destruct H as [H|H]; subst
  | H : False |- _ => destruct H
  | H : In _ [] |- _ => destruct H
  | H : In _ (_ :: _) |- _ => destruct H as [H|H]; subst
  | |- _ <> _ => discriminate
  | |- _ => intro
  end; try reflexivity; try discriminate; try congruence.

Definition int_num (s : str) : num := {| ipart := s; fpart := None |}.

(* Ca(Fe0.5(OH)2)3Fe *)
Example C01_nonvacuous :
  let f := FElem $"Ca" None
    (FGroup (FElem $"Fe" (Some {| ipart := $"0"; fpart := Some $"5" |})
              (FGroup (FElem $"O" None (FElem $"H" None FEnd)) (Some (int_num $"2")) FEnd))
       (Some (int_num $"3")) (FElem $"Fe" None FEnd)) in
  formula_wf f /\ print f = $"Ca(Fe0.5(OH)2)3Fe" /\ (atoms $"Fe" f == 5 # 2)%Q /\
  appearances f = [$"Ca"; $"Fe"; $"O"; $"H"; $"Fe"].
Proof.
  cbn zeta. split; [|repeat split; vm_compute; reflexivity].
  wf_solve.
Qed.

(* ---- C02: formula parsing never reads outside the string ---- *)
Definition C02_statement : Prop := forall s, parseChemicalFormula s <> UB.

(* An unmatched '(' makes the parser step past the end of the string. *)
Theorem C02_safe_refuted : ~ C02_statement.
Proof. intros H. apply (H $"Ca(OH"). vm_compute. reflexivity. Qed.
Print Assumptions C02_safe_refuted.

(* What holds: parsing succeeds whenever no parenthesis is left open, and
   unmatched '(' is the only cause of an out-of-range read.  Missing: the
   rejection of the remaining inputs. *)
Theorem C02_safe_partial : forall s,
  (open_depth 0 s = 0 -> exists res, parseChemicalFormula s = Ok res) /\
  (open_depth 0 s <> 0 -> parseChemicalFormula s = UB).
Proof. exact parseChemicalFormula_safe. Qed.
Print Assumptions C02_safe_partial.

Example C02_nonvacuous : open_depth 0 $"(a)))(()b" = 1 /\ open_depth 0 $"x)Ca(OH)2" = 0.
Proof. split; reflexivity. Qed.

(* ---- C03: charge notations agree ---- *)
Theorem C03_charge : forall b k sfx, body_wf b -> charge_wf k -> suffix_wf sfx ->
  exists q, parseElectricCharge (b ++ print_charge k ++ print_suffix sfx) = Ok q /\ (q == charge_value k)%Q.
Proof. exact charge_notations. Qed.
Print Assumptions C03_charge.

Example C03_nonvacuous :
  body_wf $"Fe" /\ charge_wf (NRepeated Minus 12) /\ charge_wf (NSignNumber Minus $"12") /\
  charge_wf (NBracket Minus $"12") /\ suffix_wf (Some $"aq") /\
  $"Fe" ++ print_charge (NBracket Minus $"12") ++ print_suffix (Some $"aq") = $"Fe[12-](aq)" /\
  (charge_value (NRepeated Minus 12) == charge_value (NBracket Minus $"12"))%Q.
Proof.
  unfold body_wf, charge_wf, suffix_wf, all_digits; cbn [In list_ascii_of_string].
  repeat split; try discriminate; try (intros; lia); try lia;
    intros; repeat match goal with H : _ \/ _ |- _ => destruct H as [<-|H] end; try contradiction; try reflexivity; try discriminate.
Qed.

(* ---- C04: charge parsing never reads outside the string; neutral names ---- *)
Definition C04_statement : Prop :=
  (forall s, parseElectricCharge s <> UB) /\
  (forall b, body_wf b -> last_opt b <> Some ")"%char -> exists q, parseElectricCharge b = Ok q /\ (q == 0)%Q).

(* The one-letter name "C" reads the character before the string. *)
Theorem C04_safe_refuted : ~ C04_statement.
Proof. intros [H _]. apply (H $"C"). vm_compute. reflexivity. Qed.
Print Assumptions C04_safe_refuted.

(* What holds: the out-of-range read happens exactly for the empty name and for
   names made of one repeated character (once the suffix is removed); other
   names without charge notation are neutral.  Missing: the full statement on
   those names. *)
Theorem C04_safe_partial :
  (forall name, parseElectricCharge name = UB <->
     name = [] \/ exists base sfx, splitSpeciesNameSuffix name = Ok (base, sfx) /\ constant base) /\
  (forall b sfx, body_wf b -> ~ constant b -> last_opt b <> Some ")"%char -> suffix_wf sfx ->
     parseElectricCharge (b ++ print_suffix sfx) = Ok 0%Q).
Proof. exact (conj charge_ub_iff neutral_name). Qed.
Print Assumptions C04_safe_partial.

Example C04_nonvacuous : body_wf $"H2O" /\ ~ constant $"H2O" /\ last_opt $"H2O" <> Some ")"%char /\ constant $"HH".
Proof.
  repeat split; try discriminate;
    try (cbn in *; repeat match goal with H : _ \/ _ |- _ => destruct H as [<-|H] end; try contradiction; discriminate).
  - intros [c H]. assert ("H"%char = "2"%char); [|discriminate]. rewrite (H "2"%char), (H "H"%char); cbn; auto.
  - exists "H"%char. intros d [<-|[<-|[]]]; reflexivity.
Qed.

(* ---- C60: a hydrate part adds its multiple to the composition ---- *)
Definition C60_statement : Prop :=
  forall f n g, formula_wf f -> num_wf n -> formula_wf g -> not_num_start (print g) -> f <> FEnd ->
    exists res, parseChemicalFormula (print f ++ "."%char :: print_num n ++ print g) = Ok res /\
      forall e q, In (e, q) res -> (q == atoms e f + num_value n * atoms e g)%Q.

(* "NaCl.2H2O": the text ".2" is taken as the subscript 0.2 of Cl. *)
Theorem C60_hydrate_refuted : ~ C60_statement.
Proof.
  intros H.
  destruct (H (FElem $"Na" None (FElem $"Cl" None FEnd)) (int_num $"2")
              (FElem $"H" (Some (int_num $"2")) (FElem $"O" None FEnd))) as (res & E & P).
  - cbn. unfold symbol_wf. repeat split; try discriminate; try reflexivity;
      (do 2 eexists; split; [reflexivity|]; split; [reflexivity|]; intros d [<-|[]]; reflexivity).
  - split; [intros c [<-|[]]; reflexivity | discriminate].
  - cbn. unfold symbol_wf, num_wf, all_digits; cbn. repeat split; try discriminate; try reflexivity.
    + exists "H"%char, []. repeat split; intros ? [].
    + intros c [<-|[]]; reflexivity.
    + exists "O"%char, []. repeat split; intros ? [].
  - split; [reflexivity | discriminate].
  - discriminate.
  - vm_compute in E. injection E as <-.
    specialize (P $"Cl" _ (or_intror (or_introl eq_refl))). vm_compute in P. discriminate.
Qed.
Print Assumptions C60_hydrate_refuted.

(* What holds: a hydrate part is only recognised after a character without
   meaning to the parser (such as a space).  Missing: hydrate parts written
   directly after an element, number or group. *)
Theorem C60_hydrate_partial : forall f, formula_wf f ->
  exists res, parseChemicalFormula (print f) = Ok res /\
    forall e q, In (e, q) res -> (q == atoms e f)%Q.
Proof.
  intros f H. destruct (parseChemicalFormula_print f H) as (res & E & _ & _ & P). exists res. split; assumption.
Qed.
Print Assumptions C60_hydrate_partial.

(* "Na .2H" *)
Example C60_nonvacuous :
  let f := FElem $"Na" None (FSkip " " (FDot (Some (int_num $"2")) (FElem $"H" None FEnd))) in
  formula_wf f /\ (atoms $"H" f == 2)%Q /\ print f = $"Na .2H".
Proof.
  cbn zeta. split; [|split; vm_compute; reflexivity].
  cbn. unfold symbol_wf, num_wf, all_digits; cbn. repeat split; try discriminate; try reflexivity.
  - exists "N"%char, ["a"%char]. repeat split. intros d [<-|[]]; reflexivity.
  - intros c [<-|[]]; reflexivity.
  - exists "H"%char, []. repeat split; intros ? [].
Qed.
