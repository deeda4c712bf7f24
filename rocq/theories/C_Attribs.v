(* C85: construction of species from their attributes. *)
From Verif Require Import Base M_Strings M_Formula M_Chem M_System M_Attribs.

(* ---- What a user relies on ---- *)
Definition Complete (a : Attribs) : Prop :=
  at_name a <> [] /\ at_formula a <> [] /\ at_elements a <> [] /\ at_state a <> Undefined /\
  (at_model a = true /\ at_reaction a = false \/ at_model a = false /\ at_reaction a = true).

(* Complete attributes give a species with them; incomplete ones an error. *)
Theorem C85_attributes : forall a,
  (Complete a -> forall fs, splitSpeciesNameSuffix (at_formula a) = Ok fs ->
     exists s, speciesOf a = Ok s /\ name s = at_name a /\ aggregateState s = Ok (at_state a) /\ sp_elements s = at_elements a /\
       sp_charge s = at_charge a /\ sp_tags s = at_tags a /\
       cf_str (formula s) = fst fs /\
       (at_substance a <> [] -> substance s = Ok (at_substance a)) /\
       (at_substance a = [] -> fst fs <> [] -> substance s = Ok (fst fs))) /\
  (~ Complete a -> speciesOf a = Err).
Proof.
  intros a. split.
  - intros (Hn & Hf & He & Hs & Hm) fs Ef. unfold speciesOf.
    destruct (at_name a) as [|n0 n] eqn:En; [contradiction|]. destruct (at_formula a) as [|f0 f] eqn:Ef0; [contradiction|].
    destruct (at_elements a) as [|e0 e] eqn:Ee; [contradiction|]. cbn [is_empty].
    destruct (state_eqb (at_state a) Undefined) eqn:Es. { apply internal_AggregateState_dec_bl in Es. contradiction. }
    replace (negb (at_model a) && negb (at_reaction a)) with false by (destruct Hm as [[-> ->]|[-> ->]]; reflexivity).
    replace (at_model a && at_reaction a) with false by (destruct Hm as [[-> ->]|[-> ->]]; reflexivity).
    rewrite Ef. cbn [bind]. eexists. split; [reflexivity|].
    split; [reflexivity|]. split; [unfold aggregateState; cbn [sp_state]; destruct (at_state a); auto; contradiction|].
    split; [reflexivity|]. split; [reflexivity|]. split; [reflexivity|]. split; [reflexivity|].
    unfold substance; cbn [sp_substance]. split; intros H.
    + destruct (at_substance a); [contradiction|reflexivity].
    + intros H2. rewrite H. cbn [is_empty]. destruct (fst fs); [contradiction|reflexivity].
  - intros H. unfold speciesOf.
    destruct (at_name a) as [|n0 n] eqn:En; [reflexivity|]. destruct (at_formula a) as [|f0 f] eqn:Ef0; [reflexivity|].
    destruct (at_elements a) as [|e0 e] eqn:Ee; [reflexivity|]. cbn [is_empty].
    destruct (state_eqb (at_state a) Undefined) eqn:Es; [reflexivity|].
    destruct (at_model a) eqn:Em, (at_reaction a) eqn:Er; cbn; try reflexivity; exfalso; apply H; unfold Complete; rewrite En, Ef0, Ee, Em, Er;
      (split; [discriminate|]; split; [discriminate|]; split; [discriminate|]; split; [intros E; rewrite E in Es; discriminate|auto]).
Qed.
Print Assumptions C85_attributes.

Definition water : Attribs :=
  mkAttribs ($"H2O(aq)") ($"H2O(aq)") [] [(mkElem ($"H") ($"Hydrogen") 1 [], 2%Q); (mkElem ($"O") ($"Oxygen") 16 [], 1%Q)] 0 Aqueous false true [].
Example C85_nonvacuous : Complete water /\ splitSpeciesNameSuffix (at_formula water) = Ok ($"H2O", $"aq") /\
  ~ Complete (mkAttribs [] ($"H2O") [] [] 0 Aqueous false true []).
Proof.
  split; [|split; [reflexivity|]].
  - unfold Complete; cbn. repeat split; try discriminate. left; auto.
  - intros (H & _). apply H. reflexivity.
Qed.
