(* What a document of a database says, in terms of its nodes. *)
From Coq Require Import Relations.
From Verif Require Import Base M_Strings M_Formula M_Chem M_System M_Yaml M_DatabaseYaml.

(* A node is a map with a value at a key, the first of equal keys. *)
Definition field (n : yaml) (key : str) (v : yaml) : Prop := exists l1 l2, n = YMap (l1 ++ (key, v) :: l2) /\ ~ In key (map fst l1).
Definition named (n : yaml) (x : str) : Prop := field n $"Name" (YScalar x).
(* The node of a species: the first with its name. *)
Definition describes (snodes : list yaml) (x : str) (n : yaml) : Prop :=
  exists pre post, snodes = pre ++ n :: post /\ named n x /\ forall m, In m pre -> ~ named m x.
(* A species needs another in its formation reaction. *)
Definition uses (snodes : list yaml) (x y : str) : Prop :=
  exists n f t c, describes snodes x n /\ field n $"FormationReaction" f /\ field f $"Reactants" (YScalar t) /\ In (y, c) (parseNumberStringPairs t).
Definition cyclic (snodes : list yaml) : Prop := exists x, clos_trans str (uses snodes) x x.
(* The list under a key of the document. *)
Definition listed (doc : yaml) (key : str) (l : list yaml) : Prop :=
  field doc key (YSeq l) \/ (l = [] /\ forall l', ~ field doc key (YSeq l')).

Definition reactants (l : Loaded) : list (Loaded * Q) := match ld_reaction l with Some (r, _) => r | None => [] end.
(* A species is what its node says. *)
Record says (readQ : str -> option Q) (read : str -> option double) (readN : str -> option nat) (n : yaml) (l : Loaded) : Prop := {
  says_name : named n (ld_name l);
  says_elements : exists t, field n $"Elements" (YScalar t) /\
     map (fun p => (el_symbol (fst p), snd p)) (sp_elements (ld_species l)) = parseNumberStringPairs t;
  says_formula : exists t suffix, field n $"Formula" (YScalar t) /\ splitSpeciesNameSuffix t = Ok (sp_formula (ld_species l), suffix);
  says_substance : (exists t, field n $"Substance" (YScalar t) /\ t <> [] /\ sp_substance (ld_species l) = t) \/
     (((forall v, ~ field n $"Substance" v) \/ field n $"Substance" (YScalar [])) /\ sp_substance (ld_species l) = sp_formula (ld_species l));
  says_tags : field n $"Tags" (YSeq (map YScalar (sp_tags (ld_species l)))) \/
     (exists t, field n $"Tags" (YScalar t) /\ sp_tags (ld_species l) = split t $" ") \/
     ((forall v, ~ field n $"Tags" v) /\ sp_tags (ld_species l) = []);
  says_state : exists t, field n $"AggregateState" (YScalar t) /\ sp_state (ld_species l) = parseAggregateState t /\ sp_state (ld_species l) <> Undefined;
  says_some : sp_name (ld_species l) <> [] /\ sp_elements (ld_species l) <> [];
  says_charge : (exists t, field n $"Charge" (YScalar t) /\ readQ t = Some (sp_charge (ld_species l))) \/
     ((forall v, ~ field n $"Charge" v) /\ sp_charge (ld_species l) = 0%Q);
  says_thermo :
    (exists f t v m, field n $"FormationReaction" f /\ field f $"Reactants" (YScalar t) /\ field f $"ReactionThermoModel" v /\
       ld_model l = None /\ ld_reaction l = Some (reactants l, m) /\ reactants l <> [] /\
       map (fun p => (ld_name (fst p), snd p)) (reactants l) = parseNumberStringPairs t /\ ReactionThermoModelYAML read v = Ok m) \/
    ((forall f t, field n $"FormationReaction" f -> field f $"Reactants" (YScalar t) -> parseNumberStringPairs t = []) /\
     exists v m, field n $"StandardThermoModel" v /\ ld_reaction l = None /\ ld_model l = Some m /\ StandardThermoModelYAML read readN v = Ok m) }.
(* The lists made by the parser are in order. *)
Record ordered (readQ : str -> option Q) (read : str -> option double) (readN : str -> option nat) (snodes : list yaml) (p : Parsed) : Prop := {
  ord_once : NoDup (map ld_name (pa_species p));
  ord_before : forall pre l post, pa_species p = pre ++ l :: post -> forall r c, In (r, c) (reactants l) -> In r pre;
  ord_elements : forall l e c, In l (pa_species p) -> In (e, c) (sp_elements (ld_species l)) -> In e (pa_elements p);
  ord_from : forall l, In l (pa_species p) -> exists n, describes snodes (ld_name l) n /\ says readQ read readN n l }.
