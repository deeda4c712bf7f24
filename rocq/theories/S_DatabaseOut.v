(* What it means that a database is written and read again. *)
From Coq Require Import Qabs Qpower.
From Verif Require Import Base M_Strings M_Formula M_Chem M_System M_Yaml M_DatabaseYaml S_DatabaseYaml.

(* Numbers with at most six significant digits. *)
Definition six_significant (q : Q) : Prop := exists m e : Z, (Z.abs m < 1000000)%Z /\ (q == inject_Z m * Qpower (10#1) e)%Q.
(* The first number is as near to the second as any number of six digits. *)
Definition nearest_six (r q : Q) : Prop := six_significant r /\ forall d, six_significant d -> (Qabs (r - q) <= Qabs (d - q))%Q.

(* Two elements and two species are the same; the relation between the coefficients is
   a parameter. *)
Definition same_element (a b : Element) : Prop := el_symbol a = el_symbol b /\ el_name a = el_name b /\ (el_mass a == el_mass b)%Q /\ el_tags a = el_tags b.
Inductive same (R : Q -> Q -> Prop) : Loaded -> Loaded -> Prop :=
  same_loaded : forall s r m s' r' m',
    name s = name s' -> sp_formula s = sp_formula s' -> sp_substance s = sp_substance s' ->
    Forall2 (fun p p' => same_element (fst p) (fst p') /\ R (snd p) (snd p')) (sp_elements s) (sp_elements s') ->
    (sp_charge s == sp_charge s')%Q -> sp_state s = sp_state s' -> sp_tags s = sp_tags s' ->
    same_reaction R r r' -> m = m' -> same R (mkLoaded s r m) (mkLoaded s' r' m')
with same_reaction (R : Q -> Q -> Prop) : option (list (Loaded * Q) * RxnModel) -> option (list (Loaded * Q) * RxnModel) -> Prop :=
  | same_none : same_reaction R None None
  | same_some : forall l l' m, same_reactants R l l' -> same_reaction R (Some (l, m)) (Some (l', m))
with same_reactants (R : Q -> Q -> Prop) : list (Loaded * Q) -> list (Loaded * Q) -> Prop :=
  | same_nil : same_reactants R [] []
  | same_cons : forall a b c d l l', same R a b -> R c d -> same_reactants R l l' -> same_reactants R ((a, c) :: l) ((b, d) :: l').
(* Two databases. *)
Definition same_database (R : Q -> Q -> Prop) (p p' : Parsed) : Prop :=
  exists db db', toDatabase p = Ok db /\ toDatabase p' = Ok db' /\ Forall2 same_element (db_elements db) (db_elements db') /\ Forall2 (same R) (pa_species p) (pa_species p').

(* ---- When nothing is lost ---- *)
(* A coefficient of a species or of a reaction of a database. *)
Definition coefficient_in (p : Parsed) (c : Q) : Prop :=
  exists l, In l (pa_species p) /\ (In c (map snd (sp_elements (ld_species l))) \/ In c (map snd (reactants l))).
Definition exact_coefficients (p : Parsed) : Prop := forall c, coefficient_in p c -> six_significant c.
(* A formula is not empty and has no suffix such as (aq). *)
Definition bare (f : str) : Prop := f <> [] /\ exists suffix, splitSpeciesNameSuffix f = Ok (f, suffix).
Definition bare_formulas (p : Parsed) : Prop := forall l, In l (pa_species p) -> bare (sp_formula (ld_species l)).
(* The parameters of the model of Holland and Powell are either all used or all zero. *)
Definition all_or_none (m : StdModel) : Prop :=
  match m with
  | SHollandPowell h => is_zero (hp_kappa0 h) = false \/
      hp_alpha0 h = Fin 0 /\ hp_kappa0 h = Fin 0 /\ hp_kappa0p h = Fin 0 /\ hp_kappa0pp h = Fin 0 /\ hp_numatoms h = Fin 0
  | _ => True
  end.
Definition plain_models (p : Parsed) : Prop := forall l m, In l (pa_species p) -> ld_model l = Some m -> all_or_none m.
(* The known elements have symbols, names and masses. *)
Definition sound (e : Element) : Prop := el_symbol e <> [] /\ el_name e <> [] /\ (0 <= el_mass e)%Q.
