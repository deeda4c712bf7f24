(* C142: SUPCRT databases, the numeric locale and the documented names. *)
From Verif Require Import Base M_Strings M_Formula M_Chem M_Algorithms M_System M_Supcrt M_SupcrtLocale.

(* The names in the documentation, SupcrtDatabase.hpp:34-40 and Core/Database.hpp:33-39. *)
Definition supcrt_documented : list str := [$"supcrt98"; $"supcrt07"; $"supcrt98-organics"; $"supcrt07-organics"].
Definition database_documented : list str := [$"supcrt98"; $"supcrt07"; $"supcrt16"; $"supcrtbl"].
(* The files in databases/supcrt and databases/reaktoro. *)
Definition supcrt_files : list str := map (fun s => s ++ $".xml") supcrt_documented.
Definition database_files : list str := map (fun s => s ++ $".yaml") database_documented.
(* The locale of a process is one that exists. *)
Definition Usual (w : World) : Prop := w_locale w = $"C" \/ In (w_locale w) (w_installed w).

Lemma available_usual w : Usual w -> available w (w_locale w) = true.
Proof.
  unfold available. intros [-> | I]; [reflexivity|]. rewrite orb_true_iff. right. apply existsb_exists. eexists. split; [exact I|]. apply str_eqb_eq. reflexivity.
Qed.
(* Whatever the outcome, the locale is the one before. *)
Theorem C142_locale_partial : forall number integer elements embedded disk load_string w, Usual w ->
  (forall name, snd (withName number integer elements embedded load_string name w) = w) /\
  (forall path, snd (fromFile number integer elements disk path w) = w).
Proof.
  intros. pose proof (available_usual w H) as A. destruct w as [l I]. cbn in A.
  split; intros; unfold withName, fromFile, ChangeLocale, setlocale; cbn; unfold available in *; cbn in *; rewrite A; reflexivity.
Qed.
Print Assumptions C142_locale_partial.
(* The outcome does not depend on the locale. *)
Theorem C142_same_partial : forall number integer elements embedded disk load_string w w',
  (forall name, fst (withName number integer elements embedded load_string name w) = fst (withName number integer elements embedded load_string name w')) /\
  (forall path, fst (fromFile number integer elements disk path w) = fst (fromFile number integer elements disk path w')).
Proof. intros. split; intros; reflexivity. Qed.
Print Assumptions C142_same_partial.
(* It is what the file says (C123), with decimal points. *)
Theorem C142_value_partial : forall number integer elements embedded disk load_string w,
  (forall name t doc, In name supcrt_files -> embedded ($"databases/supcrt/" ++ name) = Some t -> t <> [] -> load_string t = Some doc ->
    fst (withName number integer elements embedded load_string name w) = parseDatabase (number $"C") integer elements doc) /\
  (forall path doc, disk path = Some doc -> fst (fromFile number integer elements disk path w) = parseDatabase (number $"C") integer elements doc) /\
  (forall path, disk path = None -> fst (fromFile number integer elements disk path w) = Err).
Proof.
  intros. split; [|split].
  - intros name t doc I E N L. unfold withName, ChangeLocale, getSupcrtDatabaseContent.
    assert (O : oneof str_eqb name $"supcrt98.xml" [$"supcrt07.xml"; $"supcrt98-organics.xml"; $"supcrt07-organics.xml"] = true).
    { destruct I as [<-|[<-|[<-|[<-|[]]]]]; reflexivity. }
    rewrite O, E. cbn [negb bind fst]. destruct t as [|c t]; [destruct N; reflexivity|]. cbn [length Nat.eqb]. rewrite L. reflexivity.
  - intros path doc E. unfold fromFile, ChangeLocale. rewrite E. reflexivity.
  - intros path E. unfold fromFile, ChangeLocale. rewrite E. reflexivity.
Qed.
Print Assumptions C142_value_partial.
Lemma oneof_in x x0 xs : oneof str_eqb x x0 xs = true -> In x (x0 :: xs).
Proof.
  revert x0. induction xs as [|x1 xs IH]; intros x0 H; cbn [oneof] in H.
  - apply str_eqb_eq in H. left. symmetry. exact H.
  - apply orb_true_iff in H as [H|H]; [apply str_eqb_eq in H; left; symmetry; exact H|right; apply IH; exact H].
Qed.
(* Every other name is refused. *)
Theorem C142_refused_partial : forall number integer elements embedded load_string name w, ~ In name supcrt_files ->
  fst (withName number integer elements embedded load_string name w) = Err.
Proof.
  intros. unfold withName, ChangeLocale, getSupcrtDatabaseContent. destruct (oneof _ _ _ _) eqn:E; [|reflexivity]. destruct H. exact (oneof_in _ _ _ E).
Qed.
Print Assumptions C142_refused_partial.
Theorem C142_database_partial : forall embedded name,
  (~ In name database_files -> databaseContent embedded name = Err) /\
  (forall t, In name database_files -> embedded ($"databases/reaktoro/" ++ name) = Some t -> databaseContent embedded name = Ok t).
Proof.
  intros. unfold databaseContent. split.
  - intros H. destruct (oneof _ _ _ _) eqn:E; [|reflexivity]. destruct H. exact (oneof_in _ _ _ E).
  - intros t I E. assert (O : oneof str_eqb name $"supcrt98.yaml" [$"supcrt07.yaml"; $"supcrt16.yaml"; $"supcrtbl.yaml"] = true).
    { destruct I as [<-|[<-|[<-|[<-|[]]]]]; reflexivity. }
    rewrite O, E. reflexivity.
Qed.
Print Assumptions C142_database_partial.

(* The full statement: the locale, and the documented names are those that are accepted,
   whenever all embedded files can be read. *)
Definition C142_statement : Prop := forall number integer elements embedded disk load_string,
  (forall w, Usual w ->
    (forall name, snd (withName number integer elements embedded load_string name w) = w) /\ (forall path, snd (fromFile number integer elements disk path w) = w)) /\
  (forall w w' path, fst (fromFile number integer elements disk path w) = fst (fromFile number integer elements disk path w')) /\
  ((forall p, exists t doc db, embedded p = Some t /\ t <> [] /\ load_string t = Some doc /\ parseDatabase (number $"C") integer elements doc = Ok db) ->
   forall w name, (In name supcrt_documented <-> exists db, fst (withName number integer elements embedded load_string name w) = Ok db) /\
                  (In name database_documented <-> exists t, databaseContent embedded name = Ok t)).
(* All documented names are refused, and so are those that the error lists. *)
Theorem C142_documented_refuted : forall number integer elements embedded load_string w,
  Forall (fun name => fst (withName number integer elements embedded load_string name w) = Err) supcrt_documented /\
  Forall (fun name => databaseContent embedded name = Err) database_documented /\
  Forall (fun name => databaseContent embedded name = Err) messageNames.
Proof. intros. repeat split; repeat constructor. Qed.
Print Assumptions C142_documented_refuted.
Theorem C142_refuted : ~ C142_statement.
Proof.
  intros H. specialize (H (fun _ _ => 0%Q) (fun _ => 0%Z) [] (fun _ => Some $"x") (fun _ => None) (fun _ => Some (Elt [] None []))) as (_ & _ & H).
  destruct (H ltac:(intros; do 3 eexists; split; [reflexivity|]; split; [discriminate|]; split; reflexivity) (mkWorld $"C" []) $"supcrt98") as (K & _).
  destruct (proj1 K (or_introl eq_refl)) as (db & E). discriminate E.
Qed.
Print Assumptions C142_refuted.

(* A process with a decimal comma: H+ of a file has the charge 1.5, not the 1 that strtod
   reads there, and the comma is back afterwards; so it is after a name that is refused. *)
Definition comma : World := mkWorld $"de_DE" [$"de_DE"; $"fr_FR"].
Definition strtod_sample (l t : str) : Q := if str_eqb t $"1.5" then if str_eqb l $"C" then 3#2 else 1 else 0.
Definition sample : xml := Elt [] None [Elt $"Database" None [Elt $"Species" None [Elt $"Name" (Some $"H+") []; Elt $"Formula" (Some $"H+") [];
  Elt $"Elements" (Some $"H(1.5)") []; Elt $"Type" (Some $"Aqueous") []; Elt $"Charge" (Some $"1.5") []]]].
Definition hydrogen : list Element := [mkElem $"H" $"Hydrogen" (1#1000) []].
Definition charges (r : outcome (Database * list Params) * World) := (omap (fun d => map sp_charge (db_species (fst d))) (fst r), snd r).
Example C142_nonvacuous :
  Usual comma /\ charges (fromFile strtod_sample (fun _ => 0%Z) hydrogen (fun _ => Some sample) $"a.xml" comma) = (Ok [3#2], comma) /\
  omap (fun d => map sp_charge (db_species (fst d))) (parseDatabase (strtod_sample $"de_DE") (fun _ => 0%Z) hydrogen sample) = Ok [1%Q] /\
  charges (withName strtod_sample (fun _ => 0%Z) hydrogen (fun _ => Some $"x") (fun _ => Some sample) $"supcrt98.xml" comma) = (Ok [3#2], comma) /\
  charges (withName strtod_sample (fun _ => 0%Z) hydrogen (fun _ => Some $"x") (fun _ => Some sample) $"supcrt98" comma) = (Err, comma).
Proof. split; [right; left; reflexivity|]. repeat split; vm_compute; reflexivity. Qed.
