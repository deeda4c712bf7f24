(* C130: the species, phases, elements and reactions of a Phreeqc object. *)
From Coq Require Import Sorted Permutation Lqa.
From Verif Require Import Base M_Strings M_Algorithms M_System M_PhreeqcObject P_Algorithms P_System.
Local Open Scope nat_scope.

(* ---- Specification ---- *)
Definition sumQ {A} (f : A -> Q) (l : list A) : Q := fold_right (fun x a => f x + a)%Q 0%Q l.
(* The amount of an element in a composition, and the amount of an element in all its
   valences in a column of the formula matrix. *)
Definition amount (e : str) (l : list (str * Q)) : Q := sumQ (fun kc => if str_eqb (fst kc) e then snd kc else 0%Q) l.
Definition over_valences (primary : str -> str) (e : str) (names : list str) (column : list Q) : Q :=
  sumQ (fun nc => if str_eqb (primary (fst nc)) e then snd nc else 0%Q) (combine names column).
(* What PHREEQC has as the composition of the species of the object. *)
Definition compositions (o : Object) : list (list (str * Q)) :=
  map ps_elements (o_aqueous o) ++ map pp_elements (o_gaseous o) ++ map pp_elements (o_minerals o).
(* The elements of a species are listed once, as primary elements, and the valences
   of an element belong to it. *)
Definition consistent (pq : Pq) (o : Object) : Prop :=
  (forall l, In l (compositions o) -> NoDup (map fst l) /\ forall k, In k (map fst l) -> pq_primary pq k = k) /\
  forall e v, pq_valence pq e = Some v -> pq_primary pq v = e.
Definition electron_symbol (e : str) : Prop := e = $"E" \/ e = $"e".
(* The column of a species and the row of a reaction. *)
Definition column (o : Object) (i : nat) : outcome (list Q) := mapM (elementStoichiometry o i) (seq 0 (numElements o)).
Definition row (o : Object) (j : nat) : outcome (list Q) := mapM (reactionStoichiometry o j) (seq 0 (numSpecies o)).
Definition dot (a b : list Q) : Q := sumQ (fun xy => fst xy * snd xy)%Q (combine a b).
Definition element_names (o : Object) : list str := firstn (numElements o - 1) (o_element_names o).

(* Each phase has its own species, and there are no others: phase [i] has [count i]
   species after those of the phases before. *)
Definition phases_right (o : Object) : Prop :=
  (forall i, numPhases o <= i -> numSpeciesInPhase o i = Err) /\
  exists counts, mapM (numSpeciesInPhase o) (seq 0 (numPhases o)) = Ok counts /\ list_sum counts = numSpecies o /\
  phaseName o 0 = Ok $"Aqueous" /\ hd 0 counts = length (o_aqueous o) /\
  (* the phases of minerals have one species, with the same name *)
  forall k p, nth_error (o_minerals o) k = Some p ->
    let i := numPhases o - length (o_minerals o) + k in
    nth_error counts i = Some 1 /\ phaseName o i = Ok (pp_name p) /\ speciesName o (list_sum (firstn i counts)) = Ok (pp_name p).
(* The matrix of the reactions has the coefficients of the species in the reactions. *)
Definition reactions_right (o : Object) : Prop :=
  forall j equation, nth_error (o_reactions o) j = Some equation -> NoDup (map fst equation) ->
  exists r, row o j = Ok r /\ length r = numSpecies o /\
  forall i name, nth_error (o_species_names o) i = Some name ->
    (forall c, In (name, c) equation -> nth i r 0%Q = c) /\ (~ In name (map fst equation) -> nth i r 0%Q = 0%Q).
(* The column of a species has its elements, its charge and its molar mass. *)
Definition elements_right (pq : Pq) (o : Object) : Prop :=
  forall i l, nth_error (compositions o) i = Some l ->
  exists c, column o i = Ok c /\ length c = numElements o /\
  (forall e, over_valences (pq_primary pq) e (element_names o) c == amount e l)%Q /\
  (forall s, nth_error (o_aqueous o) i = Some s -> last c 0%Q = ps_charge s) /\
  ((forall k, In k (map fst l) -> forall v, pq_primary pq v = k -> ~ electron_symbol v) ->
   dot c (o_masses o) == sumQ (fun kc => snd kc * pq_gfw pq (fst kc) * (1 # 1000)) l)%Q.
(* Reactions that PHREEQC balances are balanced in the formula matrix. *)
Definition balanced (o : Object) (j : nat) : Prop :=
  exists r, row o j = Ok r /\ forall e, (sumQ (fun xl => fst xl * amount e (snd xl)) (combine r (compositions o)) == 0)%Q.
Definition conserved (o : Object) (j : nat) : Prop :=
  exists r columns, row o j = Ok r /\ mapM (column o) (seq 0 (numSpecies o)) = Ok columns /\
  forall k, k < numElements o - 1 -> (sumQ (fun xc => fst xc * nth k (snd xc) 0%Q) (combine r columns) == 0)%Q.

(* What is taken from PHREEQC: the reaction of a species has its terms on the left
   side, with opposite signs, and that of a gas or mineral is as it is; those with
   less than two terms are not reactions. *)
Definition reaction_of_species (s : PqSpecies) (equation : list (str * Q)) : Prop :=
  exists tokens, ps_reaction s = Some tokens /\ 2 <= length tokens /\ Forall2 (fun t e => fst e = fst t /\ snd e = (- snd t)%Q) tokens equation.
Definition reaction_of_phase (p : PqPhase) (equation : list (str * Q)) : Prop :=
  (exists tokens, pp_reaction p = Some tokens /\ 2 <= length tokens /\ equation = tokens) \/
  ((forall tokens, pp_reaction p = Some tokens -> length tokens < 2) /\ equation = []).
Definition dissolved (pq : Pq) (s : PqSpecies) : Prop := (exists m, In (s, m) (pq_list pq)) /\ ps_sorbed s = false.
(* The electron takes part in the reaction of the species. *)
Definition with_electron (s : PqSpecies) : Prop :=
  exists pre c post, reaction_of_species s (pre ++ ($"e-", c) :: post) /\ ~ In $"e-" (map fst pre) /\ ~ (c == 0)%Q.
Definition from_phreeqc (pq : Pq) (o : Object) : Prop :=
  (forall equation, In equation (o_reactions o) <->
     (exists s, In s (pq_x pq) /\ ps_sorbed s = false /\ reaction_of_species s equation) \/
     (exists p, In p (o_gaseous o ++ o_minerals o) /\ reaction_of_phase p equation)) /\
  NoDup (map ps_name (o_aqueous o)) /\ NoDup (map pp_name (o_gaseous o)) /\
  (forall name, In name (map ps_name (o_aqueous o)) <->
     (exists s, dissolved pq s /\ ps_name s = name) \/ (name = ps_name (pq_electron pq) /\ exists s, dissolved pq s /\ with_electron s)) /\
  (forall name, In name (map pp_name (o_gaseous o)) <-> In name (map pp_name (pq_gases pq))) /\
  (forall p, In p (o_minerals o) <-> In (p, true) (pq_unknown_phases pq)).

Definition C130_statement : Prop := forall pq o, initialize pq = Ok o -> consistent pq o ->
  from_phreeqc pq o /\ phases_right o /\ reactions_right o /\ elements_right pq o /\ (forall j, j < length (o_reactions o) -> balanced o j -> conserved o j).

(* ---- Lists ---- *)
Lemma mapM_all {A B} (f : A -> outcome B) g l : (forall a, In a l -> f a = Ok (g a)) -> mapM f l = Ok (map g l).
Proof.
  induction l as [|a l IH]; intro H; cbn [mapM map]; auto. rewrite H by (left; auto). cbn [bind]. rewrite IH by (intros; apply H; right; auto). reflexivity.
Qed.
Lemma mapM_2 {A B} (f : A -> outcome B) : forall l r, mapM f l = Ok r -> Forall2 (fun a b => f a = Ok b) l r.
Proof.
  induction l as [|a l IH]; intros r H; cbn [mapM] in H. { injection H as <-. constructor. }
  destruct (f a) eqn:E; try discriminate. cbn [bind] in H. destruct (mapM f l) eqn:E'; try discriminate. cbn in H. injection H as <-. constructor; auto.
Qed.
Lemma F2_len {A B} (R : A -> B -> Prop) l r : Forall2 R l r -> length l = length r.
Proof. induction 1; cbn; congruence. Qed.
Lemma F2_nth {A B} (R : A -> B -> Prop) l r : Forall2 R l r -> forall i a, nth_error l i = Some a -> exists b, nth_error r i = Some b /\ R a b.
Proof. induction 1; intros [|i] a H'; cbn in H' |- *; try discriminate. { injection H' as ->. eauto. } eauto. Qed.
Lemma eqb_refl s : str_eqb s s = true. Proof. apply str_eqb_eq; auto. Qed.
Lemma eqb_ne s t : s <> t -> str_eqb s t = false.
Proof. intro N. destruct (str_eqb s t) eqn:E; auto. apply str_eqb_eq in E. contradiction. Qed.
Lemma at_nth {A} (l : list A) i : i < length l -> exists x, nth_error l i = Some x /\ at_ l i = Ok x.
Proof. intro L. unfold at_. destruct (nth_error l i) eqn:E; eauto. apply nth_error_None in E. lia. Qed.
Lemma map_at {A} (l : list A) : mapM (at_ l) (seq 0 (length l)) = Ok l.
Proof.
  assert (G : forall pre, mapM (at_ (pre ++ l)) (seq (length pre) (length l)) = Ok l).
  { induction l as [|x l IH]; intro pre; cbn [length seq mapM]; auto.
    unfold at_ at 1. rewrite nth_error_app2, Nat.sub_diag by lia. cbn [nth_error bind].
    specialize (IH (pre ++ [x])). rewrite app_length in IH. cbn [length] in IH. rewrite Nat.add_1_r, <- app_assoc in IH. cbn [app] in IH. rewrite IH. reflexivity. }
  apply (G []).
Qed.
Lemma sumQ_cons {A} (f : A -> Q) x l : sumQ f (x :: l) = (f x + sumQ f l)%Q. Proof. reflexivity. Qed.
Lemma sumQ_app {A} (f : A -> Q) a b : (sumQ f (a ++ b) == sumQ f a + sumQ f b)%Q.
Proof. induction a as [|x a IH]. { cbn [app]. change (sumQ f []) with 0%Q. ring. } cbn [app]. rewrite !sumQ_cons, IH. ring. Qed.
Lemma sumQ_ext {A} (f g : A -> Q) l : (forall x, In x l -> f x == g x)%Q -> (sumQ f l == sumQ g l)%Q.
Proof.
  induction l as [|x l IH]; intro H. { reflexivity. } rewrite !sumQ_cons. rewrite (H x) by (left; auto). rewrite IH by (intros; apply H; right; auto). reflexivity.
Qed.
Lemma sumQ_plus {A} (f g : A -> Q) l : (sumQ (fun x => f x + g x) l == sumQ f l + sumQ g l)%Q.
Proof. induction l as [|x l IH]. { reflexivity. } rewrite !sumQ_cons, IH. ring. Qed.
Lemma sumQ_zero {A} (f : A -> Q) l : (forall x, In x l -> f x == 0)%Q -> (sumQ f l == 0)%Q.
Proof. induction l as [|x l IH]; intro H. { reflexivity. } rewrite sumQ_cons. rewrite (H x) by (left; auto). rewrite IH by (intros; apply H; right; auto). ring. Qed.
Lemma sumQ_map {A B} (f : B -> Q) (g : A -> B) l : sumQ f (map g l) = sumQ (fun x => f (g x)) l.
Proof. induction l as [|x l IH]; auto. cbn [map]. rewrite !sumQ_cons, IH. reflexivity. Qed.

(* ---- Sets of names ---- *)
Lemma unique_nodup l : NoDup (unique str_eqb str_ltb l) /\ forall x, In x (unique str_eqb str_ltb l) <-> In x l.
Proof.
  destruct (unique_spec str_eqb str_eqb_eq str_ltb) with (a := l) as [S I].
  - unfold P_Algorithms.lt. exact str_ltb_trans.
  - intros x H. unfold P_Algorithms.lt in H. rewrite str_ltb_irrefl in H. discriminate.
  - unfold P_Algorithms.lt. exact str_ltb_total.
  - split; auto. induction S as [|x l' S IH F]; constructor.
    + intro H. rewrite Forall_forall in F. specialize (F x H). unfold P_Algorithms.lt in F. rewrite str_ltb_irrefl in F. discriminate.
    + clear I. assert (D : forall l'', StronglySorted (P_Algorithms.lt str_ltb) l'' -> NoDup l'').
      { induction 1 as [|y l'' _ IH' F']; constructor; auto. intro H. rewrite Forall_forall in F'. specialize (F' y H). unfold P_Algorithms.lt in F'. rewrite str_ltb_irrefl in F'. discriminate. }
      apply D, S.
Qed.
Lemma inserted_distinct : forall l m, NoDup (map fst (m ++ l)) -> inserted m l = m ++ l.
Proof.
  induction l as [|[k c] l IH]; intros m D; cbn [inserted]. { rewrite app_nil_r. auto. }
  replace (existsb (fun x => str_eqb (fst x) k) m) with false.
  - rewrite IH by (rewrite <- app_assoc; exact D). rewrite <- app_assoc. reflexivity.
  - symmetry. destruct (existsb _ m) eqn:E; auto. apply existsb_exists in E as ([k' c'] & I & K). apply str_eqb_eq in K. cbn in K. subst k'.
    rewrite map_app in D. cbn [map fst] in D. apply NoDup_remove_2 in D. exfalso. apply D. apply in_or_app. left. apply (in_map fst) in I. exact I.
Qed.
Lemma coefficient_absent m e : ~ In e (map fst m) -> coefficient m e = 0%Q.
Proof. induction m as [|[k c] m IH]; intro N; cbn [coefficient map fst In] in *; auto. rewrite eqb_ne by tauto. apply IH. tauto. Qed.
Lemma coefficient_in m e c : NoDup (map fst m) -> In (e, c) m -> coefficient m e = c.
Proof.
  induction m as [|[k d] m IH]; intros D I; cbn [coefficient map fst In] in *. { contradiction. }
  inversion D as [|? ? N D']; subst. destruct I as [E|I]. { injection E as -> ->. rewrite eqb_refl. auto. }
  rewrite eqb_ne. { apply IH; auto. } intros ->. apply N. apply (in_map fst) in I. exact I.
Qed.
Lemma sum_single (g : str -> Q) k c els : NoDup els -> In k els -> (sumQ (fun e => g e * (if str_eqb k e then c else 0)) els == g k * c)%Q.
Proof.
  induction els as [|e els IH]; intros D I. { destruct I. } rewrite sumQ_cons.
  inversion D as [|? ? N D']; subst. destruct I as [->|I].
  - rewrite eqb_refl. rewrite sumQ_zero. { ring. } intros x Ix. rewrite eqb_ne. { ring. } intros ->. contradiction.
  - rewrite IH by auto. rewrite eqb_ne. { ring. } intros ->. contradiction.
Qed.
Lemma sum_keys (g : str -> Q) els : NoDup els -> forall m, NoDup (map fst m) -> (forall k, In k (map fst m) -> In k els) ->
  (sumQ (fun e => g e * coefficient m e) els == sumQ (fun kc => g (fst kc) * snd kc) m)%Q.
Proof.
  intros D. induction m as [|[k c] m IH]; intros Dm I.
  - cbn [coefficient]. change (sumQ (fun e => g e * 0) els == 0)%Q. apply sumQ_zero. intros; ring.
  - cbn [map fst] in Dm, I. inversion Dm as [|? ? N Dm']; subst.
    rewrite sumQ_cons. cbn [fst snd]. rewrite <- IH by (auto; intros; apply I; right; auto). rewrite <- (sum_single g k c els D (I k (or_introl eq_refl))), <- sumQ_plus.
    apply sumQ_ext. intros e _. cbn [coefficient]. destruct (str_eqb k e) eqn:E. { apply str_eqb_eq in E. subst e. rewrite (coefficient_absent m k N). ring. } ring.
Qed.

(* ---- Valences ---- *)
Lemma usual_primary pq e v : (forall e v, pq_valence pq e = Some v -> pq_primary pq v = e) -> usualValence pq e = Ok v -> pq_primary pq v = e.
Proof. intros H. unfold usualValence. destruct (pq_valence pq e) eqn:E; intro X; inversion X; subst. auto. Qed.
Lemma species_primary pq m e v : (forall e v, pq_valence pq e = Some v -> pq_primary pq v = e) -> pq_primary pq e = e -> chooseInSpecies pq m e = Ok v -> pq_primary pq v = e.
Proof.
  intros H P. unfold chooseInSpecies. destruct (str_eqb m _). { intro X; inversion X; subst; auto. }
  destruct (isRedox pq e). 2: { intro X; inversion X; subst; auto. }
  destruct (pq_secondary pq m) as [w|]. 2: { apply usual_primary; auto. }
  destruct (str_eqb (pq_primary pq w) e) eqn:E. { intro X; inversion X; subst. apply str_eqb_eq; auto. } apply usual_primary; auto.
Qed.
Lemma phase_primary pq e v : (forall e v, pq_valence pq e = Some v -> pq_primary pq v = e) -> pq_primary pq e = e -> chooseInPhase pq e = Ok v -> pq_primary pq v = e.
Proof. intros H P. unfold chooseInPhase. destruct (isRedox pq e). { apply usual_primary; auto. } intro X; inversion X; subst; auto. Qed.
(* The elements of a species of the object are those of PHREEQC, with valences. *)
Definition valences (primary : str -> str) (l m : list (str * Q)) : Prop :=
  NoDup (map fst m) /\ Forall2 (fun kc vc => primary (fst vc) = fst kc /\ snd vc = snd kc) l m.
Lemma elementsWith_valences primary choose l m : NoDup (map fst l) -> (forall k v, In k (map fst l) -> choose k = Ok v -> primary v = k) ->
  elementsWith choose l = Ok m -> valences primary l m.
Proof.
  intros D C. unfold elementsWith. destruct (mapM _ l) as [l'| |] eqn:E; try discriminate. cbn [omap]. intro X.
  assert (F : Forall2 (fun kc vc => primary (fst vc) = fst kc /\ snd vc = snd kc) l l').
  { apply mapM_2 in E. clear X D. revert E. revert l'. induction l as [|[k c] l IH]; intros l' E; inversion E; subst; constructor.
    - cbn [fst snd] in *. destruct (choose k) eqn:Ek; try discriminate. cbn in H1. injection H1 as <-. cbn. split; auto. apply C; auto. left; auto.
    - apply IH; auto. intros; apply C; auto. right; auto. }
  assert (D' : NoDup (map fst l')).
  { clear X E C. assert (M : map (fun vc => primary (fst vc)) l' = map fst l). { induction F as [|? ? ? ? [P _]]; cbn; auto. rewrite P. f_equal. apply IHF. cbn in D. inversion D; auto. }
    rewrite <- M in D. rewrite <- map_map in D. exact (NoDup_map_inv _ _ D). }
  change (Ok (inserted [] l') = Ok m) in X. rewrite inserted_distinct in X by (cbn [app]; exact D'). cbn [app] in X. injection X as <-. split; auto.
Qed.
Lemma bind_inv {A B} (x : outcome A) (f : A -> outcome B) b : bind x f = Ok b -> exists a, x = Ok a /\ f a = Ok b.
Proof. destruct x; cbn; intro H; try discriminate. eauto. Qed.
Lemma F2_app {A B} (R : A -> B -> Prop) a b c d : Forall2 R a b -> Forall2 R c d -> Forall2 R (a ++ c) (b ++ d).
Proof. induction 1; cbn; auto. Qed.
Lemma F2_map {A A' B} (R : A' -> B -> Prop) (f : A -> A') l r : Forall2 (fun a b => R (f a) b) l r -> Forall2 R (map f l) r.
Proof. induction 1; cbn; constructor; auto. Qed.
Lemma F2_imp {A B} (R R' : A -> B -> Prop) l r : Forall2 R l r -> (forall a b, In a l -> R a b -> R' a b) -> Forall2 R' l r.
Proof. induction 1; intro I; constructor. { apply I; auto. left; auto. } apply IHForall2. intros; apply I; auto. right; auto. Qed.
Lemma initialize_inv pq o : initialize pq = Ok o -> exists ins rows, elementsInSpecies pq = Ok ins /\ mapM (row_of (species_names pq) (repeat 0%Q (length (species_names pq)))) (reactionsOf pq) = Ok rows /\
  o = mkObject (aqueous pq) (gaseous pq) (minerals pq) ins (unique str_eqb str_ltb (map fst (concat ins)))
    (map (fun e => if str_eqb e $"E" || str_eqb e $"e" then 0%Q else (pq_gfw pq (pq_primary pq e) * (1 # 1000))%Q) (unique str_eqb str_ltb (map fst (concat ins))) ++ [0%Q])
    (reactionsOf pq) rows.
Proof.
  unfold initialize. intro H. apply bind_inv in H as (ins & E & H). cbv zeta in H. apply bind_inv in H as (rows & E' & H). injection H as <-. eauto 6.
Qed.
Lemma in_species_valences pq o : initialize pq = Ok o -> consistent pq o -> Forall2 (valences (pq_primary pq)) (compositions o) (o_in_species o).
Proof.
  intros H [C V]. apply initialize_inv in H as (ins & rows & E & _ & ->). cbn [o_in_species]. unfold compositions in *. cbn [o_aqueous o_gaseous o_minerals] in *.
  unfold elementsInSpecies in E. apply bind_inv in E as (a & Ea & E). apply bind_inv in E as (g & Eg & E). apply bind_inv in E as (m & Em & E). injection E as <-.
  apply F2_app; [|apply F2_app]; apply F2_map; eapply F2_imp.
  - apply mapM_2 in Ea. exact Ea.
  - cbn beta. intros s x I X. apply bind_inv in X as (ms & _ & X). destruct (C (ps_elements s)) as [D P]. { apply in_or_app. left. apply in_map. auto. }
    eapply elementsWith_valences; eauto. intros k v Ik Ck. eapply species_primary; eauto.
  - apply mapM_2 in Eg. exact Eg.
  - cbn beta. intros s x I X. destruct (C (pp_elements s)) as [D P]. { apply in_or_app. right. apply in_or_app. left. apply in_map. auto. }
    eapply elementsWith_valences; eauto. intros k v Ik Ck. eapply phase_primary; eauto.
  - apply mapM_2 in Em. exact Em.
  - cbn beta. intros s x I X. destruct (C (pp_elements s)) as [D P]. { apply in_or_app. right. apply in_or_app. right. apply in_map. auto. }
    eapply elementsWith_valences; eauto. intros k v Ik Ck. eapply phase_primary; eauto.
Qed.

(* ---- The formula matrix ---- *)
Lemma mapM_ext {A B} (f g : A -> outcome B) l : (forall a, In a l -> f a = g a) -> mapM f l = mapM g l.
Proof. induction l as [|a l IH]; intro H; cbn [mapM]; auto. rewrite H by (left; auto). rewrite IH by (intros; apply H; right; auto). reflexivity. Qed.
Lemma num_species o : numSpecies o = length (compositions o).
Proof. unfold numSpecies, o_species_names, compositions. rewrite !app_length, !map_length. reflexivity. Qed.
Lemma num_charges o : length (charges o) = numSpecies o.
Proof. unfold numSpecies, o_species_names, charges. rewrite !app_length, !map_length. reflexivity. Qed.
Lemma num_elements o : numElements o = S (length (o_elements o)).
Proof. unfold numElements, o_element_names. rewrite app_length. cbn. lia. Qed.
Lemma at_some {A} (l : list A) i x : nth_error l i = Some x -> at_ l i = Ok x.
Proof. unfold at_. intros ->. reflexivity. Qed.
Lemma column_is o i m ch : nth_error (o_in_species o) i = Some m -> nth_error (charges o) i = Some ch -> column o i = Ok (map (coefficient m) (o_elements o) ++ [ch]).
Proof.
  intros M C. set (full := map (coefficient m) (o_elements o) ++ [ch]).
  assert (L : length full = numElements o). { unfold full. rewrite app_length, map_length, num_elements. cbn. lia. }
  unfold column. rewrite <- L, <- (map_at full). apply mapM_ext. intros k I. apply in_seq in I.
  assert (Li : i < numSpecies o). { rewrite <- num_charges. apply nth_error_Some. congruence. }
  unfold elementStoichiometry. replace (Nat.ltb i (numSpecies o)) with true by (symmetry; apply Nat.ltb_lt; lia). replace (Nat.ltb k (numElements o)) with true by (symmetry; apply Nat.ltb_lt; lia).
  cbn [andb negb]. destruct (Nat.eqb_spec k (numElements o - 1)) as [->|N].
  - rewrite (at_some _ _ _ C). symmetry. apply at_some. unfold full. rewrite num_elements. replace (S (length (o_elements o)) - 1) with (length (o_elements o)) by lia.
    rewrite nth_error_app2 by (rewrite map_length; lia). rewrite map_length, Nat.sub_diag. reflexivity.
  - rewrite num_elements in *. destruct (at_nth (o_elements o) k ltac:(lia)) as (e & E & ->). cbn [bind]. rewrite (at_some _ _ _ M). cbn [bind].
    symmetry. apply at_some. unfold full. rewrite nth_error_app1 by (rewrite map_length; lia). rewrite nth_error_map, E. reflexivity.
Qed.
Lemma combine_map {A B} (f : A -> B) l t : combine l (map f l ++ t) = map (fun x => (x, f x)) l.
Proof. induction l; cbn; auto. rewrite IHl. reflexivity. Qed.
Lemma combine_maps {A B C} (f : A -> B) (g : A -> C) l s t : length s = length t -> combine (map f l ++ s) (map g l ++ t) = map (fun x => (f x, g x)) l ++ combine s t.
Proof. intro H. induction l; cbn; auto. rewrite IHl. reflexivity. Qed.
Lemma element_names_is o : element_names o = o_elements o.
Proof. unfold element_names. rewrite num_elements. unfold o_element_names. replace (S _ - 1) with (length (o_elements o)) by lia. rewrite firstn_app, firstn_all, Nat.sub_diag. cbn [firstn]. apply app_nil_r. Qed.
Lemma elements_of pq o : initialize pq = Ok o -> NoDup (o_elements o) /\ forall m k, In m (o_in_species o) -> In k (map fst m) -> In k (o_elements o).
Proof.
  intro H. apply initialize_inv in H as (ins & rows & _ & _ & ->). cbn [o_elements o_in_species]. destruct (unique_nodup (map fst (concat ins))) as [D I]. split; auto.
  intros m k Im Ik. apply I. apply in_map_iff in Ik as (x & <- & Ix). apply in_map. apply in_concat. eauto.
Qed.
Lemma charge_at o i : i < numSpecies o -> exists ch, nth_error (charges o) i = Some ch /\ forall s, nth_error (o_aqueous o) i = Some s -> ch = ps_charge s.
Proof.
  intro L. rewrite <- num_charges in L. destruct (nth_error (charges o) i) as [ch|] eqn:E. 2: { apply nth_error_None in E. lia. }
  exists ch. split; auto. intros s S. unfold charges in E. rewrite nth_error_app1 in E. 2: { rewrite map_length. apply nth_error_Some. congruence. }
  rewrite nth_error_map, S in E. cbn in E. congruence.
Qed.
Lemma sum_valences (primary : str -> str) (l m : list (str * Q)) (g : str -> Q) : Forall2 (fun kc vc => primary (fst vc) = fst kc /\ snd vc = snd kc) l m ->
  (sumQ (fun vc => g (primary (fst vc)) * snd vc) m == sumQ (fun kc => g (fst kc) * snd kc) l)%Q.
Proof. induction 1 as [|kc vc l m [P C] F IH]. { reflexivity. } rewrite !sumQ_cons, IH, P, C. reflexivity. Qed.
Theorem C130_elements_partial : forall pq o, initialize pq = Ok o -> consistent pq o -> elements_right pq o.
Proof.
  intros pq o H C i l Hl. destruct (F2_nth _ _ _ (in_species_valences pq o H C) i l Hl) as (m & Hm & D & F). destruct (elements_of pq o H) as [De Ie].
  assert (L : i < numSpecies o). { rewrite num_species. apply nth_error_Some. congruence. }
  destruct (charge_at o i L) as (ch & Hc & Hch). eexists. split. { apply column_is; eauto. } split. { rewrite app_length, map_length, num_elements. cbn. lia. }
  assert (K : forall k, In k (map fst m) -> In k (o_elements o)). { intros k. apply Ie. apply (nth_error_In _ _ Hm). }
  split; [|split].
  - intro e. unfold over_valences. rewrite element_names_is, combine_map, sumQ_map. cbn [fst snd].
    rewrite (sumQ_ext _ (fun x => (if str_eqb (pq_primary pq x) e then 1 else 0) * coefficient m x)%Q).
    + rewrite (sum_keys _ _ De m D K). rewrite (sum_valences (pq_primary pq) l m (fun k => if str_eqb k e then 1 else 0)%Q F). unfold amount. apply sumQ_ext. intros [k c] _. cbn [fst snd]. destruct (str_eqb k e); ring.
    + intros x _. cbn beta. destruct (str_eqb _ e); ring.
  - intros s S. rewrite last_last. auto.
  - intro E. pose proof H as H'. apply initialize_inv in H' as (ins & rows & _ & _ & Ho). assert (M : o_masses o = map (fun e => if str_eqb e $"E" || str_eqb e $"e" then 0%Q else (pq_gfw pq (pq_primary pq e) * (1 # 1000))%Q) (o_elements o) ++ [0%Q]) by (rewrite Ho; reflexivity).
    unfold dot. rewrite M, combine_maps by reflexivity. rewrite sumQ_app, sumQ_map. cbn [combine fst snd].
    change (sumQ (fun x => fst x * snd x) [(ch, 0)])%Q with (ch * 0 + 0)%Q.
    rewrite (sumQ_ext _ (fun x => (if str_eqb x $"E" || str_eqb x $"e" then 0 else pq_gfw pq (pq_primary pq x) * (1 # 1000)) * coefficient m x)%Q) by (intros; ring).
    rewrite (sum_keys _ _ De m D K). rewrite (sumQ_ext _ (fun vc => (pq_gfw pq (pq_primary pq (fst vc)) * (1 # 1000)) * snd vc)%Q).
    + rewrite (sum_valences (pq_primary pq) l m (fun k => pq_gfw pq k * (1 # 1000))%Q F). setoid_replace (ch * 0 + 0)%Q with 0%Q by ring. rewrite Qplus_0_r. apply sumQ_ext. intros; ring.
    + intros [v c] I. cbn [fst snd].
      assert (X : exists k, In k (map fst l) /\ pq_primary pq v = k).
      { clear -F I. induction F as [|kc vc l m [P _] F IH]; [destruct I|]. destruct I as [->|I]. { exists (fst kc). split; auto. left; auto. } destruct (IH I) as (k & A & B). exists k. split; auto. right; auto. }
      destruct X as (k & Ik & Pk). specialize (E k Ik v Pk). unfold electron_symbol in E. rewrite !eqb_ne by tauto. cbn [orb]. reflexivity.
Qed.
Print Assumptions C130_elements_partial.

(* ---- Phases ---- *)
Lemma counts_is o : mapM (numSpeciesInPhase o) (seq 0 (numPhases o)) = Ok (length (o_aqueous o) :: (match o_gaseous o with [] => [] | _ => [length (o_gaseous o)] end) ++ repeat 1 (length (o_minerals o))).
Proof.
  set (cs := _ :: _). assert (L : length cs = numPhases o). { unfold cs, numPhases, o_phase_names. cbn [length]. rewrite !app_length, repeat_length, map_length. destruct (o_gaseous o); reflexivity. }
  rewrite <- L, <- (map_at cs). apply mapM_ext. intros i I. apply in_seq in I. rewrite L in I.
  unfold numSpeciesInPhase. replace (Nat.ltb i (numPhases o)) with true by (symmetry; apply Nat.ltb_lt; lia). cbn [negb].
  destruct i as [|i]. { reflexivity. } cbn [Nat.eqb]. symmetry. unfold cs.
  unfold numPhases, o_phase_names in I. cbn [length] in I. rewrite app_length, map_length in I.
  destruct (o_gaseous o) as [|p g] eqn:G.
  - cbn [app length Nat.eqb negb andb] in *. rewrite andb_false_r. apply at_some. cbn [nth_error]. apply nth_error_repeat. lia.
  - destruct i as [|i]. { reflexivity. } cbn [Nat.eqb andb app]. apply at_some. cbn [nth_error]. apply nth_error_repeat. cbn [length] in I. lia.
Qed.
Lemma sum_ones n : list_sum (repeat 1 n) = n. Proof. induction n; cbn; auto. Qed.
Lemma list_sum_app' a b : list_sum (a ++ b) = list_sum a + list_sum b. Proof. unfold list_sum. induction a as [|x a IH]; cbn [app fold_right]; auto. rewrite IH. lia. Qed.
Theorem C130_phases_partial : forall pq o, initialize pq = Ok o -> phases_right o.
Proof.
  intros pq o _. split. { intros i L. unfold numSpeciesInPhase. replace (Nat.ltb i (numPhases o)) with false; auto. symmetry. apply Nat.ltb_ge. lia. }
  eexists. split; [apply counts_is|]. split; [|split; [reflexivity|split; [reflexivity|]]].
  - cbn [list_sum fold_right]. change (length (o_aqueous o) + list_sum ((match o_gaseous o with [] => [] | _ => [length (o_gaseous o)] end) ++ repeat 1 (length (o_minerals o))) = numSpecies o).
    rewrite list_sum_app', sum_ones. unfold numSpecies, o_species_names. rewrite !app_length, !map_length. destruct (o_gaseous o); cbn; lia.
  - intros k p K. assert (L : k < length (o_minerals o)) by (apply nth_error_Some; congruence).
    assert (N : numPhases o - length (o_minerals o) = S (match o_gaseous o with [] => 0 | _ => 1 end)).
    { unfold numPhases, o_phase_names. cbn [length]. rewrite app_length, map_length. destruct (o_gaseous o); cbn [length]; lia. }
    cbv zeta. rewrite N. cbn [plus]. unfold phaseName, speciesName, o_phase_names, o_species_names.
    destruct (o_gaseous o) as [|q g].
    + cbn [plus app map]. split; [|split].
      * cbn [nth_error]. apply nth_error_repeat. auto.
      * apply at_some. cbn [nth_error]. rewrite nth_error_map, K. reflexivity.
      * apply at_some. cbn [firstn]. change (nth_error (map ps_name (o_aqueous o) ++ map pp_name (o_minerals o)) (length (o_aqueous o) + list_sum (firstn k (repeat 1 (length (o_minerals o))))) = Some (pp_name p)).
        rewrite nth_error_app2 by (rewrite map_length; lia). rewrite map_length, Nat.add_comm, Nat.add_sub.
        replace (firstn k (repeat 1 (length (o_minerals o)))) with (repeat 1 k). { rewrite sum_ones, nth_error_map, K. reflexivity. }
        replace (length (o_minerals o)) with (k + (length (o_minerals o) - k)) by lia. rewrite repeat_app, firstn_app, repeat_length, Nat.sub_diag. cbn [firstn]. rewrite app_nil_r. symmetry. rewrite <- (repeat_length 1 k) at 1. apply firstn_all.
    + cbn [plus]. split; [|split].
      * cbn [nth_error app]. apply nth_error_repeat. auto.
      * apply at_some. cbn [nth_error app]. rewrite nth_error_map, K. reflexivity.
      * apply at_some. cbn [firstn app]. change (nth_error (map ps_name (o_aqueous o) ++ map pp_name (q :: g) ++ map pp_name (o_minerals o)) (length (o_aqueous o) + (length (q :: g) + list_sum (firstn k (repeat 1 (length (o_minerals o)))))) = Some (pp_name p)).
        rewrite nth_error_app2 by (rewrite map_length; lia). rewrite map_length, Nat.add_comm, Nat.add_sub. rewrite nth_error_app2 by (rewrite map_length; lia). rewrite map_length, Nat.add_comm, Nat.add_sub.
        replace (firstn k (repeat 1 (length (o_minerals o)))) with (repeat 1 k). { rewrite sum_ones, nth_error_map, K. reflexivity. }
        replace (length (o_minerals o)) with (k + (length (o_minerals o) - k)) by lia. rewrite repeat_app, firstn_app, repeat_length, Nat.sub_diag. cbn [firstn]. rewrite app_nil_r. symmetry. rewrite <- (repeat_length 1 k) at 1. apply firstn_all.
Qed.
Print Assumptions C130_phases_partial.

(* ---- What comes from PHREEQC ---- *)
Lemma once_from_spec {A} (name : A -> str) : forall l seen, NoDup (map name (once_from name seen l)) /\
  (forall x, In x (once_from name seen l) -> In x l /\ ~ In (name x) seen) /\ (forall x, In x l -> In (name x) seen \/ In (name x) (map name (once_from name seen l))).
Proof.
  induction l as [|a l IH]; intro seen; cbn [once_from]. { split; [constructor|]. split; [intros x []|intros x []]. }
  destruct (existsb (str_eqb (name a)) seen) eqn:E.
  - apply existsb_exists in E as (y & Iy & Ey). apply str_eqb_eq in Ey. subst y. destruct (IH seen) as (D & I & C). split; auto. split.
    + intros x Ix. destruct (I x Ix). split; auto. right; auto.
    + intros x [<-|Ix]; auto.
  - assert (N : ~ In (name a) seen). { intro I. rewrite <- not_true_iff_false in E. apply E. apply existsb_exists. exists (name a). split; auto. apply eqb_refl. }
    destruct (IH (name a :: seen)) as (D & I & C). split; [|split].
    + cbn [map]. constructor; auto. intro X. apply in_map_iff in X as (x & Ex & Ix). destruct (I x Ix) as [_ Nx]. apply Nx. left; auto.
    + intros x [<-|Ix]. { split; auto. left; auto. } destruct (I x Ix) as [I1 I2]. split. { right; auto. } intro X. apply I2. right; auto.
    + intros x [<-|Ix]. { right. left; auto. } destruct (C x Ix) as [[E'|X]|X]; auto. { right. left. auto. } right. right. auto.
Qed.
Lemma sorted_in {A} (name : A -> str) l x : In x (sorted name l) <-> In x l.
Proof. unfold sorted. split; apply Permutation_in; [apply sort_perm|apply Permutation_sym, sort_perm]. Qed.
Lemma sorted_nodup {A} (name : A -> str) l : NoDup (map name l) -> NoDup (map name (sorted name l)).
Proof. intro D. eapply Permutation_NoDup; [|exact D]. apply Permutation_map. apply Permutation_sym. apply sort_perm. Qed.
Lemma equation_species s equation : equation <> [] -> (equationOfSpecies s = equation <-> reaction_of_species s equation).
Proof.
  intro N. unfold equationOfSpecies, reaction_of_species. destruct (ps_reaction s) as [t|]. 2: { split; [congruence|]. intros (t & E & _). discriminate. }
  cbv zeta. rewrite map_length.
  assert (F : forall l e, Forall2 (fun t e : str * Q => fst e = fst t /\ snd e = (- snd t)%Q) l e <-> map (fun t => (fst t, (- snd t)%Q)) l = e).
  { induction l as [|[a b] l IH]; intro e; (split; [intro H; inversion H; subst|intros <-]); cbn [map]; auto.
    - destruct y as [y1 y2]. cbn in *. destruct H2 as [-> ->]. f_equal. apply IH. auto.
    - constructor; [cbn; auto|]. apply IH. reflexivity. }
  destruct (Nat.leb_spec (length t) 1) as [L|L].
  - split; [congruence|]. intros (t' & E & L' & _). injection E as <-. lia.
  - split. { intros E. exists t. split; auto. split; [lia|]. apply F. auto. } intros (t' & E & _ & X). injection E as <-. apply F. auto.
Qed.
Lemma equation_nonempty s equation : reaction_of_species s equation -> equation <> [].
Proof. intros (t & _ & L & F) ->. inversion F; subst. cbn in L. lia. Qed.
Lemma equation_phase p equation : equationOfPhase p = equation <-> reaction_of_phase p equation.
Proof.
  unfold equationOfPhase, reaction_of_phase. destruct (pp_reaction p) as [t|].
  - destruct (Nat.leb_spec (length t) 1) as [L|L]; split.
    + intros <-. right. split; auto. intros t' E. injection E as <-. lia.
    + intros [(t' & E & L' & _)|[_ ->]]; auto. injection E as <-. lia.
    + intros <-. left. exists t. repeat split; auto; lia.
    + intros [(t' & E & L' & ->)|[H _]]. { congruence. } specialize (H t eq_refl). lia.
  - split. { intros <-. right. split; auto. intros t E. discriminate. } intros [(t & E & _)|[_ ->]]; [discriminate|reflexivity].
Qed.
Lemma coefficient_first l e : ~ (coefficient l e == 0)%Q <-> exists pre c post, l = pre ++ (e, c) :: post /\ ~ In e (map fst pre) /\ ~ (c == 0)%Q.
Proof.
  induction l as [|[k c] l IH]; cbn [coefficient].
  - split. { intro H. exfalso. apply H. reflexivity. } intros ([|] & c & post & E & _); discriminate.
  - destruct (str_eqb k e) eqn:K.
    + apply str_eqb_eq in K. subst k. split. { intro H. exists [], c, l. repeat split; auto. }
      intros ([|[k' d] pre] & c' & post & E & N & H). { injection E as -> ->. auto. } injection E as <- <- _. exfalso. apply N. left; auto.
    + rewrite IH. assert (Kn : k <> e). { intros ->. rewrite eqb_refl in K. discriminate. } split.
      * intros (pre & d & post & -> & N & H). exists ((k, c) :: pre), d, post. repeat split; auto. cbn. intros [X|X]; auto.
      * intros ([|[k' d'] pre] & d & post & E & N & H). { injection E as -> _ _. congruence. } injection E as <- <- ->. exists pre, d, post. repeat split; auto. intro X. apply N. right; auto.
Qed.
Lemma electron_iff s : negb (Qeq_bool (coefficient (equationOfSpecies s) $"e-") 0) = true <-> with_electron s.
Proof.
  rewrite negb_true_iff. transitivity (~ (coefficient (equationOfSpecies s) $"e-" == 0)%Q).
  - split. { apply Qeq_bool_neq. } intro N. destruct (Qeq_bool _ 0) eqn:E; auto. apply Qeq_bool_iff in E. contradiction.
  - rewrite coefficient_first. unfold with_electron. split; intros (pre & c & post & E & N & H); exists pre, c, post; (split; [|split; auto]).
    + apply equation_species; auto. intro X. apply app_eq_nil in X as [_ X]. discriminate.
    + apply equation_species; auto. intro X. apply app_eq_nil in X as [_ X]. discriminate.
Qed.
Theorem C130_from_phreeqc_partial : forall pq o, initialize pq = Ok o -> from_phreeqc pq o.
Proof.
  intros pq o H. apply initialize_inv in H as (ins & rows & _ & _ & ->). unfold from_phreeqc. cbn [o_reactions o_aqueous o_gaseous o_minerals].
  set (els := unique str_eqb str_ltb (map fst (concat ins))). clearbody els.
  assert (DS : forall s, In s (List.filter (fun s => negb (ps_sorbed s)) (map fst (pq_list pq))) <-> dissolved pq s).
  { intro s. rewrite filter_In, in_map_iff, negb_true_iff. unfold dissolved. split.
    - intros [([s' m] & E & I) S]. cbn in E. subst s'. split; eauto.
    - intros [[m I] S]. split; auto. exists (s, m). auto. }
  split; [|split; [|split; [|split; [|split]]]].
  - intro equation. unfold reactionsOf. rewrite !in_app_iff, !in_map_iff. split.
    + intros [(s & E & I)|[(p & E & I)|(p & E & I)]].
      * unfold activeProductSpecies in I. rewrite filter_In, andb_true_iff, !negb_true_iff in I. destruct I as (I & S & Z). left. exists s. split; auto. split; auto.
        apply equation_species; auto. intros ->. rewrite E in Z. discriminate.
      * right. exists p. split. { apply in_or_app; auto. } apply equation_phase; auto.
      * right. exists p. split. { apply in_or_app; auto. } apply equation_phase; auto.
    + intros [(s & I & S & R)|(p & I & R)].
      * left. exists s. pose proof (equation_nonempty _ _ R) as Z. apply equation_species in R; auto. split; auto. unfold activeProductSpecies.
        rewrite filter_In, andb_true_iff, !negb_true_iff. split; auto. split; auto. rewrite R. destruct equation; congruence.
      * right. apply equation_phase in R. apply in_app_or in I as [I|I]; [left|right]; eauto.
  - unfold aqueous. apply sorted_nodup. unfold activeAqueousSpecies, once. apply once_from_spec.
  - unfold gaseous. apply sorted_nodup. unfold activeGaseousSpecies, once. apply once_from_spec.
  - intro name. unfold aqueous, activeAqueousSpecies, once. cbv zeta.
    set (sp := List.filter (fun s => negb (ps_sorbed s)) (map fst (pq_list pq))) in *.
    set (all := sp ++ _). destruct (once_from_spec ps_name all []) as (_ & I & C).
    assert (EI : forall s, In s all <-> dissolved pq s \/ (s = pq_electron pq /\ exists s', dissolved pq s' /\ with_electron s')).
    { intro s. unfold all. rewrite in_app_iff, DS. destruct (existsb _ sp) eqn:E.
      - apply existsb_exists in E as (s' & I' & E). apply DS in I'. apply electron_iff in E. cbn [In]. split; [intros [X|[X|[]]]|intros [X|[X _]]]; auto. right. split; eauto.
      - split; [intros [X|[]]; auto|]. intros [X|[_ (s' & D & W)]]; auto. exfalso. apply DS in D. apply electron_iff in W. rewrite <- not_true_iff_false in E. apply E. apply existsb_exists. eauto. }
    split.
    + intro X. apply in_map_iff in X as (s & <- & Is). apply sorted_in in Is. destruct (I s Is) as [Ia _]. apply EI in Ia as [D|[-> W]]; [left; eauto|right; auto].
    + intro X. assert (Y : exists s, In s all /\ ps_name s = name). { destruct X as [(s & D & E)|[-> W]]. { exists s. split; auto. apply EI. auto. } exists (pq_electron pq). split; auto. apply EI. auto. }
      destruct Y as (s & Is & <-). destruct (C s Is) as [[]|Z]. apply in_map_iff in Z as (s' & E & I'). rewrite <- E. apply in_map. apply sorted_in. auto.
  - intro name. unfold gaseous, activeGaseousSpecies, once. destruct (once_from_spec pp_name (pq_gases pq) []) as (_ & I & C). split; intro X; apply in_map_iff in X as (p & <- & Ip).
    + apply sorted_in in Ip. destruct (I p Ip). apply in_map. auto.
    + destruct (C p Ip) as [[]|Z]. apply in_map_iff in Z as (p' & E & I'). rewrite <- E. apply in_map. apply sorted_in. auto.
  - intro p. unfold minerals. rewrite sorted_in. unfold activePhasesInEquilibriumPhases. rewrite in_map_iff. split.
    + intros ([p' b] & <- & I). apply filter_In in I as [I B]. cbn in B. subst b. auto.
    + intro I. exists (p, true). split; auto. apply filter_In. auto.
Qed.
Print Assumptions C130_from_phreeqc_partial.

(* ---- Reactions ---- *)
Lemma assign_length {A} (l : list A) i x : length (assign l i x) = length l.
Proof. revert i; induction l; intros [|i]; cbn; auto. Qed.
Lemma assign_same {A} (l : list A) i x d : i < length l -> nth i (assign l i x) d = x.
Proof. revert i; induction l; intros [|i] L; cbn in *; try lia; auto. apply IHl. lia. Qed.
Lemma assign_other {A} (l : list A) i k x d : i <> k -> nth k (assign l i x) d = nth k l d.
Proof. revert i k; induction l; intros [|i] [|k] N; cbn; auto; try congruence. Qed.
Lemma row_of_spec names : NoDup names -> forall equation r r', length r = length names -> NoDup (map fst equation) -> row_of names r equation = Ok r' ->
  length r' = length r /\ forall i name, nth_error names i = Some name ->
    (forall c, In (name, c) equation -> nth i r' 0%Q = c) /\ (~ In name (map fst equation) -> nth i r' 0%Q = nth i r 0%Q).
Proof.
  intros Dn. induction equation as [|[x c] e IH]; intros r r' L D H; cbn [row_of] in H.
  - injection H as <-. split; auto. intros i name _. split; [intros c []|auto].
  - cbv zeta in H. destruct (Nat.ltb_spec (index str_eqb names x) (length r)) as [Li|]; [|discriminate].
    cbn [map fst] in D. inversion D as [|? ? Nx De]; subst.
    destruct (IH _ _ (eq_trans (assign_length _ _ _) L) De H) as [L' S]. split. { rewrite L', assign_length. auto. }
    destruct (index_spec str_eqb str_eqb_eq names x) as [Yes No].
    assert (Ix : In x names). { destruct (in_dec (list_eq_dec ascii_dec) x names) as [|Nn]; auto. rewrite (No Nn) in Li. lia. }
    destruct (Yes Ix) as (a & b & En & Na & Ei). intros i name Hi. destruct (S i name Hi) as [S1 S2].
    assert (X : i = index str_eqb names x <-> name = x).
    { split.
      - intros ->. rewrite Ei, En, nth_error_app2, Nat.sub_diag in Hi by lia. cbn in Hi. congruence.
      - intros ->. rewrite Ei. assert (Hx : nth_error names (length a) = Some x) by (rewrite En, nth_error_app2, Nat.sub_diag by lia; reflexivity).
        apply (proj1 (NoDup_nth_error names) Dn); [apply nth_error_Some; congruence|congruence]. }
    split.
    + intros c' [E|I]. { injection E as -> ->. rewrite S2 by exact Nx. rewrite (proj2 X eq_refl). apply assign_same. auto. } apply S1; auto.
    + cbn [map fst In]. intro N. rewrite S2 by tauto. apply assign_other. intro E. symmetry in E. apply X in E. subst. tauto.
Qed.
Theorem C130_reactions_partial : forall pq o, initialize pq = Ok o -> NoDup (o_species_names o) -> reactions_right o.
Proof.
  intros pq o H D j equation Hj De. pose proof H as H'. apply initialize_inv in H' as (ins & rows & _ & Er & ->). cbn [o_reactions] in Hj.
  destruct (F2_nth _ _ _ (mapM_2 _ _ _ Er) j equation Hj) as (r & Hr & R).
  assert (N : o_species_names (mkObject (aqueous pq) (gaseous pq) (minerals pq) ins (unique str_eqb str_ltb (map fst (concat ins)))
    (map (fun e => if str_eqb e $"E" || str_eqb e $"e" then 0%Q else (pq_gfw pq (pq_primary pq e) * (1 # 1000))%Q) (unique str_eqb str_ltb (map fst (concat ins))) ++ [0%Q]) (reactionsOf pq) rows) = species_names pq) by reflexivity.
  rewrite N in D. destruct (row_of_spec (species_names pq) D equation _ r (repeat_length _ _) De R) as [L S]. rewrite repeat_length in L.
  exists r. split; [|split].
  - unfold row. unfold numSpecies. rewrite N, <- L, <- (map_at r). apply mapM_ext. intros i I. unfold reactionStoichiometry. cbn [o_stoichiometry]. rewrite (at_some _ _ _ Hr). cbn [bind]. reflexivity.
  - unfold numSpecies. rewrite N. auto.
  - intros i name Hi. rewrite N in Hi. destruct (S i name Hi) as [S1 S2]. split; auto. intro X. rewrite S2 by auto. apply nth_repeat.
Qed.
Print Assumptions C130_reactions_partial.

(* ---- Conservation ---- *)
Lemma combine_nth_error {A B} : forall (l : list A) (l' : list B) i x y, nth_error l i = Some x -> nth_error l' i = Some y -> nth_error (combine l l') i = Some (x, y).
Proof. induction l as [|a l IH]; intros [|b l'] [|i] x y H H'; cbn in *; try discriminate; auto. congruence. Qed.
Lemma F2_zip {A B} (R : A -> B -> Prop) : forall l r, length l = length r -> (forall i a b, nth_error l i = Some a -> nth_error r i = Some b -> R a b) -> Forall2 R l r.
Proof. induction l as [|a l IH]; intros [|b r] L H; cbn in L; try lia; constructor. { apply (H 0); reflexivity. } apply IH; [lia|]. intros i. apply (H (S i)). Qed.
Lemma columns_are pq o : initialize pq = Ok o -> consistent pq o -> exists columns, mapM (column o) (seq 0 (numSpecies o)) = Ok columns /\ length columns = numSpecies o /\
  forall i c, nth_error columns i = Some c -> column o i = Ok c.
Proof.
  intros H C. pose proof (in_species_valences pq o H C) as V. apply F2_len in V.
  set (cols := map (fun mc => map (coefficient (fst mc)) (o_elements o) ++ [snd mc]) (combine (o_in_species o) (charges o))).
  assert (L : length cols = numSpecies o). { unfold cols. rewrite map_length, combine_length, num_charges, <- V, <- num_species. lia. }
  assert (X : forall i, i < numSpecies o -> exists c, nth_error cols i = Some c /\ column o i = Ok c).
  { intros i Li. destruct (nth_error (o_in_species o) i) as [m|] eqn:M. 2: { apply nth_error_None in M. rewrite <- V, <- num_species in M. lia. }
    destruct (charge_at o i Li) as (ch & Hc & _). eexists. split; [|apply column_is; eauto]. unfold cols. rewrite nth_error_map, (combine_nth_error _ _ i m ch M Hc). reflexivity. }
  exists cols. split; [|split; auto].
  - rewrite <- L, <- (map_at cols). apply mapM_ext. intros i I. apply in_seq in I. destruct (X i ltac:(lia)) as (c & Hc & ->). symmetry. apply at_some. auto.
  - intros i c Hc. destruct (X i) as (c' & Hc' & E). { rewrite <- L. apply nth_error_Some. congruence. } congruence.
Qed.
Lemma sum_combine {B C} (R : B -> C -> Prop) (f : B -> Q) (g : C -> Q) : (forall b c, R b c -> f b == g c)%Q -> forall b c, Forall2 R b c -> forall a : list Q,
  (sumQ (fun x => fst x * f (snd x)) (combine a b) == sumQ (fun x => fst x * g (snd x)) (combine a c))%Q.
Proof. intros E. induction 1 as [|y z b c Ryz F IH]; intros [|x a]; cbn [combine]; try reflexivity. rewrite !sumQ_cons, IH. cbn [fst snd]. rewrite (E y z Ryz). reflexivity. Qed.
Lemma no_redox_same pq o : initialize pq = Ok o -> consistent pq o -> (forall e, isRedox pq e = false) -> o_in_species o = compositions o.
Proof.
  intros H [C V] N. pose proof H as H'. apply initialize_inv in H' as (ins & rows & E & _ & ->). cbn [o_in_species]. unfold compositions in *. cbn [o_aqueous o_gaseous o_minerals] in *.
  unfold elementsInSpecies in E. apply bind_inv in E as (a & Ea & E). apply bind_inv in E as (g & Eg & E). apply bind_inv in E as (m & Em & E). injection E as <-.
  assert (Same : forall choose l x, NoDup (map fst l) -> (forall k, choose k = Ok k) -> elementsWith choose l = Ok x -> x = l).
  { intros choose l x D Hc X. apply (elementsWith_valences (fun k => k)) in X as [_ F]; auto. 2: { intros k v _ Hv. rewrite Hc in Hv. congruence. }
    clear D. induction F as [|[k c] [k' c'] l x [P Q] F IH]; auto. cbn in P, Q. subst. auto. }
  assert (Lists : forall A (f : A -> outcome (list (str * Q))) (h : A -> list (str * Q)) l r, mapM f l = Ok r -> (forall s x, In s l -> f s = Ok x -> x = h s) -> r = map h l).
  { intros A f h l r X Hs. apply mapM_2 in X. induction X as [|s x l r Hx X IH]; auto. cbn [map]. rewrite <- (Hs s x); auto. 2: left; auto. f_equal. apply IH. intros; apply Hs; auto. right; auto. }
  f_equal; [|f_equal].
  - apply (Lists _ _ ps_elements _ _ Ea). intros s x I X. apply bind_inv in X as (ms & _ & X). apply Same in X; auto.
    + apply C. apply in_or_app. left. apply in_map. auto.
    + intro k. unfold chooseInSpecies. rewrite N. destruct (str_eqb ms _); auto.
  - apply (Lists _ _ pp_elements _ _ Eg). intros s x I X. apply Same in X; auto.
    + apply C. apply in_or_app. right. apply in_or_app. left. apply in_map. auto.
    + intro k. unfold chooseInPhase. rewrite N. auto.
  - apply (Lists _ _ pp_elements _ _ Em). intros s x I X. apply Same in X; auto.
    + apply C. apply in_or_app. right. apply in_or_app. right. apply in_map. auto.
    + intro k. unfold chooseInPhase. rewrite N. auto.
Qed.
Lemma coefficient_amount l e : NoDup (map fst l) -> (coefficient l e == amount e l)%Q.
Proof.
  induction l as [|[k c] l IH]; intro D. { reflexivity. } cbn [map fst] in D. inversion D as [|? ? N D']; subst. cbn [coefficient]. unfold amount. rewrite sumQ_cons. cbn [fst snd]. fold (amount e l).
  rewrite <- IH by auto. destruct (str_eqb k e) eqn:E. { apply str_eqb_eq in E. subst. rewrite (coefficient_absent l e N). ring. } ring.
Qed.
(* Elements are conserved when all their valences are counted, and for each valence if
   no element is there with more than one. *)
Theorem C130_conserved_partial : forall pq o j, initialize pq = Ok o -> consistent pq o -> balanced o j ->
  (exists r columns, row o j = Ok r /\ mapM (column o) (seq 0 (numSpecies o)) = Ok columns /\
   forall e, (sumQ (fun xc => fst xc * over_valences (pq_primary pq) e (element_names o) (snd xc)) (combine r columns) == 0)%Q) /\
  ((forall e, isRedox pq e = false) -> conserved o j).
Proof.
  intros pq o j H C (r & Hr & B). destruct (columns_are pq o H C) as (cols & Hc & L & Each). split.
  - exists r, cols. split; auto. split; auto. intro e. rewrite <- (B e). symmetry.
    apply (sum_combine (fun l c => over_valences (pq_primary pq) e (element_names o) c == amount e l)%Q (amount e) (over_valences (pq_primary pq) e (element_names o))). { intros b c ->. reflexivity. }
    apply F2_zip. { rewrite L, num_species. auto. } intros i l c Hl Hcol. destruct (C130_elements_partial pq o H C i l Hl) as (c' & Hc' & _ & T & _). rewrite (Each i c Hcol) in Hc'. injection Hc' as <-. apply T.
  - intro N. exists r, cols. split; auto. split; auto. intros k Lk. rewrite num_elements in Lk.
    destruct (nth_error (o_elements o) k) as [e|] eqn:E. 2: { apply nth_error_None in E. lia. }
    rewrite <- (B e). symmetry. apply (sum_combine (fun l c => nth k c 0 == amount e l)%Q (amount e) (fun c => nth k c 0%Q)). { intros b c ->. reflexivity. }
    apply F2_zip. { rewrite L, num_species. auto. } intros i l c Hl Hcol. apply Each in Hcol.
    destruct (charge_at o i) as (ch & Hch & _). { rewrite num_species. apply nth_error_Some. congruence. }
    rewrite (column_is o i l ch) in Hcol; auto. 2: { rewrite (no_redox_same pq o H C N). auto. } injection Hcol as <-.
    rewrite app_nth1 by (rewrite map_length; lia). rewrite (nth_error_nth (map (coefficient l) (o_elements o)) k 0%Q (x := coefficient l e)). 2: { rewrite nth_error_map, E. reflexivity. }
    apply coefficient_amount. destruct C as [C _]. apply (C l). apply (nth_error_In _ _ Hl).
Qed.
Print Assumptions C130_conserved_partial.

(* ---- Examples: sulfide and sulfate in water with hydrogen sulfide gas ---- *)
Definition water : PqSpecies := mkPqSpecies $"H2O" 0 false [($"H", 2%Q); ($"O", 1%Q)] (Some [($"H2O", 1%Q)]).
Definition proton : PqSpecies := mkPqSpecies $"H+" 1 false [($"H", 1%Q)] (Some [($"H+", 1%Q)]).
Definition electron : PqSpecies := mkPqSpecies $"e-" (-1) false [] (Some [($"e-", 1%Q)]).
Definition sulfide : PqSpecies := mkPqSpecies $"HS-" (-1) false [($"H", 1%Q); ($"S", 1%Q)] (Some [($"HS-", 1%Q)]).
Definition sulfate : PqSpecies := mkPqSpecies $"SO4-2" (-2) false [($"S", 1%Q); ($"O", 4%Q)] (Some [($"SO4-2", 1%Q)]).
Definition h2s : PqSpecies := mkPqSpecies $"H2S" 0 false [($"H", 2%Q); ($"S", 1%Q)] (Some [($"H2S", 1%Q); ($"H+", (-1)%Q); ($"HS-", (-1)%Q)]).
Definition h2s_gas : PqPhase := mkPqPhase $"H2S(g)" [($"S", 1%Q); ($"H", 2%Q)] (Some [($"H2S(g)", (-1)%Q); ($"H+", 1%Q); ($"HS-", 1%Q)]).
Definition primary_of (e : str) : str := if str_eqb e $"S(6)" || str_eqb e $"S(-2)" then $"S" else e.
Definition valence_of (e : str) : option str := if str_eqb e $"S" then Some $"S(6)" else None.
Definition secondary_of (s : str) : option str := if str_eqb s $"HS-" then Some $"S(-2)" else if str_eqb s $"SO4-2" then Some $"S(6)" else None.
Definition masses_of (e : str) : Q := if str_eqb e $"H" then 1.008%Q else if str_eqb e $"O" then 16%Q else 32.06%Q.
Definition with_sulfate : Pq :=
  mkPq [(water, $"H2O"); (proton, $"H+"); (sulfide, $"HS-"); (h2s, $"HS-"); (sulfate, $"SO4-2")] [water; proton; sulfide; h2s; sulfate]
    [h2s_gas] [] electron [Some $"H"; None; Some $"S(-2)"; Some $"S(6)"] primary_of valence_of secondary_of masses_of.
Definition without_sulfate : Pq :=
  mkPq [(water, $"H2O"); (proton, $"H+"); (sulfide, $"HS-"); (h2s, $"HS-")] [water; proton; sulfide; h2s]
    [h2s_gas] [] electron [Some $"H"; None; Some $"S"] primary_of valence_of secondary_of masses_of.
(* The same gas at a fixed pressure. *)
Definition twice_gas : Pq :=
  mkPq [(water, $"H2O"); (proton, $"H+"); (sulfide, $"HS-"); (h2s, $"HS-")] [water; proton; sulfide; h2s]
    [h2s_gas] [(h2s_gas, true)] electron [Some $"H"; None; Some $"S"] primary_of valence_of secondary_of masses_of.
Definition get (pq : Pq) : Object := match initialize pq with Ok o => o | _ => mkObject [] [] [] [] [] [] [] [] end.
Lemma get1 : initialize with_sulfate = Ok (get with_sulfate). Proof. vm_compute. reflexivity. Qed.
Lemma get2 : initialize without_sulfate = Ok (get without_sulfate). Proof. vm_compute. reflexivity. Qed.
Lemma get3 : initialize twice_gas = Ok (get twice_gas). Proof. vm_compute. reflexivity. Qed.
Lemma valence_primary e v : valence_of e = Some v -> primary_of v = e.
Proof. unfold valence_of. destruct (str_eqb e $"S") eqn:E; intro X; inversion X; subst. apply str_eqb_eq in E. subst. reflexivity. Qed.
Definition check_list (l : list (str * Q)) : bool := forallb (fun k => str_eqb (primary_of k) k) (map fst l) && (fix nd (l : list str) := match l with [] => true | x :: l' => negb (existsb (str_eqb x) l') && nd l' end) (map fst l).
Lemma check_list_ok l : check_list l = true -> NoDup (map fst l) /\ forall k, In k (map fst l) -> primary_of k = k.
Proof.
  unfold check_list. intro H. apply andb_prop in H as [A B]. split.
  - clear A. induction (map fst l) as [|x m IH]; constructor; apply andb_prop in B as [B1 B2]; auto.
    intro I. apply Bool.negb_true_iff in B1. rewrite <- Bool.not_true_iff_false in B1. apply B1. apply existsb_exists. exists x. split; auto. apply eqb_refl.
  - rewrite forallb_forall in A. intros k I. apply str_eqb_eq. auto.
Qed.
Lemma example_consistent pq : pq_primary pq = primary_of -> pq_valence pq = valence_of -> forallb check_list (compositions (get pq)) = true -> consistent pq (get pq).
Proof.
  intros P V H. split. { intros l I. rewrite forallb_forall in H. rewrite P. apply check_list_ok. auto. } rewrite P, V. exact valence_primary.
Qed.
Lemma consistent1 : consistent with_sulfate (get with_sulfate). Proof. apply example_consistent; vm_compute; reflexivity. Qed.
Lemma consistent2 : consistent without_sulfate (get without_sulfate). Proof. apply example_consistent; vm_compute; reflexivity. Qed.
Lemma consistent3 : consistent twice_gas (get twice_gas). Proof. apply example_consistent; vm_compute; reflexivity. Qed.
Definition value {A} (d : A) (x : outcome A) : A := match x with Ok a => a | _ => d end.
Lemma balanced_by o j r : row o j = Ok r -> (forall e, sumQ (fun xl => fst xl * amount e (snd xl)) (combine r (compositions o)) == 0)%Q -> balanced o j.
Proof. intros; exists r; auto. Qed.
Ltac weigh := let e := fresh in intro e; cbn [combine sumQ fold_right fst snd amount];
  repeat match goal with |- context [str_eqb ?x e] => destruct (str_eqb x e) end; vm_compute; reflexivity.
Lemma balanced1 : balanced (get with_sulfate) 1.
Proof. eapply balanced_by. { vm_compute. reflexivity. } let c := eval vm_compute in (compositions (get with_sulfate)) in replace (compositions (get with_sulfate)) with c by (vm_compute; reflexivity). weigh. Qed.
Lemma balanced2 : balanced (get without_sulfate) 1.
Proof. eapply balanced_by. { vm_compute. reflexivity. } let c := eval vm_compute in (compositions (get without_sulfate)) in replace (compositions (get without_sulfate)) with c by (vm_compute; reflexivity). weigh. Qed.
(* Sulfur in a gas is always counted as sulfate. *)
Theorem C130_valences_refuted : exists pq o j, initialize pq = Ok o /\ consistent pq o /\ j < length (o_reactions o) /\ balanced o j /\ ~ conserved o j.
Proof.
  exists with_sulfate, (get with_sulfate), 1. split; [exact get1|]. split; [exact consistent1|]. split; [vm_compute; lia|]. split; [exact balanced1|].
  intros (r & cols & Hr & Hc & F). specialize (F 2 ltac:(vm_compute; lia)). vm_compute in Hr, Hc. injection Hr as <-. injection Hc as <-. vm_compute in F. discriminate F.
Qed.
Print Assumptions C130_valences_refuted.
(* A gas of the gas phase that is also kept at a given pressure is taken for itself. *)
Theorem C130_twice_refuted : exists pq o, initialize pq = Ok o /\ consistent pq o /\ ~ reactions_right o.
Proof.
  exists twice_gas, (get twice_gas). split; [exact get3|]. split; [exact consistent3|]. intro R.
  destruct (R 1 [($"H2S(g)", (-1)%Q); ($"H+", 1%Q); ($"HS-", 1%Q)]) as (r & Hr & _ & S). { vm_compute. reflexivity. }
  { repeat constructor; cbn; intuition discriminate. }
  vm_compute in Hr. injection Hr as <-. destruct (S 5 $"H2S(g)") as [S1 _]. { vm_compute. reflexivity. } specialize (S1 (-1)%Q (or_introl eq_refl)). vm_compute in S1. discriminate S1.
Qed.
Print Assumptions C130_twice_refuted.
Theorem C130_refuted : ~ C130_statement.
Proof. intro H. destruct C130_valences_refuted as (pq & o & j & A & B & L & D & E). destruct (H pq o A B) as (_ & _ & _ & X). apply E, X; auto. Qed.
Print Assumptions C130_refuted.
Example C130_nonvacuous : initialize without_sulfate = Ok (get without_sulfate) /\ consistent without_sulfate (get without_sulfate) /\ NoDup (o_species_names (get without_sulfate)) /\
  balanced (get without_sulfate) 1 /\ (forall e, isRedox without_sulfate e = false) /\ numPhases (get without_sulfate) = 2 /\ length (o_reactions (get without_sulfate)) = 2.
Proof.
  split; [exact get2|]. split; [exact consistent2|]. split. { vm_compute. repeat constructor; cbn; intuition discriminate. } split; [exact balanced2|]. split; [|split; reflexivity].
  intro e. unfold isRedox. cbn [pq_unknowns without_sulfate redox]. cbn [pq_primary without_sulfate existsb].
  replace (str_eqb (primary_of $"H") (primary_of $"S")) with false by reflexivity. cbn [orb andb]. rewrite !andb_false_r. reflexivity.
Qed.
