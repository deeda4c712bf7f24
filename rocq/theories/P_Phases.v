(* Proofs about phases, phase lists and chemical systems. *)
From Coq Require Import Sorted Permutation.
From Verif Require Import Base M_Strings S_Strings P_Strings M_Formula P_Formula M_Chem M_Algorithms P_Algorithms
  M_System S_System P_System.

(* ---- numbering ---- *)
Definition total (phases : list Phase) : nat := length (concat (map ph_species phases)).

Lemma numSpeciesUntil_spec phases : forall p, p <= length phases ->
  numSpeciesUntilPhase phases p = Ok (total (firstn p phases)).
Proof.
  induction phases as [|ph ps IH]; intros [|p] L; cbn in *; try lia; auto.
  rewrite IH by lia. cbn. unfold total. cbn. rewrite app_length. reflexivity.
Qed.

Lemma numSpeciesUntil_UB phases : forall p, length phases < p -> numSpeciesUntilPhase phases p = UB.
Proof. induction phases as [|ph ps IH]; intros [|p] L; cbn in *; try lia; auto. rewrite IH by lia. reflexivity. Qed.

Lemma find_phase_spec phases : forall i counter index, counter <= index ->
  (index < counter + total phases -> exists pre ph post, phases = pre ++ ph :: post /\
     find_phase phases i counter index = i + length pre /\
     counter + total pre <= index < counter + total pre + length (ph_species ph)) /\
  (counter + total phases <= index -> find_phase phases i counter index = i + length phases).
Proof.
  induction phases as [|ph ps IH]; intros i counter index L; cbn [find_phase].
  - unfold total; cbn. split; intros; lia.
  - assert (T : total (ph :: ps) = length (ph_species ph) + total ps) by (unfold total; cbn; apply app_length).
    destruct (Nat.ltb_spec index (counter + length (ph_species ph))) as [H|H].
    + split; intros; [|lia]. exists [], ph, ps. cbn. unfold total; cbn. repeat split; auto; lia.
    + destruct (IH (S i) _ _ H) as [IH1 IH2]. split; intros K.
      * destruct IH1 as (pre & q & post & -> & F & B); [lia|]. exists (ph :: pre), q, post. cbn [length]. 
        assert (T' : total (ph :: pre) = length (ph_species ph) + total pre) by (unfold total; cbn; apply app_length).
        repeat split; auto; lia.
      * rewrite IH2 by lia. cbn. lia.
Qed.

Lemma collectSpecies_eq phases : collectSpecies phases = concat (map ph_species phases).
Proof.
  unfold collectSpecies, concatenate.
  enough (H : forall acc, fold_left (fun r p => r ++ ph_species p) phases acc = acc ++ concat (map ph_species phases)) by apply H.
  induction phases as [|p ps IH]; intro acc; cbn; [rewrite app_nil_r; reflexivity|]. rewrite IH, app_assoc. reflexivity.
Qed.

Lemma nth_collect pre ph post j : j < length (ph_species ph) ->
  nth_error (collectSpecies (pre ++ ph :: post)) (total pre + j) = nth_error (ph_species ph) j.
Proof.
  intro L. rewrite collectSpecies_eq, map_app, concat_app. cbn. unfold total.
  rewrite nth_error_app2 by lia. rewrite nth_error_app1 by lia. f_equal. lia.
Qed.

Lemma findWithSpecies_at pre ph post j : j < length (ph_species ph) ->
  findWithSpecies (pre ++ ph :: post) (total pre + j) = length pre.
Proof.
  intro L. unfold findWithSpecies.
  enough (H : forall i counter, find_phase (pre ++ ph :: post) i counter (counter + total pre + j) = i + length pre).
  { specialize (H 0 0). exact H. }
  induction pre as [|p pre IH]; intros i counter; cbn [app find_phase].
  - change (total []) with 0. cbn zeta. destruct (Nat.ltb_spec (counter + 0 + j) (counter + length (ph_species ph))); cbn; lia.
  - assert (T : total (p :: pre) = length (ph_species p) + total pre) by (unfold total; cbn; apply app_length).
    destruct (Nat.ltb_spec (counter + total (p :: pre) + j) (counter + length (ph_species p))); [lia|].
    replace (counter + total (p :: pre) + j) with (counter + length (ph_species p) + total pre + j) by lia.
    rewrite IH. cbn. lia.
Qed.

(* ---- formula matrix and mass ---- *)
Open Scope Q_scope.
Lemma fold_mass l : forall m, fold_left (fun m p => m + el_mass (fst p) * snd p) l m ==
  m + Qsum (map (fun p : Element * Q => el_mass (fst p) * snd p) l).
Proof. induction l as [|p l IH]; intro m; cbn; [ring|]. rewrite IH. ring. Qed.
Lemma elements_mass_sum l : elements_mass l == Qsum (map (fun p => el_mass (fst p) * snd p) l).
Proof. unfold elements_mass. rewrite fold_mass. ring. Qed.

Lemma Qsum_ext {A} (f g : A -> Q) l : (forall x, In x l -> f x == g x) -> Qsum (map f l) == Qsum (map g l).
Proof. induction l as [|x l IH]; intro H; cbn; [reflexivity|]. rewrite IH, (H x); [reflexivity|left; auto|intros; apply H; right; auto]. Qed.
Lemma Qsum_plus {A} (f g : A -> Q) l : Qsum (map (fun x => f x + g x) l) == Qsum (map f l) + Qsum (map g l).
Proof. induction l as [|x l IH]; cbn; [ring|]. rewrite IH. ring. Qed.
Lemma Qsum_scale {A} c (f : A -> Q) l : Qsum (map (fun x => c * f x) l) == c * Qsum (map f l).
Proof. induction l as [|x l IH]; cbn; [ring|]. rewrite IH. ring. Qed.
Lemma Qsum_zero {A} (l : list A) : Qsum (map (fun _ => 0) l) == 0.
Proof. induction l as [|x l IH]; cbn; [ring|]. rewrite IH. ring. Qed.
Lemma Qsum_swap {A B} (f : A -> B -> Q) l r :
  Qsum (map (fun x => Qsum (map (f x) r)) l) == Qsum (map (fun y => Qsum (map (fun x => f x y) l)) r).
Proof.
  induction l as [|x l IH]; cbn.
  - rewrite Qsum_zero. reflexivity.
  - rewrite IH, <- Qsum_plus. reflexivity.
Qed.
Close Scope Q_scope.

(* ---- elements collected ---- *)
Definition keys (m : list (str * Element)) := map fst m.

Definition sorted_keys (m : list (str * Element)) := StronglySorted (fun a b => str_ltb (fst a) (fst b) = true) m.

Lemma map_emplace_spec m k e : sorted_keys m ->
  sorted_keys (map_emplace m k e) /\
  (forall k', In k' (keys (map_emplace m k e)) <-> k' = k \/ In k' (keys m)) /\
  (forall k' e', In (k', e') (map_emplace m k e) <-> In (k', e') m \/ (k' = k /\ e' = e /\ ~ In k (keys m))).
Proof.
  intro S. induction S as [|[k0 e0] m S IH F]; cbn [map_emplace].
  - split; [repeat constructor|]. cbn. split; [intuition congruence|]. intros k' e'. split.
    + intros [[= -> ->]|[]]. auto.
    + intros [[]|(-> & -> & _)]. auto.
  - destruct IH as (I1 & I2 & I3). destruct (str_eqb_spec k k0) as [->|N].
    + split; [constructor; auto|]. cbn. split; [intuition congruence|]. intros k' e'. split; auto. intros [|(-> & -> & H)]; auto. tauto.
    + destruct (str_ltb k k0) eqn:L.
      * assert (NI : ~ In k (keys ((k0, e0) :: m))).
        { cbn. intros [E|I]; [congruence|]. unfold keys in I. apply in_map_iff in I as ([k1 e1] & E1 & I). cbn in E1. subst k1.
          rewrite Forall_forall in F. specialize (F _ I). cbn in F.
          pose proof (str_ltb_trans _ _ _ L F) as T. rewrite str_ltb_irrefl in T. discriminate. }
        split.
        { constructor; [constructor; auto|]. constructor; [exact L|]. rewrite Forall_forall in *. intros x I. specialize (F x I). cbn in *.
          eapply str_ltb_trans; eauto. }
        cbn. split; [intuition congruence|]. intros k' e'. split.
        -- intros [[= -> ->]|H]; auto.
        -- intros [H|(-> & -> & _)]; auto.
      * split.
        { constructor; auto. rewrite Forall_forall in *. intros [k1 e1] I. apply I3 in I as [I|(-> & -> & _)]; [apply (F _ I)|]. cbn.
          destruct (str_ltb_total k k0) as [H|[H|H]]; congruence. }
        cbn. split.
        { intro k'. rewrite I2. unfold keys. intuition congruence. }
        intros k' e'. rewrite I3. unfold keys. split.
        -- intros [H|[H|(-> & -> & H)]]; auto. right. repeat split; auto. intros [E|I]; [congruence|auto].
        -- intros [[H|H]|(-> & -> & H)]; auto. right. right. repeat split; auto.
Qed.

Definition emplace_all (m : list (str * Element)) (es : list Element) :=
  fold_left (fun m e => map_emplace m (el_symbol e) e) es m.

Lemma collected_flat l : forall m,
  fold_left (fun m s => fold_left (fun m p => map_emplace m (el_symbol (fst p)) (fst p)) (sp_elements s) m) l m =
  emplace_all m (concat (map (fun s => map fst (sp_elements s)) l)).
Proof.
  induction l as [|s l IH]; intro m; cbn; auto. rewrite IH. unfold emplace_all. rewrite fold_left_app. f_equal.
  generalize (sp_elements s) as ps. clear. intro ps. revert m. induction ps as [|p ps IH]; intro m; cbn; auto.
Qed.

Lemma emplace_all_spec es : forall m, sorted_keys m -> (forall k e, In (k, e) m -> el_symbol e = k) ->
  let r := emplace_all m es in
  sorted_keys r /\ (forall k e, In (k, e) r -> el_symbol e = k) /\
  (forall k, In k (keys r) <-> In k (keys m) \/ In k (map el_symbol es)) /\
  (forall k e, In (k, e) r -> In (k, e) m \/ (~ In k (keys m) /\ First (fun x => el_symbol x = k) es e)).
Proof.
  induction es as [|e es IH]; intros m S K; cbn.
  - repeat split; auto. intros [|[]]; auto.
  - destruct (map_emplace_spec m (el_symbol e) e S) as (S1 & K1 & E1).
    destruct (IH (map_emplace m (el_symbol e) e) S1) as (A & B & C & D).
    { intros k x I. apply E1 in I as [I|(-> & -> & _)]; auto. }
    repeat split; auto.
    + intro I. apply C in I as [I|I]; [|right; right; auto]. apply K1 in I as [->|I]; auto.
    + intros H. apply C. rewrite K1. destruct H as [H|[<-|H]]; auto.
    + intros k x I. apply D in I as [I|(NI & a & b & -> & P & N)].
      * apply E1 in I as [I|(-> & -> & NI)]; auto. right. split; auto. exists [], es. repeat split; auto.
      * right. rewrite K1 in NI. split; [tauto|]. exists (e :: a), b. repeat split; auto. intros y [<-|I]; auto.
Qed.

Lemma sort_in {A} (ltb : A -> A -> bool) l x : In x (sort ltb l) <-> In x l.
Proof. split; apply Permutation_in; [|apply Permutation_sym]; apply sort_perm. Qed.

Lemma sort_by_mass l : StronglySorted (fun a b => (el_mass a <= el_mass b)%Q) (sort (fun a b => Qltb (el_mass a) (el_mass b)) l).
Proof.
  assert (L : forall a b : Element, Qltb (el_mass a) (el_mass b) = true <-> (el_mass a < el_mass b)%Q).
  { intros a b. unfold Qltb. rewrite negb_true_iff, <- not_true_iff_false, Qle_bool_iff. split; [apply Qnot_le_lt|apply Qlt_not_le]. }
  induction l as [|x l IH]; [constructor|].
  change (sort (fun a b => Qltb (el_mass a) (el_mass b)) (x :: l)) with
    (insert (fun a b => Qltb (el_mass a) (el_mass b)) x (sort (fun a b => Qltb (el_mass a) (el_mass b)) l)).
  revert IH. generalize (sort (fun a b => Qltb (el_mass a) (el_mass b)) l) as r. clear l. intros r S.
  induction S as [|y r S IH F]; cbn; [repeat constructor|].
  destruct (Qltb (el_mass x) (el_mass y)) eqn:E.
  - apply L in E. constructor; [constructor; auto|]. constructor; [apply Qlt_le_weak; exact E|].
    rewrite Forall_forall in *. intros z I. eapply Qle_trans; [apply Qlt_le_weak; exact E|apply F; exact I].
  - constructor; auto. rewrite Forall_forall in *. intros z I.
    apply (Permutation_in _ (insert_perm (fun a b => Qltb (el_mass a) (el_mass b)) x r)) in I as [<-|I]; [|apply F; exact I].
    rewrite <- not_true_iff_false, L in E. apply Qnot_lt_le. exact E.
Qed.

Lemma collectElements_spec l :
  NoDup (map el_symbol (collectElements l)) /\
  (forall x, In x (map el_symbol (collectElements l)) <-> exists s, In s l /\ In x (symbols s)) /\
  (forall e, In e (collectElements l) -> First (fun x => el_symbol x = el_symbol e) (concat (map (fun s => map fst (sp_elements s)) l)) e) /\
  StronglySorted (fun a b => (el_mass a <= el_mass b)%Q) (collectElements l).
Proof.
  assert (P := sort_perm (fun a b => Qltb (el_mass a) (el_mass b))
    (map snd (emplace_all [] (concat (map (fun s => map fst (sp_elements s)) l))))).
  pose proof (sort_by_mass (map snd (emplace_all [] (concat (map (fun s => map fst (sp_elements s)) l))))) as SO.
  unfold collectElements. rewrite collected_flat.
  set (es := concat (map (fun s => map fst (sp_elements s)) l)) in *.
  destruct (emplace_all_spec es []) as (S & K & C & D); [constructor|intros k e []|].
  set (m := emplace_all [] es) in *.
  assert (KM : map el_symbol (map snd m) = keys m).
  { unfold keys. clear - K. induction m as [|[k e] m IH]; cbn; auto. f_equal; [apply K; left; auto|]. apply IH. intros; apply K; right; auto. }
  assert (ND : NoDup (keys m)).
  { clear - S. induction S as [|[k e] m S IH F]; cbn; constructor; auto. unfold keys. intro I. apply in_map_iff in I as ([k1 e1] & E & I).
    cbn in E. subst k1. rewrite Forall_forall in F. specialize (F _ I). cbn in F. rewrite str_ltb_irrefl in F. discriminate. }
  repeat split.
  - eapply Permutation_NoDup; [apply Permutation_sym, Permutation_map, P|]. rewrite KM. exact ND.
  - intro I. apply (Permutation_in _ (Permutation_map el_symbol P)) in I. rewrite KM in I. apply C in I as [[]|I].
    apply in_map_iff in I as (e & <- & I). unfold es in I. apply in_concat in I as (y & J & I). apply in_map_iff in J as (s & <- & J).
    exists s. split; auto. unfold symbols. apply in_map_iff in I as (p & <- & I). apply in_map_iff. exists p. auto.
  - intros (s & I & J). apply (Permutation_in _ (Permutation_sym (Permutation_map el_symbol P))). rewrite KM. apply C. right.
    unfold symbols in J. apply in_map_iff in J as (p & <- & J). apply in_map. unfold es. apply in_concat.
    exists (map fst (sp_elements s)). split; [apply in_map_iff; exists s; auto|apply in_map; exact J].
  - intros e I. apply (Permutation_in _ P) in I. apply in_map_iff in I as ([k x] & <- & I). cbn.
    assert (E : el_symbol x = k) by (apply K; exact I). rewrite E. apply D in I as [[]|[_ F]]. exact F.
  - exact SO.
Qed.

Open Scope Q_scope.
Lemma el_coefficient_notin ps x : ~ In x (map (fun p : Element * Q => el_symbol (fst p)) ps) -> el_coefficient ps x = 0.
Proof.
  induction ps as [|[e q] ps IH]; cbn; intro H; auto. destruct (str_eqb_spec (el_symbol e) x); [exfalso; auto|]. apply IH. auto.
Qed.
Lemma el_coefficient_in ps e q : NoDup (map (fun p : Element * Q => el_symbol (fst p)) ps) -> In (e, q) ps ->
  el_coefficient ps (el_symbol e) = q.
Proof.
  induction ps as [|[e0 q0] ps IH]; cbn; intros ND [].
  - injection H as -> ->. rewrite str_eqb_refl. reflexivity.
  - inversion ND; subst. destruct (str_eqb_spec (el_symbol e0) (el_symbol e)) as [E|N]; auto.
    exfalso. apply H2. rewrite E. apply in_map_iff. exists (e, q). auto.
Qed.

Lemma species_mass ps : forall K : list Element,
  NoDup (map (fun p : Element * Q => el_symbol (fst p)) ps) -> NoDup (map el_symbol K) ->
  (forall e q, In (e, q) ps -> In (el_symbol e) (map el_symbol K)) ->
  (forall e q k, In (e, q) ps -> In k K -> el_symbol k = el_symbol e -> el_mass k == el_mass e) ->
  Qsum (map (fun e => el_mass e * el_coefficient ps (el_symbol e)) K) == Qsum (map (fun p => el_mass (fst p) * snd p) ps).
Proof.
  induction ps as [|[e0 q0] ps IH]; intros K ND NK IN MS.
  - cbn [el_coefficient map Qsum]. rewrite (Qsum_ext _ (fun _ => 0)); [apply Qsum_zero|]. intros; ring.
  - cbn [map Qsum fst snd]. inversion ND as [|? ? N0 ND']; subst.
    rewrite <- (IH K) by (auto; intros; eauto using in_cons).
    rewrite (Qsum_ext _ (fun e => (if str_eqb (el_symbol e0) (el_symbol e) then el_mass e * q0 else 0) + el_mass e * el_coefficient ps (el_symbol e))).
    2:{ intros e I. cbn [el_coefficient]. destruct (str_eqb_spec (el_symbol e0) (el_symbol e)) as [E|N]; [|ring].
        rewrite <- E, el_coefficient_notin by exact N0. ring. }
    rewrite Qsum_plus. apply Qplus_comp; [|reflexivity].
    assert (I0 : In (el_symbol e0) (map el_symbol K)) by (apply (IN e0 q0); left; reflexivity).
    assert (M0 : forall k, In k K -> el_symbol k = el_symbol e0 -> el_mass k == el_mass e0) by (intros; eapply MS; eauto; left; reflexivity).
    clear - NK I0 M0. induction K as [|k K IHK]; [destruct I0|]. cbn [map Qsum].
    inversion NK as [|? ? Nk NK']; subst. destruct (str_eqb_spec (el_symbol e0) (el_symbol k)) as [E|N].
    + rewrite (Qsum_ext _ (fun _ => 0)), Qsum_zero, M0; auto; [ring|left; auto|].
      intros x I. destruct (str_eqb_spec (el_symbol e0) (el_symbol x)) as [E'|N']; [|reflexivity].
      exfalso. apply Nk. rewrite <- E, E'. apply in_map. exact I.
    + rewrite IHK; auto; [ring| |].
      * destruct I0 as [I0|I0]; [congruence|exact I0].
      * intros x I. apply M0. right; exact I.
Qed.

Lemma dotQ_map {A} (f : A -> Q) l n : dotQ (map f l) n = Qsum (map (fun p => f (fst p) * snd p) (combine l n)).
Proof.
  unfold dotQ. f_equal. revert n. induction l as [|x l IH]; intros [|y n]; cbn; auto. f_equal. apply IH.
Qed.

Lemma dotQ_map2 {A} (f g : A -> Q) l : dotQ (map f l) (map g l) = Qsum (map (fun x => f x * g x) l).
Proof. unfold dotQ. f_equal. induction l as [|x l IH]; cbn; auto. f_equal. exact IH. Qed.

Lemma mass_conserved l E n :
  (forall s, In s l -> NoDup (symbols s)) -> NoDup (map el_symbol E) ->
  (forall s x, In s l -> In x (symbols s) -> In x (map el_symbol E)) ->
  (forall s e q k, In s l -> In (e, q) (sp_elements s) -> In k E -> el_symbol k = el_symbol e -> el_mass k == el_mass e) ->
  dotQ (map molarMass l) n ==
  dotQ (map el_mass E) (map (fun e => dotQ (map (fun s => el_coefficient (sp_elements s) (el_symbol e)) l) n) E)
  - molarMassElectron * dotQ (map sp_charge l) n.
Proof.
  intros H1 H2 H3 H4. rewrite dotQ_map2, !dotQ_map.
  rewrite (Qsum_ext _ (fun e => Qsum (map (fun p => el_mass e * (el_coefficient (sp_elements (fst p)) (el_symbol e) * snd p)) (combine l n)))).
  2:{ intros e _. rewrite dotQ_map, Qsum_scale. reflexivity. }
  rewrite <- (Qsum_swap (fun p e => el_mass e * (el_coefficient (sp_elements (fst p)) (el_symbol e) * snd p)) (combine l n) E).
  rewrite <- Qsum_scale.
  rewrite (Qsum_ext (fun p => molarMass (fst p) * snd p)
    (fun p => Qsum (map (fun e => el_mass e * (el_coefficient (sp_elements (fst p)) (el_symbol e) * snd p)) E)
            + (-1) * (molarMassElectron * (sp_charge (fst p) * snd p)))).
  - rewrite Qsum_plus, Qsum_scale. ring.
  - intros [s q] I. apply in_combine_l in I. cbn [fst snd].
    rewrite (Qsum_ext _ (fun e => q * (el_mass e * el_coefficient (sp_elements s) (el_symbol e)))) by (intros; ring).
    rewrite Qsum_scale, species_mass.
    + unfold molarMass. rewrite elements_mass_sum. ring.
    + apply (H1 s I).
    + exact H2.
    + intros e r J. apply (H3 s _ I). unfold symbols. apply in_map_iff. exists (e, r). auto.
    + intros e r k J. apply (H4 s e r k I J).
Qed.
Close Scope Q_scope.

(* ---- renaming ---- *)
Lemma rename_names {A} (nm : A -> str) (set : A -> str -> A) l names :
  Forall2 (fun x n => nm x = n \/ nm (set x n) = n) l names -> map nm (rename nm set l names) = names.
Proof.
  induction 1 as [|x n l names H F IH]; cbn; auto. rewrite IH. f_equal.
  destruct (str_eqb_spec (nm x) n) as [E|N]; auto. destruct H; congruence.
Qed.
Lemma rename_same {A} (nm : A -> str) (set : A -> str -> A) l : rename nm set l (map nm l) = l.
Proof. induction l as [|x l IH]; cbn; auto. rewrite str_eqb_refl, IH. reflexivity. Qed.
Lemma rename_proj {A B} (f : A -> B) (nm : A -> str) (set : A -> str -> A) l : (forall x n, f (set x n) = f x) ->
  forall names, map f (rename nm set l names) = map f l.
Proof.
  intro H. induction l as [|x l IH]; intros [|n names]; cbn; auto. rewrite IH. f_equal. destruct (str_eqb (nm x) n); auto.
Qed.

Lemma fixSpecies_names l : map name (fixDuplicateSpeciesNames l) = makeunique (map name l) $"!".
Proof.
  unfold fixDuplicateSpeciesNames. apply rename_names.
  destruct (makeunique_partial (map name l) $"!") as (_ & F & _).
  revert F. generalize (makeunique (map name l) $"!") as us. induction l as [|s l IH]; cbn; intros us F; inversion F; subst; constructor; auto.
  destruct H1 as (k & ->). destruct k as [|k]; [left; cbn; rewrite app_nil_r; reflexivity|].
  right. apply name_with_name. cbn [copies]. intro E. apply app_eq_nil in E as [_ E]. apply app_eq_nil in E as [_ E]. discriminate.
Qed.
Lemma fixPhase_names l : map ph_name (fixDuplicatePhaseNames l) = makeunique (map ph_name l) $"!".
Proof.
  unfold fixDuplicatePhaseNames. apply rename_names.
  destruct (makeunique_partial (map ph_name l) $"!") as (_ & F & _).
  revert F. generalize (makeunique (map ph_name l) $"!") as us. induction l as [|s l IH]; cbn; intros us F; inversion F; subst; constructor; auto.
Qed.

(* ---- building phases ---- *)
Lemma all_state_spec a l : (all_state a l = Ok tt <-> forall s, In s l -> aggregateState s = Ok a).
Proof.
  induction l as [|s l IH]; cbn; [split; auto; intros _ s []|].
  destruct (aggregateState s) as [b| |] eqn:E; cbn.
  - destruct (state_eqb b a) eqn:B.
    + apply state_eqb_eq in B. subst b. rewrite IH. split; [intros H x [<-|I]; auto|intros H x I; apply H; auto].
    + split; [discriminate|]. intro H. specialize (H s (or_introl eq_refl)). rewrite E in H. injection H as ->.
      rewrite (proj2 (state_eqb_eq a a) eq_refl) in B. discriminate.
  - split; [discriminate|]. intro H. specialize (H s (or_introl eq_refl)). congruence.
  - split; [discriminate|]. intro H. specialize (H s (or_introl eq_refl)). congruence.
Qed.

Lemma all_state_noUB a l : (forall s, In s l -> aggregateState s <> UB) -> all_state a l <> UB.
Proof.
  induction l as [|s l IH]; intro H; cbn; [discriminate|].
  pose proof (H s (or_introl eq_refl)). destruct (aggregateState s); cbn; try congruence.
  destruct (state_eqb _ _); [apply IH; intros; apply H; right; auto|discriminate].
Qed.

Lemma withSpecies_spec p l : l <> [] -> (forall s, In s l -> aggregateState s <> UB) ->
  (exists a, (forall s, In s l -> aggregateState s = Ok a) /\ withSpecies p l = Ok (mkPhase (ph_name p) l)) \/
  ((~ exists a, forall s, In s l -> aggregateState s = Ok a) /\ withSpecies p l = Err).
Proof.
  intros Hl H. destruct l as [|s0 l]; [contradiction|]. unfold withSpecies, ensureCommonAggregateState.
  pose proof (H s0 (or_introl eq_refl)) as H0. destruct (aggregateState s0) as [a| |] eqn:E; try congruence; cbn [bind].
  - pose proof (all_state_spec a (s0 :: l)) as A. pose proof (all_state_noUB a (s0 :: l) H) as U.
    destruct (all_state a (s0 :: l)) as [[]| |] eqn:F; try congruence; cbn [bind].
    + left. exists a. split; auto. apply A. reflexivity.
    + right. split; auto. intros (b & B). destruct A as [_ A]. discriminate A. intros s I.
      rewrite (B s I). f_equal. specialize (B s0 (or_introl eq_refl)). congruence.
  - right. split; auto. intros (b & B). specialize (B s0 (or_introl eq_refl)). congruence.
Qed.

Lemma First_In {A} (P : A -> Prop) l s : First P l s -> In s l /\ P s.
Proof. intros (a & b & -> & Ps & _). split; auto. apply in_elt. Qed.

Lemma select_incl db gp els l : inv db -> select_species gp db els = Ok l ->
  gp_state gp <> Undefined /\ forall s, In s l -> In s (db_species db) /\ aggregateState s = Ok (gp_state gp).
Proof.
  intros (_ & _ & _ & _ & _ & _ & G) H. unfold select_species in H. destruct (gp_state gp) eqn:E; try discriminate;
  (split; [congruence|]; rewrite <- E in *; clear E; intros s I;
   assert (J : In s (speciesWithAggregateState db (gp_state gp)));
   [|unfold speciesWithAggregateState in J; rewrite G in J; apply filter_In in J as [J K]; apply in_state_spec in K; auto]).
  all: revert H; set (g := speciesWithAggregateState db (gp_state gp)).
  all: assert (W : forall r, (match gp_exclude gp with [] => r | tags => withoutTags r tags end) = withoutTags r (gp_exclude gp))
       by (intro r; destruct (gp_exclude gp); reflexivity).
  all: assert (X : forall r, In s (withoutTags r (gp_exclude gp)) -> In s r)
       by (intros r; unfold withoutTags; destruct (gp_exclude gp); auto; rewrite filter_eq, filter_In; tauto).
  all: assert (Y : forall r, In s (withElements g r) -> In s g) by (intro r; unfold withElements; rewrite filter_eq, filter_In; tauto).
  all: destruct (gp_names gp) as [|n ns] eqn:N; [destruct (gp_symbols gp); cbn [omap bind]; intros [= <-]; rewrite W in I; eauto|].
  all: destruct (withNames g (n :: ns)) as [r| |] eqn:R; cbn [omap bind]; try discriminate; intros [= <-]; rewrite W in I; apply X in I.
  all: apply (withNames_spec g (n :: ns)) in R; clear - R I; induction R; [destruct I|].
  all: destruct I as [<-|I]; [apply First_In in H; tauto|auto].
Qed.

Lemma select_noUB gp db els : select_species gp db els <> UB.
Proof.
  unfold select_species. pose proof (fun a => proj2 (proj2 (withNames_spec (speciesWithAggregateState db a) (gp_names gp)))) as U.
  destruct (gp_names gp) as [|n ns]; [destruct (gp_state gp), (gp_symbols gp); cbn [omap bind]; discriminate|].
  destruct (gp_state gp); try discriminate;
  match goal with |- context [speciesWithAggregateState db ?a] => specialize (U a);
    destruct (withNames (speciesWithAggregateState db a) (n :: ns)); cbn [omap bind]; try discriminate; congruence end.
Qed.

Lemma convertPhase_spec db gp els : inv db ->
  (select_species gp db els = Err /\ convertPhase db els gp = Err) \/
  (select_species gp db els = Ok [] /\ convertPhase db els gp = UB) \/
  (exists l, l <> [] /\ select_species gp db els = Ok l /\ convertPhase db els gp = Ok (mkPhase (gp_name gp) l) /\
     forall s, In s l -> aggregateState s = Ok (gp_state gp)).
Proof.
  intro I. unfold convertPhase. pose proof (select_noUB gp db els) as U.
  destruct (select_species gp db els) as [l| |] eqn:E; cbn [bind]; try congruence; auto.
  destruct (select_incl _ _ _ _ I E) as [_ H]. destruct l as [|s l]; [right; left; auto|].
  right; right. exists (s :: l). split; [discriminate|]. split; auto.
  assert (H' : forall x, In x (s :: l) -> aggregateState x = Ok (gp_state gp)) by (intros x J; apply H; exact J).
  split; auto. destruct (withSpecies_spec (mkPhase (gp_name gp) []) (s :: l)) as [(a & _ & W)|[N _]].
  - discriminate.
  - intros x J. rewrite (H' x J). discriminate.
  - exact W.
  - exfalso. apply N. exists (gp_state gp). exact H'.
Qed.

(* ---- generators ---- *)
Lemma trim_nospace s : (forall c, In c s -> isspace c = false) -> trim s = s.
Proof.
  intro H. apply trim_correct. exists [], []. rewrite app_nil_r. split; [reflexivity|].
  split; [intros c []|]. split; [intros c []|]. split; intros c t E; apply H; rewrite E; [left; reflexivity|].
  apply in_or_app. right; left; reflexivity.
Qed.

Lemma StringList_single s : s <> [] -> (forall c, In c s -> isspace c = false) -> StringList s " "%char = Ok [s].
Proof.
  intros N H. destruct (StringList_lossless s " "%char) as (ws & -> & E & Z). rewrite trim_nospace in * by exact H.
  destruct ws as [|w ws]; [exfalso; apply N, Z; reflexivity|]. destruct ws as [|w' ws].
  - cbn in E. rewrite ?app_nil_r in E. subst. reflexivity.
  - exfalso. enough (isspace " "%char = false) by (vm_compute in H0; discriminate). apply H. rewrite <- E. cbn.
    apply in_or_app. right. left. reflexivity.
Qed.

Lemma NoDup_names_eq l (s t : Species) : NoDup (map name l) -> In s l -> In t l -> name s = name t -> s = t.
Proof.
  induction l as [|x l IH]; cbn; [tauto|]. intros ND I J E. inversion ND as [|? ? N ND']; subst. destruct I as [->|I], J as [->|J]; auto.
  - exfalso. apply N. rewrite E. apply in_map. exact J.
  - exfalso. apply N. rewrite <- E. apply in_map. exact I.
Qed.

Lemma First_unique_name l s : NoDup (map name l) -> In s l -> First (fun x => name x = name s) l s.
Proof.
  intros ND I. apply in_split in I as (a & b & ->). exists a, b. repeat split; auto.
  intros y I E. rewrite map_app in ND. cbn in ND. apply NoDup_remove_2 in ND. apply ND. apply in_or_app. left.
  rewrite <- E. apply in_map. exact I.
Qed.

Lemma NoDup_filter_names p l : NoDup (map name l) -> NoDup (map name (List.filter p l)).
Proof.
  induction l as [|x l IH]; cbn; intro ND; [constructor|]. inversion ND; subst. destruct (p x); cbn; auto. constructor; auto.
  intro I. apply H1. apply in_map_iff in I as (y & E & I). apply filter_In in I as [I _]. rewrite <- E. apply in_map. exact I.
Qed.

Lemma group_NoDup db a : inv db -> NoDup (map name (speciesWithAggregateState db a)).
Proof. intros (_ & B & _ & _ & _ & _ & G). unfold speciesWithAggregateState. rewrite G. apply NoDup_filter_names. exact B. Qed.
Lemma group_in db a s : inv db -> (In s (speciesWithAggregateState db a) <-> In s (db_species db) /\ aggregateState s = Ok a).
Proof.
  intros (_ & _ & _ & _ & _ & _ & G). unfold speciesWithAggregateState. rewrite G, filter_In, in_state_spec. reflexivity.
Qed.

Lemma convertPhase_single db els n a s : inv db -> In s (db_species db) -> aggregateState s = Ok a -> a <> Undefined ->
  convertPhase db els (mkGP n a [name s] [] []) = Ok (mkPhase n [s]).
Proof.
  intros I J A U. unfold convertPhase, select_species. cbn [gp_state gp_names gp_symbols gp_exclude gp_name].
  assert (W : withNames (speciesWithAggregateState db a) [name s] = Ok [s]).
  { apply withNames_spec. constructor; [|constructor]. apply First_unique_name; [apply group_NoDup; exact I|]. apply group_in; auto. }
  destruct a; try congruence; rewrite W; cbn [omap bind withSpecies ensureCommonAggregateState all_state ph_name];
  unfold withSpecies, ensureCommonAggregateState; rewrite A; cbn [bind all_state]; rewrite A; cbn [bind];
  rewrite (proj2 (state_eqb_eq _ _) eq_refl); reflexivity.
Qed.

Lemma convertGenerator_spec db els g l : inv db -> select_species g db els = Ok l ->
  (forall s, In s l -> name s <> [] /\ forall c, In c (name s) -> isspace c = false) ->
  exists gps, convertGenerator db els g = Ok gps /\
    Forall2 (fun s gp => gp_name gp = name s /\ forall els', convertPhase db els' gp = Ok (mkPhase (name s) [s])) l gps.
Proof.
  intros I E H. exists (map (fun s => mkGP (name s) (gp_state g) [name s] [] []) l).
  destruct (select_incl _ _ _ _ I E) as [U K]. unfold convertGenerator. rewrite E. cbn [bind]. split.
  - apply mapM_Forall2. clear E K. induction l as [|s l IH]; constructor.
    + destruct (H s (or_introl eq_refl)) as [N S]. rewrite StringList_single by auto. reflexivity.
    + apply IH. intros; apply H; right; auto.
  - clear E H. induction l as [|s l IH]; constructor.
    + split; [reflexivity|]. intro els'. destruct (K s (or_introl eq_refl)). apply convertPhase_single; auto.
    + apply IH. intros; apply K; right; auto.
Qed.

(* ---- Phases::convert ---- *)
Definition sorted_str := StronglySorted (fun x y => str_ltb x y = true).

Lemma phase_symbols_spec db gp r : NoDup (map name (db_species db)) -> phase_symbols db gp = Ok r ->
  forall x, In x r <-> In x (gp_symbols gp) \/ exists s, In s (db_species db) /\ In (name s) (gp_names gp) /\ In x (symbols s).
Proof.
  intros ND H x. unfold phase_symbols in H.
  set (r1 := match gp_symbols gp with [] => [] | _ => _ end) in H.
  assert (R1 : In x r1 <-> In x (gp_symbols gp)).
  { unfold r1. destruct (gp_symbols gp) as [|y ys]; [reflexivity|]. rewrite merge_str_in. cbn. tauto. }
  destruct (gp_names gp) as [|n ns] eqn:N.
  - injection H as <-. rewrite R1. split; auto. intros [|(s & _ & [] & _)]; auto.
  - destruct (withNames (db_species db) (n :: ns)) as [l| |] eqn:W; cbn [omap bind] in H; try discriminate. injection H as <-.
    apply withNames_spec in W.
    assert (F : forall l acc, In x (fold_left (fun r s => merge_str r (symbols s)) l acc) <-> In x acc \/ exists s, In s l /\ In x (symbols s)).
    { clear. induction l as [|s l IH]; intro acc; cbn.
      - split; auto. intros [|(s & [] & _)]; auto.
      - rewrite IH, merge_str_in. split.
        + intros [[I|I]|(t & I & J)]; auto; right; [exists s|exists t]; auto.
        + intros [I|(t & [<-|I] & J)]; auto. right. exists t. auto. }
    rewrite F, R1. split; intros [I|(s & I & J)]; auto; right.
    + exists s. enough (K : In s (db_species db) /\ In (name s) (n :: ns)) by tauto. clear - W I.
      induction W as [|m t ms l F W IH]; [destruct I|]. destruct I as [<-|I].
      * apply First_In in F as [F1 F2]. split; auto. left. auto.
      * destruct (IH I). split; auto. right. auto.
    + destruct J as [J K]. exists s. split; auto. clear - W I J ND.
      induction W as [|m t ms l F W IH]; [destruct J|]. destruct J as [->|J]; [|right; auto].
      left. apply First_In in F as [F1 F2]. eapply NoDup_names_eq; eauto.
Qed.

Lemma collect_symbols_spec db gps : forall acc r, collect_symbols db gps acc = Ok r ->
  (forall gp, In gp gps -> is_ok (phase_symbols db gp) = true) /\
  (sorted_str acc -> sorted_str r) /\
  (forall x, In x r <-> In x acc \/ exists gp ps, In gp gps /\ phase_symbols db gp = Ok ps /\ In x ps).
Proof.
  induction gps as [|gp gps IH]; intros acc r; cbn [collect_symbols].
  - intros [= <-]. split; [intros gp []|]. split; auto. intro x. split; auto. intros [|(gp & ps & [] & _)]; auto.
  - destruct (phase_symbols db gp) as [ps| |] eqn:E; cbn [bind]; try discriminate. intro H.
    destruct (IH _ _ H) as (A & B & C). split; [|split].
    + intros g [<-|I]; auto. rewrite E. reflexivity.
    + intros _. apply B. apply merge_str_sorted.
    + intro x. rewrite C, merge_str_in. split.
      * intros [[I|I]|(g & qs & I & J)]; auto; right; [exists gp, ps|exists g, qs]; cbn; tauto.
      * intros [I|(g & qs & [<-|I] & J & K)]; auto; [left; right; congruence|]. right. exists g, qs. auto.
Qed.

Lemma collect_symbols_ok db gps : (forall gp, In gp gps -> is_ok (phase_symbols db gp) = true) ->
  forall acc, exists r, collect_symbols db gps acc = Ok r.
Proof.
  induction gps as [|gp gps IH]; intros H acc; cbn [collect_symbols]; [eauto|].
  pose proof (H gp (or_introl eq_refl)). destruct (phase_symbols db gp); try discriminate. cbn [bind]. apply IH. intros; apply H; right; auto.
Qed.

Lemma collect_two db a b r1 r2 : collect_symbols db a [] = Ok r1 -> collect_symbols db b r1 = Ok r2 ->
  (forall gp, In gp (a ++ b) -> is_ok (phase_symbols db gp) = true) /\ sorted_str r2 /\
  (forall x, In x r2 <-> exists gp ps, In gp (a ++ b) /\ phase_symbols db gp = Ok ps /\ In x ps).
Proof.
  intros H1 H2. destruct (collect_symbols_spec _ _ _ _ H1) as (A & B & C). destruct (collect_symbols_spec _ _ _ _ H2) as (A' & B' & C').
  split; [|split].
  - intros gp I. apply in_app_or in I as [I|I]; auto.
  - apply B', B. constructor.
  - intro x. rewrite C', C. split.
    + intros [[[]|(g & ps & I & J)]|(g & ps & I & J)]; exists g, ps; (split; [apply in_or_app; auto|exact J]).
    + intros (g & ps & I & J). apply in_app_or in I as [I|I]; [left; right|right]; exists g, ps; auto.
Qed.

Lemma mapM_perm {A B} (f : A -> outcome B) l l' : Permutation l l' -> forall r, mapM f l = Ok r ->
  exists r', mapM f l' = Ok r' /\ Permutation r r'.
Proof.
  induction 1 as [|x l l' P IH|x y l|l1 l2 l3 P1 IH1 P2 IH2]; intros r E; cbn in *.
  - exists r. split; auto.
  - destruct (f x); cbn in *; try discriminate. destruct (mapM f l) as [s| |]; cbn in *; try discriminate.
    injection E as <-. destruct (IH s eq_refl) as (s' & -> & P'). cbn. exists (a :: s'). auto.
  - destruct (f x), (f y); cbn in *; try discriminate; destruct (mapM f l) as [s| |]; cbn in *; try discriminate.
    injection E as <-. exists (a :: a0 :: s). split; auto. constructor.
  - destruct (IH1 r E) as (r2 & E2 & Q2). destruct (IH2 r2 E2) as (r3 & E3 & Q3). exists r3. split; auto. eapply Permutation_trans; eauto.
Qed.

Definition conv db syms gp : outcome (list Species) := omap ph_species (convertPhase db syms gp).

Lemma conv_name db syms gp n :
  convertPhase db syms (mkGP n (gp_state gp) (gp_names gp) (gp_symbols gp) (gp_exclude gp)) =
  omap (fun l => mkPhase n l) (conv db syms gp).
Proof.
  unfold conv, convertPhase. change (select_species (mkGP n _ _ _ _) db syms) with (select_species gp db syms).
  destruct (select_species gp db syms) as [l| |]; cbn [omap bind gp_name]; auto. unfold withSpecies.
  destruct (ensureCommonAggregateState l); reflexivity.
Qed.

Lemma mapM_named db syms all : forall names, length names = length all ->
  forall phases, mapM (convertPhase db syms) (set_names all names) = Ok phases <->
    mapM (conv db syms) all = Ok (map ph_species phases) /\ map ph_name phases = names.
Proof.
  induction all as [|gp all IH]; intros [|n names] L phases; try discriminate; cbn [set_names mapM].
  - split.
    + intros [= <-]. auto.
    + intros [H1 H2]. destruct phases; [reflexivity|discriminate].
  - rewrite conv_name. destruct (conv db syms gp) as [l| |]; cbn [omap bind]; try (split; [discriminate|intros []; discriminate]).
    injection L as L. specialize (IH names L).
    destruct (mapM (convertPhase db syms) (set_names all names)) as [ps| |] eqn:E; cbn [bind].
    + destruct (proj1 (IH ps) eq_refl) as [E1 E2]. rewrite E1. cbn [bind]. split.
      * intros [= <-]. cbn. rewrite E2. auto.
      * intros [H1 H2]. destruct phases as [|p phases]; [discriminate|]. cbn in H1, H2. injection H1 as -> H1. injection H2 as <- H2.
        f_equal. f_equal; [destruct p; reflexivity|].
        destruct (IH phases) as [_ IH2]. rewrite E1 in IH2. rewrite H1 in IH2. specialize (IH2 (conj eq_refl H2)). congruence.
    + split; [discriminate|]. intros [H1 H2]. destruct phases as [|p phases]; [discriminate|].
      destruct (mapM (conv db syms) all) as [rs| |] eqn:R; cbn [bind] in H1; try discriminate. cbn in H1, H2.
      destruct (IH phases) as [_ IH2]. discriminate IH2. split; congruence.
    + split; [discriminate|]. intros [H1 H2]. destruct phases as [|p phases]; [discriminate|].
      destruct (mapM (conv db syms) all) as [rs| |] eqn:R; cbn [bind] in H1; try discriminate. cbn in H1, H2.
      destruct (IH phases) as [_ IH2]. discriminate IH2. split; congruence.
Qed.

Lemma convertPhases_ok db gps gens phases : convertPhases db gps gens = Ok phases <->
  exists s1 syms generated, collect_symbols db gps [] = Ok s1 /\ collect_symbols db gens s1 = Ok syms /\
    mapM (convertGenerator db syms) gens = Ok generated /\
    mapM (conv db syms) (gps ++ concat generated) = Ok (map ph_species phases) /\
    map ph_name phases = makeunique (map gp_name (gps ++ concat generated)) $"!".
Proof.
  unfold convertPhases. split.
  - destruct (collect_symbols db gps []) as [s1| |] eqn:E1; cbn [bind]; try discriminate.
    destruct (collect_symbols db gens s1) as [syms| |] eqn:E2; cbn [bind]; try discriminate.
    destruct (mapM (convertGenerator db syms) gens) as [generated| |] eqn:E3; cbn [bind]; try discriminate.
    intro H. apply mapM_named in H; [|rewrite makeunique_length, map_length; reflexivity]. exists s1, syms, generated. tauto.
  - intros (s1 & syms & generated & E1 & E2 & E3 & H1 & H2). rewrite E1. cbn [bind]. rewrite E2. cbn [bind]. rewrite E3. cbn [bind].
    apply mapM_named; [rewrite makeunique_length, map_length; reflexivity|auto].
Qed.

Lemma Permutation_concat {A} (l l' : list (list A)) : Permutation l l' -> Permutation (concat l) (concat l').
Proof.
  induction 1; cbn; auto.
  - apply Permutation_app_head. assumption.
  - rewrite !app_assoc. apply Permutation_app_tail, Permutation_app_comm.
  - eapply Permutation_trans; eauto.
Qed.

Lemma makephases (names : list str) (ls : list (list Species)) : length names = length ls ->
  exists phases, map ph_species phases = ls /\ map ph_name phases = names.
Proof.
  revert ls. induction names as [|n names IH]; intros [|l ls] L; try discriminate; [exists []; auto|].
  injection L as L. destruct (IH ls L) as (ps & <- & <-). exists (mkPhase n l :: ps). auto.
Qed.

Lemma mapM_length {A B} (f : A -> outcome B) l r : mapM f l = Ok r -> length r = length l.
Proof. intro H. apply mapM_Forall2 in H. induction H; cbn; auto. Qed.

Lemma convertPhases_perm db gps gens gps' gens' phases : Permutation gps gps' -> Permutation gens gens' ->
  convertPhases db gps gens = Ok phases ->
  exists phases', convertPhases db gps' gens' = Ok phases' /\ Permutation (map ph_species phases) (map ph_species phases').
Proof.
  intros P1 P2 H. apply convertPhases_ok in H as (s1 & syms & generated & E1 & E2 & E3 & E4 & E5).
  destruct (collect_two _ _ _ _ _ E1 E2) as (A & S & C).
  assert (PA : Permutation (gps ++ gens) (gps' ++ gens')) by (apply Permutation_app; auto).
  assert (A' : forall gp, In gp (gps' ++ gens') -> is_ok (phase_symbols db gp) = true).
  { intros gp I. apply A. eapply Permutation_in; [apply Permutation_sym|]; eauto. }
  destruct (collect_symbols_ok db gps' (fun gp I => A' gp (in_or_app _ _ _ (or_introl I))) []) as (s1' & E1').
  destruct (collect_symbols_ok db gens' (fun gp I => A' gp (in_or_app _ _ _ (or_intror I))) s1') as (syms' & E2').
  destruct (collect_two _ _ _ _ _ E1' E2') as (_ & S' & C').
  assert (ES : syms' = syms).
  { apply sorted_same_eq; auto. intro x. rewrite C, C'. split; intros (g & ps & I & J); exists g, ps; (split; [|exact J]).
    - eapply Permutation_in; [apply Permutation_sym|]; eauto.
    - eapply Permutation_in; eauto. }
  subst syms'.
  destruct (mapM_perm _ _ _ P2 _ E3) as (generated' & E3' & PG).
  assert (PAll : Permutation (gps ++ concat generated) (gps' ++ concat generated')).
  { apply Permutation_app; auto. apply Permutation_concat; auto. }
  destruct (mapM_perm _ _ _ PAll _ E4) as (r' & E4' & PR).
  destruct (makephases (makeunique (map gp_name (gps' ++ concat generated')) $"!") r') as (phases' & <- & N').
  { rewrite makeunique_length, map_length. rewrite (mapM_length _ _ _ E4'). reflexivity. }
  exists phases'. split; [|exact PR]. apply convertPhases_ok. exists s1', syms, generated'. auto.
Qed.

Definition mentioned (db : Database) (gps : list GenericPhase) (x : str) : Prop :=
  exists gp, In gp gps /\ (In x (gp_symbols gp) \/ exists s, In s (db_species db) /\ In (name s) (gp_names gp) /\ In x (symbols s)).

Lemma convertPhases_symbols db gps gens s1 syms : inv db -> collect_symbols db gps [] = Ok s1 -> collect_symbols db gens s1 = Ok syms ->
  forall x, In x syms <-> mentioned db (gps ++ gens) x.
Proof.
  intros I E1 E2 x. destruct (collect_two _ _ _ _ _ E1 E2) as (A & _ & C). rewrite C. destruct I as (_ & ND & _).
  split.
  - intros (g & ps & J & E & K). exists g. split; auto. apply (phase_symbols_spec _ _ _ ND E). exact K.
  - intros (g & J & K). specialize (A g J). destruct (phase_symbols db g) as [ps| |] eqn:E; try discriminate.
    exists g, ps. repeat split; auto. apply (phase_symbols_spec _ _ _ ND E). exact K.
Qed.

Lemma Selected_and {A} (P Q : A -> Prop) l m r : Selected P l m -> Selected Q m r -> Selected (fun x => P x /\ Q x) l r.
Proof.
  intro H. revert r. induction H; intros r' H2; [inversion H2; constructor| |].
  - inversion H2; subst; constructor; auto. tauto.
  - constructor; auto. tauto.
Qed.

Lemma group_Selected db a : inv db -> Selected (fun s => aggregateState s = Ok a) (db_species db) (speciesWithAggregateState db a).
Proof.
  intros (_ & _ & _ & _ & _ & _ & G). unfold speciesWithAggregateState. rewrite G. apply Selected_filter. intros x _. apply in_state_spec.
Qed.

Lemma convertPhases_speciation db gps gens phases i gp : inv db -> convertPhases db gps gens = Ok phases ->
  nth_error gps i = Some gp -> gp_names gp = [] -> gp_symbols gp = [] -> gp_exclude gp = [] ->
  exists ph, nth_error phases i = Some ph /\
    Selected (fun s => aggregateState s = Ok (gp_state gp) /\
      forall e q, In (e, q) (sp_elements s) -> mentioned db (gps ++ gens) (el_symbol e)) (db_species db) (ph_species ph).
Proof.
  intros I H N G1 G2 G3. apply convertPhases_ok in H as (s1 & syms & generated & E1 & E2 & E3 & E4 & E5).
  pose proof (convertPhases_symbols _ _ _ _ _ I E1 E2) as M.
  apply mapM_Forall2 in E4.
  assert (K : exists l, nth_error (map ph_species phases) i = Some l /\ conv db syms gp = Ok l).
  { clear - E4 N. assert (N' : nth_error (gps ++ concat generated) i = Some gp).
    { rewrite nth_error_app1; auto. apply nth_error_Some. congruence. }
    clear N. revert i N'. induction E4 as [|g l gs ls C F IH]; intros [|i] N; cbn in *; try discriminate.
    - injection N as ->. eauto.
    - apply IH. exact N. }
  destruct K as (l & K & C). rewrite nth_error_map in K. destruct (nth_error phases i) as [ph|] eqn:P; [|discriminate].
  injection K as <-. exists ph. split; auto.
  unfold conv in C. destruct (convertPhase_spec db gp syms I) as [[_ F]|[[_ F]|(r & _ & F1 & F2 & _)]]; [rewrite F in C; discriminate| |].
  { rewrite F in C; discriminate. }
  rewrite F2 in C. injection C as C. rewrite <- C. clear - F1 G1 G2 G3 M I.
  unfold select_species in F1. rewrite G1, G2, G3 in F1.
  assert (W : withElements (speciesWithAggregateState db (gp_state gp)) syms = r) by (destruct (gp_state gp); cbn [omap bind] in F1; congruence).
  subst r. eapply Selected_and; [apply group_Selected; exact I|].
  pose proof (withElements_spec (speciesWithAggregateState db (gp_state gp)) syms) as S.
  revert S. generalize (withElements (speciesWithAggregateState db (gp_state gp)) syms) as r.
  generalize (speciesWithAggregateState db (gp_state gp)) as l. clear - M. intros l r S.
  induction S; constructor; auto.
  - intros e q J. apply M. eauto.
  - intro K. apply H. intros e q J. apply M. eauto.
Qed.

(* ---- aggregate states from names ---- *)
Lemma first_state_unique table : forall words w a, NoDup (map fst table) -> In (w, a) table -> In w words ->
  (forall w' a', In (w', a') table -> In w' words -> w' = w) -> first_state table words = Some a.
Proof.
  induction table as [|[w0 a0] t IH]; intros words w a ND I J U; [destruct I|]. cbn [first_state].
  inversion ND as [|? ? N0 ND']; subst. destruct (contains str_eqb words w0) eqn:C.
  - apply contains_str in C. destruct I as [[= -> ->]|I]; auto.
    exfalso. apply N0. rewrite (U w0 a0 (or_introl eq_refl) C). apply in_map_iff. exists (w, a). auto.
  - destruct I as [[= -> ->]|I].
    + apply contains_str in J. congruence.
    + eapply IH; eauto. intros; eapply U; eauto. right; eauto.
Qed.
Lemma first_state_none table words : (forall w a, In (w, a) table -> ~ In w words) -> first_state table words = None.
Proof.
  induction table as [|[w0 a0] t IH]; intro H; cbn; auto. destruct (contains str_eqb words w0) eqn:C.
  - apply contains_str in C. exfalso. eapply H; eauto. left; reflexivity.
  - apply IH. intros. eapply H; right; eauto.
Qed.
Lemma state_symbols_NoDup : NoDup (map fst state_symbols).
Proof. repeat (constructor; [cbn; intuition discriminate|]). constructor. Qed.
