From Coq Require Import ZifyBool ZifyNat ZifyN Qpower Qfield Permutation Qabs.
From Verif Require Import Base M_Strings M_Formula M_Chem S_Formula S_Strings S_Chem P_Strings P_Formula.
Local Open Scope nat_scope.

Lemma pair_eqb_spec a b : pair_eqb a b = true <-> fst a = fst b /\ (snd a == snd b)%Q.
Proof.
  unfold pair_eqb. rewrite andb_true_iff, str_eqb_eq, Qeq_bool_iff. reflexivity.
Qed.

Lemma contained_spec a b : contained pair_eqb a b = true <->
  forall e q, In (e, q) a -> assigns b e q.
Proof.
  unfold contained. rewrite forallb_forall. split.
  - intros H e q Hi. specialize (H _ Hi). apply existsb_exists in H as ([e' q'] & Hy & E).
    apply pair_eqb_spec in E as [E1 E2]. cbn in *. subst e'. exists q'. auto.
  - intros H [e q] Hi. destruct (H _ _ Hi) as (q' & Hq & E). apply existsb_exists. exists (e, q'). split; auto.
    apply pair_eqb_spec. auto.
Qed.

Lemma in_keys (e : str) (l : list (str * Q)) : In e (map fst l) <-> exists q, In (e, q) l.
Proof.
  rewrite in_map_iff. split.
  - intros ([e' q] & E & H). cbn in E; subst. eauto. - intros [q H]. exists (e, q). auto.
Qed.

Lemma keys_fun l e q q' : listed_once l -> In (e, q) l -> In (e, q') l -> q = q'.
Proof.
  unfold listed_once. induction l as [|[x p] l IH]; cbn [map fst]; intros Hn H1 H2; [destruct H1|].
  inversion Hn as [|? ? Hx Hl]; subst.
  destruct H1 as [[= -> ->]|H1], H2 as [[= ->]|H2]; auto; exfalso; apply Hx, in_keys; eauto.
Qed.

Lemma contained_back a b : listed_once a -> listed_once b -> length a = length b ->
  (forall e q, In (e, q) a -> assigns b e q) -> forall e q, In (e, q) b -> assigns a e q.
Proof.
  intros Ha Hb Hl H e q Hq.
  assert (incl (map fst a) (map fst b)) as Hi.
  { intros x Hx. apply in_keys in Hx as [p Hp]. destruct (H _ _ Hp) as (p' & Hp' & _). apply in_keys; eauto. }
  assert (incl (map fst b) (map fst a)) as Hj.
  { apply NoDup_length_incl; auto. rewrite !map_length. lia. }
  assert (In e (map fst a)) as He. { apply Hj. apply in_keys; eauto. }
  apply in_keys in He as [p Hp]. destruct (H _ _ Hp) as (p' & Hp' & E).
  rewrite (keys_fun b e q p') in * by auto. exists p. split; auto. symmetry; auto.
Qed.

Lemma contained_length a b : listed_once a -> listed_once b ->
  (forall e q, In (e, q) a -> assigns b e q) -> (forall e q, In (e, q) b -> assigns a e q) -> length a = length b.
Proof.
  intros Ha Hb H1 H2. rewrite <- (map_length fst a), <- (map_length fst b).
  apply Nat.le_antisymm; apply NoDup_incl_length; auto;
    intros x Hx; apply in_keys in Hx as [p Hp].
  - destruct (H1 _ _ Hp) as (p' & Hp' & _). apply in_keys; eauto.
  - destruct (H2 _ _ Hp) as (p' & Hp' & _). apply in_keys; eauto.
Qed.

Definition same_formula (f g : ChemicalFormula) : Prop :=
  (cf_charge f == cf_charge g)%Q /\
  forall e q, assigns (cf_elements f) e q <-> assigns (cf_elements g) e q.

Lemma equivalent_spec f g : listed_once (cf_elements f) -> listed_once (cf_elements g) ->
  (equivalent f g = true <->
    (cf_charge f == cf_charge g)%Q /\ forall e q, assigns (cf_elements f) e q <-> assigns (cf_elements g) e q).
Proof.
  intros Hf Hg. unfold equivalent. rewrite !andb_true_iff, contained_spec, Nat.eqb_eq, Qeq_bool_iff.
  split.
  - intros [[Hl H] Hc]. split; auto. intros e q. split.
    + intros (q' & Hq & E). destruct (H _ _ Hq) as (p & Hp & Ep). exists p. split; auto. rewrite Ep. auto.
    + intros (q' & Hq & E). destruct (contained_back _ _ Hf Hg Hl H _ _ Hq) as (p & Hp & Ep). exists p. split; auto. rewrite Ep; auto.
  - intros [Hc H]. assert (H1 : forall e q, In (e, q) (cf_elements f) -> assigns (cf_elements g) e q).
    { intros e q Hq. apply H. exists q. split; auto. reflexivity. }
    assert (H2 : forall e q, In (e, q) (cf_elements g) -> assigns (cf_elements f) e q).
    { intros e q Hq. apply H. exists q. split; auto. reflexivity. }
    repeat split; auto. apply contained_length; auto.
Qed.

Lemma coefficient_in l e q : listed_once l -> In (e, q) l -> coefficient l e = q.
Proof.
  unfold listed_once. induction l as [|[x p] l IH]; cbn [map fst coefficient]; intros Hn H1; [destruct H1|].
  inversion Hn as [|? ? Hx Hl]; subst. destruct H1 as [[= -> ->]|H1].
  - rewrite str_eqb_refl. reflexivity.
  - destruct (str_eqb_spec x e) as [->|]; auto. exfalso. apply Hx, in_keys; eauto.
Qed.

Lemma coefficient_notin l e : ~ In e (map fst l) -> coefficient l e = 0%Q.
Proof.
  induction l as [|[x p] l IH]; cbn; auto. intros H. destruct (str_eqb_spec x e); [tauto|]. apply IH. tauto.
Qed.

Definition nonzero (l : list (str * Q)) : Prop := forall e q, In (e, q) l -> ~ (q == 0)%Q.

Lemma assigns_coefficient l e q : listed_once l -> nonzero l -> ~ (q == 0)%Q ->
  (assigns l e q <-> (coefficient l e == q)%Q).
Proof.
  intros Hl Hz Hq. split.
  - intros (q' & Hi & E). rewrite (coefficient_in _ _ _ Hl Hi). assumption.
  - intros E. destruct (in_dec str_eq_dec e (map fst l)) as [Hi|Hi].
    + apply in_keys in Hi as [p Hp]. exists p. split; auto. rewrite (coefficient_in _ _ _ Hl Hp) in E. assumption.
    + rewrite coefficient_notin in E by assumption. symmetry in E. tauto.
Qed.

Lemma equivalent_coefficient f g : listed_once (cf_elements f) -> listed_once (cf_elements g) ->
  nonzero (cf_elements f) -> nonzero (cf_elements g) ->
  (equivalent f g = true <->
    (cf_charge f == cf_charge g)%Q /\ forall e, (coefficient (cf_elements f) e == coefficient (cf_elements g) e)%Q).
Proof.
  intros Hf Hg Zf Zg. rewrite equivalent_spec by assumption.
  split; intros [Hc H]; split; auto.
  - intros e. destruct (Qeq_dec (coefficient (cf_elements f) e) 0) as [E|E].
    + destruct (Qeq_dec (coefficient (cf_elements g) e) 0) as [E'|E']; [rewrite E, E'; reflexivity|].
      assert (assigns (cf_elements f) e (coefficient (cf_elements g) e)) as A.
      { apply H. apply assigns_coefficient; auto. reflexivity. }
      apply assigns_coefficient in A; auto.
    + assert (assigns (cf_elements g) e (coefficient (cf_elements f) e)) as A.
      { apply H. apply assigns_coefficient; auto. reflexivity. }
      apply assigns_coefficient in A; auto. symmetry; auto.
  - intros e q. destruct (Qeq_dec q 0) as [E|E].
    + split; intros (q' & Hi & E'); exfalso; rewrite E in E'; [apply (Zf e q')|apply (Zg e q')]; auto.
    + rewrite !assigns_coefficient by auto. rewrite H. reflexivity.
Qed.

Lemma equivalent_relation :
  (forall f, listed_once (cf_elements f) -> equivalent f f = true) /\
  (forall f g, listed_once (cf_elements f) -> listed_once (cf_elements g) -> equivalent f g = true -> equivalent g f = true) /\
  (forall f g h, listed_once (cf_elements f) -> listed_once (cf_elements g) -> listed_once (cf_elements h) ->
     equivalent f g = true -> equivalent g h = true -> equivalent f h = true).
Proof.
  split; [|split].
  - intros f Hf. apply equivalent_spec; auto. split; [reflexivity|]. tauto.
  - intros f g Hf Hg H. apply equivalent_spec in H as [H1 H2]; auto. apply equivalent_spec; auto.
    split; [symmetry; auto|]. intros; symmetry; auto.
  - intros f g h Hf Hg Hh A B. apply equivalent_spec in A as [A1 A2]; auto. apply equivalent_spec in B as [B1 B2]; auto.
    apply equivalent_spec; auto. split; [rewrite A1; auto|]. intros e q. rewrite A2. auto.
Qed.

Lemma equivalent_permutation f g : listed_once (cf_elements f) -> (cf_charge f == cf_charge g)%Q ->
  Permutation (cf_elements f) (cf_elements g) -> equivalent f g = true.
Proof.
  intros Hf Hc P. apply equivalent_spec; auto.
  - unfold listed_once. eapply Permutation_NoDup; [apply Permutation_map; exact P|exact Hf].
  - split; auto. intros e q. unfold assigns. split; intros (q' & Hi & E); exists q'; split; auto.
    + eapply Permutation_in; eauto. + eapply Permutation_in; [apply Permutation_sym|]; eauto.
Qed.

(* parsed formulas list each element once *)
Lemma add_coeff_listed l e q : listed_once l -> listed_once (add_coeff l e q).
Proof.
  unfold listed_once. intros H. rewrite add_coeff_keys. destruct (in_dec str_eq_dec e (map fst l)); auto.
  rewrite <- (rev_involutive (map fst l ++ [e])). apply NoDup_rev. rewrite rev_app_distr. cbn. constructor.
  - rewrite <- in_rev. assumption. - apply NoDup_rev; assumption.
Qed.

Lemma parseFormulaAux_listed : forall fuel s result scalar res, listed_once result ->
  parseFormulaAux fuel s result scalar = Ok res -> listed_once res.
Proof.
  induction fuel as [|fuel IH]; intros s result scalar res Hr; cbn [parseFormulaAux]; [discriminate|].
  destruct s as [|c s]; [intros [= <-]; auto|].
  destruct (negb _ && negb _ && negb _)%bool; [apply IH; auto|].
  destruct (Ascii.eqb c lpar).
  - destruct (match_bracket 0 s) as [inside [|x after]]; [discriminate|].
    destruct (parseNumAtoms after) as [q rest].
    destruct (parseFormulaAux fuel inside result (scalar * q)%Q) as [r1| |] eqn:E; try discriminate. cbn [bind].
    intros E2. eapply IH; [|exact E2]. eapply IH; [|exact E]. auto.
  - destruct (Ascii.eqb c dot).
    + destruct (parseNumAtoms s) as [q rest]. apply IH; auto.
    + destruct (parseElementAtom (c :: s)) as [el rest]. destruct (parseNumAtoms rest) as [q rest'].
      apply IH. apply add_coeff_listed; auto.
Qed.

Lemma mkChemicalFormula_listed s f : mkChemicalFormula s = Ok f -> listed_once (cf_elements f).
Proof.
  unfold mkChemicalFormula. destruct (parseChemicalFormula s) as [r| |] eqn:E; try discriminate. cbn [bind].
  destruct (parseElectricCharge s); try discriminate. cbn. intros [= <-]. cbn.
  eapply parseFormulaAux_listed; [|exact E]. constructor.
Qed.

(* ------------------------------------------------------------ molar mass *)
Lemma computeMolarMass_acc l : forall a,
  (fold_left (fun m p => m + snd (fst p) * snd p) l a == a + computeMolarMass l)%Q.
Proof.
  unfold computeMolarMass. induction l as [|p l IH]; intros a; cbn [fold_left].
  - ring.
  - rewrite IH. rewrite (IH (0 + snd (fst p) * snd p)%Q). ring.
Qed.

Lemma computeMolarMass_cons p l : (computeMolarMass (p :: l) == snd (fst p) * snd p + computeMolarMass l)%Q.
Proof. unfold computeMolarMass at 1. cbn [fold_left]. rewrite computeMolarMass_acc. ring. Qed.

Lemma computeMolarMass_app a b : (computeMolarMass (a ++ b) == computeMolarMass a + computeMolarMass b)%Q.
Proof. unfold computeMolarMass at 1. rewrite fold_left_app, computeMolarMass_acc. reflexivity. Qed.

Lemma computeMolarMass_scale k l :
  (computeMolarMass (map (fun p => (fst p, k * snd p)) l) == k * computeMolarMass l)%Q.
Proof.
  induction l as [|p l IH]; cbn [map].
  - unfold computeMolarMass; cbn. ring.
  - rewrite !computeMolarMass_cons, IH. cbn [fst snd]. ring.
Qed.

Lemma computeMolarMass_perm a b : Permutation a b -> (computeMolarMass a == computeMolarMass b)%Q.
Proof.
  induction 1 as [| x l l' P IH | x y l | l1 l2 l3 P1 IH1 P2 IH2].
  - reflexivity.
  - rewrite !computeMolarMass_cons, IH. reflexivity.
  - rewrite !computeMolarMass_cons. ring.
  - rewrite IH1. assumption.
Qed.

Fixpoint sumK (g : str -> Q) (K : list str) : Q :=
  match K with [] => 0%Q | e :: K' => (g e + sumK g K')%Q end.

Lemma sumK_ext g h K : (forall e, In e K -> g e == h e)%Q -> (sumK g K == sumK h K)%Q.
Proof.
  induction K as [|e K IH]; cbn; intros H; [reflexivity|]. rewrite H by auto. rewrite IH by auto. reflexivity.
Qed.
Lemma sumK_add g h K : (sumK (fun e => g e + h e) K == sumK g K + sumK h K)%Q.
Proof. induction K as [|e K IH]; cbn; [ring|]. rewrite IH. ring. Qed.
Lemma sumK_scale k g K : (sumK (fun e => k * g e) K == k * sumK g K)%Q.
Proof. induction K as [|e K IH]; cbn; [ring|]. rewrite IH. ring. Qed.
Lemma sumK_zero K : (sumK (fun _ => 0) K == 0)%Q.
Proof. induction K as [|e K IH]; cbn; [reflexivity|]. rewrite IH. ring. Qed.
Lemma sumK_single g s q K : NoDup K -> In s K ->
  (sumK (fun e => g e * (if str_eq_dec s e then q else 0)) K == g s * q)%Q.
Proof.
  induction K as [|x K IH]; intros Hn Hi; [destruct Hi|]. inversion Hn as [|? ? Hx HK]; subst.
  cbn [sumK]. destruct (str_eq_dec s x) as [->|Hne].
  - assert (sumK (fun e => g e * (if str_eq_dec x e then q else 0)) K == 0)%Q as ->; [|ring].
    rewrite <- (sumK_zero K). apply sumK_ext. intros e He. destruct (str_eq_dec x e); [subst; tauto|]. ring.
  - destruct Hi as [Hi|Hi]; [congruence|]. rewrite IH by auto. ring.
Qed.

Lemma mass_sum m f : forall K, NoDup K -> incl (appearances f) K ->
  (sumK (fun e => m e * atoms e f) K == formula_mass m f)%Q.
Proof.
  induction f as [| sym n rest IH | body IHb n rest IH | c rest IH | n rest IH]; intros K HK Hi; cbn [atoms formula_mass appearances] in *.
  - rewrite <- (sumK_zero K). apply sumK_ext. intros; ring.
  - rewrite (sumK_ext _ (fun e => m e * (if str_eq_dec sym e then onum_value n else 0) + m e * atoms e rest)%Q) by (intros; ring).
    rewrite sumK_add, sumK_single, IH; auto; [reflexivity| |].
    + intros x Hx; apply Hi; right; auto. + apply Hi; left; reflexivity.
  - rewrite (sumK_ext _ (fun e => onum_value n * (m e * atoms e body) + m e * atoms e rest)%Q) by (intros; ring).
    rewrite sumK_add, sumK_scale, IHb, IH; auto; [reflexivity| |]; intros x Hx; apply Hi, in_app_iff; auto.
  - apply IH; auto.
  - rewrite (sumK_ext _ (fun e => onum_value n * (m e * atoms e rest))%Q) by (intros; ring).
    rewrite sumK_scale, IH; auto. reflexivity.
Qed.

Lemma mkComposition_ok table m pairs : (forall e, In e (map fst pairs) -> find_element table e = Some (m e)) ->
  mkComposition table pairs = Ok (map (fun p => ((fst p, m (fst p)), snd p)) pairs).
Proof.
  unfold mkComposition. induction pairs as [|[e q] l IH]; cbn [map mapM fst snd]; intros H; auto.
  unfold mkElement at 1. rewrite H by (left; reflexivity). cbn [omap bind]. rewrite IH by (intros; apply H; right; auto). reflexivity.
Qed.

Lemma mkComposition_err table pairs : (exists e, In e (map fst pairs) /\ find_element table e = None) ->
  mkComposition table pairs = Err.
Proof.
  unfold mkComposition. induction pairs as [|[e q] l IH]; cbn [map mapM fst snd]; intros (x & Hx & Hn); [destruct Hx|].
  unfold mkElement at 1. destruct (find_element table e) as [me|] eqn:E; [|reflexivity].
  destruct Hx as [<-|Hx]; [congruence|]. cbn [omap bind]. rewrite IH by eauto. reflexivity.
Qed.

Lemma add_keys_incl l : forall acc, incl l (add_keys acc l) /\ incl acc (add_keys acc l).
Proof.
  induction l as [|x l IH]; intros acc; cbn [add_keys fold_left].
  - split; [intros ? []|apply incl_refl].
  - fold (add_keys (if in_dec str_eq_dec x acc then acc else acc ++ [x]) l).
    destruct (IH (if in_dec str_eq_dec x acc then acc else acc ++ [x])) as [A B].
    assert (incl acc (if in_dec str_eq_dec x acc then acc else acc ++ [x])) as C.
    { destruct (in_dec str_eq_dec x acc); [apply incl_refl|apply incl_appl, incl_refl]. }
    split.
    + intros y [<-|Hy]; auto. apply B. destruct (in_dec str_eq_dec x acc); auto. apply in_app_iff; right; left; reflexivity.
    + intros y Hy. apply B, C, Hy.
Qed.

Lemma add_keys_sub l : forall acc x, In x (add_keys acc l) -> In x acc \/ In x l.
Proof.
  induction l as [|y l IH]; intros acc x; cbn [add_keys fold_left]; auto.
  fold (add_keys (if in_dec str_eq_dec y acc then acc else acc ++ [y]) l). intros H.
  apply IH in H as [H|H]; [|right; right; auto].
  destruct (in_dec str_eq_dec y acc); auto. apply in_app_iff in H as [H|[H|[]]]; auto. right; left; auto.
Qed.

Lemma mass_of_pairs m l (g : str -> Q) : (forall e q, In (e, q) l -> q == g e)%Q ->
  (computeMolarMass (map (fun p => ((fst p, m (fst p)), snd p)) l) == sumK (fun e => m e * g e) (map fst l))%Q.
Proof.
  induction l as [|[e q] l IH]; cbn [map]; intros H; [reflexivity|].
  rewrite computeMolarMass_cons. cbn [fst snd sumK]. rewrite IH by (intros; apply H; right; auto).
  rewrite (H e q) by (left; reflexivity). reflexivity.
Qed.

Lemma speciesMolarMass_print table m f z : formula_wf f ->
  (forall e, In e (appearances f) -> find_element table e = Some (m e)) ->
  parseElectricCharge (print f) = Ok z ->
  exists q, speciesMolarMass table (print f) = Ok q /\ (q == formula_mass m f - z * electron_mass)%Q.
Proof.
  intros Hw Ht Hz. destruct (parseChemicalFormula_print f Hw) as (res & E & Hk & Hn & Hq).
  unfold speciesMolarMass, mkChemicalFormula. rewrite E, Hz. cbn [bind cf_elements cf_charge].
  assert (Hs : forall e, In e (map fst res) -> In e (appearances f)).
  { intros e He. rewrite Hk in He. apply (add_keys_sub _ []) in He as [[]|He]; auto. }
  rewrite (mkComposition_ok table m) by auto. cbn [bind]. eexists. split; [reflexivity|].
  rewrite (mass_of_pairs m res (fun e => atoms e f)) by assumption.
  rewrite mass_sum; auto. { reflexivity. }
  rewrite Hk. exact (proj1 (add_keys_incl (appearances f) [])).
Qed.

Lemma speciesMolarMass_unknown table f z : formula_wf f -> parseElectricCharge (print f) = Ok z ->
  (exists e, In e (appearances f) /\ find_element table e = None) ->
  speciesMolarMass table (print f) = Err.
Proof.
  intros Hw Hz (e & He & Hn). destruct (parseChemicalFormula_print f Hw) as (res & E & Hk & _ & _).
  unfold speciesMolarMass, mkChemicalFormula. rewrite E, Hz. cbn [bind cf_elements cf_charge].
  rewrite mkComposition_err; [reflexivity|]. exists e. split; auto.
  rewrite Hk. exact (proj1 (add_keys_incl (appearances f) []) e He).
Qed.

(* ------------------------------------------------------ reaction equations *)
Lemma print_num_chars n c : num_wf n -> In c (print_num n) -> isdigit c = true \/ c = "."%char.
Proof.
  intros H Hc. pose proof (print_num_numchars n H) as Hn. rewrite forallb_forall in Hn. specialize (Hn c Hc).
  unfold isnumchar in Hn. apply orb_true_iff in Hn as [Hn|Hn]; auto. right. apply Ascii.eqb_eq in Hn. exact Hn.
Qed.

Lemma numchar_neq c d : (isdigit c = true \/ c = "."%char) -> isdigit d = false -> d <> "."%char -> c <> d.
Proof. intros [H|H] H1 H2 ->; congruence. Qed.

Lemma split_two a b d : a <> [] -> b <> [] -> ~ In d a -> ~ In d b -> split (a ++ d :: b) [d] = [a; b].
Proof.
  intros Ha Hb Na Nb. change (d :: b) with ([d] ++ b). rewrite <- (split_join [a; b] [d] [d]).
  - rewrite join_correct. reflexivity.
  - discriminate.
  - intros c Hc; exact Hc.
  - repeat constructor; auto; intros c Hc [<-|[]]; auto.
Qed.

Lemma split_one a d : a <> [] -> ~ In d a -> split a [d] = [a].
Proof.
  intros Ha Na. rewrite <- (split_join [a] [d] [d]).
  - rewrite join_correct. reflexivity.
  - discriminate.
  - intros c Hc; exact Hc.
  - repeat constructor; auto; intros c Hc [<-|[]]; auto.
Qed.

Lemma parseTerm_print s t : term_wf t -> exists p, parseTerm s (print_term t) = Ok p /\ same_pair p (signed s t).
Proof.
  destruct t as [[n|] name]; unfold term_wf, print_term, signed; cbn [fst snd onum_wf onum_value]; intros (Hn & H1 & H2 & Hc).
  - unfold parseTerm, star. rewrite split_two.
    + eexists; split; [reflexivity|]. split; cbn; auto. rewrite atof_print_num by assumption. reflexivity.
    + apply print_num_nonempty; assumption.
    + assumption.
    + intros H. apply print_num_chars in H as [H|H]; auto; discriminate.
    + intros H. apply Hc in H. tauto.
  - unfold parseTerm, star. rewrite split_one.
    + eexists; split; [reflexivity|]. split; cbn; auto. reflexivity.
    + assumption.
    + intros H. apply Hc in H. tauto.
Qed.

Lemma print_term_nospace t c : term_wf t -> In c (print_term t) -> c <> " "%char /\ c <> "="%char.
Proof.
  destruct t as [[n|] name]; unfold term_wf, print_term; cbn [fst snd onum_wf]; intros (Hn & H1 & H2 & Hc) Hi.
  - apply in_app_iff in Hi as [Hi|[<-|Hi]]; [|split; discriminate|apply Hc in Hi; tauto].
    apply print_num_chars in Hi; auto. split; apply numchar_neq; auto; discriminate.
  - apply Hc in Hi. tauto.
Qed.

Lemma print_term_nonempty t : term_wf t -> print_term t <> [] /\ print_term t <> $"+".
Proof.
  destruct t as [[n|] name]; unfold term_wf, print_term; cbn [fst snd onum_wf]; intros (Hn & H1 & H2 & Hc); auto.
  pose proof (print_num_nonempty n Hn). pose proof (print_num_chars n).
  destruct (print_num n) as [|c [|d l]] eqn:E; [congruence| |]; split; try discriminate.
Qed.

(* words of a side, with the plus signs *)
Fixpoint side_words (ws : list str) : list str :=
  match ws with [] => [] | [w] => [w] | w :: ws' => w :: $"+" :: side_words ws' end.

Lemma side_words_join ws : intersperse $" + " ws = join (side_words ws) $" ".
Proof.
  rewrite join_correct. induction ws as [|w ws IH]; [reflexivity|].
  destruct ws as [|v ws]; [reflexivity|].
  change (side_words (w :: v :: ws)) with (w :: $"+" :: side_words (v :: ws)).
  change (intersperse $" + " (w :: v :: ws)) with (w ++ $" + " ++ intersperse $" + " (v :: ws)).
  rewrite IH. destruct (side_words (v :: ws)) as [|u us] eqn:E; [destruct ws; discriminate|].
  cbn. reflexivity.
Qed.

Lemma side_words_all (P : str -> Prop) ws : P $"+" -> Forall P ws -> Forall P (side_words ws).
Proof.
  intros HP H. induction H as [|w ws Hw Hws IH]; cbn; auto. destruct ws; auto.
Qed.

Lemma side_words_filter ws : Forall (fun w => w <> $"+") ws ->
  filter (fun w => negb (str_eqb w $"+")) (side_words ws) = ws.
Proof.
  intros H. induction H as [|w ws Hw Hws IH]; auto.
  assert (negb (str_eqb w $"+") = true) as Hb. { destruct (str_eqb_spec w $"+"); [congruence|reflexivity]. }
  destruct ws as [|v ws].
  - cbn [side_words filter]. rewrite Hb. reflexivity.
  - change (side_words (w :: v :: ws)) with (w :: $"+" :: side_words (v :: ws)).
    cbn [filter]. rewrite Hb, IH. reflexivity.
Qed.

Lemma split_side_pad pre post ts : Forall term_wf ts -> all_in $" " pre -> all_in $" " post ->
  split (pre ++ print_side ts ++ post) $" " = side_words (map print_term ts).
Proof.
  intros Hw Hpre Hpost. unfold print_side. rewrite side_words_join.
  set (ws := side_words (map print_term ts)).
  assert (Hws : Forall (fun w => w <> [] /\ none_in $" " w) ws).
  { apply side_words_all.
    - split; [discriminate|]. intros c [<-|[]] [H|[]]; discriminate.
    - apply Forall_map. eapply Forall_impl; [|exact Hw]. intros t Ht. split; [apply print_term_nonempty; auto|].
      intros c Hc [<-|[]]. apply (print_term_nospace t) in Hc; tauto. }
  assert (J : split (join ws $" ") $" " = ws). { apply split_join; auto; try discriminate. intros c Hc; exact Hc. }
  apply split_correct. apply split_correct in J.
  assert (Q : Tokens $" " (join ws $" " ++ post) ws).
  { clear -J Hpost. remember (join ws $" ") as s eqn:E. clear E.
    induction J as [ds H | ds w rest ws H1 H2 H3 H4 H5 IH].
    - apply Tokens_nil. intros c Hc. apply in_app_iff in Hc as [Hc|Hc]; auto.
    - rewrite <- !app_assoc. apply Tokens_cons; auto.
      intros c rest' E. destruct rest as [|x rest]; cbn in E.
      + apply Hpost. rewrite E. left; reflexivity.
      + injection E as -> <-. eapply H4; reflexivity. }
  clear -Q Hpre. remember (join ws $" " ++ post) as s eqn:E. clear E.
  destruct Q as [ds H | ds w rest ws H1 H2 H3 H4 H5].
  - apply Tokens_nil. intros c Hc. apply in_app_iff in Hc as [Hc|Hc]; auto.
  - rewrite app_assoc. apply Tokens_cons; auto. intros c Hc. apply in_app_iff in Hc as [Hc|Hc]; auto.
Qed.

Lemma parseSide_print s pre post ts : Forall term_wf ts -> all_in $" " pre -> all_in $" " post ->
  exists ps, parseSide s (pre ++ print_side ts ++ post) = Ok ps /\ Forall2 same_pair ps (map (signed s) ts).
Proof.
  intros Hw Hpre Hpost. unfold parseSide. rewrite split_side_pad by assumption.
  rewrite side_words_filter.
  2:{ apply Forall_map. eapply Forall_impl; [|exact Hw]. intros t Ht. apply print_term_nonempty; auto. }
  clear Hpre Hpost. induction Hw as [|t ts Ht Hts IH]; cbn [map mapM].
  - exists []. auto.
  - destruct (parseTerm_print s t Ht) as (p & E & Hp). destruct IH as (ps & E2 & Hps).
    rewrite E, E2. cbn [bind]. eauto.
Qed.

Lemma print_side_noeq ts c : Forall term_wf ts -> In c (print_side ts) -> c <> "="%char.
Proof.
  unfold print_side. intros H. induction H as [|t ts Ht Hts IH]; [intros []|].
  destruct ts as [|u ts].
  - cbn. intros Hc. apply (print_term_nospace t) in Hc; tauto.
  - cbn [map intersperse]. intros Hc. apply in_app_iff in Hc as [Hc|Hc].
    + apply (print_term_nospace t) in Hc; tauto.
    + apply in_app_iff in Hc as [Hc|Hc].
      * cbn in Hc. destruct Hc as [<-|[<-|[<-|[]]]]; discriminate.
      * apply IH. exact Hc.
Qed.

Lemma parseReactionEquation_print rs ps : Forall term_wf rs -> Forall term_wf ps ->
  exists res, parseReactionEquation (print_equation rs ps) = Ok res /\
    Forall2 same_pair res (map (signed (-(1))) rs ++ map (signed 1) ps).
Proof.
  intros Hr Hp. unfold parseReactionEquation, print_equation.
  replace (print_side rs ++ $" = " ++ print_side ps) with ((print_side rs ++ $" ") ++ "="%char :: ($" " ++ print_side ps))
    by (rewrite <- app_assoc; reflexivity).
  change ($"=") with (["="%char]). rewrite split_two.
  - destruct (parseSide_print (-(1)) [] $" " rs Hr ltac:(intros ? []) ltac:(intros c Hc; exact Hc)) as (a & Ea & Ha).
    destruct (parseSide_print 1 $" " [] ps Hp ltac:(intros c Hc; exact Hc) ltac:(intros ? [])) as (b & Eb & Hb).
    rewrite app_nil_r in Eb. cbn [app] in Ea. rewrite Ea, Eb. cbn [bind]. eexists; split; [reflexivity|].
    apply Forall2_app; assumption.
  - destruct (print_side rs); discriminate.
  - discriminate.
  - intros H. apply in_app_iff in H as [H|[H|[]]]; [|discriminate]. eapply print_side_noeq in H; eauto.
  - intros H. apply in_app_iff in H as [[H|[]]|H]; [discriminate|]. eapply print_side_noeq in H; eauto.
Qed.

(* ---- equality of equations ---- *)
Lemma identical_str a b : identical str_eqb a b = true <-> (forall x, In x a <-> In x b).
Proof.
  assert (C : forall a b, contained str_eqb a b = true <-> forall x, In x a -> In x b).
  { clear. intros a b. unfold contained. rewrite forallb_forall. split; intros H x Hx; specialize (H x Hx).
    - apply existsb_exists in H as (y & Hy & E). apply str_eqb_eq in E. subst; auto.
    - apply existsb_exists. exists x. rewrite str_eqb_refl. auto. }
  unfold identical. rewrite andb_true_iff, !C. firstorder.
Qed.

Lemma equation_eqb_spec lhs rhs : equation_eqb lhs rhs = true <->
  (forall x, In x (map fst lhs) <-> In x (map fst rhs)) /\
  (forall x, Qabs (coefficient lhs x - coefficient rhs x) <= 1 # (2^52))%Q.
Proof.
  unfold equation_eqb. rewrite andb_true_iff, identical_str, forallb_forall. split; intros [H1 H2]; split; auto.
  - intros x. destruct (in_dec str_eq_dec x (map fst lhs)) as [Hi|Hi].
    + apply Qle_bool_iff. apply H2. assumption.
    + rewrite !coefficient_notin; auto. { discriminate. } rewrite <- H1; assumption.
  - intros x _. apply Qle_bool_iff. apply H2.
Qed.

Lemma equation_eqb_refl e : equation_eqb e e = true.
Proof.
  apply equation_eqb_spec. split; [tauto|]. intros x. setoid_replace (coefficient e x - coefficient e x)%Q with 0%Q by ring. discriminate.
Qed.
Lemma equation_eqb_sym a b : equation_eqb a b = true -> equation_eqb b a = true.
Proof.
  rewrite !equation_eqb_spec. intros [H1 H2]. split; [intros; symmetry; auto|].
  intros x. rewrite Qabs_Qminus. apply H2.
Qed.

(* ---- number:symbol lists ---- *)
Lemma cut_colon_spec a b : ~ In ":"%char a -> cut_colon (a ++ ":"%char :: b) = Some (a, b).
Proof.
  induction a as [|c a IH]; cbn; auto. intros H. destruct (Ascii.eqb_spec c ":"%char); [subst; tauto|].
  rewrite IH by tauto. reflexivity.
Qed.

Lemma colon_pair_print p : pair_wf p -> colon_pair (print_pair p) = (print_num (fst p), snd p).
Proof.
  intros [Hn Hs]. unfold colon_pair, print_pair. rewrite cut_colon_spec; auto.
  intros H. apply print_num_chars in H as [H|H]; auto; discriminate.
Qed.

Lemma print_pair_word p : pair_wf p -> print_pair p <> [] /\ none_in $" " (print_pair p).
Proof.
  intros [Hn Hs]. unfold print_pair. split; [destruct (print_num (fst p)); discriminate|].
  intros c Hc [<-|[]]. apply in_app_iff in Hc as [Hc|[Hc|Hc]]; [|discriminate|apply Hs in Hc; tauto].
  apply print_num_chars in Hc as [Hc|Hc]; auto; discriminate.
Qed.

Lemma fold_pairs ps : Forall pair_wf ps -> forall acc,
  let res := fold_left (fun pairs w => let (n, symbol) := colon_pair w in add_coeff pairs symbol (atof n)) (map print_pair ps) acc in
  map fst res = add_keys (map fst acc) (map snd ps) /\
  forall e, (coef e res == coef e acc + total e ps)%Q.
Proof.
  induction 1 as [|p ps Hp Hps IH]; intros acc; cbn zeta; cbn [map fold_left].
  - cbn. split; auto. intros; ring.
  - rewrite colon_pair_print by assumption.
    specialize (IH (add_coeff acc (snd p) (atof (print_num (fst p))))). cbn zeta in IH. destruct IH as [IH1 IH2].
    split.
    + rewrite IH1, add_coeff_keys. reflexivity.
    + intros e. rewrite IH2, add_coeff_coef. cbn [total fold_right]. fold (total e ps).
      destruct (str_eqb_spec (snd p) e), (str_eq_dec (snd p) e); try congruence; rewrite ?(atof_print_num (fst p)) by apply Hp; ring.
Qed.

Lemma parseNumberStringPairs_print ps : Forall pair_wf ps ->
  let res := parseNumberStringPairs (intersperse $" " (map print_pair ps)) in
  map fst res = first_appearances (map snd ps) /\ NoDup (map fst res) /\
  forall e q, In (e, q) res -> (q == total e ps)%Q.
Proof.
  intros H. unfold parseNumberStringPairs. rewrite <- join_correct, split_join.
  2:discriminate. 2:{ intros c Hc; exact Hc. }
  2:{ apply Forall_map. eapply Forall_impl; [|exact H]. apply print_pair_word. }
  destruct (fold_pairs ps H []) as [A B]. cbn zeta.
  set (res := fold_left _ _ _) in *.
  assert (NoDup (map fst res)) as Hn. { rewrite A. apply add_keys_NoDup. constructor. }
  split; [exact A|]. split; auto. intros e q Hi. rewrite <- (coef_in e q res Hn Hi), B. cbn. ring.
Qed.

Lemma parseReaction_print ps : Forall pair_wf ps -> (forall p, In p ps -> snd p <> [] /\ ~ In ":"%char (snd p)) ->
  exists res, parseReaction (intersperse $" " (map print_pair ps)) = Ok res /\
    Forall2 same_pair res (map (fun p => (snd p, num_value (fst p))) ps).
Proof.
  intros H Hc. unfold parseReaction. rewrite <- join_correct, split_join.
  2:discriminate. 2:{ intros c Hi; exact Hi. }
  2:{ apply Forall_map. eapply Forall_impl; [|exact H]. apply print_pair_word. }
  induction H as [|p ps Hp Hps IH]; cbn [map mapM].
  - exists []. auto.
  - destruct IH as (res & E & F). { intros; apply Hc; right; auto. }
    destruct (Hc p (or_introl eq_refl)) as [C1 C2].
    unfold parseReactionWord at 1, print_pair at 1. change ($":") with [":"%char]. rewrite split_two; auto.
    + cbn [bind]. rewrite E. cbn [bind]. eexists; split; [reflexivity|]. constructor; auto.
      split; cbn; auto. apply atof_print_num. apply Hp.
    + apply print_num_nonempty. apply Hp.
    + intros Hi. apply print_num_chars in Hi as [Hi|Hi]; [discriminate|discriminate|apply Hp].
Qed.
