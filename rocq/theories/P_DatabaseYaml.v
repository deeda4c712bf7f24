(* Loading of databases: invariants, fuel and cycles. *)
From Coq Require Import Relations Wellfounded ListDec.
From Verif Require Import Base M_Strings M_Algorithms M_Formula M_Chem M_System M_Attribs M_Registry M_Yaml M_DatabaseYaml S_DatabaseYaml P_Algorithms.
From Verif Require P_Formula.
Local Open Scope nat_scope.

Lemma bind_inv {A B} (m : outcome A) (f : A -> outcome B) b : bind m f = Ok b -> exists a, m = Ok a /\ f a = Ok b.
Proof. destruct m; cbn; intros E; try discriminate. eauto. Qed.
Lemma bind_ub {A B} (m : outcome A) (f : A -> outcome B) : bind m f = UB -> m = UB \/ exists a, m = Ok a /\ f a = UB.
Proof. destruct m; cbn; intros E; try discriminate; eauto. Qed.
Ltac ib H x E := let H' := fresh in apply bind_inv in H; destruct H as (x & E & H').

Lemma lookup_first l key v : lookup_key l key = Some v <-> exists l1 l2, l = l1 ++ (key, v) :: l2 /\ ~ In key (map fst l1).
Proof.
  induction l as [|[k w] l IH]; cbn [lookup_key].
  - split; [discriminate|]. intros (l1 & l2 & E & _). destruct l1; discriminate.
  - destruct (str_eqb_spec k key) as [->|N].
    + split; [intros E; injection E as ->; exists [], l; split; [reflexivity|intros []]|]. intros ([|[k' w'] l1] & l2 & E & H); injection E; intros; [congruence|]. subst. destruct H. left. cbn. reflexivity.
    + rewrite IH. split; intros (l1 & l2 & E & H).
      * exists ((k, w) :: l1), l2. subst l. split; [reflexivity|]. intros [K|K]; [exact (N K)|exact (H K)].
      * destruct l1 as [|[k' w'] l1]; injection E as E1 E2 E3; [congruence|]. exists l1, l2. split; [exact E3|]. intros K. apply H. right. exact K.
Qed.
Lemma child_field n key v : child n key = Ok (Some v) <-> field n key v.
Proof.
  unfold child, field. split.
  - destruct n; intros E; try discriminate. injection E as E. apply lookup_first in E as (l1 & l2 & -> & E). eauto.
  - intros (l1 & l2 & -> & E). f_equal. apply lookup_first. eauto.
Qed.
Lemma at_key_field n key v : at_key n key = Ok v <-> field n key v.
Proof.
  rewrite <- child_field. unfold at_key. split.
  - intros E. apply bind_inv in E as ([c|] & E & E'); [injection E' as ->; exact E|discriminate].
  - intros ->. reflexivity.
Qed.
Lemma req_string_field n key t : req_string n key = Ok t <-> field n key (YScalar t).
Proof.
  rewrite <- at_key_field. unfold req_string. split.
  - intros E. apply bind_inv in E as (v & E & E'). destruct v; try discriminate. injection E' as ->. exact E.
  - intros ->. reflexivity.
Qed.
Lemma field_det n key v v' : field n key v -> field n key v' -> v = v'.
Proof. intros H K. apply child_field in H. apply child_field in K. congruence. Qed.
Lemma opt_string_field n key t : opt_string n key = Ok t -> field n key (YScalar t) \/ ((forall v, ~ field n key v) /\ t = []).
Proof.
  unfold opt_string. intros H. apply bind_inv in H as (c & C & H). destruct c as [v|].
  - left. apply child_field in C. destruct v; try discriminate. injection H as ->. exact C.
  - right. injection H as <-. split; [|reflexivity]. intros v V. apply child_field in V. pose proof (eq_trans (eq_sym C) V). discriminate.
Qed.
Lemma mapM_scalars l v : mapM as_string l = Ok v -> l = map YScalar v.
Proof.
  revert v. induction l as [|a l IH]; intros v H; cbn in H; [injection H as <-; reflexivity|]. destruct a; try discriminate. cbn [as_string bind] in H.
  destruct (mapM as_string l); try discriminate. injection H as <-. cbn. f_equal. apply IH. reflexivity.
Qed.
Lemma createTags_field n t : createTags n = Ok t -> field n $"Tags" (YSeq (map YScalar t)) \/ (exists x, field n $"Tags" (YScalar x) /\ t = split x $" ") \/ ((forall v, ~ field n $"Tags" v) /\ t = []).
Proof.
  unfold createTags. intros H. apply bind_inv in H as (c & C & H). destruct c as [v|].
  - apply child_field in C. destruct v; try discriminate.
    + right. left. injection H as <-. eauto.
    + left. apply mapM_scalars in H as ->. exact C.
  - right. right. injection H as <-. split; [|reflexivity]. intros v V. apply child_field in V. pose proof (eq_trans (eq_sym C) V). discriminate.
Qed.
Lemma named_det n x y : named n x -> named n y -> x = y.
Proof. intros A B. pose proof (field_det _ _ _ _ A B) as E. injection E as ->. reflexivity. Qed.
Lemma describes_det s x n m : describes s x n -> describes s x m -> n = m.
Proof.
  intros (p & q & E & N & F) (p' & q' & E' & N' & F'). subst s. revert p' E' F'.
  induction p as [|a p IH]; intros [|b p'] E' F'; cbn in E'; injection E' as E1 E2; subst; auto.
  - exfalso. apply (F' b); [left; reflexivity|exact N].
  - exfalso. apply (F m); [left; reflexivity|]. exact N'.
  - apply (IH (fun m' H => F m' (or_intror H)) p' E2). intros m' H. apply F'. right. exact H.
Qed.
Lemma describes_named s x n : describes s x n -> named n x.
Proof. intros (p & q & _ & N & _). exact N. Qed.
Lemma describes_in s x n : describes s x n -> In n s.
Proof. intros (p & q & -> & _). apply in_elt. Qed.

Lemma findNode_first key x l n : findNode key x l = Ok (Some n) ->
  exists pre post, l = pre ++ n :: post /\ field n key (YScalar x) /\ forall m, In m pre -> ~ field m key (YScalar x).
Proof.
  induction l as [|a l IH]; cbn; [discriminate|]. intros E. apply bind_inv in E as (s & E & E').
  apply req_string_field in E. destruct (str_eqb_spec s x) as [->|N].
  - injection E' as ->. exists [], l. repeat split; auto.
  - destruct (IH E') as (pre & post & -> & F & G). exists (a :: pre), post. repeat split; auto.
    intros m [->|I]; [|apply G; exact I]. intros H. pose proof (field_det _ _ _ _ E H) as D. injection D. auto.
Qed.
Lemma findNode_describes x l n : findNode $"Name" x l = Ok (Some n) -> describes l x n.
Proof. apply findNode_first. Qed.

(* Failures that are not infinite recursion are exceptions. *)
Lemma child_ub n k : child n k <> UB.
Proof. destruct n; discriminate. Qed.
Lemma at_key_ub n k : at_key n k <> UB.
Proof. unfold at_key. intros E. apply bind_ub in E as [E|(c & _ & E)]; [eapply child_ub; eauto|]. destruct c; discriminate. Qed.
Lemma as_string_ub n : as_string n <> UB.
Proof. destruct n; discriminate. Qed.
Lemma req_string_ub n k : req_string n k <> UB.
Proof. unfold req_string. intros E. apply bind_ub in E as [E|(c & _ & E)]; [eapply at_key_ub; eauto|eapply as_string_ub; eauto]. Qed.
Lemma opt_string_ub n k : opt_string n k <> UB.
Proof. unfold opt_string. intros E. apply bind_ub in E as [E|(c & _ & E)]; [eapply child_ub; eauto|]. destruct c; [eapply as_string_ub; eauto|discriminate]. Qed.
Lemma mapM_ub {A B} (f : A -> outcome B) l : (forall a, f a <> UB) -> mapM f l <> UB.
Proof.
  intros F. induction l as [|a l IH]; cbn; [discriminate|]. intros E. apply bind_ub in E as [E|(c & _ & E)]; [eapply F; eauto|].
  apply bind_ub in E as [E|(d & _ & E)]; [auto|discriminate].
Qed.
Lemma as_strings_ub n : as_strings n <> UB.
Proof. destruct n; try discriminate. apply mapM_ub, as_string_ub. Qed.
Lemma opt_strings_ub n k : opt_strings n k <> UB.
Proof. unfold opt_strings. intros E. apply bind_ub in E as [E|(c & _ & E)]; [eapply child_ub; eauto|]. destruct c; [eapply as_strings_ub; eauto|discriminate]. Qed.
Lemma omap_ub {A B} (f : A -> B) m : omap f m = UB -> m = UB.
Proof. destruct m; cbn; congruence. Qed.
Lemma findNode_ub k x l : findNode k x l <> UB.
Proof.
  induction l as [|a l IH]; cbn; [discriminate|]. intros E. apply bind_ub in E as [E|(c & _ & E)]; [eapply req_string_ub; eauto|].
  destruct (str_eqb c x); [discriminate|auto].
Qed.

Ltac noub := repeat match goal with
  | H : bind _ _ = UB |- _ => apply bind_ub in H; let a := fresh "a" in let E := fresh "E" in destruct H as [H|(a & E & H)]
  | H : at_key _ _ = UB |- _ => destruct (at_key_ub _ _ H)
  | H : child _ _ = UB |- _ => destruct (child_ub _ _ H)
  | H : as_string _ = UB |- _ => destruct (as_string_ub _ H)
  | H : Ok _ = UB |- _ => discriminate H
  | H : Err = UB |- _ => discriminate H
  | H : match ?o with Some _ => _ | None => _ end = UB |- _ => destruct o eqn:?
  | H : omap _ _ = UB |- _ => apply omap_ub in H
  | H : (if ?b then _ else _) = UB |- _ => destruct b eqn:?
  end.
Lemma as_num_ub read n : as_num read n <> UB.
Proof. unfold as_num. intros H. noub. Qed.
Lemma get_ub read n k : get read n k <> UB.
Proof. unfold get. intros H. noub. eapply as_num_ub; eauto. Qed.
Lemma gets_ub read n k : gets read n k <> UB.
Proof. unfold gets. intros H. noub. destruct a; try discriminate. eapply mapM_ub; [|exact H]. apply as_num_ub. Qed.
Lemma get_or_ub read n k f : get_or read n k f <> UB.
Proof. unfold get_or. intros H. noub. eapply as_num_ub; eauto. Qed.
Lemma as_nat_ub readN n : as_nat readN n <> UB.
Proof. unfold as_nat. intros H. noub. Qed.
Ltac noub2 := noub; try match goal with
  | H : get _ _ _ = UB |- _ => destruct (get_ub _ _ _ H)
  | H : gets _ _ _ = UB |- _ => destruct (gets_ub _ _ _ H)
  | H : get_or _ _ _ _ = UB |- _ => destruct (get_or_ub _ _ _ _ H)
  | H : as_nat _ _ = UB |- _ => destruct (as_nat_ub _ _ H) end.
Lemma std_ub read readN n : StandardThermoModelYAML read readN n <> UB.
Proof.
  unfold StandardThermoModelYAML. destruct n as [| | |[|[m p] []]]; try discriminate. intros H. noub.
  - unfold decodeConstant in H. noub2.
  - unfold decodeHKF in H. noub2.
  - unfold decodeHP in H. noub2; repeat match goal with x : (_ * _)%type |- _ => destruct x end; noub2.
  - unfold decodeMK in H. noub2.
  - unfold decodeMin in H. noub2.
  - unfold decodeWater in H. noub2.
Qed.
Lemma rxn_ub read n : ReactionThermoModelYAML read n <> UB.
Proof.
  unfold ReactionThermoModelYAML. destruct n as [| | |[|[m p] []]]; try discriminate. intros H. noub.
  - unfold decodeConstLgK in H. noub2.
  - unfold decodeGemsLgK in H. noub2.
  - unfold decodePhreeqcLgK in H. noub2.
  - unfold decodeVantHoff in H. noub2.
Qed.
Lemma speciesOf_ub a : speciesOf a <> UB.
Proof.
  unfold speciesOf. destruct (is_empty (at_name a)); [discriminate|]. destruct (at_formula a) as [|c f] eqn:F; [discriminate|]. cbn [is_empty]. intros H. noub.
  unfold splitSpeciesNameSuffix in H. destruct (last_opt (c :: f)) eqn:L.
  - destruct (negb (Ascii.eqb a0 rpar)); [discriminate|]. destruct (rfind lpar (c :: f)).
    + destruct (existsb isupper _); discriminate.
    + destruct (existsb isupper _); discriminate.
  - apply P_Formula.last_opt_none in L. discriminate.
Qed.

(* First elements of lists. *)
Lemma first_find {A} (f : A -> bool) l : nth_error l (indexfn l f) = List.find f l.
Proof. induction l as [|a l IH]; [reflexivity|]. cbn. destruct (f a); auto. Qed.
Lemma find_app {A} (f : A -> bool) l m : List.find f (l ++ m) = match List.find f l with Some x => Some x | None => List.find f m end.
Proof. induction l as [|a l IH]; cbn; auto. destruct (f a); auto. Qed.
Lemma findElement_some els x e : findElement els x = Some e -> el_symbol e = x /\ In e els.
Proof. unfold findElement. rewrite first_find. intros E. apply find_some in E as [I E]. apply str_eqb_eq in E. auto. Qed.
Lemma findElement_app els more x e : findElement els x = Some e -> findElement (els ++ more) x = Some e.
Proof. unfold findElement. rewrite !first_find, find_app. intros ->. reflexivity. Qed.
Lemma findElement_new els e : findElement els (el_symbol e) = None -> findElement (els ++ [e]) (el_symbol e) = Some e.
Proof. unfold findElement. rewrite !first_find, find_app. intros ->. cbn. rewrite str_eqb_refl. reflexivity. Qed.
Lemma findLoaded_some l x s : findLoaded l x = Some s -> ld_name s = x /\ In s l.
Proof. unfold findLoaded. rewrite first_find. intros E. apply find_some in E as [I E]. apply str_eqb_eq in E. auto. Qed.
Lemma findLoaded_none l x : findLoaded l x = None -> ~ In x (map ld_name l).
Proof.
  unfold findLoaded. rewrite first_find. intros E I. apply in_map_iff in I as (s & N & I).
  pose proof (find_none _ _ E s I) as F. cbn in F. rewrite N, str_eqb_refl in F. discriminate.
Qed.

Section Parser.
Variable readQ : str -> option Q.
Variable read : str -> option double.
Variable readN : str -> option nat.
Variable registry : list Element.
Variables enodes snodes : list yaml.

Lemma addElementNode_spec els n e els' : addElementNode readQ els n = Ok (e, els') -> els' = els ++ [e] /\ field n $"Symbol" (YScalar (el_symbol e)).
Proof.
  unfold addElementNode. intros H. repeat (apply bind_inv in H as (? & ? & H)). injection H as <- <-. split; [reflexivity|].
  match goal with E : elementOf _ _ _ _ = Ok _ |- _ => unfold elementOf in E; destruct (is_empty _); [discriminate|]; destruct (Qltb _ 0); [discriminate|]; injection E as <- end.
  cbn [el_symbol]. apply req_string_field. assumption.
Qed.
Lemma addElementSymbol_spec els x e els' : addElementSymbol readQ registry enodes els x = Ok (e, els') -> els' = els ++ [e] /\ el_symbol e = x.
Proof.
  unfold addElementSymbol. intros H. apply bind_inv in H as (o & F & H). destruct o as [n|].
  - apply addElementNode_spec in H as [-> S]. split; [reflexivity|]. apply findNode_first in F as (_ & _ & _ & F & _).
    pose proof (field_det _ _ _ _ F S) as E. injection E. auto.
  - unfold element_withSymbol in H. rewrite first_find in H. destruct (List.find _ registry) eqn:E; [|discriminate]. injection H as <- <-.
    apply find_some in E as [_ E]. apply str_eqb_eq in E. auto.
Qed.
Lemma createElements_spec l : forall els cs els', createElements readQ registry enodes els l = Ok (cs, els') ->
  (exists more, els' = els ++ more) /\ map (fun p => (el_symbol (fst p), snd p)) cs = l /\ forall e c, In (e, c) cs -> findElement els' (el_symbol e) = Some e.
Proof.
  induction l as [|[x c] l IH]; intros els cs els' H; cbn [createElements] in H.
  - injection H as <- <-. repeat split; [exists []; rewrite app_nil_r; reflexivity|]. intros e c [].
  - apply bind_inv in H as ([e els1] & E & H). apply bind_inv in H as ([cs' els2] & E' & H). cbn [fst snd] in *. injection H as <- <-.
    apply IH in E' as ((more & ->) & M & F).
    assert (A : (exists m1, els1 = els ++ m1) /\ el_symbol e = x /\ findElement els1 (el_symbol e) = Some e).
    { destruct (findElement els x) eqn:G.
      - injection E as -> ->. pose proof (findElement_some _ _ _ G) as [S _]. subst x. repeat split; auto. exists []. rewrite app_nil_r. reflexivity.
      - apply addElementSymbol_spec in E as [-> S]. subst x. repeat split; eauto. apply findElement_new. exact G. }
    destruct A as ((m1 & ->) & S & G). repeat split.
    + exists (m1 ++ more). rewrite app_assoc. reflexivity.
    + cbn. rewrite M, S. reflexivity.
    + intros e' c' [I|I]; [injection I as -> ->; apply findElement_app; exact G|eauto].
Qed.

(* The invariant. *)
Record inv (p : Parsed) : Prop := {
  inv_once : NoDup (map ld_name (pa_species p));
  inv_before : forall pre l post, pa_species p = pre ++ l :: post -> forall r c, In (r, c) (reactants l) -> In r pre;
  inv_elements : forall l e c, In l (pa_species p) -> In (e, c) (sp_elements (ld_species l)) -> findElement (pa_elements p) (el_symbol e) = Some e;
  inv_from : forall l, In l (pa_species p) -> exists n, describes snodes (ld_name l) n /\ says readQ read readN n l }.

Notation names p := (map ld_name (pa_species p)).
Definition Rel (L : list str) (y x : str) : Prop := ~ In x L /\ ~ In y L /\ uses snodes x y.
Lemma Rel_mono L L2 y x : incl L L2 -> Rel L2 y x -> Rel L y x.
Proof. intros I (A & B & C). repeat split; auto. Qed.
Lemma clos_mono L L2 y x : incl L L2 -> clos_trans _ (Rel L2) y x -> clos_trans _ (Rel L) y x.
Proof. intros I C. induction C; [apply t_step; eapply Rel_mono; eauto|eapply t_trans; eauto]. Qed.
Lemma Acc_in L x : In x L -> Acc (Rel L) x.
Proof. intros I. constructor. intros y (A & _). contradiction. Qed.
Lemma Acc_compose L L2 : incl L L2 -> (forall z, In z L2 -> Acc (Rel L) z) -> forall y, Acc (Rel L2) y -> Acc (Rel L) y.
Proof.
  intros I G y A. induction A as [y _ IH]. destruct (in_dec str_eq_dec y L2) as [J|J]; [auto|].
  constructor. intros z (B & C & D). destruct (in_dec str_eq_dec z L2) as [K|K]; [auto|]. apply IH. repeat split; auto.
Qed.
Lemma Acc_irr {A} (R : A -> A -> Prop) x : Acc R x -> ~ clos_trans _ R x x.
Proof.
  intros H. apply Acc_clos_trans in H. induction H as [x _ IH]. intros C. exact (IH x C C).
Qed.

Record stepped (st : Parsed) (x : str) (l : Loaded) (st' : Parsed) : Prop := {
  stp_name : ld_name l = x;
  stp_inv : inv st';
  stp_in : In l (pa_species st');
  stp_more : exists more, pa_species st' = pa_species st ++ more /\
    forall y, In y (map ld_name more) -> Acc (Rel (names st)) y /\ (y = x \/ clos_trans _ (Rel (names st)) y x);
  stp_elements : exists more, pa_elements st' = pa_elements st ++ more;
  stp_acc : Acc (Rel (names st)) x }.
Definition hyp (add : Parsed -> yaml -> outcome (Loaded * Parsed)) : Prop :=
  forall st n x l st', inv st -> named n x -> (In x (names st) \/ describes snodes x n) -> add st n = Ok (l, st') -> stepped st x l st'.

Lemma createReactants_spec add : hyp add -> forall l st rs st', inv st -> createReactants snodes add st l = Ok (rs, st') ->
  inv st' /\ map (fun p => (ld_name (fst p), snd p)) rs = l /\ (forall r c, In (r, c) rs -> In r (pa_species st')) /\
  (exists more, pa_species st' = pa_species st ++ more /\
    forall y, In y (map ld_name more) -> Acc (Rel (names st)) y /\
      exists z c, In (z, c) l /\ ~ In z (names st) /\ (y = z \/ clos_trans _ (Rel (names st)) y z)) /\
  (exists more, pa_elements st' = pa_elements st ++ more) /\ (forall z c, In (z, c) l -> Acc (Rel (names st)) z).
Proof.
  intros Hy. induction l as [|[x c] l IH]; intros st rs st' I H; cbn [createReactants] in H.
  - injection H as <- <-. split; [exact I|]. split; [reflexivity|]. split; [intros r c []|]. split; [exists []; split; [rewrite app_nil_r; reflexivity|intros y []]|].
    split; [exists []; rewrite app_nil_r; reflexivity|]. intros z c [].
  - apply bind_inv in H as ([s st1] & E & H). apply bind_inv in H as ([rs' st2] & E' & H). cbn [fst snd] in *. injection H as <- <-.
    assert (S : stepped st x s st1 /\ (forall y, In y (names st1) -> ~ In y (names st) -> ~ In x (names st))).
    { destruct (findLoaded (pa_species st) x) eqn:F.
      - injection E as -> ->. apply findLoaded_some in F as [N J]. split; [|intros y A B; contradiction]. split; auto.
        + exists []. split; [rewrite app_nil_r; reflexivity|intros y []].
        + exists []. rewrite app_nil_r. reflexivity.
        + apply Acc_in. rewrite <- N. apply in_map. exact J.
      - unfold addSpeciesName in E. apply bind_inv in E as (o & G & E). destruct o as [n|]; [|discriminate].
        apply findNode_describes in G. split; [|intros; apply findLoaded_none; exact F].
        apply (Hy st n x s st1 I (describes_named _ _ _ G) (or_intror G) E). }
    destruct S as [S SN]. destruct S as [N I1 J (m1 & Q1 & P1) (e1 & X1) A1].
    destruct (IH _ _ _ I1 E') as (I2 & M & In2 & (m2 & Q2 & P2) & (e2 & X2) & A2).
    assert (Inc : incl (names st) (names st1)) by (rewrite Q1, map_app; apply incl_appl, incl_refl).
    assert (AA : forall z, In z (names st1) -> Acc (Rel (names st)) z).
    { intros z K. rewrite Q1, map_app in K. apply in_app_iff in K as [K|K]; [apply Acc_in; exact K|apply P1; exact K]. }
    assert (AC : forall y, Acc (Rel (names st1)) y -> Acc (Rel (names st)) y) by (apply Acc_compose; assumption).
    split; [exact I2|]. split; [|split; [|split; [|split]]].
    + cbn. rewrite M, N. reflexivity.
    + intros r d [K|K]; [injection K as <- <-; rewrite Q2; apply in_app_iff; left; exact J|eauto].
    + exists (m1 ++ m2). split; [rewrite Q2, Q1, app_assoc; reflexivity|]. intros y K. rewrite map_app in K. apply in_app_iff in K as [K|K].
      * destruct (P1 y K) as [B D]. split; [exact B|]. exists x, c. split; [left; reflexivity|]. split; [|exact D].
        destruct (in_dec str_eq_dec y (names st)) as [Y|Y].
        -- exfalso. pose proof (inv_once _ I1) as ND. rewrite Q1, map_app in ND. clear -ND Y K.
           induction (names st) as [|a L IHL]; [contradiction|]. cbn in ND. apply NoDup_cons_iff in ND as [ND1 ND2]. destruct Y as [->|Y]; [apply ND1, in_app_iff; auto|auto].
        -- apply (SN y); [|exact Y]. rewrite Q1, map_app. apply in_app_iff. right. exact K.
      * destruct (P2 y K) as (B & z & d & Z1 & Z2 & Z3). split; [auto|]. exists z, d. split; [right; exact Z1|]. split; [intros Z; apply Z2, Inc, Z|].
        destruct Z3 as [->|Z3]; [left; reflexivity|right; eapply clos_mono; eauto].
    + exists (e1 ++ e2). rewrite X2, X1, app_assoc. reflexivity.
    + intros z d [K|K]; [injection K as <- <-; exact A1|]. apply AC. eauto.
Qed.

Lemma speciesOf_spec a s : speciesOf a = Ok s ->
  name s = at_name a /\ sp_elements s = at_elements a /\ sp_charge s = at_charge a /\ sp_state s = at_state a /\ at_state a <> Undefined /\
  at_model a = negb (at_reaction a) /\ (exists suffix, splitSpeciesNameSuffix (at_formula a) = Ok (sp_formula s, suffix)) /\
  sp_substance s = (if is_empty (at_substance a) then sp_formula s else at_substance a) /\ sp_tags s = at_tags a /\
  sp_name s <> [] /\ sp_elements s <> [].
Proof.
  unfold speciesOf. destruct (at_name a) as [|ch nm] eqn:N; [discriminate|]. cbn [is_empty]. destruct (is_empty (at_formula a)); [discriminate|].
  destruct (is_empty (at_elements a)) eqn:M; [discriminate|]. destruct (state_eqb (at_state a) Undefined) eqn:U; [discriminate|].
  destruct (at_model a), (at_reaction a); cbn; try discriminate; intros H; apply bind_inv in H as ([f0 sx] & Ef & H); injection H as <-; cbn; repeat split; eauto; intros E; try discriminate E;
    first [rewrite E in U; discriminate U | rewrite E in M; discriminate M].
Qed.

(* What addSpecies does with a node. *)
Lemma addSpecies_inv f st n l st' : addSpecies readQ read readN registry (S f) enodes snodes st n = Ok (l, st') ->
  exists nm, named n nm /\
  (findLoaded (pa_species st) nm = Some l /\ st' = st \/
   findLoaded (pa_species st) nm = None /\
   exists sp re els' rr st1 m,
     createElementalComposition readQ registry enodes (pa_elements st) n = Ok (re, els') /\
     createFormationReaction read snodes (addSpecies readQ read readN registry f enodes snodes) (mkParsed els' (pa_species st)) n = Ok (rr, st1) /\
     createStandardThermoModel read readN n = Ok m /\
     model_initialized m = negb (reaction_initialized rr) /\
     name sp = nm /\ sp_elements sp = re /\
     (exists t, field n $"AggregateState" (YScalar t) /\ sp_state sp = parseAggregateState t /\ sp_state sp <> Undefined) /\
     opt_rational readQ n $"Charge" = Ok (sp_charge sp) /\
     (exists t suffix, field n $"Formula" (YScalar t) /\ splitSpeciesNameSuffix t = Ok (sp_formula sp, suffix)) /\
     (exists t, opt_string n $"Substance" = Ok t /\ sp_substance sp = if is_empty t then sp_formula sp else t) /\
     createTags n = Ok (sp_tags sp) /\ (sp_name sp <> [] /\ sp_elements sp <> []) /\
     l = mkLoaded sp (keep_reaction rr) m /\ st' = mkParsed (pa_elements st1) (pa_species st1 ++ [l])).
Proof.
  intros H. cbn [addSpecies] in H. do 4 (apply bind_inv in H as (? & _ & H)). apply bind_inv in H as (dr & _ & H). apply bind_inv in H as (dm & _ & H).
  destruct (negb dr && negb dm); [discriminate|]. apply bind_inv in H as (nm & N & H). apply req_string_field in N. exists nm. split; [exact N|].
  destruct (findLoaded (pa_species st) nm) as [s|] eqn:F; [left; injection H as <- <-; auto|right]. split; [reflexivity|].
  apply bind_inv in H as (formula & FO & H). apply req_string_field in FO. apply bind_inv in H as (subst_ & SU & H). apply bind_inv in H as (charge & C & H).
  apply bind_inv in H as (a & A & H). apply req_string_field in A. destruct (state_eqb (parseAggregateState a) Undefined) eqn:U; [discriminate|].
  apply bind_inv in H as ([re els'] & RE & H). apply bind_inv in H as ([rr st1] & RR & H). apply bind_inv in H as (m & M & H).
  apply bind_inv in H as (tags & TG & H). apply bind_inv in H as (sp & SP & H). cbn [fst snd] in *. injection H as <- <-.
  apply speciesOf_spec in SP as (S1 & S2 & S3 & S4 & S5 & S6 & (sx & S7) & S8 & S9 & S10 & S11). cbn in S1, S2, S3, S4, S5, S6, S7, S8, S9.
  exists sp, re, els', rr, st1, m. repeat split; auto.
  - exists a. repeat split; auto. rewrite S4. exact S5.
  - rewrite S3. exact C.
  - exists formula, sx. auto.
  - exists subst_. auto.
  - rewrite S9. exact TG.
Qed.
Lemma inv_more_elements els more sps : inv (mkParsed els sps) -> inv (mkParsed (els ++ more) sps).
Proof.
  intros [A B C D]. split; cbn in *; auto. intros l e c I J. apply findElement_app. eauto.
Qed.
Lemma NoDup_snoc {A} (l : list A) x : NoDup l -> ~ In x l -> NoDup (l ++ [x]).
Proof. intros N I. apply NoDup_app_comm || idtac. induction N as [|a l J N IH]; cbn; [repeat constructor; auto|]. constructor; [|apply IH; intros K; apply I; right; exact K]. intros K. apply in_app_iff in K as [K|[->|[]]]; [auto|apply I; left; reflexivity]. Qed.
Lemma split_snoc {A} (l : list A) x pre y post : l ++ [x] = pre ++ y :: post -> (post = [] /\ pre = l /\ y = x) \/ exists post', post = post' ++ [x] /\ l = pre ++ y :: post'.
Proof.
  intros E. destruct post as [|z post _] using rev_ind.
  - left. apply app_inj_tail in E as [-> ->]. auto.
  - right. exists post. change (pre ++ y :: post ++ [z]) with (pre ++ (y :: post) ++ [z]) in E. rewrite app_assoc in E. apply app_inj_tail in E as [-> ->]. auto.
Qed.

Lemma addSpecies_hyp f : hyp (addSpecies readQ read readN registry f enodes snodes).
Proof.
  induction f as [|f IH]; intros st n x l st' I Nx D H; [discriminate|].
  apply addSpecies_inv in H as (nm & N & H). pose proof (named_det _ _ _ N Nx) as <-. clear Nx.
  destruct H as [[F ->]|(F & sp & re & els' & rr & st1 & m & RE & RR & M & X & S1 & S2 & S3 & S4 & S5 & S6 & S7 & SS & L & ->)].
  { apply findLoaded_some in F as [F1 F2]. split; auto.
    + exists []. split; [rewrite app_nil_r; reflexivity|intros y []].
    + exists []. rewrite app_nil_r. reflexivity.
    + apply Acc_in. rewrite <- F1. apply in_map. exact F2. }
  apply findLoaded_none in F. destruct D as [D|D]; [contradiction|].
  unfold createElementalComposition in RE. apply bind_inv in RE as (tE & TE & RE). apply req_string_field in TE.
  apply createElements_spec in RE as ((mE & ->) & ME & FE).
  assert (I0 : inv (mkParsed (pa_elements st ++ mE) (pa_species st))) by (apply inv_more_elements; destruct st; exact I).
  (* the reaction *)
  assert (K : inv st1 /\ (exists e1, pa_elements st1 = (pa_elements st ++ mE) ++ e1) /\
     (exists more, pa_species st1 = pa_species st ++ more /\
        forall y, In y (map ld_name more) -> Acc (Rel (names st)) y /\ clos_trans _ (Rel (names st)) y nm) /\
     Acc (Rel (names st)) nm /\
     (forall r c, In (r, c) (match rr with Some (rs, _) => rs | None => [] end) -> In r (pa_species st1)) /\
     match rr with
     | None => forall f0, ~ field n $"FormationReaction" f0
     | Some (rs, m') => exists f0 t v, field n $"FormationReaction" f0 /\ field f0 $"Reactants" (YScalar t) /\ field f0 $"ReactionThermoModel" v /\
         map (fun p => (ld_name (fst p), snd p)) rs = parseNumberStringPairs t /\ ReactionThermoModelYAML read v = Ok m'
     end).
  { unfold createFormationReaction in RR. apply bind_inv in RR as (c & FR & RR). destruct c as [f0|].
    - apply child_field in FR. apply bind_inv in RR as (t & RT & RR). apply req_string_field in RT.
      apply bind_inv in RR as ([rs st2] & CR & RR). apply bind_inv in RR as (m' & RM & RR). cbn [fst snd] in *. injection RR as <- <-.
      unfold createReactionThermoModel in RM. apply bind_inv in RM as (v & V & RM). apply at_key_field in V.
      apply (createReactants_spec _ IH _ _ _ _ I0) in CR as (C1 & C2 & C3 & (more & C4 & C5) & (e1 & C6) & C7). cbn [pa_species pa_elements] in *.
      assert (G : forall z d, In (z, d) (parseNumberStringPairs t) -> ~ In z (names st) -> Rel (names st) z nm).
      { intros z d J1 J2. split; [exact F|]. split; [exact J2|]. exists n, f0, t, d. auto. }
      split; [exact C1|]. split; [exists e1; exact C6|]. split; [|split; [|split; [exact C3|]]].
      + exists more. split; [exact C4|]. intros y Y. destruct (C5 y Y) as (A & z & d & Z1 & Z2 & Z3). split; [exact A|].
        destruct Z3 as [->|Z3]; [apply t_step; eauto|eapply t_trans; [exact Z3|apply t_step; eauto]].
      + constructor. intros y (_ & _ & (n' & f' & t' & d & U1 & U2 & U3 & U4)).
        pose proof (describes_det _ _ _ _ D U1) as <-. pose proof (field_det _ _ _ _ FR U2) as <-.
        pose proof (field_det _ _ _ _ RT U3) as E. injection E as <-. eauto.
      + exists f0, t, v. auto.
    - injection RR as <- <-. cbn [pa_species pa_elements]. split; [exact I0|]. split; [exists []; rewrite app_nil_r; reflexivity|].
      split; [exists []; split; [rewrite app_nil_r; reflexivity|intros y []]|]. split; [|split; [intros r c []|intros f0 F0; apply child_field in F0; congruence]].
      constructor. intros y (_ & _ & (n' & f' & t' & d & U1 & U2 & U3 & U4)).
      pose proof (describes_det _ _ _ _ D U1) as <-. apply child_field in U2. congruence. }
  destruct K as (I1 & (e1 & E1) & (more & Q1 & P1) & A1 & R1 & RC).
  assert (Nl : ld_name l = nm) by (rewrite L; exact S1).
  assert (Fresh : ~ In nm (names st1)).
  { rewrite Q1, map_app. intros J. apply in_app_iff in J as [J|J]; [exact (F J)|]. destruct (P1 _ J) as [_ C]. exact (Acc_irr _ _ A1 C). }
  assert (Rl : forall r c, In (r, c) (reactants l) -> In r (pa_species st1)).
  { intros r c J. rewrite L in J. unfold reactants in J. cbn in J. unfold keep_reaction in J. destruct (reaction_initialized rr); [|destruct J]. destruct rr as [[rs m']|]; [|destruct J]. apply (R1 r c). exact J. }
  split; cbn [pa_species pa_elements]; auto.
  - destruct I1 as [J1 J2 J3 J4]. split; cbn [pa_species pa_elements].
    + rewrite map_app. cbn. apply NoDup_snoc; [exact J1|]. rewrite Nl. exact Fresh.
    + intros pre s post E r c K. apply split_snoc in E as [(-> & -> & ->)|(post' & -> & E)]; [eauto|]. eapply J2; eauto.
    + intros s e c K1 K2. apply in_app_iff in K1 as [K1|[<-|[]]]; [eauto|]. rewrite E1. apply findElement_app. apply (FE e c).
      rewrite L in K2. cbn in K2. rewrite S2 in K2. exact K2.
    + intros s K. apply in_app_iff in K as [K|[<-|[]]]; [eauto|]. exists n. rewrite Nl. split; [exact D|]. split.
      * rewrite Nl. exact N.
      * exists tE. split; [exact TE|]. rewrite L. cbn. rewrite S2. exact ME.
      * rewrite L. exact S5.
      * rewrite L. cbn. destruct S6 as (tS & S6 & S8). apply opt_string_field in S6. destruct tS as [|c0 tS]; cbn in S8.
        -- right. split; [|exact S8]. tauto.
        -- left. exists (c0 :: tS). destruct S6 as [S6|[_ S6]]; [|discriminate]. repeat split; auto. discriminate.
      * rewrite L. apply createTags_field. exact S7.
      * rewrite L. exact S3.
      * rewrite L. exact SS.
      * rewrite L. cbn. unfold opt_rational in S4. apply bind_inv in S4 as (c & C & S4). destruct c as [v|].
        -- left. apply child_field in C. unfold as_rational in S4. apply bind_inv in S4 as (t & T & S4). destruct v; try discriminate. injection T as ->.
           exists t. split; [exact C|]. destruct (readQ t) as [q|]; [|discriminate]. injection S4 as ->. reflexivity.
        -- right. injection S4 as <-. split; [|reflexivity]. intros v V. apply child_field in V. pose proof (eq_trans (eq_sym C) V). discriminate.
      * rewrite L. destruct (reaction_initialized rr) eqn:RI.
        -- left. destruct rr as [[[|r0 rs] m']|]; try discriminate. destruct RC as (f0 & t & v & B1 & B2 & B3 & B4 & B5).
           exists f0, t, v, m'. cbn. destruct m; [discriminate|]. repeat split; auto. discriminate.
        -- right. split.
           { intros f1 t1 H1 H2. destruct rr as [[[|] m']|]; try discriminate; [|destruct (RC _ H1)]. destruct RC as (f0 & t & v & B1 & B2 & B3 & B4 & B5).
             pose proof (field_det _ _ _ _ H1 B1) as ->. pose proof (field_det _ _ _ _ H2 B2) as E. injection E as ->. symmetry. exact B4. }
           unfold createStandardThermoModel in M. apply bind_inv in M as (c & C & M). destruct c as [v|]; [|injection M as <-; discriminate].
           apply child_field in C. unfold omap in M. apply bind_inv in M as (m0 & M0 & M). injection M as <-. exists v, m0. cbn. unfold keep_reaction. rewrite RI. auto.
  - apply in_app_iff. right. left. reflexivity.
  - exists (more ++ [l]). split; [rewrite Q1, app_assoc; reflexivity|]. intros y Y. rewrite map_app in Y. apply in_app_iff in Y as [Y|[<-|[]]].
    + destruct (P1 _ Y). split; auto.
    + rewrite Nl. split; auto.
  - exists (mE ++ e1). rewrite E1, app_assoc. reflexivity.
Qed.

(* ---- All nodes ---- *)
Notation add f := (addSpecies readQ read readN registry f enodes snodes).
Notation addAll f := (addAllSpecies readQ read readN registry f enodes snodes).
Lemma addAll_spec f : forall l pre st p, snodes = pre ++ l -> inv st -> (forall m, In m pre -> exists x, named m x /\ In x (names st)) -> addAll f st l = Ok p ->
  inv p /\ (forall m, In m snodes -> exists x, named m x /\ In x (names p)) /\ exists more, pa_elements p = pa_elements st ++ more.
Proof.
  induction l as [|n l IH]; intros pre st p E I P H; cbn [addAllSpecies] in H.
  - injection H as <-. rewrite app_nil_r in E. subst pre. split; [exact I|]. split; [exact P|]. exists []. rewrite app_nil_r. reflexivity.
  - apply bind_inv in H as ([s st1] & A & H). cbn [snd] in H.
    assert (S : exists x, named n x /\ stepped st x s st1).
    { destruct f as [|f]; [discriminate|]. pose proof (addSpecies_inv _ _ _ _ _ A) as (x & N & _). exists x. split; [exact N|].
      apply (addSpecies_hyp (S f) st n x s st1 I N); [|exact A].
      destruct (in_dec str_eq_dec x (names st)) as [J|J]; [left; exact J|right]. exists pre, l. split; [exact E|]. split; [exact N|].
      intros m M K. destruct (P m M) as (y & Y & Z). pose proof (named_det _ _ _ K Y) as <-. contradiction. }
    destruct S as (x & N & [S1 S2 S3 (m1 & Q1 & _) (e1 & X1) _]).
    destruct (IH (pre ++ [n]) st1 p) as (B1 & B2 & (e2 & X2)); auto.
    + rewrite <- app_assoc. exact E.
    + intros m M. apply in_app_iff in M as [M|[<-|[]]].
      * destruct (P m M) as (y & Y & Z). exists y. split; [exact Y|]. rewrite Q1, map_app. apply in_app_iff. left. exact Z.
      * exists x. split; [exact N|]. rewrite <- S1. apply in_map. exact S3.
    + split; [exact B1|]. split; [exact B2|]. exists (e1 ++ e2). rewrite X2, X1, app_assoc. reflexivity.
Qed.
Lemma inv_empty els : inv (mkParsed els []).
Proof. split; cbn; [apply NoDup_nil|intros pre l post E; destruct pre; discriminate|intros l e c []|intros l []]. Qed.
Lemma inv_ordered p : inv p -> ordered readQ read readN snodes p.
Proof. intros [A B C D]. split; auto. intros l e c I J. apply (findElement_some _ _ _ (C l e c I J)). Qed.

(* ---- Fuel ---- *)
Fixpoint chain (k : nat) (x : str) : Prop := match k with O => True | S k' => exists y, uses snodes x y /\ chain k' y end.
Lemma createReactants_ub ad : forall l st, createReactants snodes ad st l = UB -> exists y c st2 n, In (y, c) l /\ describes snodes y n /\ ad st2 n = UB.
Proof.
  induction l as [|[x c] l IH]; intros st H; cbn [createReactants] in H; [discriminate|].
  apply bind_ub in H as [H|([s st1] & E & H)].
  - destruct (findLoaded (pa_species st) x); [discriminate|]. unfold addSpeciesName in H. apply bind_ub in H as [H|(o & F & H)]; [destruct (findNode_ub _ _ _ H)|].
    destruct o as [n|]; [|discriminate]. apply findNode_describes in F. exists x, c, st, n. split; [left; reflexivity|auto].
  - apply bind_ub in H as [H|(r & _ & H)]; [|discriminate]. destruct (IH _ H) as (y & d & st2 & n & J & K). exists y, d, st2, n. split; [right; exact J|exact K].
Qed.
Lemma addElementNode_ub els n : addElementNode readQ els n <> UB.
Proof.
  unfold addElementNode. intros H. unfold req_rational, as_rational in H.
  apply bind_ub in H as [H|(? & _ & H)]; [destruct (req_string_ub _ _ H)|]. noub.
  - destruct (opt_string_ub _ _ H).
  - destruct (opt_strings_ub _ _ H).
  - unfold elementOf in H. noub.
Qed.
Lemma createElements_ub : forall l els, createElements readQ registry enodes els l <> UB.
Proof.
  induction l as [|[x c] l IH]; intros els H; cbn [createElements] in H; [discriminate|]. noub.
  - unfold addElementSymbol in H. noub; [destruct (findNode_ub _ _ _ H)|destruct (addElementNode_ub _ _ H)].
  - eapply IH; eauto.
Qed.
Lemma addSpecies_ub f : forall st n, add f st n = UB -> f = 0 \/ exists x, named n x /\ ~ In x (names st) /\ exists f0 t, field n $"FormationReaction" f0 /\ field f0 $"Reactants" (YScalar t) /\
  exists y c st2 n2, In (y, c) (parseNumberStringPairs t) /\ describes snodes y n2 /\ add (pred f) st2 n2 = UB.
Proof.
  destruct f as [|f]; intros st n H; [left; reflexivity|right]. cbn [addSpecies pred] in *. unfold defined in H.
  do 6 (apply bind_ub in H as [H|(? & _ & H)]; [noub|]). destruct (negb _ && negb _); [discriminate|].
  apply bind_ub in H as [H|(nm & N & H)]; [destruct (req_string_ub _ _ H)|]. apply req_string_field in N. exists nm. split; [exact N|].
  destruct (findLoaded (pa_species st) nm) eqn:F; [discriminate|]. split; [apply findLoaded_none; exact F|].
  apply bind_ub in H as [H|(? & _ & H)]; [destruct (req_string_ub _ _ H)|].
  apply bind_ub in H as [H|(? & _ & H)]; [destruct (opt_string_ub _ _ H)|].
  apply bind_ub in H as [H|(? & _ & H)]; [unfold opt_rational, as_rational in H; noub|].
  apply bind_ub in H as [H|(? & _ & H)]; [destruct (req_string_ub _ _ H)|].
  destruct (state_eqb _ Undefined); [discriminate|].
  apply bind_ub in H as [H|(re & _ & H)].
  { unfold createElementalComposition in H. apply bind_ub in H as [H|(? & _ & H)]; [destruct (req_string_ub _ _ H)|destruct (createElements_ub _ _ H)]. }
  apply bind_ub in H as [H|(rr & _ & H)].
  { unfold createFormationReaction in H. apply bind_ub in H as [H|(c & FR & H)]; [noub|]. destruct c as [f0|]; [|discriminate]. apply child_field in FR.
    apply bind_ub in H as [H|(t & T & H)]; [destruct (req_string_ub _ _ H)|]. apply req_string_field in T.
    apply bind_ub in H as [H|(r & _ & H)].
    - apply createReactants_ub in H as (y & c & st2 & n2 & J). exists f0, t. split; [exact FR|]. split; [exact T|]. exists y, c, st2, n2. exact J.
    - unfold createReactionThermoModel in H. noub. destruct (rxn_ub _ _ H). }
  exfalso. apply bind_ub in H as [H|(m & _ & H)]; [unfold createStandardThermoModel in H; noub; destruct (std_ub _ _ _ H)|].
  apply bind_ub in H as [H|(tags & _ & H)].
  { unfold createTags in H. noub. destruct y; noub. revert H. apply mapM_ub, as_string_ub. }
  apply bind_ub in H as [H|(? & _ & H)]; [destruct (speciesOf_ub _ H)|discriminate].
Qed.
Lemma addSpecies_chain f : forall st n x, named n x -> (In x (names st) \/ describes snodes x n) -> add f st n = UB -> chain f x.
Proof.
  induction f as [|f IH]; intros st n x N D H; [exact Logic.I|].
  apply addSpecies_ub in H as [H|(x' & N' & F & f0 & t & FR & T & y & c & st2 & n2 & J & K & U)]; [discriminate|].
  pose proof (named_det _ _ _ N N') as <-. destruct D as [D|D]; [contradiction|]. cbn [pred] in U.
  exists y. split; [exists n, f0, t, c; auto|]. apply (IH st2 n2 y (describes_named _ _ _ K) (or_intror K) U).
Qed.
Lemma addAll_chain f : forall l pre st, snodes = pre ++ l -> inv st -> (forall m, In m pre -> exists x, named m x /\ In x (names st)) -> addAll (S f) st l = UB ->
  exists x, chain (S f) x.
Proof.
  induction l as [|n l IH]; intros pre st E I P H; cbn [addAllSpecies] in H; [discriminate|].
  assert (D : forall x, named n x -> In x (names st) \/ describes snodes x n).
  { intros x N. destruct (in_dec str_eq_dec x (names st)) as [J|J]; [left; exact J|right]. exists pre, l. split; [exact E|]. split; [exact N|].
    intros m M K. destruct (P m M) as (y & Y & Z). pose proof (named_det _ _ _ K Y) as <-. contradiction. }
  apply bind_ub in H as [H|([s st1] & A & H)].
  - pose proof (addSpecies_ub _ _ _ H) as [?|(x & N & _)]; [discriminate|]. exists x. apply (addSpecies_chain _ _ _ _ N (D x N) H).
  - cbn [snd] in H. pose proof (addSpecies_inv _ _ _ _ _ A) as (x & N & _).
    pose proof (addSpecies_hyp _ _ _ _ _ _ I N (D x N) A) as [S1 S2 S3 (m1 & Q1 & _) _ _].
    apply (IH (pre ++ [n]) st1); auto.
    + rewrite <- app_assoc. exact E.
    + intros m M. apply in_app_iff in M as [M|[<-|[]]].
      * destruct (P m M) as (y & Y & Z). exists y. split; [exact Y|]. rewrite Q1, map_app. apply in_app_iff. left. exact Z.
      * exists x. split; [exact N|]. rewrite <- S1. apply in_map. exact S3.
Qed.
(* A chain longer than the document goes round a cycle. *)
Lemma chain_path k : forall x, chain k x -> exists l, length l = k /\ (forall y, In y l -> exists n, describes snodes y n) /\
  (forall y, In y l -> clos_refl_trans _ (uses snodes) x y) /\ (forall l1 a l2 b l3, l = l1 ++ a :: l2 ++ b :: l3 -> clos_trans _ (uses snodes) a b).
Proof.
  induction k as [|k IH]; intros x H.
  - exists []. split; [reflexivity|]. split; [intros y []|]. split; [intros y []|]. intros l1 a l2 b l3 E; destruct l1; discriminate.
  - destruct H as (y & U & H). destruct (IH y H) as (l & L & A & B & C). exists (x :: l). split; [cbn; congruence|]. split; [|split].
    + intros z [<-|Z]; [|auto]. destruct U as (n & _ & _ & _ & D & _). eauto.
    + intros z [<-|Z]; [apply rt_refl|]. eapply rt_trans; [apply rt_step; exact U|auto].
    + intros [|a0 l1] a l2 b l3 E; cbn in E; injection E as E1 E2.
      * subst a. assert (Z : In b l) by (rewrite E2; apply in_app_iff; right; left; reflexivity). specialize (B b Z). clear -U B.
        apply clos_rt_rtn1 in B. induction B as [|z w Z1 Z2 IH]; [apply t_step; exact U|]. eapply t_trans; [exact IH|apply t_step; exact Z1].
      * eapply C; eauto.
Qed.
Lemma not_NoDup (l : list str) : ~ NoDup l -> exists a l1 l2 l3, l = l1 ++ a :: l2 ++ a :: l3.
Proof.
  induction l as [|b l IH]; intros N; [exfalso; apply N, NoDup_nil|]. destruct (in_dec str_eq_dec b l) as [J|J].
  - apply in_split in J as (l2 & l3 & ->). exists b, [], l2, l3. reflexivity.
  - destruct IH as (a & l1 & l2 & l3 & ->); [intros M; apply N; constructor; auto|]. exists a, (b :: l1), l2, l3. reflexivity.
Qed.
Lemma chain_cyclic k x : length snodes < k -> chain k x -> cyclic snodes.
Proof.
  intros K H. destruct (chain_path k x H) as (l & L & A & _ & C).
  set (ns := flat_map (fun n => match req_string n $"Name" with Ok y => [y] | _ => [] end) snodes).
  assert (Ln : length ns <= length snodes).
  { unfold ns. clear. generalize snodes. intros s0. induction s0 as [|n s IH]; cbn [flat_map length]; [lia|]. rewrite app_length. destruct (req_string n _); cbn [length]; lia. }
  assert (Inc : incl l ns).
  { intros y Y. destruct (A y Y) as (n & D). unfold ns. apply in_flat_map. exists n. split; [eapply describes_in; eauto|].
    apply describes_named, req_string_field in D. rewrite D. left. reflexivity. }
  destruct (not_NoDup l) as (a & l1 & l2 & l3 & E).
  - intros ND. pose proof (NoDup_incl_length ND Inc). lia.
  - exists a. eapply C; eauto.
Qed.

(* More fuel changes nothing. *)
Lemma bind_mono {A B} (m : outcome A) (g h : A -> outcome B) : (forall a, m = Ok a -> g a <> UB -> h a = g a) -> bind m g <> UB -> bind m h = bind m g.
Proof. destruct m; cbn; auto. Qed.
Lemma bind_mono2 {A B} (m m' : outcome A) (g h : A -> outcome B) : (m <> UB -> m' = m) -> (forall a, g a <> UB -> h a = g a) -> bind m g <> UB -> bind m' h = bind m g.
Proof. intros E F U. rewrite E; [|intros ->; apply U; reflexivity]. destruct m; cbn in *; auto. Qed.
Lemma createReactants_mono ad ad2 : (forall st n, ad st n <> UB -> ad2 st n = ad st n) -> forall l st, createReactants snodes ad st l <> UB -> createReactants snodes ad2 st l = createReactants snodes ad st l.
Proof.
  intros M. induction l as [|[x c] l IH]; intros st; cbn [createReactants]; [reflexivity|]. apply bind_mono2.
  - destruct (findLoaded (pa_species st) x); [reflexivity|]. unfold addSpeciesName. apply bind_mono. intros [n|] _; auto.
  - intros [s st1]. cbn [fst snd]. apply bind_mono2; auto.
Qed.
Lemma addSpecies_mono f : forall st n, add f st n <> UB -> add (S f) st n = add f st n.
Proof.
  induction f as [|f IH]; intros st n; [intros U; exfalso; apply U; reflexivity|].
  change (add (S (S f)) st n) with (ltac:(let t := eval cbn [addSpecies] in (add (S (S f)) st n) in exact t)).
  change (add (S f) st n) with (ltac:(let t := eval cbn [addSpecies] in (add (S f) st n) in exact t)).
  do 6 (apply bind_mono; intros ? _). destruct (negb _ && negb _); [reflexivity|]. apply bind_mono; intros x _.
  destruct (findLoaded (pa_species st) x); [reflexivity|]. do 4 (apply bind_mono; intros ? _). destruct (state_eqb _ Undefined); [reflexivity|].
  apply bind_mono; intros re _. apply bind_mono2; [|auto].
  unfold createFormationReaction. apply bind_mono; intros [f0|] _; [|reflexivity]. apply bind_mono; intros t _. apply bind_mono2; [|auto].
  apply createReactants_mono. exact IH.
Qed.
Lemma addAll_mono f : forall l st, addAll f st l <> UB -> addAll (S f) st l = addAll f st l.
Proof.
  induction l as [|n l IH]; intros st; cbn [addAllSpecies]; [reflexivity|]. apply bind_mono2; [apply addSpecies_mono|]. intros [s st1]. apply IH.
Qed.
End Parser.
