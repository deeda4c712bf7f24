(* Proofs about the species, database, phase and system model. *)
From Coq Require Import Sorted Permutation.
From Verif Require Import Base M_Strings S_Strings P_Strings M_Formula P_Formula M_Chem M_Algorithms P_Algorithms M_System S_System.

(* ---- generic facts ---- *)
Lemma Selected_filter {A} (P : A -> Prop) (p : A -> bool) l :
  (forall x, In x l -> (p x = true <-> P x)) -> Selected P l (List.filter p l).
Proof.
  induction l as [|x l IH]; intro H; cbn; [constructor|].
  assert (IH' := IH (fun y I => H y (or_intror I))).
  destruct (p x) eqn:E; constructor; auto; [apply H; [left; auto|exact E]|].
  intro Px. apply (H x) in Px; [congruence|left; auto].
Qed.

Lemma Selected_unique {A} (P : A -> Prop) l r1 r2 : Selected P l r1 -> Selected P l r2 -> r1 = r2.
Proof.
  intro H. revert r2. induction H; intros r2 H2; inversion H2; subst; try contradiction; auto; f_equal; auto.
Qed.

Lemma First_indexfn {A} (P : A -> Prop) (p : A -> bool) l :
  (forall x, p x = true <-> P x) ->
  (forall s, First P l s -> nth_error l (indexfn l p) = Some s) /\
  ((~ exists s, In s l /\ P s) -> nth_error l (indexfn l p) = None) /\
  (forall s, nth_error l (indexfn l p) = Some s -> First P l s).
Proof.
  intro H. destruct (indexfn_split l p) as [(a & x & b & -> & Px & Ha & E)|[Hn E]]; rewrite E.
  - assert (Hx : nth_error (a ++ x :: b) (length a) = Some x) by (rewrite nth_error_app2, Nat.sub_diag; auto).
    rewrite Hx. assert (F : First P (a ++ x :: b) x).
    { exists a, b. repeat split; auto; [apply H; exact Px|]. intros y I Py. apply H in Py. rewrite (Ha y I) in Py. discriminate. }
    repeat split.
    + intros s (a' & b' & E' & Ps & Ha'). f_equal.
      destruct (Nat.lt_trichotomy (length a) (length a')) as [L|[L|L]].
      * exfalso. apply (Ha' x); [|apply H; exact Px].
        assert (nth_error (a' ++ s :: b') (length a) = Some x) by (rewrite <- E'; exact Hx).
        rewrite nth_error_app1 in H0 by exact L. eapply nth_error_In; eauto.
      * assert (nth_error (a' ++ s :: b') (length a) = Some x) by (rewrite <- E'; exact Hx).
        rewrite L, nth_error_app2, Nat.sub_diag in H0 by lia. cbn in H0. congruence.
      * exfalso. assert (Hs : nth_error (a ++ x :: b) (length a') = Some s) by (rewrite E', nth_error_app2, Nat.sub_diag; auto).
        rewrite nth_error_app1 in Hs by exact L. apply nth_error_In in Hs. apply Ha in Hs. apply H in Ps. congruence.
    + intro N. exfalso. apply N. exists x. split; [apply in_elt|apply H; exact Px].
    + intros s Es. injection Es as <-. exact F.
  - assert (Hx : nth_error l (length l) = None) by (apply nth_error_None; lia). rewrite Hx.
    repeat split; auto; [|discriminate].
    intros s (a & b & -> & Ps & _). exfalso. apply H in Ps. rewrite (Hn s) in Ps; [discriminate|apply in_elt].
Qed.

Lemma mapM_Forall2 {A B} (f : A -> outcome B) l r : mapM f l = Ok r <-> Forall2 (fun a b => f a = Ok b) l r.
Proof.
  revert r. induction l as [|a l IH]; intro r; cbn.
  - split; [intros [= <-]; constructor|inversion 1; reflexivity].
  - split.
    + destruct (f a) eqn:E; cbn; try discriminate. destruct (mapM f l) eqn:E2; cbn; try discriminate.
      intros [= <-]. constructor; auto. apply IH. reflexivity.
    + inversion 1 as [|? ? ? ? E F]; subst. rewrite E. cbn. apply IH in F. rewrite F. reflexivity.
Qed.

Lemma mapM_err {A B} (f : A -> outcome B) l : (forall a, In a l -> f a <> UB) -> (exists a, In a l /\ f a = Err) -> mapM f l = Err.
Proof.
  induction l as [|a l IH]; intros H (x & I & E); cbn; [destruct I|]. destruct I as [<-|I].
  - rewrite E. reflexivity.
  - destruct (f a) eqn:Ea; cbn; auto.
    + rewrite IH; auto; [intros; apply H; right; auto|exists x; auto].
    + exfalso. apply (H a); [left|]; auto.
Qed.

Lemma mapM_noUB {A B} (f : A -> outcome B) l : (forall a, In a l -> f a <> UB) -> mapM f l <> UB.
Proof.
  induction l as [|a l IH]; intros H; cbn; [discriminate|].
  destruct (f a) eqn:Ea; cbn; try discriminate; [|exfalso; apply (H a); [left|]; auto].
  destruct (mapM f l) eqn:E; cbn; try discriminate. exfalso. apply IH; auto. intros; apply H; right; auto.
Qed.

Lemma ofilter_Ok {A} (f : A -> outcome bool) l r : ofilter f l = Ok r <->
  (forall x, In x l -> is_ok (f x) = true) /\ r = List.filter (fun x => match f x with Ok b => b | _ => false end) l.
Proof.
  revert r. induction l as [|x l IH]; intro r; cbn.
  - split; [intros [= <-]; split; auto; intros x []|intros [_ ->]; reflexivity].
  - destruct (f x) as [b| |] eqn:E; cbn.
    + destruct (ofilter f l) as [r'| |] eqn:E2; cbn.
      * destruct (proj1 (IH r') eq_refl) as [H ->]. split.
        -- intros [= <-]. split; [intros y [<-|I]; [rewrite E|]; auto|destruct b; auto].
        -- intros [_ ->]. destruct b; reflexivity.
      * split; [discriminate|]. intros [H _]. destruct (IH (List.filter (fun x => match f x with Ok b => b | _ => false end) l)) as [_ IH2].
        discriminate IH2. split; auto.
      * split; [discriminate|]. intros [H _]. destruct (IH (List.filter (fun x => match f x with Ok b => b | _ => false end) l)) as [_ IH2].
        discriminate IH2. split; auto.
    + split; [discriminate|]. intros [H _]. specialize (H x (or_introl eq_refl)). rewrite E in H. discriminate.
    + split; [discriminate|]. intros [H _]. specialize (H x (or_introl eq_refl)). rewrite E in H. discriminate.
Qed.

Lemma state_eqb_eq a b : state_eqb a b = true <-> a = b.
Proof. destruct a, b; split; intro H; try reflexivity; discriminate H. Qed.

(* ---- order on strings ---- *)
Lemma str_ltb_irrefl a : str_ltb a a = false.
Proof. induction a as [|x a IH]; cbn; auto. rewrite N.ltb_irrefl, N.eqb_refl, IH. reflexivity. Qed.
Lemma code_inj x y : code x = code y -> x = y.
Proof. unfold code. intro H. rewrite <- (ascii_N_embedding x), <- (ascii_N_embedding y), H. reflexivity. Qed.
Lemma str_ltb_trans a b c : str_ltb a b = true -> str_ltb b c = true -> str_ltb a c = true.
Proof.
  revert b c. induction a as [|x a IH]; intros [|y b] [|z c]; cbn; try discriminate; auto.
  rewrite !orb_true_iff, !andb_true_iff, !N.ltb_lt, !N.eqb_eq.
  intros [H1|[H1 H1']] [H2|[H2 H2']]; try (left; lia). right. split; [congruence|eauto].
Qed.
Lemma str_ltb_total a b : str_ltb a b = true \/ a = b \/ str_ltb b a = true.
Proof.
  revert b. induction a as [|x a IH]; intros [|y b]; cbn; auto.
  rewrite !orb_true_iff, !andb_true_iff, !N.ltb_lt, !N.eqb_eq.
  destruct (N.lt_trichotomy (code x) (code y)) as [H|[H|H]]; auto.
  destruct (IH b) as [H'|[->|H']]; auto. apply code_inj in H. subst. auto.
Qed.

Lemma merge_str_in a b x : In x (merge_str a b) <-> In x a \/ In x b.
Proof.
  apply (merge_spec str_eqb str_eqb_eq str_ltb); unfold P_Algorithms.lt.
  - exact str_ltb_trans.
  - intros y H. rewrite str_ltb_irrefl in H. discriminate.
  - exact str_ltb_total.
Qed.
Lemma merge_str_sorted a b : StronglySorted (fun x y => str_ltb x y = true) (merge_str a b).
Proof.
  apply (merge_spec str_eqb str_eqb_eq str_ltb); unfold P_Algorithms.lt.
  - exact str_ltb_trans.
  - intros y H. rewrite str_ltb_irrefl in H. discriminate.
  - exact str_ltb_total.
Qed.
Lemma sorted_same_eq l1 l2 : StronglySorted (fun x y => str_ltb x y = true) l1 -> StronglySorted (fun x y => str_ltb x y = true) l2 ->
  (forall x, In x l1 <-> In x l2) -> l1 = l2.
Proof.
  intros S1. revert l2. induction S1 as [|x l1 S1 IH F1]; intros l2 S2 H.
  - destruct l2 as [|y l2]; auto. destruct (proj2 (H y) (or_introl eq_refl)).
  - destruct S2 as [|y l2 S2 F2]; [destruct (proj1 (H x) (or_introl eq_refl))|].
    rewrite Forall_forall in F1, F2.
    assert (E : x = y).
    { destruct (proj1 (H x) (or_introl eq_refl)) as [->|I]; auto.
      destruct (proj2 (H y) (or_introl eq_refl)) as [->|I']; auto.
      pose proof (str_ltb_trans _ _ _ (F1 _ I') (F2 _ I)) as L. rewrite str_ltb_irrefl in L. discriminate. }
    subst y. f_equal. apply IH; auto. intro z. split; intro I.
    + destruct (proj1 (H z) (or_intror I)) as [<-|]; auto. specialize (F1 _ I). rewrite str_ltb_irrefl in F1. discriminate.
    + destruct (proj2 (H z) (or_intror I)) as [<-|]; auto. specialize (F2 _ I). rewrite str_ltb_irrefl in F2. discriminate.
Qed.

(* ---- database ---- *)
Lemma bangs_S w k : bangs (w ++ $"!") k = bangs w (S k).
Proof. unfold bangs. rewrite <- app_assoc. reflexivity. Qed.
Lemma bangs_inj w j k : bangs w j = bangs w k -> j = k.
Proof. unfold bangs. intro H. apply app_inv_head in H. apply (f_equal (@length _)) in H. rewrite !repeat_length in H. exact H. Qed.

Lemma unique_name_run fuel names : forall n,
  match unique_name fuel names n with
  | Ok u => exists k, u = bangs n k /\ ~ In u names /\ forall j, j < k -> In (bangs n j) names
  | Err => False
  | UB => forall j, j < fuel -> In (bangs n j) names
  end.
Proof.
  induction fuel as [|f IH]; intro n; cbn [unique_name]; [intros; lia|].
  assert (B0 : bangs n 0 = n) by (unfold bangs; apply app_nil_r).
  destruct (contains str_eqb names n) eqn:C.
  - apply (contains_spec str_eqb str_eqb_eq) in C. specialize (IH (n ++ $"!")).
    destruct (unique_name f names (n ++ $"!")) as [u| |]; auto.
    + destruct IH as (k & -> & N & H). exists (S k). rewrite bangs_S in *. repeat split; auto.
      intros [|j] L; [rewrite B0; auto|]. rewrite <- bangs_S. apply H. lia.
    + intros [|j] L; [rewrite B0; auto|]. rewrite <- bangs_S. apply IH. lia.
  - exists 0. rewrite B0. repeat split; auto; [|intros; lia].
    intro I. apply (contains_spec str_eqb str_eqb_eq) in I. congruence.
Qed.

Lemma unique_name_ok names n : exists k, unique_name (S (length names)) names n = Ok (bangs n k) /\ ~ In (bangs n k) names /\
  forall j, j < k -> In (bangs n j) names.
Proof.
  pose proof (unique_name_run (S (length names)) names n) as H.
  destruct (unique_name (S (length names)) names n) as [u| |].
  - destruct H as (k & -> & N & L). exists k. auto.
  - destruct H.
  - exfalso.
    assert (I : incl (map (bangs n) (seq 0 (S (length names)))) names).
    { intros x I. apply in_map_iff in I as (j & <- & J). apply in_seq in J. apply H. lia. }
    apply NoDup_incl_length in I.
    + rewrite map_length, seq_length in I. lia.
    + apply FinFun.Injective_map_NoDup; [intros i j; apply bangs_inj|apply seq_NoDup].
Qed.

Definition state_of (a : AggregateState) (s : Species) : Prop := aggregateState s = Ok a.
Definition in_state (a : AggregateState) (s : Species) : bool :=
  match aggregateState s with Ok b => state_eqb b a | _ => false end.
Lemma in_state_spec a s : in_state a s = true <-> state_of a s.
Proof.
  unfold in_state, state_of. destruct (aggregateState s); [rewrite state_eqb_eq| |]; split; intro H; try discriminate; congruence.
Qed.

Definition inv (db : Database) : Prop :=
  (forall n, In n (db_names db) <-> In n (map name (db_species db))) /\
  NoDup (map name (db_species db)) /\
  (forall x, In x (db_symbols db) <-> In x (map el_symbol (db_elements db))) /\
  NoDup (map el_symbol (db_elements db)) /\
  (forall s p, In s (db_species db) -> In p (sp_elements s) -> In (el_symbol (fst p)) (map el_symbol (db_elements db))) /\
  (forall s, In s (db_species db) -> exists a, aggregateState s = Ok a /\ a <> Undefined) /\
  (forall a, find_group (db_groups db) a = List.filter (in_state a) (db_species db)).

Lemma addElement_spec db e : let db' := addElement db e in
  db_species db' = db_species db /\ db_names db' = db_names db /\ db_groups db' = db_groups db /\
  (exists es, db_elements db' = db_elements db ++ es) /\
  (inv db -> (forall x, In x (db_symbols db') <-> In x (map el_symbol (db_elements db'))) /\
     NoDup (map el_symbol (db_elements db')) /\ In (el_symbol e) (map el_symbol (db_elements db')) /\
     (forall x, In x (map el_symbol (db_elements db)) -> In x (map el_symbol (db_elements db')))).
Proof.
  cbv zeta. unfold addElement. destruct (contains str_eqb (db_symbols db) (el_symbol e)) eqn:C; cbn.
  - apply (contains_spec str_eqb str_eqb_eq) in C. repeat split; auto.
    + exists []. rewrite app_nil_r. reflexivity.
    + apply H.
    + apply H.
    + apply H.
    + apply H. exact C.
  - repeat split; auto; [exists [e]; reflexivity| | | | |]; destruct H as (_ & _ & HS & ND & _); rewrite map_app; cbn.
    + intros [<-|I]; apply in_or_app; [right; left; reflexivity|left; apply HS; exact I].
    + intro I. apply in_app_or in I as [I|[<-|[]]]; [right; apply HS; exact I|left; reflexivity].
    + apply (Permutation_NoDup (l := el_symbol e :: map el_symbol (db_elements db))); [apply Permutation_cons_append|].
      constructor; auto. intro I. apply HS, (contains_spec str_eqb str_eqb_eq) in I. congruence.
    + apply in_or_app; right; left; reflexivity.
    + intros x I. apply in_or_app; left; exact I.
Qed.

Lemma addElement_inv db e : inv db -> inv (addElement db e).
Proof.
  intro I. destruct (addElement_spec db e) as (E1 & E2 & E3 & _ & H). destruct (H I) as (H1 & H2 & H3 & H4).
  destruct I as (A & B & _ & _ & C & D & G). unfold inv. rewrite E1, E2, E3.
  refine (conj A (conj B (conj H1 (conj H2 (conj _ (conj D G)))))).
  intros s p I J. apply H4. eapply C; eauto.
Qed.

Lemma find_group_add g a s b :
  find_group (add_group g a s) b = find_group g b ++ (if state_eqb a b then [s] else []).
Proof.
  induction g as [|[c l] g IH]; cbn.
  - reflexivity.
  - destruct (state_eqb c a) eqn:E; cbn.
    + apply state_eqb_eq in E. subst c. destruct (state_eqb a b); [reflexivity|rewrite app_nil_r; reflexivity].
    + destruct (state_eqb c b) eqn:F; auto. apply state_eqb_eq in F. subst c.
      destruct (state_eqb a b) eqn:G; [|rewrite app_nil_r; reflexivity].
      apply state_eqb_eq in G. subst. rewrite (proj2 (state_eqb_eq b b) eq_refl) in E. discriminate.
Qed.

(* The species actually stored. *)
Definition kept (s s' : Species) : Prop :=
  sp_formula s' = sp_formula s /\ sp_substance s' = sp_substance s /\ sp_elements s' = sp_elements s /\
  sp_charge s' = sp_charge s /\ sp_tags s' = sp_tags s.

Lemma name_with_name s n : n <> [] -> name (with_name s n) = n.
Proof. destruct n; [contradiction|reflexivity]. Qed.

Lemma fold_addElement_spec es : forall db, let db' := fold_left addElement es db in
  db_species db' = db_species db /\ db_names db' = db_names db /\ db_groups db' = db_groups db /\
  (exists xs, db_elements db' = db_elements db ++ xs).
Proof.
  induction es as [|e es IH]; intro db; cbn.
  - repeat split; auto. exists []. rewrite app_nil_r. reflexivity.
  - destruct (IH (addElement db e)) as (A & B & C & (xs & D)). destruct (addElement_spec db e) as (A' & B' & C' & (ys & D') & _).
    rewrite A, B, C, A', B', C'. repeat split; auto. exists (ys ++ xs). rewrite D, D', app_assoc. reflexivity.
Qed.

Definition inv_el (db : Database) : Prop :=
  (forall x, In x (db_symbols db) <-> In x (map el_symbol (db_elements db))) /\ NoDup (map el_symbol (db_elements db)).

Lemma addElement_el db e : inv_el db -> inv_el (addElement db e) /\ In (el_symbol e) (map el_symbol (db_elements (addElement db e))).
Proof.
  intros [HS ND]. unfold addElement. destruct (contains str_eqb (db_symbols db) (el_symbol e)) eqn:C.
  - apply (contains_spec str_eqb str_eqb_eq) in C. split; [split; auto|apply HS; exact C].
  - unfold inv_el; cbn. rewrite map_app; cbn. repeat split.
    + intros [<-|I]; apply in_or_app; [right; left; reflexivity|left; apply HS; exact I].
    + intro I. apply in_app_or in I as [I|[<-|[]]]; [right; apply HS; exact I|left; reflexivity].
    + apply (Permutation_NoDup (l := el_symbol e :: map el_symbol (db_elements db))); [apply Permutation_cons_append|].
      constructor; auto. intro I. apply HS, (contains_spec str_eqb str_eqb_eq) in I. congruence.
    + apply in_or_app; right; left; reflexivity.
Qed.

Lemma fold_addElement_el es : forall db, inv_el db -> inv_el (fold_left addElement es db) /\
  (forall e, In e es -> In (el_symbol e) (map el_symbol (db_elements (fold_left addElement es db)))).
Proof.
  induction es as [|e es IH]; intros db I; cbn; [split; auto; intros e []|].
  destruct (addElement_el db e I) as [I' J]. destruct (IH _ I') as [I2 J2]. split; auto.
  intros x [<-|K]; auto. destruct (fold_addElement_spec es (addElement db e)) as (_ & _ & _ & (xs & ->)).
  rewrite map_app. apply in_or_app. left. exact J.
Qed.

Lemma addSpecies_spec db s db' : addSpecies db s = Ok db' -> exists k s',
  db_species db' = db_species db ++ [s'] /\
  (exists es, db_elements db' = db_elements db ++ es) /\
  db_names db' = name s' :: db_names db /\
  name s' = bangs (name s) k /\ ~ In (name s') (db_names db) /\ (forall j, j < k -> In (bangs (name s) j) (db_names db)) /\
  kept s s' /\
  (exists a, aggregateState s' = Ok a /\ a <> Undefined /\
     aggregateState (if Nat.eqb k 0 then s else with_name s (name s')) = Ok (if state_eqb (sp_state s) (sp_state s') then a else Undefined) /\
     db_groups db' = add_group (db_groups db) a s') /\
  (inv_el db -> inv_el db' /\ forall p, In p (sp_elements s') -> In (el_symbol (fst p)) (map el_symbol (db_elements db'))).
Proof.
  unfold addSpecies. destruct (unique_name_ok (db_names db) (name s)) as (k & -> & N & L). cbn [bind].
  set (s1 := if str_eqb (name s) (bangs (name s) k) then s else with_name s (bangs (name s) k)).
  assert (B0 : bangs (name s) 0 = name s) by (unfold bangs; apply app_nil_r).
  assert (K : str_eqb (name s) (bangs (name s) k) = Nat.eqb k 0).
  { destruct (Nat.eqb_spec k 0) as [->|Nk]; [rewrite B0; apply str_eqb_refl|].
    apply str_eqb_neq. intro E. rewrite <- B0 in E at 1. apply bangs_inj in E. auto. }
  assert (Nn : k <> 0 -> bangs (name s) k <> []).
  { intros Nk E. unfold bangs in E. apply app_eq_nil in E as [_ E]. destruct k; [auto|discriminate]. }
  assert (N1 : name s1 = bangs (name s) k).
  { unfold s1. rewrite K. destruct (Nat.eqb_spec k 0) as [->|Nk]; auto. apply name_with_name. auto. }
  assert (K1 : kept s s1) by (unfold s1, kept; destruct (str_eqb _ _); cbn; auto 6).
  assert (S1 : sp_state s1 = sp_state s) by (unfold s1; destruct (str_eqb _ _); cbn; auto).
  assert (M1 : (if Nat.eqb k 0 then s else with_name s (name s1)) = s1) by (rewrite N1; unfold s1; rewrite K; reflexivity).
  destruct (aggregateState s1) as [a1| |] eqn:A1; cbn [bind]; try discriminate.
  set (s2 := match a1 with Undefined => with_state s1 Aqueous | _ => s1 end).
  assert (N2 : name s2 = name s1) by (unfold s2; destruct a1; reflexivity).
  assert (A2 : exists a2, aggregateState s2 = Ok a2 /\ a2 <> Undefined /\
     aggregateState (if Nat.eqb k 0 then s else with_name s (name s2)) = Ok (if state_eqb (sp_state s) (sp_state s2) then a2 else Undefined)).
  { rewrite N2, M1, <- S1, A1. unfold s2.
    destruct a1; try (eexists; split; [exact A1|]; rewrite (proj2 (state_eqb_eq _ _) eq_refl); split; [discriminate|reflexivity]).
    exists Aqueous. split; [reflexivity|]. split; [discriminate|]. cbn.
    unfold aggregateState in A1. destruct (sp_state s1) eqn:E; cbn; try discriminate. reflexivity. }
  assert (K2 : kept s s2).
  { unfold s2. destruct K1 as (?&?&?&?&?). destruct a1; unfold kept; cbn; auto 6. }
  destruct A2 as (a2 & A2 & U & A3). rewrite A2. cbn [bind].
  set (db1 := mkDB (db_species db ++ [s2]) (db_elements db) (db_symbols db) (name s2 :: db_names db) (db_groups db)).
  intros [= <-].
  destruct (fold_addElement_spec (map fst (sp_elements s2)) db1) as (F1 & F2 & F3 & (es & F4)).
  assert (HE : inv_el db -> inv_el (fold_left addElement (map fst (sp_elements s2)) db1) /\
    forall p, In p (sp_elements s2) -> In (el_symbol (fst p)) (map el_symbol (db_elements (fold_left addElement (map fst (sp_elements s2)) db1)))).
  { intro I. destruct (fold_addElement_el (map fst (sp_elements s2)) db1 I) as [I2 I3]. split; auto.
    intros p J. apply I3. apply in_map. exact J. }
  exists k, s2. split; [exact F1|]. split; [exists es; exact F4|]. split; [exact F2|].
  split; [rewrite N2; exact N1|]. split; [rewrite N2, N1; exact N|]. split; [exact L|]. split; [exact K2|].
  split; [|exact HE].
  exists a2. split; [exact A2|]. split; [exact U|]. split; [exact A3|]. cbn [db_groups]. rewrite F3. reflexivity.
Qed.

Lemma addSpecies_inv db s db' : inv db -> addSpecies db s = Ok db' -> inv db'.
Proof.
  intros (A & B & HS & ND & C & D & G) H.
  destruct (addSpecies_spec db s db' H) as (k & s' & E1 & (es & E2) & E3 & N & F & _ & K & (a & A1 & U & _ & E4) & HE).
  destruct (HE (conj HS ND)) as [[HS' ND'] HP].
  unfold inv. rewrite E1, E3, E4. repeat split; auto.
  - rewrite map_app. cbn. intros [<-|I]; apply in_or_app; [right; left; reflexivity|left; apply A; exact I].
  - rewrite map_app. cbn. intro I. apply in_app_or in I as [I|[<-|[]]]; [right; apply A; exact I|left; reflexivity].
  - rewrite map_app. cbn. apply (Permutation_NoDup (l := name s' :: map name (db_species db))); [apply Permutation_cons_append|].
    constructor; auto. rewrite <- A. exact F.
  - intro I. apply HS'. exact I.
  - intro I. apply HS'. exact I.
  - intros s0 p I J. apply in_app_or in I as [I|[<-|[]]]; [|apply HP; exact J].
    rewrite E2, map_app. apply in_or_app. left. eapply C; eauto.
  - intros s0 I. apply in_app_or in I as [I|[<-|[]]]; [apply D; exact I|]. exists a. auto.
  - intro b. rewrite find_group_add, G, filter_app. f_equal. cbn. unfold in_state. rewrite A1. reflexivity.
Qed.

Lemma empty_inv : inv emptyDB.
Proof. unfold inv; cbn. repeat split; try tauto; try constructor; try (intros; contradiction). Qed.

Lemma dbstep_inv db op db' : inv db -> dbstep db op = Ok db' -> inv db'.
Proof.
  intros I. destruct op as [e|s|]; cbn.
  - intros [= <-]. apply addElement_inv; exact I.
  - destruct (addSpecies db s) as [d| |] eqn:E; intros [= <-]; auto. eapply addSpecies_inv; eauto.
  - intros [= <-]. apply empty_inv.
Qed.

Lemma dbrun_inv ops : forall db db', inv db -> dbrun db ops = Ok db' -> inv db'.
Proof.
  induction ops as [|op ops IH]; intros db db' I; cbn.
  - intros [= <-]. exact I.
  - destruct (dbstep db op) as [d| |] eqn:E; cbn; try discriminate. apply IH. eapply dbstep_inv; eauto.
Qed.

Lemma addSpecies_total db s : sp_state s <> Undefined -> exists db', addSpecies db s = Ok db'.
Proof.
  intro H. unfold addSpecies. destruct (unique_name_ok (db_names db) (name s)) as (k & -> & _ & _). cbn [bind].
  set (s1 := if str_eqb (name s) (bangs (name s) k) then s else with_name s (bangs (name s) k)).
  assert (A : aggregateState s1 = Ok (sp_state s)).
  { unfold s1. destruct (str_eqb _ _); unfold aggregateState; cbn; destruct (sp_state s); congruence. }
  rewrite A. cbn [bind]. destruct (sp_state s) eqn:E; try congruence; rewrite A; cbn [bind]; eexists; reflexivity.
Qed.

(* ---- species list queries ---- *)
Lemma at_index_spec (P : Species -> Prop) (p : Species -> bool) l : (forall x, p x = true <-> P x) ->
  (forall s, at_index l (indexfn l p) = Ok s <-> First P l s) /\
  (at_index l (indexfn l p) = Err <-> ~ exists s, In s l /\ P s) /\
  at_index l (indexfn l p) <> UB.
Proof.
  intro H. destruct (First_indexfn P p l H) as (F1 & F2 & F3). unfold at_index. repeat split.
  - destruct (nth_error l (indexfn l p)) as [s'|] eqn:E; [|discriminate]. intros [= ->]. apply F3. reflexivity.
  - intro F. rewrite (F1 s F). reflexivity.
  - destruct (nth_error l (indexfn l p)) as [s'|] eqn:E; [discriminate|]. intros _ (s & I & Ps).
    apply nth_error_None in E. assert (L : indexfn l p < length l) by (apply indexfn_lt; exists s; split; auto; apply H; auto). lia.
  - intro N. rewrite (F2 N). reflexivity.
  - destruct (nth_error l (indexfn l p)); discriminate.
Qed.

Lemma getWithName_spec l n :
  (forall s, getWithName l n = Ok s <-> First (fun s => name s = n) l s) /\
  (getWithName l n = Err <-> ~ exists s, In s l /\ name s = n) /\ getWithName l n <> UB.
Proof. apply at_index_spec. intro x. apply str_eqb_eq. Qed.

Lemma Forall2_iff {A B} (P Q : A -> B -> Prop) l r : (forall a b, P a b <-> Q a b) -> Forall2 P l r <-> Forall2 Q l r.
Proof. intro H. split; intro F; induction F; constructor; auto; apply H; auto. Qed.

Lemma withNames_spec l names :
  (forall r, withNames l names = Ok r <-> Forall2 (fun n s => First (fun s => name s = n) l s) names r) /\
  (withNames l names = Err <-> exists n, In n names /\ ~ exists s, In s l /\ name s = n) /\
  withNames l names <> UB.
Proof.
  assert (U : withNames l names <> UB) by (apply mapM_noUB; intros n _; apply getWithName_spec).
  repeat split; auto.
  - intro H. apply mapM_Forall2 in H. exact (proj1 (Forall2_iff _ _ _ _ (fun n s => proj1 (getWithName_spec l n) s)) H).
  - intro H. apply mapM_Forall2. exact (proj2 (Forall2_iff _ _ _ _ (fun n s => proj1 (getWithName_spec l n) s)) H).
  - unfold withNames in *. induction names as [|n ns IH]; cbn in *; [discriminate|].
    destruct (getWithName l n) eqn:E; cbn in *; try congruence.
    + destruct (mapM (getWithName l) ns); cbn in *; try congruence. intros _.
      destruct IH as (m & I & J); try congruence. exists m. auto.
    + intros _. exists n. split; auto. apply getWithName_spec. exact E.
  - intros (n & I & J). apply mapM_err; [intros; apply getWithName_spec|]. exists n. split; auto. apply getWithName_spec. exact J.
Qed.

Lemma contains_str l x : contains str_eqb l x = true <-> In x l.
Proof. apply (contains_spec str_eqb str_eqb_eq). Qed.
Lemma contained_str a b : M_Algorithms.contained str_eqb a b = true <-> forall x, In x a -> In x b.
Proof. apply (P_Algorithms.contained_spec str_eqb str_eqb_eq). Qed.

Lemma filter_Selected {A} (P : A -> Prop) (p : A -> bool) l : (forall x, p x = true <-> P x) -> Selected P l (filter l p).
Proof. intro H. rewrite filter_eq. apply Selected_filter. auto. Qed.

Lemma withTag_spec l tag : tag <> [] -> Selected (fun s => In tag (sp_tags s)) l (withTag l tag).
Proof. intro H. destruct tag; [contradiction|]. apply filter_Selected. intro x. apply contains_str. Qed.
Lemma withoutTag_spec l tag : tag <> [] -> Selected (fun s => ~ In tag (sp_tags s)) l (withoutTag l tag).
Proof. intro H. destruct tag; [contradiction|]. apply filter_Selected. intro x. rewrite negb_true_iff, <- contains_str. symmetry. apply not_true_iff_false. Qed.
Lemma withTags_spec l tags : tags <> [] -> Selected (fun s => forall t, In t tags -> In t (sp_tags s)) l (withTags l tags).
Proof. intro H. destruct tags; [contradiction|]. apply filter_Selected. intro x. apply contained_str. Qed.
Lemma withoutTags_spec l tags : Selected (fun s => tags = [] \/ exists t, In t tags /\ ~ In t (sp_tags s)) l (withoutTags l tags).
Proof.
  destruct tags as [|t0 ts].
  - cbn. induction l; constructor; auto.
  - unfold withoutTags. apply filter_Selected. intro x. rewrite negb_true_iff, <- not_true_iff_false, contained_str. split.
    + intro H. right. destruct (Exists_dec (fun t => ~ In t (sp_tags x)) (t0 :: ts)) as [E|E].
      * intro t. destruct (in_dec str_eq_dec t (sp_tags x)); [right; auto|left; auto].
      * apply Exists_exists in E. exact E.
      * exfalso. apply H. intros t I. destruct (in_dec str_eq_dec t (sp_tags x)); auto. exfalso. apply E, Exists_exists. eauto.
    + intros [D|(t & I & J)] H; [discriminate|]. auto.
Qed.
Lemma withElements_spec l syms : Selected (fun s => forall e q, In (e, q) (sp_elements s) -> In (el_symbol e) syms) l (withElements l syms).
Proof.
  apply filter_Selected. intro s. rewrite contained_str. unfold symbols. split.
  - intros H e q I. apply H. apply in_map_iff. exists (e, q). auto.
  - intros H x I. apply in_map_iff in I as ([e q] & <- & I). eapply H; eauto.
Qed.
Lemma withAggregateState_spec l a :
  (forall r, withAggregateState l a = Ok r <-> (forall s, In s l -> exists b, aggregateState s = Ok b) /\ Selected (state_of a) l r).
Proof.
  intro r. unfold withAggregateState. rewrite ofilter_Ok.
  assert (S : Selected (state_of a) l (List.filter (fun x => match omap (fun b => state_eqb b a) (aggregateState x) with Ok b => b | _ => false end) l)).
  { apply Selected_filter. intros x _. rewrite <- in_state_spec. unfold in_state. destruct (aggregateState x); cbn; tauto. }
  split; intros [H1 H2]; split.
  - intros s I. specialize (H1 s I). destruct (aggregateState s); try discriminate. eauto.
  - subst r. exact S.
  - intros s I. destruct (H1 s I) as (b & ->). reflexivity.
  - eapply Selected_unique; eauto.
Qed.

Lemma oindex_spec {A} (f : A -> outcome bool) l : (forall x, In x l -> is_ok (f x) = true) ->
  oindex f l = Ok (indexfn l (fun x => match f x with Ok b => b | _ => false end)).
Proof.
  induction l as [|x l IH]; intro H; cbn; auto.
  pose proof (H x (or_introl eq_refl)) as Hx. destruct (f x) as [[|]| |]; try discriminate; cbn; auto.
  rewrite IH by (intros; apply H; right; auto). reflexivity.
Qed.

Lemma withFormulas_spec l formulas r : withFormulas l formulas = Ok r <->
  Forall2 (fun f s => exists cf, mkChemicalFormula f = Ok cf /\ First (fun s => equivalent cf (formula s) = true) l s) formulas r.
Proof.
  unfold withFormulas. rewrite mapM_Forall2. apply Forall2_iff. intros f s. split.
  - destruct (mkChemicalFormula f) as [cf| |]; cbn; try discriminate. intro H. exists cf. split; auto.
    apply (at_index_spec (fun s => equivalent cf (formula s) = true)) in H; [exact H|]. tauto.
  - intros (cf & -> & F). cbn. apply (at_index_spec (fun s => equivalent cf (formula s) = true)); [tauto|exact F].
Qed.

Lemma withSubstances_spec l xs r : (forall s, In s l -> exists y, substance s = Ok y) ->
  (withSubstances l xs = Ok r <-> Forall2 (fun x s => First (fun s => substance s = Ok x) l s) xs r).
Proof.
  intro H. unfold withSubstances. rewrite mapM_Forall2. apply Forall2_iff. intros x s.
  unfold findWithSubstance. rewrite oindex_spec; [cbn [bind]|intros y I; destruct (H y I) as (z & ->); reflexivity].
  apply (at_index_spec (fun s => substance s = Ok x)). intro y.
  destruct (substance y) as [z| |]; cbn; [rewrite str_eqb_eq| |]; split; intro E; try discriminate; congruence.
Qed.

Lemma formulas_symbols_spec formulas : forall acc r, formulas_symbols acc formulas = Ok r ->
  forall x, In x r <-> In x acc \/ exists f cf, In f formulas /\ mkChemicalFormula f = Ok cf /\ In x (map fst (cf_elements cf)).
Proof.
  induction formulas as [|f fs IH]; intros acc r; cbn.
  - intros [= <-] x. split; auto. intros [|(f & cf & [] & _)]; auto.
  - destruct (mkChemicalFormula f) as [cf| |] eqn:E; cbn; try discriminate. intros H x.
    rewrite (IH _ _ H). rewrite merge_str_in. split.
    + intros [[I|I]|(g & cg & I & J)]; auto; right; [exists f, cf|exists g, cg]; auto. 
    + intros [I|(g & cg & [<-|I] & Eg & J)]; auto; [left; right; congruence|right; exists g, cg; auto].
Qed.

Lemma withElementsOf_spec l formulas r : withElementsOf l formulas = Ok r ->
  Selected (fun s => forall e q, In (e, q) (sp_elements s) ->
    exists f cf, In f formulas /\ mkChemicalFormula f = Ok cf /\ In (el_symbol e) (map fst (cf_elements cf))) l r.
Proof.
  unfold withElementsOf. destruct (formulas_symbols [] formulas) as [syms| |] eqn:E; cbn; try discriminate. intros [= <-].
  unfold withElements. rewrite filter_eq. apply Selected_filter. intros s _. rewrite contained_str. split.
  - intros H e q I. destruct (proj1 (formulas_symbols_spec _ _ _ E (el_symbol e))) as [[]|K]; auto. apply H.
    unfold symbols. apply in_map_iff. exists (e, q). auto.
  - intros H x I. apply in_map_iff in I as ([e q] & <- & I). apply (formulas_symbols_spec _ _ _ E). right. eapply H; eauto.
Qed.
