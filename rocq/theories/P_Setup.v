(* The optimization problem: rows of the linear constraints and bounds. *)
From Verif Require Import Base S_System S_State S_Chem M_Strings M_Formula M_Chem M_Algorithms M_System M_Units M_State M_Specs M_Setup
  S_Equilibrium P_Algorithms P_System P_Phases P_State P_State2 P_State3 P_Props P_Specs P_Specs2 P_Conditions.

Fixpoint fcoef (l : list (str * Q)) (e : str) : Q :=
  match l with [] => 0%Q | (x, c) :: l' => if str_eqb x e then c else fcoef l' e end.
Lemma fcoef_Holds l e c : listed_once l -> Holds l e c <-> fcoef l e = c.
Proof.
  unfold listed_once, Holds. induction l as [|[x q] l IH]; cbn [map fst fcoef]; intro D.
  - cbn. intuition congruence.
  - inversion D; subst. destruct (str_eqb_spec x e) as [->|N].
    + split.
      * intros [[H|H]|[H _]]; [congruence| |exfalso; apply H; left; reflexivity]. apply (in_map fst) in H. contradiction.
      * intros ->. left. left. reflexivity.
    + rewrite <- IH by auto. cbn [In]. split.
      * intros [[H|H]|[H ->]]; [congruence|auto|right; split; auto].
      * intros [H|[H ->]]; [auto|right; split; auto]. intros [K|K]; auto.
Qed.
Lemma fcoef_in l e : In e (map fst l) -> listed_once l -> In (e, fcoef l e) l.
Proof. intros I L. destruct (fcoef_Holds l e (fcoef l e) L) as [_ H]. destruct (H eq_refl) as [K|[K _]]; auto. contradiction. Qed.
Lemma el_fcoef l e : el_coefficient l e = fcoef (map (fun p => (el_symbol (fst p), snd p)) l) e.
Proof. induction l as [|[x q] l IH]; cbn; auto. rewrite IH. reflexivity. Qed.

Section S.
Variable sys : ChemicalSystem.
Hypothesis distinct : NoDup (map el_symbol (sys_elements sys)).

Lemma element_index_spec x i : element_index sys x = Ok i <-> exists e, nth_error (sys_elements sys) i = Some e /\ el_symbol e = x.
Proof.
  unfold element_index. destruct (indexfn_split (sys_elements sys) (fun e => str_eqb (el_symbol e) x)) as [(a & z & b & E & P & N & I)|[N I]]; rewrite I.
  - assert (L : length a < length (sys_elements sys)) by (rewrite E, app_length; cbn; lia).
    destruct (Nat.leb_spec (length (sys_elements sys)) (length a)); [lia|]. apply str_eqb_eq in P. split.
    + intro K. injection K as <-. exists z. split; auto. rewrite E, nth_error_app2, Nat.sub_diag by lia. reflexivity.
    + intros (e & K & S). f_equal. apply (proj1 (NoDup_nth_error (map el_symbol (sys_elements sys))) distinct).
      * rewrite map_length. exact L.
      * rewrite !nth_error_map, K, E, nth_error_app2, Nat.sub_diag by lia. cbn. congruence.
  - destruct (Nat.leb_spec (length (sys_elements sys)) (length (sys_elements sys))); [|lia]. split; [discriminate|].
    intros (e & K & S). apply nth_error_In in K. apply N in K. apply str_eqb_neq in K. contradiction.
Qed.
Lemma element_index_cases x : (exists i, element_index sys x = Ok i /\ In x (map el_symbol (sys_elements sys))) \/
  (element_index sys x = Err /\ ~ In x (map el_symbol (sys_elements sys))).
Proof.
  destruct (element_index sys x) as [i| |] eqn:E.
  - left. exists i. split; auto. apply element_index_spec in E as (e & N & <-). apply in_map. eapply nth_error_In; eauto.
  - right. split; auto. intro I. apply in_map_iff in I as (e & <- & I). apply In_nth_error in I as (i & N).
    assert (K : element_index sys (el_symbol e) = Ok i) by (apply element_index_spec; eauto). congruence.
  - exfalso. unfold element_index in E. destruct (_ <=? _) in E; discriminate.
Qed.

Lemma fill_spec l : forall vec v, listed_once l -> fill_elements sys vec l = Ok v -> length (sys_elements sys) <= length vec ->
  length v = length vec /\
  (forall k e, nth_error (sys_elements sys) k = Some e ->
     nth_error v k = if in_dec str_eq_dec (el_symbol e) (map fst l) then Some (fcoef l (el_symbol e)) else nth_error vec k) /\
  (forall k, length (sys_elements sys) <= k -> nth_error v k = nth_error vec k).
Proof.
  induction l as [|[x c] l IH]; intros vec v L H G.
  - cbn in H. injection H as <-. cbn. auto.
  - cbn [fill_elements] in H. destruct (element_index sys x) as [i| |] eqn:E; cbn [bind] in H; try discriminate.
    apply element_index_spec in E as (z & Nz & Sz). assert (Li : i < length (sys_elements sys)) by (apply nth_error_Some; congruence).
    unfold listed_once in L. cbn [map fst] in L. inversion L as [|? ? NI L']; subst.
    destruct (IH (upd vec i c) v L' H) as (A & B & C). { rewrite upd_length. auto. }
    rewrite upd_length in A. split; auto. split.
    + intros k e N. rewrite (B k e N), upd_nth. cbn [map fst fcoef].
      destruct (Nat.eqb_spec k i) as [->|NK]; cbn [andb].
      * assert (e = z) by congruence. subst e. destruct (Nat.ltb_spec i (length vec)); [|lia].
        destruct (in_dec str_eq_dec (el_symbol z) (map fst l)); [contradiction|].
        destruct (in_dec str_eq_dec (el_symbol z) (el_symbol z :: map fst l)) as [_|K]; [|exfalso; apply K; left; reflexivity].
        destruct (str_eqb_spec (el_symbol z) (el_symbol z)); [reflexivity|contradiction].
      * assert (Ne : el_symbol z <> el_symbol e).
        { intro S. apply NK. apply (proj1 (NoDup_nth_error (map el_symbol (sys_elements sys))) distinct).
          - rewrite map_length. apply nth_error_Some. congruence. - rewrite !nth_error_map, N, Nz. cbn. congruence. }
        destruct (str_eqb_spec (el_symbol z) (el_symbol e)); [contradiction|].
        destruct (in_dec str_eq_dec (el_symbol e) (map fst l)) as [I|I], (in_dec str_eq_dec (el_symbol e) (el_symbol z :: map fst l)) as [J|J]; auto.
        -- exfalso. apply J. right. auto. -- destruct J; contradiction.
    + intros k Lk. rewrite (C k Lk), upd_nth. destruct (Nat.eqb_spec k i); [lia|reflexivity].
Qed.
Lemma fill_total l : forall vec, (forall x, In x (map fst l) -> In x (map el_symbol (sys_elements sys))) -> exists v, fill_elements sys vec l = Ok v.
Proof.
  induction l as [|[x c] l IH]; intros vec H; cbn [fill_elements]; eauto.
  destruct (element_index_cases x) as [(i & -> & _)|[_ N]]; [|exfalso; apply N, H; left; reflexivity].
  cbn [bind]. apply IH. intros y I. apply H. right. auto.
Qed.
Lemma fill_err l : forall vec, (exists x, In x (map fst l) /\ ~ In x (map el_symbol (sys_elements sys))) -> fill_elements sys vec l = Err.
Proof.
  induction l as [|[x c] l IH]; intros vec (y & I & N); [contradiction|]. cbn [fill_elements].
  destruct (element_index_cases x) as [(i & -> & Ix)|[-> _]]; cbn [bind]; auto. apply IH. destruct I as [<-|I]; [contradiction|eauto].
Qed.

(* The k-th entry that a substance contributes. *)
Definition entry (f : ChemicalFormula) (k : nat) : Q :=
  match nth_error (sys_elements sys) k with Some e => fcoef (cf_elements f) (el_symbol e) | None => cf_charge f end.
Lemma vector_spec f v : listed_once (cf_elements f) -> assembleFormulaVector sys f = Ok v ->
  v = map (entry f) (seq 0 (length (sys_elements sys) + 1)).
Proof.
  unfold assembleFormulaVector. intros L H. set (m := length (sys_elements sys)) in *.
  destruct (fill_spec _ _ _ L H) as (A & B & C). { rewrite upd_length, repeat_length. lia. }
  rewrite upd_length, repeat_length in A. apply list_ext. intro k. destruct (Nat.lt_ge_cases k (m + 1)) as [Lk|Lk].
  - rewrite nth_seq_map by auto. unfold entry. destruct (nth_error (sys_elements sys) k) as [e|] eqn:N.
    + rewrite (B k e N). destruct (in_dec str_eq_dec (el_symbol e) (map fst (cf_elements f))) as [I|I]; auto.
      assert (k < m) by (apply nth_error_Some; congruence).
      rewrite upd_nth. destruct (Nat.eqb_spec k (m + 1 - 1)); [lia|]. cbn [andb]. rewrite nth_error_repeat by lia. f_equal. symmetry.
      apply fcoef_Holds; auto. right. auto.
    + apply nth_error_None in N. fold m in N. assert (k = m) by lia. subst k. rewrite C by (unfold m; lia). rewrite upd_nth, repeat_length.
      destruct (Nat.eqb_spec m (m + 1 - 1)); [|lia]. destruct (Nat.ltb_spec (m + 1 - 1) (m + 1)); [reflexivity|lia].
  - rewrite (proj2 (nth_error_None v k)) by lia. symmetry. apply nth_error_None. rewrite map_length, seq_length. lia.
Qed.
Lemma vectors_spec l cols : Forall (fun f => listed_once (cf_elements f)) l -> mapM (assembleFormulaVector sys) l = Ok cols ->
  cols = map (fun f => map (entry f) (seq 0 (length (sys_elements sys) + 1))) l.
Proof.
  intros F H. apply mapM_Forall2 in H. induction H as [|f v l cols E H IH]; cbn; auto. inversion F; subst.
  f_equal; auto. apply vector_spec; auto.
Qed.
Lemma vectors_ok l : (exists cols, mapM (assembleFormulaVector sys) l = Ok cols) <-> Forall (composed_in sys) l.
Proof.
  split.
  - intros (cols & H). apply mapM_Forall2 in H. induction H as [|f v l cols E H IH]; constructor; auto.
    intros x I. destruct (in_dec str_eq_dec x (map el_symbol (sys_elements sys))) as [J|J]; auto. exfalso.
    unfold assembleFormulaVector in E. rewrite fill_err in E; [discriminate|eauto].
  - intro F. induction F as [|f l C F (cols & IH)]; [exists []; reflexivity|]. destruct (fill_total (cf_elements f) (upd (repeat 0%Q (length (sys_elements sys) + 1)) (length (sys_elements sys) + 1 - 1) (cf_charge f)) C) as (v & E).
    exists (v :: cols). cbn. unfold assembleFormulaVector at 1. rewrite E. cbn [bind]. rewrite IH. reflexivity.
Qed.
Lemma vectors_noUB l : mapM (assembleFormulaVector sys) l <> UB.
Proof.
  apply mapM_noUB. intros f _. unfold assembleFormulaVector.
  generalize (upd (repeat 0%Q (length (sys_elements sys) + 1)) (length (sys_elements sys) + 1 - 1) (cf_charge f)).
  induction (cf_elements f) as [|[x c] l' IH]; intro vec; cbn [fill_elements]; [discriminate|].
  destruct (element_index_cases x) as [(i & -> & _)|[-> _]]; cbn [bind]; [apply IH|discriminate].
Qed.
Lemma columns_row n cols k : k < n -> nth_error (of_columns n cols) k = Some (map (fun c => nth k c 0%Q) cols).
Proof. intro L. unfold of_columns. apply (nth_seq_map (fun k => map (fun c => nth k c 0%Q) cols)). auto. Qed.
Lemma entries_row l k : k < length (sys_elements sys) + 1 ->
  map (fun c => nth k c 0%Q) (map (fun f => map (entry f) (seq 0 (length (sys_elements sys) + 1))) l) = map (fun f => entry f k) l.
Proof.
  intro L. rewrite map_map. apply map_ext. intro f. rewrite nth_indep with (d' := entry f 0) by (rewrite map_length, seq_length; auto).
  rewrite map_nth, seq_nth by auto. reflexivity.
Qed.

Hypothesis rows : length (sys_matrix sys) = length (sys_elements sys) + 1.
Lemma Aex_row s A k row : Forall (fun f => listed_once (cf_elements f)) (q_implicit s) -> assembleMatrixAex sys s = Ok A ->
  nth_error (sys_matrix sys) k = Some row -> nth_error A k = Some (row ++ map (fun f => entry f k) (q_implicit s)).
Proof.
  intros F H N. unfold assembleMatrixAex in H. destruct (mapM _ _) as [cols| |] eqn:E; cbn [omap bind] in H; try discriminate. injection H as <-.
  assert (L : k < length (sys_elements sys) + 1) by (rewrite <- rows; apply nth_error_Some; congruence).
  apply zip_nth; auto. rewrite columns_row by auto. f_equal. rewrite (vectors_spec _ _ F E). apply entries_row. auto.
Qed.
Lemma Aex_length s A : assembleMatrixAex sys s = Ok A -> length A = length (sys_elements sys) + 1.
Proof.
  unfold assembleMatrixAex. destruct (mapM _ _) as [cols| |]; cbn [omap bind]; try discriminate. intro H. injection H as <-.
  rewrite zip_length, rows. unfold of_columns. rewrite map_length, seq_length. lia.
Qed.
Lemma repeat_col k n j : map (fun c => nth k c 0%Q) (repeat (repeat 0%Q n) j) = repeat 0%Q j.
Proof. induction j; cbn; auto. f_equal; auto. clear. revert k. induction n; destruct k; cbn; auto. Qed.
Definition offset (s : Specs) : nat := b2n (q_unknownT s) + b2n (q_unknownP s).
Lemma Aep_row s A k : Forall (fun f => listed_once (cf_elements f)) (q_explicit s) -> assembleMatrixAep sys s = Ok A ->
  k < length (sys_elements sys) + 1 -> nth_error A k = Some (repeat 0%Q (offset s) ++ map (fun f => entry f k) (q_explicit s)).
Proof.
  intros F H L. unfold assembleMatrixAep in H. destruct (mapM _ _) as [cols| |] eqn:E; cbn [omap bind] in H; try discriminate. injection H as <-.
  rewrite columns_row by auto. f_equal. rewrite map_app, repeat_col. f_equal. rewrite (vectors_spec _ _ F E). apply entries_row. auto.
Qed.
Lemma Aep_length s A : assembleMatrixAep sys s = Ok A -> length A = length (sys_elements sys) + 1.
Proof.
  unfold assembleMatrixAep. destruct (mapM _ _) as [cols| |]; cbn [omap bind]; try discriminate. intro H. injection H as <-.
  unfold of_columns. rewrite map_length, seq_length. reflexivity.
Qed.
Lemma dotQ_zeros j l t : (dotQ (repeat 0%Q j ++ l) t == dotQ l (skipn j t))%Q.
Proof.
  revert t. induction j as [|j IH]; intro t; [reflexivity|]. destruct t as [|x t]; cbn [repeat app skipn].
  - unfold dotQ. rewrite !combine_nil. reflexivity.
  - unfold dotQ in *. cbn. rewrite IH. ring.
Qed.
Lemma Holds_list {A} (f : A -> list (str * Q)) e l c : Forall (fun x => listed_once (f x)) l ->
  Forall2 (fun x c => Holds (f x) e c) l c <-> c = map (fun x => fcoef (f x) e) l.
Proof.
  intro F. split.
  - intro H. induction H; cbn; auto. inversion F; subst. f_equal; auto. symmetry. apply fcoef_Holds; auto.
  - intros ->. induction F; cbn; constructor; auto. apply fcoef_Holds; auto.
Qed.

Lemma rows_conserved s Aex Aep n q p b :
  (forall sp, In sp (sys_species sys) -> listed_once (composition sp)) ->
  (forall k e, nth_error (sys_elements sys) k = Some e -> nth_error (sys_matrix sys) k = Some (map (fun sp => el_coefficient (sp_elements sp) (el_symbol e)) (sys_species sys))) ->
  nth_error (sys_matrix sys) (length (sys_elements sys)) = Some (map sp_charge (sys_species sys)) ->
  Forall (fun f => listed_once (cf_elements f)) (q_implicit s) -> Forall (fun f => listed_once (cf_elements f)) (q_explicit s) ->
  assembleMatrixAex sys s = Ok Aex -> assembleMatrixAep sys s = Ok Aep ->
  length n = length (sys_species sys) -> length b = length (sys_elements sys) + 1 ->
  (forall k rx rp bk, nth_error Aex k = Some rx -> nth_error Aep k = Some rp -> nth_error b k = Some bk -> (dotQ rx (n ++ q) + dotQ rp p == bk)%Q) <->
  Conserved sys (q_implicit s) (q_explicit s) n q (skipn (offset s) p) b.
Proof.
  intros LS HM HC FI FE HX HP Ln Lb. rewrite <- Forall_forall in LS.
  assert (RX : forall k row, nth_error (sys_matrix sys) k = Some row -> length row = length n ->
    forall rx, nth_error Aex k = Some rx -> (dotQ rx (n ++ q) == dotQ row n + dotQ (map (fun f => entry f k) (q_implicit s)) q)%Q).
  { intros k row N L rx E. rewrite (Aex_row _ _ _ _ FI HX N) in E. injection E as <-. apply dotQ_app. auto. }
  assert (RP : forall k, k < length (sys_elements sys) + 1 -> forall rp, nth_error Aep k = Some rp ->
    (dotQ rp p == dotQ (map (fun f => entry f k) (q_explicit s)) (skipn (offset s) p))%Q).
  { intros k L rp E. rewrite (Aep_row _ _ _ FE HP L) in E. injection E as <-. apply dotQ_zeros. }
  assert (EX : forall k, k < length (sys_elements sys) + 1 -> exists rx rp bk, nth_error Aex k = Some rx /\ nth_error Aep k = Some rp /\ nth_error b k = Some bk).
  { intros k L. pose proof (Aex_length _ _ HX). pose proof (Aep_length _ _ HP).
    destruct (nth_error Aex k) eqn:E1; [|apply nth_error_None in E1; lia]. destruct (nth_error Aep k) eqn:E2; [|apply nth_error_None in E2; lia].
    destruct (nth_error b k) eqn:E3; [|apply nth_error_None in E3; lia]. eauto 7. }
  assert (EN : forall l k e, nth_error (sys_elements sys) k = Some e -> map (fun f => entry f k) l = map (fun f => fcoef (cf_elements f) (el_symbol e)) l).
  { intros l k e N. apply map_ext. intro f. unfold entry. rewrite N. reflexivity. }
  assert (EC : forall l, map (fun f => entry f (length (sys_elements sys))) l = map cf_charge l).
  { intro l. apply map_ext. intro f. unfold entry. rewrite (proj2 (nth_error_None (sys_elements sys) (length (sys_elements sys)))) by lia. reflexivity. }
  assert (EL : forall e, map (fun sp => el_coefficient (sp_elements sp) (el_symbol e)) (sys_species sys) = map (fun sp => fcoef (composition sp) (el_symbol e)) (sys_species sys)).
  { intro e. apply map_ext. intro sp. apply el_fcoef. }
  split.
  - intro H. split.
    + intros k e N. assert (L : k < length (sys_elements sys)) by (apply nth_error_Some; congruence).
      destruct (EX k) as (rx & rp & bk & E1 & E2 & E3); [lia|]. do 4 eexists. split; [apply Holds_list; auto; reflexivity|].
      split; [apply (Holds_list cf_elements); auto; reflexivity|]. split; [apply (Holds_list cf_elements); auto; reflexivity|]. split; [exact E3|].
      rewrite <- (H k rx rp bk E1 E2 E3). rewrite (RX k _ (HM k e N)) by (try exact E1; rewrite map_length; auto). rewrite (RP k) by (try exact E2; lia).
      rewrite !(EN _ k e N), (EL e). reflexivity.
    + destruct (EX (length (sys_elements sys))) as (rx & rp & bk & E1 & E2 & E3); [lia|]. exists bk. split; auto.
      rewrite <- (H _ rx rp bk E1 E2 E3). rewrite (RX _ _ HC) by (try exact E1; rewrite map_length; auto). rewrite (RP (length (sys_elements sys))) by (try exact E2; lia).
      rewrite !EC. reflexivity.
  - intros [H1 H2] k rx rp bk E1 E2 E3.
    destruct (nth_error (sys_elements sys) k) as [e|] eqn:N.
    + assert (L : k < length (sys_elements sys)) by (apply nth_error_Some; congruence).
      destruct (H1 k e N) as (cn & cq & ct & bk' & A1 & A2 & A3 & A4 & A5). assert (bk' = bk) by congruence. subst bk'. rewrite <- A5.
      apply Holds_list in A1; auto. apply (Holds_list cf_elements) in A2; auto. apply (Holds_list cf_elements) in A3; auto. subst.
      rewrite (RX k _ (HM k e N)) by (try exact E1; rewrite map_length; auto). rewrite (RP k) by (try exact E2; lia).
      rewrite !(EN _ k e N), (EL e). reflexivity.
    + apply nth_error_None in N. assert (k < length b) by (apply nth_error_Some; congruence). assert (k = length (sys_elements sys)) by lia. subst k.
      destruct H2 as (bk' & B1 & B2). assert (bk' = bk) by congruence. subst bk'. rewrite <- B2.
      rewrite (RX _ _ HC) by (try exact E1; rewrite map_length; auto). rewrite (RP (length (sys_elements sys))) by (try exact E2; lia).
      rewrite !EC. reflexivity.
Qed.
End S.
