(* C143: reactions and phases are values. *)
From Verif Require Import Base M_Chem M_Algorithms M_System M_State M_Shared C_Naming.
Local Open Scope nat_scope.

(* What a program means if each variable holds its own data. *)
Inductive Meaning {T E} (fresh : T) (Edited : E -> T -> T -> Prop) (Refused : E -> Prop) : list T -> list (op E) -> list T -> Prop :=
| m_end vals : Meaning fresh Edited Refused vals [] vals
| m_new vals prog r : Meaning fresh Edited Refused (vals ++ [fresh]) prog r -> Meaning fresh Edited Refused vals (ONew :: prog) r
| m_copy vals i v prog r : nth_error vals i = Some v -> Meaning fresh Edited Refused (vals ++ [v]) prog r -> Meaning fresh Edited Refused vals (OCopy i :: prog) r
| m_assign a x b j v prog r : nth_error (a ++ x :: b) j = Some v -> Meaning fresh Edited Refused (a ++ v :: b) prog r -> Meaning fresh Edited Refused (a ++ x :: b) (OAssign (length a) j :: prog) r
| m_with vals i e v v' prog r : nth_error vals i = Some v -> Edited e v v' -> Meaning fresh Edited Refused (vals ++ [v']) prog r -> Meaning fresh Edited Refused vals (OWith i e :: prog) r
| m_throw vals i e prog r : Refused e -> Meaning fresh Edited Refused vals prog r -> Meaning fresh Edited Refused vals (OWith i e :: prog) r.

(* Each method of a reaction changes what its name says, and nothing else. *)
Inductive RxnEdited {Eq K R} : REdit Eq K R -> Rxn Eq K R -> Rxn Eq K R -> Prop :=
| re_name n q k r m : RxnEdited (RName m) (mkRxn n q k r) (mkRxn m q k r)
| re_equation n q k r m : RxnEdited (REquation m) (mkRxn n q k r) (mkRxn n m k r)
| re_lnK n q k r m : RxnEdited (RLnK m) (mkRxn n q k r) (mkRxn n q m r)
| re_rate n q k r m : RxnEdited (RRate m) (mkRxn n q k r) (mkRxn n q k m).
(* So does each method of a phase; species are taken if they have one aggregate state. *)
Definition OneState (l : list Species) : Prop := l <> [] /\ exists a, Forall (fun s => aggregateState s = Ok a) l.
Inductive PhEdited {M F} : PEdit M F -> Ph M F -> Ph M F -> Prop :=
| pe_name n m l f g w x : PhEdited (PName x) (mkPh n m l f g w) (mkPh x m l f g w)
| pe_species n m l f g w x : OneState x -> PhEdited (PSpecies x) (mkPh n m l f g w) (mkPh n m x f g (map molarMass x))
| pe_state n m l f g w x : PhEdited (PState x) (mkPh n m l f g w) (mkPh n x l f g w)
| pe_activity n m l f g w x : PhEdited (PActivity x) (mkPh n m l f g w) (mkPh n m l x g w)
| pe_ideal n m l f g w x : PhEdited (PIdeal x) (mkPh n m l f g w) (mkPh n m l f x w).
Inductive PhRefused {M F} : PEdit M F -> Prop := pr_species l : ~ OneState l -> PhRefused (PSpecies l).

(* ---- Proofs ---- *)
Lemma upd_at {A} (a : list A) x b v : upd (a ++ x :: b) (length a) v = a ++ v :: b.
Proof.
  unfold upd. rewrite skipn_app, skipn_all, Nat.sub_diag. cbn [skipn app]. rewrite firstn_app, firstn_all, Nat.sub_diag. cbn [firstn]. rewrite app_nil_r. reflexivity.
Qed.
Lemma nth_last {A} (h : list A) x d : nth (length h) (h ++ [x]) d = x.
Proof. rewrite app_nth2, Nat.sub_diag; [reflexivity|lia]. Qed.
Section Generic.
Context {T E : Type} (fresh : T) (check : E -> outcome unit) (set : E -> T -> T) (Edited : E -> T -> T -> Prop) (Refused : E -> Prop).
Hypothesis edits : forall e v, check e = Ok tt -> Edited e v (set e v).
Hypothesis refuses : forall e, check e = Err -> Refused e.
Definition Inside (s : Store T) : Prop := Forall (fun p => p < length (heap s)) (vars s).
Lemma reads_more h l x : Forall (fun p => p < length h) l -> map (fun p => nth p (h ++ [x]) fresh) l = map (fun p => nth p h fresh) l.
Proof. intros H. apply map_ext_in. intros p I. rewrite Forall_forall in H. apply app_nth1. exact (H p I). Qed.
Lemma inside_more h l (x : T) : Forall (fun p => p < length h) l -> Inside (mkStore (h ++ [x]) (l ++ [length h])).
Proof.
  intros H. unfold Inside. cbn [heap vars]. rewrite app_length. cbn. apply Forall_app. split; [|repeat constructor; lia]. eapply Forall_impl; [|exact H]. cbn. intros; lia.
Qed.
Lemma clone_spec h p : p < length h -> clone fresh h p = (length h, h ++ [nth p h fresh]).
Proof. intros L. unfold clone, construct. rewrite upd_at, app_nth1 by exact L. reflexivity. Qed.
Lemma run_means prog : forall s s', Inside s -> run fresh check set s prog = Ok s' -> Inside s' /\ Meaning fresh Edited Refused (reads fresh s) prog (reads fresh s').
Proof.
  induction prog as [|o prog IH]; intros s s' I H; cbn [run] in H.
  - injection H as <-. split; [exact I|constructor].
  - destruct s as [h l]. unfold Inside in I. cbn in I. destruct o as [|i|i j|i e]; cbn [step heap vars] in H.
    + unfold construct in H. destruct (IH _ _ (inside_more h l fresh I) H) as (I' & M). split; [exact I'|]. apply m_new.
      unfold reads in M at 1. cbn [heap vars] in M. rewrite map_app, reads_more in M by exact I. cbn [map] in M. rewrite nth_last in M. exact M.
    + destruct (nth_error l i) as [p|] eqn:N; [|discriminate H].
      assert (I1 : Inside (mkStore h (l ++ [p]))).
      { apply Forall_app. split; [exact I|]. repeat constructor. rewrite Forall_forall in I. apply I. eapply nth_error_In. exact N. }
      destruct (IH _ _ I1 H) as (I' & M). split; [exact I'|]. apply m_copy with (v := nth p h fresh).
      { unfold reads. cbn [heap vars]. rewrite nth_error_map, N. reflexivity. }
      unfold reads in M at 1. cbn [heap vars] in M. rewrite map_app in M. exact M.
    + destruct (nth_error l i) as [q|] eqn:Ni; [|discriminate H]. destruct (nth_error l j) as [p|] eqn:Nj; [|discriminate H].
      apply nth_error_split in Ni as (a & b & -> & <-). rewrite upd_at in H.
      assert (Lp : p < length h). { rewrite Forall_forall in I. apply I. eapply nth_error_In. exact Nj. }
      assert (I1 : Inside (mkStore h (a ++ p :: b))).
      { apply Forall_app in I as (Ia & Ib). inversion Ib; subst. apply Forall_app. split; [exact Ia|constructor; assumption]. }
      destruct (IH _ _ I1 H) as (I' & M). split; [exact I'|]. unfold reads at 1. cbn [heap vars]. rewrite map_app. cbn [map].
      replace (length a) with (length (map (fun p => nth p h fresh) a)) by apply map_length. apply m_assign with (v := nth p h fresh).
      { change (nth q h fresh :: map (fun p => nth p h fresh) b) with (map (fun p => nth p h fresh) (q :: b)). rewrite <- map_app, nth_error_map, Nj. reflexivity. }
      unfold reads in M at 1. cbn [heap vars] in M. rewrite map_app in M. exact M.
    + destruct (nth_error l i) as [p|] eqn:N; [|discriminate H].
      assert (Lp : p < length h). { rewrite Forall_forall in I. apply I. eapply nth_error_In. exact N. }
      unfold withEdit in H. rewrite clone_spec in H by exact Lp. destruct (check e) as [[]| |] eqn:C; cbn [bind omap fst snd] in H; [| |discriminate H].
      * rewrite nth_last, upd_at in H. destruct (IH _ _ (inside_more h l _ I) H) as (I' & M). split; [exact I'|].
        apply m_with with (v := nth p h fresh) (v' := set e (nth p h fresh)); [|apply edits; exact C|].
        { unfold reads. cbn [heap vars]. rewrite nth_error_map, N. reflexivity. }
        unfold reads in M at 1. cbn [heap vars] in M. rewrite map_app, reads_more in M by exact I. cbn [map] in M. rewrite nth_last in M. exact M.
      * destruct (IH (mkStore h l) _ I H) as (I' & M). split; [exact I'|]. apply m_throw; [apply refuses; exact C|exact M].
Qed.
End Generic.
Lemma all_state_spec a l : all_state a l = Ok tt <-> Forall (fun s => aggregateState s = Ok a) l.
Proof.
  induction l as [|s l IH]; cbn [all_state]; [split; [constructor|reflexivity]|]. split.
  - intros H. destruct (aggregateState s) as [b| |] eqn:E; [|discriminate H|discriminate H]. cbn [bind] in H. destruct (state_eqb b a) eqn:S; [|discriminate H].
    apply internal_AggregateState_dec_bl in S. subst b. constructor; [exact E|]. apply IH. exact H.
  - intros H. inversion H; subst. rewrite H2. cbn [bind]. unfold state_eqb. rewrite internal_AggregateState_dec_lb by reflexivity. apply IH. assumption.
Qed.
Lemma ensure_spec l : ensureCommonAggregateState l = Ok tt <-> OneState l.
Proof.
  unfold ensureCommonAggregateState, OneState. destruct l as [|s l]; [split; [discriminate|intros [[] _]; reflexivity]|]. split.
  - intros H. split; [discriminate|]. destruct (aggregateState s) as [a| |] eqn:E; [|discriminate H|discriminate H]. exists a. apply all_state_spec. exact H.
  - intros (_ & a & H). inversion H; subst. rewrite H2. cbn [bind]. apply all_state_spec. exact H.
Qed.

(* Whatever a program does with reactions, each variable reads as if it had its own data. *)
Theorem C143_reactions : forall Eq K R (noEq : Eq) (noK : K) (noR : R) prog vals, reactions noEq noK noR prog = Ok vals ->
  Meaning (mkRxn [] noEq noK noR) RxnEdited (fun _ => False) [] prog vals.
Proof.
  intros Eq K R noEq noK noR prog vals H. unfold reactions in H. destruct (run _ _ _ _ prog) as [s| |] eqn:E; [|discriminate H|discriminate H]. cbn in H. injection H as <-.
  eapply (run_means _ _ _ RxnEdited (fun _ => False)) in E as (_ & M); [exact M| |discriminate|constructor].
  intros [] [] _; constructor.
Qed.
Print Assumptions C143_reactions.
Theorem C143_phases : forall M F (solid : M) (noF : F) prog vals, phases solid noF prog = Ok vals ->
  Meaning (mkPh [] solid [] noF noF []) PhEdited PhRefused [] prog vals.
Proof.
  intros M F solid noF prog vals H. unfold phases in H. destruct (run _ _ _ _ prog) as [s| |] eqn:E; [|discriminate H|discriminate H]. cbn in H. injection H as <-.
  eapply (run_means _ _ _ PhEdited PhRefused) in E as (_ & X); [exact X| | |constructor].
  - intros [] [] C; constructor. apply ensure_spec. exact C.
  - intros [] C; try discriminate C. constructor. intros O. apply ensure_spec in O. cbn in C. rewrite O in C. discriminate C.
Qed.
Print Assumptions C143_phases.
(* A program means one thing. *)
Lemma meaning_unique {T E} (fresh : T) (Edited : E -> T -> T -> Prop) (Refused : E -> Prop) : (forall e v v1 v2, Edited e v v1 -> Edited e v v2 -> v1 = v2) -> (forall e v v', Edited e v v' -> Refused e -> False) ->
  forall vals prog r r', Meaning fresh Edited Refused vals prog r -> Meaning fresh Edited Refused vals prog r' -> r = r'.
Proof.
  intros D X vals prog r r' M. revert r'. induction M as [vals|vals prog r M IH|vals i v prog r N M IH|a x b j v prog r N M IH|vals i e v v' prog r N C M IH|vals i e prog r C M IH]; intros r' G.
  - inversion G. reflexivity.
  - inversion G; subst. apply IH. assumption.
  - inversion G; subst. apply IH. congruence.
  - inversion G as [| | |a' x' b' j' v' p' r'' N' M' Ea El| |]; subst. apply IH.
    assert (Q : a' = a /\ x' :: b' = x :: b).
    { clear -Ea El. revert a' Ea El. induction a as [|c a IH]; intros [|c' a'] Ea El; cbn in *; try discriminate; [split; [reflexivity|exact Ea]|].
      injection Ea as -> Ea. injection El as El. destruct (IH a' Ea El) as (-> & ->). split; reflexivity. }
    destruct Q as (-> & Q). injection Q as -> ->. rewrite N in N'. injection N' as <-. assumption.
  - inversion G; subst; [|exfalso; eapply X; eassumption]. apply IH. replace v'0 with v' in *; [assumption|]. eapply D; [exact C|]. congruence.
  - inversion G; subst; [exfalso; eapply X; eassumption|]. apply IH. assumption.
Qed.
Theorem C143_one : forall Eq K R (noEq : Eq) (noK : K) (noR : R) M F (solid : M) (noF : F),
  (forall prog r r', Meaning (mkRxn [] noEq noK noR) RxnEdited (fun _ => False) [] prog r -> Meaning (mkRxn [] noEq noK noR) RxnEdited (fun _ => False) [] prog r' -> r = r') /\
  (forall prog r r', Meaning (mkPh [] solid [] noF noF []) PhEdited PhRefused [] prog r -> Meaning (mkPh [] solid [] noF noF []) PhEdited PhRefused [] prog r' -> r = r').
Proof.
  intros. split; intros prog r r'; apply meaning_unique.
  - intros e v v1 v2 A B. destruct A; inversion B; reflexivity.
  - intros e v v' _ [].
  - intros e v v1 v2 A B. destruct A; inversion B; reflexivity.
  - intros e v v' A B. destruct B. inversion A; subst. contradiction.
Qed.
Print Assumptions C143_one.
Lemma meaning_kept : forall T E (fresh : T) (Edited : E -> T -> T -> Prop) (Refused : E -> Prop) vals prog r, Meaning fresh Edited Refused vals prog r ->
  forall k v, (forall j, ~ In (OAssign k j) prog) -> nth_error vals k = Some v -> nth_error r k = Some v.
Proof.
  intros T E fresh Edited Refused vals prog r M.
  assert (Old : forall (l : list T) x k v, nth_error l k = Some v -> nth_error (l ++ [x]) k = Some v).
  { intros l x k v H. rewrite nth_error_app1; [exact H|]. apply nth_error_Some. congruence. }
  induction M as [vals|vals prog r M IH|vals i v prog r N M IH|a x b j v prog r N M IH|vals i e v v' prog r N C M IH|vals i e prog r C M IH]; intros k w A Hk.
  - exact Hk.
  - apply IH; [intros j I; apply (A j); right; exact I|apply Old; exact Hk].
  - apply IH; [intros j I; apply (A j); right; exact I|apply Old; exact Hk].
  - apply IH; [intros j' I; apply (A j'); right; exact I|]. destruct (Nat.eq_dec k (length a)) as [->|D]; [destruct (A j); left; reflexivity|].
    destruct (Nat.lt_ge_cases k (length a)) as [L|L]; [rewrite nth_error_app1 in * by exact L; exact Hk|].
    rewrite nth_error_app2 in * by lia. destruct (k - length a) eqn:S; [lia|]. exact Hk.
  - apply IH; [intros j I; apply (A j); right; exact I|apply Old; exact Hk].
  - apply IH; [intros j I; apply (A j); right; exact I|exact Hk].
Qed.
Lemma meaning_app {T E} (fresh : T) (Edited : E -> T -> T -> Prop) (Refused : E -> Prop) q r : forall p vals, Meaning fresh Edited Refused vals (p ++ q) r ->
  exists m, Meaning fresh Edited Refused vals p m /\ Meaning fresh Edited Refused m q r.
Proof.
  induction p as [|o p IH]; intros vals M; [exists vals; split; [constructor|exact M]|].
  inversion M; subst; match goal with H : Meaning _ _ _ _ (p ++ q) _ |- _ => apply IH in H as (m & A & B) end; exists m; (split; [|exact B]);
    [apply m_new|eapply m_copy|eapply m_assign|eapply m_with|eapply m_throw]; eassumption.
Qed.
(* Every program that uses variables that exist runs to its end. *)
Theorem C143_runs : forall Eq K R (noEq : Eq) (noK : K) (noR : R) prog vals, Meaning (mkRxn [] noEq noK noR) RxnEdited (fun _ => False) [] prog vals ->
  reactions noEq noK noR prog = Ok vals.
Proof.
  intros Eq K R noEq noK noR prog vals H.
  assert (G : exists s, run (newRxn noEq noK noR) (fun _ => Ok tt) setRxn emptyStore prog = Ok s).
  { assert (L : length (vars (@emptyStore (Rxn Eq K R))) = length (@nil (Rxn Eq K R))) by reflexivity. revert L H. generalize (@nil (Rxn Eq K R)). generalize (@emptyStore (Rxn Eq K R)).
    intros s vs L H. revert s L. induction H as [vals|vals prog r H IH|vals i v prog r N H IH|a x b j v prog r N H IH|vals i e v v' prog r N C H IH|vals i e prog r [] H IH]; intros s L; cbn [run step].
    - eexists; reflexivity.
    - unfold construct. apply IH. cbn [vars]. rewrite !app_length, L. reflexivity.
    - destruct (nth_error (vars s) i) as [p|] eqn:E; [|apply nth_error_None in E; assert (nth_error vals i <> None) as Q by congruence; apply nth_error_Some in Q; lia].
      apply IH. cbn [vars]. rewrite !app_length, L. reflexivity.
    - destruct (nth_error (vars s) (length a)) as [p|] eqn:E; [|apply nth_error_None in E; rewrite app_length in L; cbn in L; lia].
      destruct (nth_error (vars s) j) as [q|] eqn:Ej; [|apply nth_error_None in Ej; assert (nth_error (a ++ x :: b) j <> None) as Q by congruence; apply nth_error_Some in Q; lia].
      apply IH. cbn [vars]. apply nth_error_split in E as (c & d & E & Lc). rewrite E, <- Lc, upd_at. rewrite E in L. rewrite !app_length in *. cbn in *. lia.
    - destruct (nth_error (vars s) i) as [p|] eqn:E; [|apply nth_error_None in E; assert (nth_error vals i <> None) as Q by congruence; apply nth_error_Some in Q; lia].
      unfold withEdit, clone, construct. cbn [bind omap fst snd]. apply IH. cbn [vars]. rewrite !app_length, L. reflexivity. }
  destruct G as (s & E). assert (F : reactions noEq noK noR prog = Ok (reads (newRxn noEq noK noR) s)) by (unfold reactions; rewrite E; reflexivity).
  rewrite F. f_equal. eapply (proj1 (C143_one _ _ _ noEq noK noR unit unit tt tt)); [exact (C143_reactions _ _ _ _ _ _ _ _ F)|exact H].
Qed.
Print Assumptions C143_runs.
(* Earlier variables are never affected by later with-methods, copies and new objects, nor
   by assignments to others. *)
Theorem C143_kept : forall Eq K R (noEq : Eq) (noK : K) (noR : R) M F (solid : M) (noF : F),
  (forall prog more vals vals' k, reactions noEq noK noR prog = Ok vals -> reactions noEq noK noR (prog ++ more) = Ok vals' ->
    k < length vals -> (forall j, ~ In (OAssign k j) more) -> nth_error vals' k = nth_error vals k) /\
  (forall prog more vals vals' k, phases solid noF prog = Ok vals -> phases solid noF (prog ++ more) = Ok vals' ->
    k < length vals -> (forall j, ~ In (OAssign k j) more) -> nth_error vals' k = nth_error vals k).
Proof.
  intros. destruct (C143_one Eq K R noEq noK noR M F solid noF) as (U1 & U2). split; intros prog more vals vals' k A B L N;
    [apply C143_reactions in A, B; apply meaning_app in B as (m & B & C); rewrite <- (U1 _ _ _ A B) in C|apply C143_phases in A, B; apply meaning_app in B as (m & B & C); rewrite <- (U2 _ _ _ A B) in C];
    (destruct (nth_error vals k) as [v|] eqn:Ek; [|apply nth_error_None in Ek; lia]); exact (meaning_kept _ _ _ _ _ _ _ _ C k v N Ek).
Qed.
Print Assumptions C143_kept.
(* All species of a phase have its aggregate state, and its molar masses are theirs. *)
Theorem C143_species : forall M F (solid : M) (noF : F) prog vals, phases solid noF prog = Ok vals -> Forall (fun p =>
  Forall (fun s => aggregateState s = ph_aggregateState p) (p_species p) /\ p_masses p = map molarMass (p_species p)) vals.
Proof.
  intros M F solid noF prog vals H. apply C143_phases in H.
  set (Good := fun p : Ph M F => Forall (fun s => aggregateState s = ph_aggregateState p) (p_species p) /\ p_masses p = map molarMass (p_species p)).
  assert (G : Forall Good []) by constructor. change (Forall Good vals). revert G H. generalize (@nil (Ph M F)). intros vs G H.
  assert (Pick : forall vals i v, Forall Good vals -> nth_error vals i = Some v -> Good v).
  { intros l i v Hl N. rewrite Forall_forall in Hl. apply Hl. eapply nth_error_In. exact N. }
  induction H as [vals|vals prog r H IH|vals i v prog r N H IH|a x b j v prog r N H IH|vals i e v v' prog r N C H IH|vals i e prog r C H IH]; [exact G|..]; apply IH; [| | | |exact G].
  - apply Forall_app. split; [exact G|]. repeat constructor.
  - apply Forall_app. split; [exact G|]. repeat constructor; apply (Pick _ _ _ G N).
  - pose proof (Pick _ _ _ G N) as Gv. apply Forall_app in G as (Ga & Gb). inversion Gb; subst. apply Forall_app. split; [exact Ga|constructor; assumption].
  - apply Forall_app. split; [exact G|]. constructor; [|constructor]. pose proof (Pick _ _ _ G N) as Gv. unfold Good in *. destruct C as [| n m l f g w x O | | |]; try exact Gv.
    cbn. split; [|reflexivity]. destruct O as (O & a & Fa). unfold ph_aggregateState. cbn. destruct x as [|s x]; [destruct O; reflexivity|]. inversion Fa; subst.
    eapply Forall_impl; [|exact Fa]. cbn. intros t Ht. rewrite Ht. symmetry. assumption.
Qed.
Print Assumptions C143_species.
(* They compare by their names: one is before, equal to or after the other. *)
Theorem C143_order : forall Eq K R M F (a b : Rxn Eq K R) (p q : Ph M F),
  ((rxn_ltb a b = true <-> Before (rx_name a) (rx_name b)) /\ (rxn_eqb a b = true <-> rx_name a = rx_name b) /\
   (ph_ltb p q = true <-> Before (p_name p) (p_name q)) /\ (ph_eqb p q = true <-> p_name p = p_name q)) /\
  (rxn_ltb a b = true \/ rxn_eqb a b = true \/ rxn_ltb b a = true) /\ ~ (rxn_ltb a b = true /\ rxn_eqb a b = true) /\ ~ (rxn_ltb a b = true /\ rxn_ltb b a = true).
Proof.
  intros. unfold rxn_ltb, rxn_eqb, ph_ltb, ph_eqb. rewrite !before_spec, !str_eqb_eq. split; [repeat split; trivial|]. split; [apply before_total|]. split.
  - intros (H & E). rewrite E in H. exact (before_irrefl _ H).
  - intros (H & G). exact (before_irrefl _ (before_trans _ _ _ H G)).
Qed.
Print Assumptions C143_order.

(* A reaction, an alias of it, a renamed one, and assignment to the alias. *)
Example C143_nonvacuous : reactions 0 0 0 [ONew; OWith 0 (RName $"calcite"); OCopy 1; OWith 2 (REquation 7); OAssign 1 3; OWith 1 (RRate 5)] =
  Ok [mkRxn [] 0 0 0; mkRxn $"calcite" 7 0 0; mkRxn $"calcite" 0 0 0; mkRxn $"calcite" 7 0 0; mkRxn $"calcite" 7 0 5].
Proof. vm_compute. reflexivity. Qed.
Definition water_like (n : str) (a : AggregateState) : Species := mkSpecies n $"H2O" [] [] 0%Q a [].
(* Species of two states are refused, and the program goes on. *)
Example C143_phases_nonvacuous : omap (map (fun p => (p_name p, map sp_name (p_species p), p_state p)))
    (phases 0 0 [ONew; OWith 0 (PSpecies [water_like $"H2O(l)" Liquid; water_like $"H2O(g)" Gas]); OWith 0 (PSpecies [water_like $"H2O(l)" Liquid]); OWith 1 (PState 3); OWith 2 (PName $"w")]) =
  Ok [([], [], 0); ([], [$"H2O(l)"], 0); ([], [$"H2O(l)"], 3); ($"w", [$"H2O(l)"], 3)].
Proof. vm_compute. reflexivity. Qed.
